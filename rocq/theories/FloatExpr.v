(** Rounding errors of straight-line formulas.

    Not a model of code: a tool for the theorems of FloatShapeProps.v. A formula is a tree of additions,
    subtractions, products, absolute values, additions to zero, factors 1 and -1, and divisions by a whole number. It is evaluated with rounding after every
    operation (feval), exactly (reval), and with every sign made positive (aeval). *)
From Coq Require Import ZArith List Bool Lia Reals Lra Psatz.
From Verif Require Import FloatModel FloatRound FloatProofs FloatProps.
From Coq Require Import SpecFloat.
Import ListNotations.
Local Open Scope R_scope.

Inductive expr : Type :=
| EVar (i : nat)
| EUnit (s : bool)
| EAdd (a b : expr)
| ESub (a b : expr)
| EMul (a b : expr)
| ENeg (a : expr)
| EAbs (a : expr)
| EPlus0 (a : expr)
| EDiv (a : expr) (n : Z).

Fixpoint feval (prec emax : Z) (v : nat -> spec_float) (e : expr) : spec_float :=
  match e with
  | EVar i => v i
  | EUnit s => of_int prec emax (if s then -1 else 1)
  | EAdd a b => SFadd prec emax (feval prec emax v a) (feval prec emax v b)
  | ESub a b => SFsub prec emax (feval prec emax v a) (feval prec emax v b)
  | EMul a b => SFmul prec emax (feval prec emax v a) (feval prec emax v b)
  | ENeg a => SFopp (feval prec emax v a)
  | EAbs a => SFabs (feval prec emax v a)
  | EPlus0 a => SFadd prec emax f0 (feval prec emax v a)
  | EDiv a n => SFdiv prec emax (feval prec emax v a) (of_int prec emax n)
  end.
Fixpoint reval (v : nat -> R) (e : expr) : R :=
  match e with
  | EVar i => v i
  | EUnit s => sgnR s
  | EAdd a b => reval v a + reval v b
  | ESub a b => reval v a - reval v b
  | EMul a b => reval v a * reval v b
  | ENeg a => - reval v a
  | EAbs a => Rabs (reval v a)
  | EPlus0 a => reval v a
  | EDiv a n => reval v a / IZR n
  end.
Fixpoint aeval (v : nat -> R) (e : expr) : R :=
  match e with
  | EVar i => Rabs (v i)
  | EUnit _ => 1
  | EAdd a b | ESub a b => aeval v a + aeval v b
  | EMul a b => aeval v a * aeval v b
  | ENeg a | EAbs a | EPlus0 a => aeval v a
  | EDiv a n => aeval v a / IZR n
  end.
(** the number of roundings that a value goes through *)
Fixpoint depth (e : expr) : nat :=
  match e with
  | EVar _ | EUnit _ => 0
  | EAdd a b | ESub a b => S (Nat.max (depth a) (depth b))
  | EMul a b => S (depth a + depth b)
  | ENeg a | EAbs a | EPlus0 a => depth a
  | EDiv a _ => S (depth a)
  end.
(** the number of times the smallest number is lost by underflow, with its factors *)
Fixpoint under (prec emax : Z) (v : nat -> R) (e : expr) : R :=
  match e with
  | EVar _ | EUnit _ => 0
  | EAdd a b | ESub a b => (1 + uu prec) * (under prec emax v a + under prec emax v b)
  | EMul a b => (1 + uu prec) * (under prec emax v a * ((1 + uu prec) ^ depth b * aeval v b) +
      under prec emax v b * ((1 + uu prec) ^ depth a * aeval v a) + eta prec emax * (under prec emax v a * under prec emax v b)) + 1
  | ENeg a | EAbs a | EPlus0 a => under prec emax v a
  | EDiv a n => (1 + uu prec) * (under prec emax v a / IZR n) + 1
  end.
(** the same without the rounding factors *)
Fixpoint lost (prec emax : Z) (v : nat -> R) (e : expr) : R :=
  match e with
  | EVar _ | EUnit _ => 0
  | EAdd a b | ESub a b => lost prec emax v a + lost prec emax v b
  | EMul a b => lost prec emax v a * aeval v b + lost prec emax v b * aeval v a + eta prec emax * (lost prec emax v a * lost prec emax v b) + 1
  | ENeg a | EAbs a | EPlus0 a => lost prec emax v a
  | EDiv a n => lost prec emax v a / IZR n + 1
  end.
(** the number of products of a formula when written as a sum, how many variables each has at most, and a bound of lost *)
Fixpoint terms (e : expr) : nat :=
  match e with
  | EVar _ | EUnit _ => 1
  | EAdd a b | ESub a b => terms a + terms b
  | EMul a b => terms a * terms b
  | ENeg a | EAbs a | EPlus0 a | EDiv a _ => terms a
  end.
Fixpoint degree (e : expr) : nat :=
  match e with
  | EVar _ => 1
  | EUnit _ => 0
  | EAdd a b | ESub a b => Nat.max (degree a) (degree b)
  | EMul a b => degree a + degree b
  | ENeg a | EAbs a | EPlus0 a | EDiv a _ => degree a
  end.
Fixpoint losses (e : expr) : nat :=
  match e with
  | EVar _ | EUnit _ => 0
  | EAdd a b | ESub a b => losses a + losses b
  | EMul a b => losses a * terms b + losses b * terms a + losses a * losses b + 1
  | ENeg a | EAbs a | EPlus0 a => losses a
  | EDiv a _ => losses a + 1
  end.
(** the divisors are positive and small *)
Fixpoint divisors (prec : Z) (e : expr) : Prop :=
  match e with
  | EVar _ | EUnit _ => True
  | EAdd a b | ESub a b | EMul a b => divisors prec a /\ divisors prec b
  | ENeg a | EAbs a | EPlus0 a => divisors prec a
  | EDiv a n => divisors prec a /\ (0 < n < 2 ^ prec)%Z
  end.
Fixpoint no_division (e : expr) : Prop :=
  match e with
  | EVar _ | EUnit _ => True
  | EAdd a b | ESub a b | EMul a b => no_division a /\ no_division b
  | ENeg a | EAbs a | EPlus0 a => no_division a
  | EDiv _ _ => False
  end.
(** every subformula stays below a limit *)
Fixpoint every (P : expr -> Prop) (e : expr) : Prop :=
  P e /\
  match e with
  | EVar _ | EUnit _ => True
  | EAdd a b | ESub a b | EMul a b => every P a /\ every P b
  | ENeg a | EAbs a | EPlus0 a | EDiv a _ => every P a
  end.
Lemma every_here P e : every P e -> P e. Proof. destruct e; cbn; tauto. Qed.

Lemma aeval_nonneg prec v e : divisors prec e -> 0 <= aeval v e.
Proof.
  induction e; cbn [aeval divisors]; intros D; try (apply Rabs_pos); try lra; try (specialize (IHe1 (proj1 D)); specialize (IHe2 (proj2 D)); nra); try (apply IHe; exact D).
  destruct D as [D H]. specialize (IHe D). assert (0 < IZR n) by (apply IZR_lt; lia). apply Rmult_le_pos; [exact IHe|]. left. apply Rinv_0_lt_compat. assumption.
Qed.
Lemma reval_aeval prec v e : divisors prec e -> Rabs (reval v e) <= aeval v e.
Proof.
  induction e; cbn [aeval reval divisors]; intros D; try lra; rewrite ?Rabs_Ropp, ?Rabs_Rabsolu; try lra.
  - unfold Rabs. destruct s; unfold sgnR; destruct Rcase_abs; lra.
  - specialize (IHe1 (proj1 D)). specialize (IHe2 (proj2 D)). eapply Rle_trans; [apply Rabs_triang|]. lra.
  - specialize (IHe1 (proj1 D)). specialize (IHe2 (proj2 D)). unfold Rminus. eapply Rle_trans; [apply Rabs_triang|]. rewrite Rabs_Ropp. lra.
  - specialize (IHe1 (proj1 D)). specialize (IHe2 (proj2 D)). rewrite Rabs_mult. apply Rmult_le_compat; try apply Rabs_pos; assumption.
  - apply IHe, D.
  - apply IHe, D.
  - apply IHe, D.
  - destruct D as [D H]. specialize (IHe D). assert (0 < IZR n) by (apply IZR_lt; lia). assert (0 < / IZR n) by (apply Rinv_0_lt_compat; assumption).
    unfold Rdiv. rewrite Rabs_mult, (Rabs_pos_eq (/ IZR n)) by lra. apply Rmult_le_compat_r; lra.
Qed.

Lemma FR_plus0 prec emax x : FR (SFadd prec emax f0 x) = FR x. Proof. destruct x as [s|s| |s m e]; [destruct s|destruct s| |]; reflexivity. Qed.
Lemma fin_plus0 prec emax x : fin (SFadd prec emax f0 x) = fin x. Proof. destruct x as [s|s| |s m e]; [destruct s|destruct s| |]; reflexivity. Qed.
Section Errors.
Variables prec emax : Z.
Hypothesis Hf : format prec emax.
Let Hprec : (1 < prec)%Z. Proof. apply Hf. Qed.
Let Hemax : (prec + 3 <= emax)%Z. Proof. apply Hf. Qed.
Let Hem : (prec < emax)%Z. Proof. lia. Qed.
Variable v : nat -> spec_float.
Hypothesis V : forall i, number prec emax (v i).
Notation u := (uu prec).
Notation eta := (eta prec emax).
Notation F := (feval prec emax v).
Notation w := (fun i => FR (v i)).

Let U1 : 0 < u. Proof. apply u_pos. Qed.
Let U2 : u <= / 4. Proof. apply u_le, Hprec. Qed.
Let T1 : 0 < eta. Proof. apply eta_pos. Qed.

Lemma unit_exact (s : bool) : fin (of_int prec emax (if s then -1 else 1)) = true /\ number prec emax (of_int prec emax (if s then -1 else 1)) /\ FR (of_int prec emax (if s then -1 else 1)) = sgnR s.
Proof.
  pose proof (normalize_correct prec emax Hprec Hem (if s then -1 else 1) 0 false ltac:(unfold emin; lia)) as A. rewrite pw_0, Rmult_1_r in A.
  assert (G : isfl prec emax (IZR (if s then -1 else 1))). { assert (I : isfl prec emax 1) by (apply (isfl_int prec emax Hprec Hemax 1); split; [lia|apply Z.pow_gt_1; lia]). destruct s; [apply isfl_opp in I; exact I|exact I]. }
  destruct (approx_exact prec emax _ _ _ A G) as [X Y]. split; [exact X|]. split; [exact (approx_valid _ _ _ _ _ A)|]. unfold of_int. rewrite Y. destruct s; reflexivity.
Qed.
Lemma under_nonneg e : divisors prec e -> 0 <= under prec emax w e.
Proof.
  induction e; cbn [under divisors]; intros D; try lra.
  - specialize (IHe1 (proj1 D)). specialize (IHe2 (proj2 D)). apply Rmult_le_pos; lra.
  - specialize (IHe1 (proj1 D)). specialize (IHe2 (proj2 D)). apply Rmult_le_pos; lra.
  - destruct D as [D1 D2]. specialize (IHe1 D1). specialize (IHe2 D2). pose proof (aeval_nonneg prec w _ D1). pose proof (aeval_nonneg prec w _ D2).
    assert (Q : forall n, 0 <= (1 + u) ^ n) by (intros n; apply pow_le; lra). assert (0 <= under prec emax w e1 * ((1 + u) ^ depth e2 * aeval w e2)) by (apply Rmult_le_pos; [assumption|apply Rmult_le_pos; auto]).
    assert (0 <= under prec emax w e2 * ((1 + u) ^ depth e1 * aeval w e1)) by (apply Rmult_le_pos; [assumption|apply Rmult_le_pos; auto]).
    assert (0 <= eta * (under prec emax w e1 * under prec emax w e2)) by (apply Rmult_le_pos; [lra|apply Rmult_le_pos; assumption]).
    assert (0 <= (1 + u) * (under prec emax w e1 * ((1 + u) ^ depth e2 * aeval w e2) + under prec emax w e2 * ((1 + u) ^ depth e1 * aeval w e1) + eta * (under prec emax w e1 * under prec emax w e2))) by (apply Rmult_le_pos; lra). lra.
  - apply IHe, D.
  - apply IHe, D.
  - apply IHe, D.
  - destruct D as [D H]. specialize (IHe D). assert (0 < IZR n) by (apply IZR_lt; lia). assert (0 < / IZR n) by (apply Rinv_0_lt_compat; assumption).
    assert (0 <= (1 + u) * (under prec emax w e / IZR n)) by (apply Rmult_le_pos; [lra|apply Rmult_le_pos; lra]). lra.
Qed.
Lemma feval_valid e : divisors prec e -> number prec emax (F e).
Proof.
  unfold number in *. induction e; cbn [feval divisors]; intros D.
  - apply V.
  - apply (unit_exact s).
  - apply valid_add; tauto.
  - apply valid_sub; tauto.
  - apply valid_mul; tauto.
  - rewrite valid_opp. tauto.
  - rewrite valid_abs. tauto.
  - apply valid_add; [assumption|assumption|reflexivity|tauto].
  - destruct D as [D H]. specialize (IHe D). destruct (of_int_exact prec emax Hprec Hemax n H) as (A & B & C).
    destruct (fin (F e)) eqn:E.
    + eapply approx_valid. apply div_correct; try assumption. rewrite C. apply IZR_neq. lia.
    + destruct (F e), (of_int prec emax n); try discriminate; reflexivity.
Qed.
Lemma grow a b : 0 <= a -> (Nat.le b b) -> forall n m, (n <= m)%nat -> ((1 + u) ^ n - 1) * a <= ((1 + u) ^ m - 1) * a.
Proof. intros A _ n m L. apply Rmult_le_compat_r; [exact A|]. pose proof (Rle_pow (1 + u) n m ltac:(lra) L). lra. Qed.

(** the computed value is near the exact one *)
Theorem feval_error e : divisors prec e -> fin (F e) = true ->
  Rabs (FR (F e) - reval w e) <= ((1 + u) ^ depth e - 1) * aeval w e + eta * under prec emax w e.
Proof.
  induction e; intros D Fe.
  - cbn. rewrite Rminus_diag_eq by reflexivity. rewrite Rabs_R0. lra.
  - cbn [feval reval depth aeval under]. destruct (unit_exact s) as (_ & _ & ->). rewrite Rminus_diag_eq by reflexivity. rewrite Rabs_R0. lra.
  - cbn [feval] in *. destruct D as [D1 D2]. destruct (add_fin prec emax _ _ Fe) as [F1 F2]. specialize (IHe1 D1 F1). specialize (IHe2 D2 F2).
    destruct (add_near prec emax Hprec Hemax _ _ (feval_valid _ D1) (feval_valid _ D2) Fe) as [_ E].
    pose proof (reval_aeval prec w _ D1) as R1. pose proof (reval_aeval prec w _ D2) as R2. pose proof (aeval_nonneg prec w _ D1) as A1. pose proof (aeval_nonneg prec w _ D2) as A2.
    pose proof (under_nonneg _ D1) as N1. pose proof (under_nonneg _ D2) as N2.
    pose proof (grow _ 0 A1 (le_n _) (depth e1) (Nat.max (depth e1) (depth e2)) ltac:(lia)) as G1. pose proof (grow _ 0 A2 (le_n _) (depth e2) (Nat.max (depth e1) (depth e2)) ltac:(lia)) as G2.
    cbn [reval aeval depth under]. rewrite <- tech_pow_Rmult. set (k := (1 + u) ^ Nat.max (depth e1) (depth e2)) in *.
    set (x := FR (F e1)) in *. set (y := FR (F e2)) in *. set (z := FR (SFadd prec emax _ _)) in *. set (a := reval w e1) in *. set (b := reval w e2) in *.
    assert (H : Rabs (x + y - (a + b)) <= (k - 1) * (aeval w e1 + aeval w e2) + eta * (under prec emax w e1 + under prec emax w e2)).
    { replace (x + y - (a + b)) with ((x - a) + (y - b)) by ring. eapply Rle_trans; [apply Rabs_triang|]. lra. }
    assert (S : Rabs (x + y) <= k * (aeval w e1 + aeval w e2) + eta * (under prec emax w e1 + under prec emax w e2)).
    { replace (x + y) with ((x + y - (a + b)) + (a + b)) by ring. eapply Rle_trans; [apply Rabs_triang|]. pose proof (Rabs_triang a b). lra. }
    replace (z - (a + b)) with ((z - (x + y)) + (x + y - (a + b))) by ring. eapply Rle_trans; [apply Rabs_triang|].
    pose proof (Rmult_le_compat_l u _ _ ltac:(lra) S). nra.
  - cbn [feval] in *. destruct D as [D1 D2]. destruct (sub_fin prec emax _ _ Fe) as [F1 F2]. specialize (IHe1 D1 F1). specialize (IHe2 D2 F2).
    destruct (sub_near prec emax Hprec Hemax _ _ (feval_valid _ D1) (feval_valid _ D2) Fe) as [_ E].
    pose proof (reval_aeval prec w _ D1) as R1. pose proof (reval_aeval prec w _ D2) as R2. pose proof (aeval_nonneg prec w _ D1) as A1. pose proof (aeval_nonneg prec w _ D2) as A2.
    pose proof (under_nonneg _ D1) as N1. pose proof (under_nonneg _ D2) as N2.
    pose proof (grow _ 0 A1 (le_n _) (depth e1) (Nat.max (depth e1) (depth e2)) ltac:(lia)) as G1. pose proof (grow _ 0 A2 (le_n _) (depth e2) (Nat.max (depth e1) (depth e2)) ltac:(lia)) as G2.
    cbn [reval aeval depth under]. rewrite <- tech_pow_Rmult. set (k := (1 + u) ^ Nat.max (depth e1) (depth e2)) in *.
    set (x := FR (F e1)) in *. set (y := FR (F e2)) in *. set (z := FR (SFsub prec emax _ _)) in *. set (a := reval w e1) in *. set (b := reval w e2) in *.
    assert (H : Rabs (x - y - (a - b)) <= (k - 1) * (aeval w e1 + aeval w e2) + eta * (under prec emax w e1 + under prec emax w e2)).
    { replace (x - y - (a - b)) with ((x - a) + - (y - b)) by ring. eapply Rle_trans; [apply Rabs_triang|]. rewrite Rabs_Ropp. lra. }
    assert (S : Rabs (x - y) <= k * (aeval w e1 + aeval w e2) + eta * (under prec emax w e1 + under prec emax w e2)).
    { replace (x - y) with ((x - y - (a - b)) + (a + - b)) by ring. eapply Rle_trans; [apply Rabs_triang|]. pose proof (Rabs_triang a (- b)). rewrite Rabs_Ropp in *. lra. }
    replace (z - (a - b)) with ((z - (x - y)) + (x - y - (a - b))) by ring. eapply Rle_trans; [apply Rabs_triang|].
    pose proof (Rmult_le_compat_l u _ _ ltac:(lra) S). nra.
  - cbn [feval] in *. destruct D as [D1 D2]. destruct (mul_fin prec emax _ _ Fe) as [F1 F2]. specialize (IHe1 D1 F1). specialize (IHe2 D2 F2).
    pose proof (mul_near' prec emax Hprec Hemax _ _ (feval_valid _ D1) (feval_valid _ D2) Fe) as E.
    pose proof (reval_aeval prec w _ D1) as R1. pose proof (reval_aeval prec w _ D2) as R2. pose proof (aeval_nonneg prec w _ D1) as A1. pose proof (aeval_nonneg prec w _ D2) as A2.
    pose proof (under_nonneg _ D1) as N1. pose proof (under_nonneg _ D2) as N2.
    cbn [reval aeval depth under]. rewrite <- tech_pow_Rmult, pow_add.
    set (k := (1 + u) ^ depth e1) in *. set (l := (1 + u) ^ depth e2) in *.
    assert (K : 1 <= k) by (apply pow_R1_Rle; lra). assert (L : 1 <= l) by (apply pow_R1_Rle; lra).
    set (x := FR (F e1)) in *. set (y := FR (F e2)) in *. set (z := FR (SFmul prec emax _ _)) in *. set (a := reval w e1) in *. set (b := reval w e2) in *.
    set (A := aeval w e1) in *. set (B := aeval w e2) in *. set (P := under prec emax w e1) in *. set (Q := under prec emax w e2) in *.
    set (W := P * (l * B) + Q * (k * A) + eta * (P * Q)).
    assert (H : Rabs (x * y - a * b) <= (k * l - 1) * (A * B) + eta * W).
    { replace (x * y - a * b) with ((x - a) * b + a * (y - b) + (x - a) * (y - b)) by ring.
      assert (H1 : Rabs ((x - a) * b) <= ((k - 1) * A + eta * P) * B) by (rewrite Rabs_mult; apply Rmult_le_compat; try apply Rabs_pos; assumption).
      assert (H2 : Rabs (a * (y - b)) <= A * ((l - 1) * B + eta * Q)) by (rewrite Rabs_mult; apply Rmult_le_compat; try apply Rabs_pos; assumption).
      assert (H3 : Rabs ((x - a) * (y - b)) <= ((k - 1) * A + eta * P) * ((l - 1) * B + eta * Q)) by (rewrite Rabs_mult; apply Rmult_le_compat; try apply Rabs_pos; assumption).
      eapply Rle_trans; [apply Rabs_triang|]. eapply Rle_trans; [apply Rplus_le_compat_r, Rabs_triang|]. unfold W.
      replace ((k * l - 1) * (A * B) + eta * (P * (l * B) + Q * (k * A) + eta * (P * Q))) with
        (((k - 1) * A + eta * P) * B + A * ((l - 1) * B + eta * Q) + ((k - 1) * A + eta * P) * ((l - 1) * B + eta * Q)) by ring. lra. }
    assert (S : Rabs (x * y) <= k * l * (A * B) + eta * W).
    { replace (x * y) with ((x * y - a * b) + a * b) by ring. eapply Rle_trans; [apply Rabs_triang|]. assert (Rabs (a * b) <= A * B) by (rewrite Rabs_mult; apply Rmult_le_compat; try apply Rabs_pos; assumption). lra. }
    replace (z - a * b) with ((z - x * y) + (x * y - a * b)) by ring. eapply Rle_trans; [apply Rabs_triang|].
    pose proof (Rmult_le_compat_l u _ _ ltac:(lra) S) as S'.
    replace (((1 + u) * (k * l) - 1) * (A * B) + eta * ((1 + u) * W + 1)) with ((k * l - 1) * (A * B) + eta * W + (u * (k * l * (A * B) + eta * W) + eta)) by ring. lra.
  - cbn [feval] in *. rewrite fin_opp in Fe. specialize (IHe D Fe). cbn [reval aeval depth under]. rewrite FR_opp. replace (- FR (F e) - - reval w e) with (- (FR (F e) - reval w e)) by ring. rewrite Rabs_Ropp. exact IHe.
  - cbn [feval] in *. rewrite fin_abs in Fe. specialize (IHe D Fe). cbn [reval aeval depth under]. rewrite FR_abs. eapply Rle_trans; [apply Rabs_triang_inv2|]. exact IHe.
  - cbn [feval] in *. rewrite fin_plus0 in Fe. cbn [reval aeval depth under]. rewrite FR_plus0. exact (IHe D Fe).
  - cbn [feval] in *. destruct D as [D H]. destruct (of_int_exact prec emax Hprec Hemax n H) as (O1 & O2 & O3).
    assert (N0 : 0 < IZR n) by (apply IZR_lt; lia). assert (I0 : 0 < / IZR n) by (apply Rinv_0_lt_compat; exact N0).
    assert (Fa : fin (F e) = true). { destruct (F e), (of_int prec emax n); try reflexivity; try discriminate. }
    specialize (IHe D Fa). pose proof (div_correct prec emax Hprec Hem _ _ Fa O1 (feval_valid _ D) O2 ltac:(rewrite O3; lra)) as C. rewrite O3 in C.
    destruct C as [_ [(_ & _ & E & _)|(s & Z & _)]]; [|rewrite Z in Fe; discriminate].
    pose proof (reval_aeval prec w _ D) as R1. pose proof (aeval_nonneg prec w _ D) as A1. pose proof (under_nonneg _ D) as N1.
    cbn [reval aeval depth under]. rewrite <- tech_pow_Rmult. set (k := (1 + u) ^ depth e) in *.
    set (x := FR (F e)) in *. set (z := FR (SFdiv prec emax _ _)) in *. set (a := reval w e) in *. set (A := aeval w e) in *. set (P := under prec emax w e) in *.
    assert (E' : Rabs (z - x / IZR n) <= u * Rabs (x / IZR n) + eta) by (eapply Rle_trans; [exact E|]; assert (0 <= u * Rabs (x / IZR n)) by (apply Rmult_le_pos; [lra|apply Rabs_pos]); apply Rmax_lub; lra).
    assert (H1 : Rabs (x / IZR n - a / IZR n) <= (k - 1) * (A / IZR n) + eta * (P / IZR n)).
    { unfold Rdiv. rewrite <- Rmult_minus_distr_r, Rabs_mult, (Rabs_pos_eq (/ IZR n)) by lra. pose proof (Rmult_le_compat_r (/ IZR n) _ _ ltac:(lra) IHe). lra. }
    assert (H2 : Rabs (a / IZR n) <= A / IZR n) by (unfold Rdiv; rewrite Rabs_mult, (Rabs_pos_eq (/ IZR n)) by lra; apply Rmult_le_compat_r; lra).
    assert (S : Rabs (x / IZR n) <= k * (A / IZR n) + eta * (P / IZR n)).
    { replace (x / IZR n) with ((x / IZR n - a / IZR n) + a / IZR n) by ring. eapply Rle_trans; [apply Rabs_triang|]. lra. }
    replace (z - a / IZR n) with ((z - x / IZR n) + (x / IZR n - a / IZR n)) by ring. eapply Rle_trans; [apply Rabs_triang|].
    pose proof (Rmult_le_compat_l u _ _ ltac:(lra) S) as S'.
    replace (((1 + u) * k - 1) * (A / IZR n) + eta * ((1 + u) * (P / IZR n) + 1)) with ((k - 1) * (A / IZR n) + eta * (P / IZR n) + (u * (k * (A / IZR n) + eta * (P / IZR n)) + eta)) by ring. lra.
Qed.
Lemma feval_bound e : divisors prec e -> fin (F e) = true -> Rabs (FR (F e)) <= (1 + u) ^ depth e * aeval w e + eta * under prec emax w e.
Proof.
  intros D Fe. pose proof (feval_error e D Fe) as E. pose proof (reval_aeval prec w e D) as A.
  replace (FR (F e)) with ((FR (F e) - reval w e) + reval w e) by ring. eapply Rle_trans; [apply Rabs_triang|]. lra.
Qed.
Lemma grow' a n m : 0 <= a -> (n <= m)%nat -> (1 + u) ^ n * a <= (1 + u) ^ m * a.
Proof. intros A L. apply Rmult_le_compat_r; [exact A|]. apply Rle_pow; [lra|exact L]. Qed.
Lemma approx_fin z x err : approx prec emax z x err -> Rabs x + err < pw emax -> fin z = true.
Proof. intros [_ [(H & _)|(s & -> & H & _)]] B; [exact H|exfalso]. pose proof (Rle_abs x). pose proof (Rle_abs (- x)). rewrite Rabs_Ropp in *. destruct s; unfold sgnR in H; lra. Qed.

(** the computed value is finite when the bounds of all subformulas are in the range *)
Definition in_range (e : expr) : Prop := (1 + u) ^ depth e * aeval w e + eta * under prec emax w e < pw emax.
Theorem feval_finite e : divisors prec e -> (forall i, fin (v i) = true) -> every in_range e -> fin (F e) = true.
Proof.
  intros D Fv. revert D. induction e; cbn [every]; intros D [B R]; cbn [feval]; unfold in_range in B; cbn [depth aeval under] in B.
  - apply Fv.
  - apply (unit_exact s).
  - destruct D as [D1 D2], R as [R1 R2]. specialize (IHe1 D1 R1). specialize (IHe2 D2 R2).
    eapply approx_fin; [apply add_correct; try assumption; apply feval_valid; assumption|]. rewrite <- tech_pow_Rmult in B.
    pose proof (feval_bound _ D1 IHe1) as X. pose proof (feval_bound _ D2 IHe2) as Y. pose proof (Rabs_triang (FR (F e1)) (FR (F e2))) as T.
    pose proof (grow' _ (depth e1) (Nat.max (depth e1) (depth e2)) (aeval_nonneg prec w _ D1) ltac:(lia)) as G1. pose proof (grow' _ (depth e2) (Nat.max (depth e1) (depth e2)) (aeval_nonneg prec w _ D2) ltac:(lia)) as G2.
    set (k := (1 + u) ^ Nat.max (depth e1) (depth e2)) in *.
    assert (Q : Rabs (FR (F e1) + FR (F e2)) <= k * (aeval w e1 + aeval w e2) + eta * (under prec emax w e1 + under prec emax w e2)) by lra.
    pose proof (Rmult_le_compat_l (1 + u) _ _ ltac:(lra) Q). lra.
  - destruct D as [D1 D2], R as [R1 R2]. specialize (IHe1 D1 R1). specialize (IHe2 D2 R2).
    eapply approx_fin; [apply sub_correct; try assumption; apply feval_valid; assumption|]. rewrite <- tech_pow_Rmult in B.
    pose proof (feval_bound _ D1 IHe1) as X. pose proof (feval_bound _ D2 IHe2) as Y. pose proof (Rabs_triang (FR (F e1)) (- FR (F e2))) as T. rewrite Rabs_Ropp in T.
    change (FR (F e1) + - FR (F e2)) with (FR (F e1) - FR (F e2)) in T.
    pose proof (grow' _ (depth e1) (Nat.max (depth e1) (depth e2)) (aeval_nonneg prec w _ D1) ltac:(lia)) as G1. pose proof (grow' _ (depth e2) (Nat.max (depth e1) (depth e2)) (aeval_nonneg prec w _ D2) ltac:(lia)) as G2.
    set (k := (1 + u) ^ Nat.max (depth e1) (depth e2)) in *.
    assert (Q : Rabs (FR (F e1) - FR (F e2)) <= k * (aeval w e1 + aeval w e2) + eta * (under prec emax w e1 + under prec emax w e2)) by lra.
    pose proof (Rmult_le_compat_l (1 + u) _ _ ltac:(lra) Q). lra.
  - destruct D as [D1 D2], R as [R1 R2]. specialize (IHe1 D1 R1). specialize (IHe2 D2 R2).
    eapply approx_fin; [apply mul_correct; try assumption; apply feval_valid; assumption|]. rewrite <- tech_pow_Rmult, pow_add in B.
    pose proof (feval_bound _ D1 IHe1) as X. pose proof (feval_bound _ D2 IHe2) as Y. rewrite Rabs_mult.
    pose proof (Rmult_le_compat _ _ _ _ (Rabs_pos _) (Rabs_pos _) X Y) as Q. set (m := Rabs (FR (F e1)) * Rabs (FR (F e2))) in *.
    assert (0 <= m) by (apply Rmult_le_pos; apply Rabs_pos).
    match type of Q with _ <= ?r => pose proof (Rmult_le_compat_l (1 + u) _ _ ltac:(lra) Q) as Q'; assert (Rmax (u * m) eta <= u * m + eta) by (assert (0 <= u * m) by (apply Rmult_le_pos; lra); apply Rmax_lub; lra) end. lra.
  - rewrite fin_opp. apply IHe; assumption.
  - rewrite fin_abs. apply IHe; assumption.
  - rewrite fin_plus0. apply IHe; assumption.
  - destruct D as [D H]. specialize (IHe D R). destruct (of_int_exact prec emax Hprec Hemax n H) as (O1 & O2 & O3). assert (N0 : 0 < IZR n) by (apply IZR_lt; lia). assert (I0 : 0 < / IZR n) by (apply Rinv_0_lt_compat; exact N0).
    eapply approx_fin; [apply div_correct; try assumption; [apply feval_valid; assumption|rewrite O3; lra]|]. rewrite O3. rewrite <- tech_pow_Rmult in B.
    pose proof (feval_bound _ D IHe) as X. unfold Rdiv at 1 2. rewrite Rabs_mult, (Rabs_pos_eq (/ IZR n)) by lra. pose proof (Rmult_le_compat_r (/ IZR n) _ _ ltac:(lra) X) as Q. pose proof (Rmult_le_compat_l (1 + u) _ _ ltac:(lra) Q) as Q'.
    set (m := Rabs (FR (F e)) * / IZR n) in *. assert (0 <= m) by (apply Rmult_le_pos; [apply Rabs_pos|lra]).
    assert (Rmax (u * m) eta <= u * m + eta) by (assert (0 <= u * m) by (apply Rmult_le_pos; lra); apply Rmax_lub; lra). unfold Rdiv in B. lra.
Qed.
(** the sign is right when the value exceeds its error *)
Theorem feval_sign e : divisors prec e -> fin (F e) = true ->
  ((1 + u) ^ depth e - 1) * aeval w e + eta * under prec emax w e < Rabs (reval w e) -> 0 < FR (F e) * reval w e.
Proof.
  intros D Fe B. pose proof (feval_error e D Fe) as E. apply Rabs_le_inv in E. unfold Rabs in B. destruct Rcase_abs; nra.
Qed.

(** bounds free of roundings *)
Lemma lost_nonneg e : divisors prec e -> 0 <= lost prec emax w e.
Proof.
  induction e; cbn [lost divisors]; intros D; try lra.
  - specialize (IHe1 (proj1 D)). specialize (IHe2 (proj2 D)). lra.
  - specialize (IHe1 (proj1 D)). specialize (IHe2 (proj2 D)). lra.
  - destruct D as [D1 D2]. specialize (IHe1 D1). specialize (IHe2 D2). pose proof (aeval_nonneg prec w _ D1). pose proof (aeval_nonneg prec w _ D2).
    assert (0 <= lost prec emax w e1 * aeval w e2) by (apply Rmult_le_pos; assumption). assert (0 <= lost prec emax w e2 * aeval w e1) by (apply Rmult_le_pos; assumption).
    assert (0 <= eta * (lost prec emax w e1 * lost prec emax w e2)) by (apply Rmult_le_pos; [lra|apply Rmult_le_pos; assumption]). lra.
  - apply IHe, D.
  - apply IHe, D.
  - apply IHe, D.
  - destruct D as [D H]. specialize (IHe D). assert (0 < IZR n) by (apply IZR_lt; lia). assert (0 < / IZR n) by (apply Rinv_0_lt_compat; assumption).
    assert (0 <= lost prec emax w e / IZR n) by (apply Rmult_le_pos; lra). lra.
Qed.
Lemma under_lost e : divisors prec e -> under prec emax w e <= (1 + u) ^ depth e * lost prec emax w e.
Proof.
  induction e; cbn [under lost depth divisors]; intros D; try lra.
  - destruct D as [D1 D2]. specialize (IHe1 D1). specialize (IHe2 D2). rewrite <- tech_pow_Rmult.
    pose proof (grow' _ (depth e1) (Nat.max (depth e1) (depth e2)) (lost_nonneg _ D1) ltac:(lia)) as G1. pose proof (grow' _ (depth e2) (Nat.max (depth e1) (depth e2)) (lost_nonneg _ D2) ltac:(lia)) as G2.
    rewrite Rmult_assoc. apply Rmult_le_compat_l; lra.
  - destruct D as [D1 D2]. specialize (IHe1 D1). specialize (IHe2 D2). rewrite <- tech_pow_Rmult.
    pose proof (grow' _ (depth e1) (Nat.max (depth e1) (depth e2)) (lost_nonneg _ D1) ltac:(lia)) as G1. pose proof (grow' _ (depth e2) (Nat.max (depth e1) (depth e2)) (lost_nonneg _ D2) ltac:(lia)) as G2.
    rewrite Rmult_assoc. apply Rmult_le_compat_l; lra.
  - destruct D as [D1 D2]. specialize (IHe1 D1). specialize (IHe2 D2). rewrite <- tech_pow_Rmult, pow_add.
    pose proof (aeval_nonneg prec w _ D1) as A1. pose proof (aeval_nonneg prec w _ D2) as A2. pose proof (under_nonneg _ D1) as N1. pose proof (under_nonneg _ D2) as N2. pose proof (lost_nonneg _ D1) as M1. pose proof (lost_nonneg _ D2) as M2.
    set (k := (1 + u) ^ depth e1) in *. set (l := (1 + u) ^ depth e2) in *. assert (K : 1 <= k) by (apply pow_R1_Rle; lra). assert (L : 1 <= l) by (apply pow_R1_Rle; lra).
    set (A := aeval w e1) in *. set (B := aeval w e2) in *. set (P := under prec emax w e1) in *. set (Q := under prec emax w e2) in *. set (P' := lost prec emax w e1) in *. set (Q' := lost prec emax w e2) in *.
    assert (H1 : P * (l * B) <= k * P' * (l * B)) by (apply Rmult_le_compat_r; [apply Rmult_le_pos; lra|assumption]).
    assert (H2 : Q * (k * A) <= l * Q' * (k * A)) by (apply Rmult_le_compat_r; [apply Rmult_le_pos; lra|assumption]).
    assert (H3 : P * Q <= k * P' * (l * Q')) by (apply Rmult_le_compat; assumption). pose proof (Rmult_le_compat_l eta _ _ ltac:(lra) H3) as H4.
    assert (H5 : 1 <= (1 + u) * (k * l)) by (rewrite <- (Rmult_1_l 1); apply Rmult_le_compat; try lra; rewrite <- (Rmult_1_l 1); apply Rmult_le_compat; lra).
    replace ((1 + u) * (k * l) * (P' * B + Q' * A + eta * (P' * Q') + 1)) with ((1 + u) * (k * P' * (l * B) + l * Q' * (k * A) + eta * (k * P' * (l * Q'))) + (1 + u) * (k * l)) by ring.
    apply Rplus_le_compat; [apply Rmult_le_compat_l; lra|exact H5].
  - apply IHe, D.
  - apply IHe, D.
  - apply IHe, D.
  - destruct D as [D H]. specialize (IHe D). assert (N0 : 0 < IZR n) by (apply IZR_lt; lia). assert (I0 : 0 < / IZR n) by (apply Rinv_0_lt_compat; assumption). rewrite <- tech_pow_Rmult.
    set (k := (1 + u) ^ depth e) in *. assert (K : 1 <= k) by (apply pow_R1_Rle; lra). assert (H5 : 1 <= (1 + u) * k) by (rewrite <- (Rmult_1_l 1); apply Rmult_le_compat; lra).
    pose proof (Rmult_le_compat_r (/ IZR n) _ _ ltac:(lra) IHe) as H1. pose proof (Rmult_le_compat_l (1 + u) _ _ ltac:(lra) H1). unfold Rdiv. lra.
Qed.
Theorem feval_error' e : divisors prec e -> fin (F e) = true ->
  Rabs (FR (F e) - reval w e) <= ((1 + u) ^ depth e - 1) * aeval w e + eta * ((1 + u) ^ depth e * lost prec emax w e).
Proof. intros D Fe. pose proof (feval_error e D Fe). pose proof (Rmult_le_compat_l eta _ _ ltac:(lra) (under_lost e D)). lra. Qed.

Section Bounded.
Variable M : R.
Hypothesis HM : 1 <= M.
Hypothesis BM : forall i, Rabs (FR (v i)) <= M.
Lemma terms_pos e : (1 <= terms e)%nat.
Proof. induction e; cbn [terms]; nia. Qed.
Lemma pow_M n m : (n <= m)%nat -> 0 < M ^ n <= M ^ m.
Proof. intros L. split; [apply pow_lt; lra|apply Rle_pow; assumption]. Qed.
Lemma aeval_terms e : divisors prec e -> aeval w e <= INR (terms e) * M ^ degree e.
Proof.
  induction e; cbn [aeval terms degree divisors]; intros D.
  - rewrite pow_1. cbn. rewrite Rmult_1_l. apply BM.
  - cbn. lra.
  - destruct D as [D1 D2]. specialize (IHe1 D1). specialize (IHe2 D2). rewrite plus_INR. pose proof (pow_M (degree e1) (Nat.max (degree e1) (degree e2)) ltac:(lia)). pose proof (pow_M (degree e2) (Nat.max (degree e1) (degree e2)) ltac:(lia)).
    pose proof (pos_INR (terms e1)). pose proof (pos_INR (terms e2)). rewrite Rmult_plus_distr_r. apply Rplus_le_compat; (eapply Rle_trans; [eassumption|apply Rmult_le_compat_l; lra]).
  - destruct D as [D1 D2]. specialize (IHe1 D1). specialize (IHe2 D2). rewrite plus_INR. pose proof (pow_M (degree e1) (Nat.max (degree e1) (degree e2)) ltac:(lia)). pose proof (pow_M (degree e2) (Nat.max (degree e1) (degree e2)) ltac:(lia)).
    pose proof (pos_INR (terms e1)). pose proof (pos_INR (terms e2)). rewrite Rmult_plus_distr_r. apply Rplus_le_compat; (eapply Rle_trans; [eassumption|apply Rmult_le_compat_l; lra]).
  - destruct D as [D1 D2]. specialize (IHe1 D1). specialize (IHe2 D2). rewrite mult_INR, pow_add. replace (INR (terms e1) * INR (terms e2) * (M ^ degree e1 * M ^ degree e2)) with (INR (terms e1) * M ^ degree e1 * (INR (terms e2) * M ^ degree e2)) by ring.
    apply Rmult_le_compat; try assumption; apply (aeval_nonneg prec); assumption.
  - apply IHe, D.
  - apply IHe, D.
  - apply IHe, D.
  - destruct D as [D H]. specialize (IHe D). pose proof (aeval_nonneg prec w _ D). assert (N0 : 1 <= IZR n) by (apply IZR_le; lia). eapply Rle_trans; [|exact IHe]. unfold Rdiv. rewrite <- (Rmult_1_r (aeval w e)) at 2. apply Rmult_le_compat_l; [assumption|]. rewrite <- Rinv_1. apply Rinv_le_contravar; lra.
Qed.
Lemma eta_le_1 : eta <= 1.
Proof. unfold FloatRound.eta. rewrite <- pw_0. apply pw_le. unfold emin. lia. Qed.
Lemma lost_losses e : divisors prec e -> lost prec emax w e <= INR (losses e) * M ^ degree e.
Proof.
  induction e; cbn [lost losses degree divisors]; intros D.
  - cbn. lra.
  - cbn. lra.
  - destruct D as [D1 D2]. specialize (IHe1 D1). specialize (IHe2 D2). rewrite plus_INR. pose proof (pow_M (degree e1) (Nat.max (degree e1) (degree e2)) ltac:(lia)). pose proof (pow_M (degree e2) (Nat.max (degree e1) (degree e2)) ltac:(lia)).
    pose proof (pos_INR (losses e1)). pose proof (pos_INR (losses e2)). rewrite Rmult_plus_distr_r. apply Rplus_le_compat; (eapply Rle_trans; [eassumption|apply Rmult_le_compat_l; lra]).
  - destruct D as [D1 D2]. specialize (IHe1 D1). specialize (IHe2 D2). rewrite plus_INR. pose proof (pow_M (degree e1) (Nat.max (degree e1) (degree e2)) ltac:(lia)). pose proof (pow_M (degree e2) (Nat.max (degree e1) (degree e2)) ltac:(lia)).
    pose proof (pos_INR (losses e1)). pose proof (pos_INR (losses e2)). rewrite Rmult_plus_distr_r. apply Rplus_le_compat; (eapply Rle_trans; [eassumption|apply Rmult_le_compat_l; lra]).
  - destruct D as [D1 D2]. specialize (IHe1 D1). specialize (IHe2 D2). pose proof (aeval_terms _ D1) as T1'. pose proof (aeval_terms _ D2) as T2'. rewrite !plus_INR, !mult_INR, pow_add.
    pose proof (lost_nonneg _ D1) as L1. pose proof (lost_nonneg _ D2) as L2. pose proof (aeval_nonneg prec w _ D1) as A1. pose proof (aeval_nonneg prec w _ D2) as A2.
    pose proof (pow_M 0 (degree e1) ltac:(lia)) as [_ Q1]. pose proof (pow_M 0 (degree e2) ltac:(lia)) as [_ Q2]. cbn [pow] in Q1, Q2. set (p := M ^ degree e1) in *. set (q := M ^ degree e2) in *.
    pose proof (Rmult_le_compat _ _ _ _ L1 A2 IHe1 T2') as H1. pose proof (Rmult_le_compat _ _ _ _ L2 A1 IHe2 T1') as H2. pose proof (Rmult_le_compat _ _ _ _ L1 L2 IHe1 IHe2) as H3.
    assert (H4 : eta * (lost prec emax w e1 * lost prec emax w e2) <= 1 * (INR (losses e1) * p * (INR (losses e2) * q))) by (apply Rmult_le_compat; [lra|apply Rmult_le_pos; assumption|apply eta_le_1|exact H3]).
    assert (H5 : 1 <= p * q) by (rewrite <- (Rmult_1_l 1); apply Rmult_le_compat; lra). cbn [INR]. lra.
  - apply IHe, D.
  - apply IHe, D.
  - apply IHe, D.
  - destruct D as [D H]. specialize (IHe D). pose proof (lost_nonneg _ D). assert (N0 : 1 <= IZR n) by (apply IZR_le; lia). pose proof (pow_M 0 (degree e) ltac:(lia)) as [_ Q1]. cbn [pow] in Q1. rewrite plus_INR. cbn [INR].
    assert (lost prec emax w e / IZR n <= lost prec emax w e). { unfold Rdiv. rewrite <- (Rmult_1_r (lost prec emax w e)) at 2. apply Rmult_le_compat_l; [assumption|]. rewrite <- Rinv_1. apply Rinv_le_contravar; lra. } lra.
Qed.
Theorem feval_error_bounded e : divisors prec e -> fin (F e) = true ->
  Rabs (FR (F e) - reval w e) <= ((1 + u) ^ depth e - 1) * (INR (terms e) * M ^ degree e) + eta * ((1 + u) ^ depth e * (INR (losses e) * M ^ degree e)).
Proof.
  intros D Fe. eapply Rle_trans; [apply feval_error'; assumption|]. assert (K : 1 <= (1 + u) ^ depth e) by (apply pow_R1_Rle; lra).
  apply Rplus_le_compat; [apply Rmult_le_compat_l; [lra|apply aeval_terms; exact D]|]. apply Rmult_le_compat_l; [lra|]. apply Rmult_le_compat_l; [lra|]. apply lost_losses; exact D.
Qed.
(** the bounds of a subformula are at most those of the formula *)
Lemma every_mono (f : nat -> nat -> nat -> nat -> Prop) : (forall d t g l d' t' g' l', (d <= d')%nat -> (t <= t')%nat -> (g <= g')%nat -> (l <= l')%nat -> f d' t' g' l' -> f d t g l) ->
  forall e, f (depth e) (terms e) (degree e) (losses e) -> every (fun e => f (depth e) (terms e) (degree e) (losses e)) e.
Proof.
  intros Mono. induction e; intros H; cbn [every]; (split; [exact H|]); cbn [depth terms degree losses] in H; try exact I.
  - split; [apply IHe1|apply IHe2]; (eapply Mono; [| | | |exact H]); lia.
  - split; [apply IHe1|apply IHe2]; (eapply Mono; [| | | |exact H]); lia.
  - pose proof (terms_pos e1). pose proof (terms_pos e2). split; [apply IHe1|apply IHe2]; (eapply Mono; [| | | |exact H]); nia.
  - apply IHe, H.
  - apply IHe, H.
  - apply IHe, H.
  - apply IHe. eapply Mono; [| | | |exact H]; lia.
Qed.
Lemma every_imp (P Q : expr -> Prop) e : divisors prec e -> (forall e, divisors prec e -> P e -> Q e) -> every P e -> every Q e.
Proof. intros D J. induction e; cbn [every divisors] in *; intros [H R]; (split; [apply J; cbn [divisors]; tauto|]); tauto. Qed.
Theorem feval_finite_bounded e : divisors prec e -> (forall i, fin (v i) = true) ->
  (1 + u) ^ depth e * (INR (terms e + losses e) * M ^ degree e) < pw emax -> fin (F e) = true.
Proof.
  intros D Fv B. apply feval_finite; [exact D|exact Fv|].
  apply (every_imp (fun e => (1 + u) ^ depth e * (INR (terms e + losses e) * M ^ degree e) < pw emax)); [exact D| |].
  - clear e D B. intros e D B. unfold in_range. eapply Rle_lt_trans; [|exact B]. rewrite plus_INR, Rmult_plus_distr_r, Rmult_plus_distr_l. assert (K : 1 <= (1 + u) ^ depth e) by (apply pow_R1_Rle; lra).
    apply Rplus_le_compat; [apply Rmult_le_compat_l; [lra|apply aeval_terms; exact D]|]. eapply Rle_trans; [apply Rmult_le_compat_l; [lra|apply under_lost; exact D]|].
    apply Rle_trans with (1 * ((1 + u) ^ depth e * lost prec emax w e)); [apply Rmult_le_compat_r; [apply Rmult_le_pos; [lra|apply lost_nonneg; exact D]|apply eta_le_1]|]. rewrite Rmult_1_l. apply Rmult_le_compat_l; [lra|apply lost_losses; exact D].
  - apply (every_mono (fun d t g l => (1 + u) ^ d * (INR (t + l) * M ^ g) < pw emax)); [|exact B].
    intros d t g l d' t' g' l' H1 H2 H3 H4 H. eapply Rle_lt_trans; [|exact H]. assert (0 < (1 + u) ^ d) by (apply pow_lt; lra). pose proof (pow_M g g' H3). pose proof (pos_INR (t + l)).
    apply Rmult_le_compat; [lra|apply Rmult_le_pos; lra|apply Rle_pow; [lra|exact H1]|]. apply Rmult_le_compat; [assumption|lra|apply le_INR; lia|lra].
Qed.
End Bounded.

(** formulas without divisions are exact on whole numbers as long as every subformula is smaller than 2^prec *)
Definition whole (x : R) : Prop := exists n : Z, x = IZR n.
Lemma isfl_whole x : whole x -> Rabs x < pw prec -> isfl prec emax x.
Proof.
  intros [n ->] B. rewrite <- pw_Z in B by lia. rewrite <- abs_IZR in B. apply lt_IZR in B. destruct (Z_lt_ge_dec 0 n) as [P|P]; [apply isfl_int; try assumption; lia|].
  destruct (Z.eq_dec n 0) as [->|N]; [exists f0; repeat split; reflexivity|]. replace (IZR n) with (- IZR (- n)) by (rewrite opp_IZR; ring). apply isfl_opp, isfl_int; try assumption; lia.
Qed.
Lemma whole_add x y : whole x -> whole y -> whole (x + y). Proof. intros [a ->] [b ->]. exists (a + b)%Z. rewrite plus_IZR. reflexivity. Qed.
Lemma whole_sub x y : whole x -> whole y -> whole (x - y). Proof. intros [a ->] [b ->]. exists (a - b)%Z. rewrite minus_IZR. reflexivity. Qed.
Lemma whole_mul x y : whole x -> whole y -> whole (x * y). Proof. intros [a ->] [b ->]. exists (a * b)%Z. rewrite mult_IZR. reflexivity. Qed.
Lemma no_div_divisors e : no_division e -> divisors prec e.
Proof. induction e; cbn; tauto. Qed.
Theorem feval_exact e : no_division e -> (forall i, fin (v i) = true /\ whole (FR (v i))) -> every (fun e => aeval w e < pw prec) e ->
  fin (F e) = true /\ FR (F e) = reval w e /\ whole (reval w e).
Proof.
  intros N W. revert N. induction e; cbn [every]; intros N [B R]; cbn [feval reval]; cbn beta in B; pose proof (reval_aeval prec w _ (no_div_divisors _ N)) as A; cbn [reval] in A.
  - destruct (W i) as [W1 W2]. auto.
  - destruct (unit_exact s) as (X1 & _ & X2). repeat split; [exact X1|exact X2|]. exists (if s then -1 else 1)%Z. destruct s; reflexivity.
  - destruct N as [N1 N2], R as [R1 R2]. destruct (IHe1 N1 R1) as (F1 & E1 & W1), (IHe2 N2 R2) as (F2 & E2 & W2). pose proof (whole_add _ _ W1 W2) as W3.
    pose proof (add_correct prec emax Hprec Hem _ _ F1 F2 (feval_valid _ (no_div_divisors _ N1)) (feval_valid _ (no_div_divisors _ N2))) as C. rewrite E1, E2 in C.
    destruct (approx_exact prec emax _ _ _ C (isfl_whole _ W3 ltac:(lra))). auto.
  - destruct N as [N1 N2], R as [R1 R2]. destruct (IHe1 N1 R1) as (F1 & E1 & W1), (IHe2 N2 R2) as (F2 & E2 & W2). pose proof (whole_sub _ _ W1 W2) as W3.
    pose proof (sub_correct prec emax Hprec Hem _ _ F1 F2 (feval_valid _ (no_div_divisors _ N1)) (feval_valid _ (no_div_divisors _ N2))) as C. rewrite E1, E2 in C.
    destruct (approx_exact prec emax _ _ _ C (isfl_whole _ W3 ltac:(lra))). auto.
  - destruct N as [N1 N2], R as [R1 R2]. destruct (IHe1 N1 R1) as (F1 & E1 & W1), (IHe2 N2 R2) as (F2 & E2 & W2). pose proof (whole_mul _ _ W1 W2) as W3.
    pose proof (mul_correct prec emax Hprec Hem _ _ F1 F2 (feval_valid _ (no_div_divisors _ N1)) (feval_valid _ (no_div_divisors _ N2))) as C. rewrite E1, E2 in C.
    destruct (approx_exact prec emax _ _ _ C (isfl_whole _ W3 ltac:(lra))). auto.
  - destruct (IHe N R) as (F1 & E1 & [n W1]). rewrite fin_opp, FR_opp, E1. repeat split; [exact F1|]. exists (- n)%Z. rewrite W1, opp_IZR. reflexivity.
  - destruct (IHe N R) as (F1 & E1 & [n W1]). rewrite fin_abs, FR_abs, E1. repeat split; [exact F1|]. exists (Z.abs n). rewrite W1, abs_IZR. reflexivity.
  - rewrite fin_plus0, FR_plus0. apply IHe; assumption.
  - destruct N.
Qed.
Theorem feval_exact_bounded M e : 1 <= M -> (forall i, Rabs (FR (v i)) <= M) -> no_division e -> (forall i, fin (v i) = true /\ whole (FR (v i))) ->
  INR (terms e) * M ^ degree e < pw prec -> fin (F e) = true /\ FR (F e) = reval w e /\ whole (reval w e).
Proof.
  intros HM BM N W B. apply feval_exact; [exact N|exact W|]. apply (every_imp (fun e => INR (terms e) * M ^ degree e < pw prec)); [apply no_div_divisors, N| |].
  - intros e' D B'. eapply Rle_lt_trans; [apply (aeval_terms M HM BM); exact D|exact B'].
  - apply (every_mono (fun d t g l => INR t * M ^ g < pw prec)); [|exact B]. intros d t g l d' t' g' l' H1 H2 H3 H4 H. eapply Rle_lt_trans; [|exact H].
    pose proof (pow_M M HM g g' H3). apply Rmult_le_compat; [apply pos_INR|lra|apply le_INR; exact H2|lra].
Qed.
End Errors.
