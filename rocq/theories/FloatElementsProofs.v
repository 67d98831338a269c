(** Lemmas for FloatElementsProps.v: readings of the shape function texts. *)
From Coq Require Import ZArith List Bool Lia Reals Lra Psatz QArith Qreals.
From Verif Require Import Outcome VectorModel VectorProofs ElementsModel ElementsProofs FloatModel FloatRound FloatProofs FloatProps FloatExpr FloatElementsModel.
From Coq Require Import SpecFloat.
Import ListNotations.
Local Open Scope R_scope.

(** ** a change of arithmetic *)
Section Hom.
Context {T T' : Type} (add sub mul : T -> T -> T) (divn : T -> Z -> T) (int : Z -> T).
Context (add' sub' mul' : T' -> T' -> T') (divn' : T' -> Z -> T') (int' : Z -> T').
Variable h : T -> T'.
Hypothesis Hadd : forall a b, h (add a b) = add' (h a) (h b).
Hypothesis Hsub : forall a b, h (sub a b) = sub' (h a) (h b).
Hypothesis Hmul : forall a b, h (mul a b) = mul' (h a) (h b).
Hypothesis Hdiv : forall a n, h (divn a n) = divn' (h a) n.
Hypothesis Hint : forall n, (-1 <= n < 20)%Z -> h (int n) = int' n.
Definition rel (a : nat -> T) (a' : nat -> T') : Prop := forall k, a' k = h (a k).
Lemma rel_set a a' i y y' : rel a a' -> y' = h y -> rel (setT a i y) (setT a' i y').
Proof. intros H E k. unfold setT. destruct (Nat.eqb k i); [exact E|apply H]. Qed.
Lemma rel_steps n step f f' : (forall i a a', rel a a' -> rel (f i a) (f' i a')) -> forall i a a', rel a a' -> rel (steps n i step f a) (steps n i step f' a').
Proof. intros H. induction n; cbn [steps]; intros; [assumption|]. apply IHn, H. assumption. Qed.
Lemma rel_for lo hi step f f' : (forall i a a', rel a a' -> rel (f i a) (f' i a')) -> forall a a', rel a a' -> rel (for_step lo hi step f a) (for_step lo hi step f' a').
Proof. intros. unfold for_step. apply rel_steps; assumption. Qed.
Lemma tab_hom t i d : tabT int' (map (map h) t) i d = h (tabT int t i d).
Proof.
  unfold tabT. rewrite <- (Hint 0) by lia. rewrite <- (map_nth h). f_equal. change (@nil T') with (map h nil). apply map_nth.
Qed.
Lemma node_hom e i d : nodeT divn' int' e i d = h (nodeT divn int e i d).
Proof.
  destruct e; cbn [nodeT]; [unfold quad4_refT|unfold quad8_refT|unfold quad12_refT|unfold hex8_refT|unfold hex20_refT|unfold hex32_refT];
    rewrite <- tab_hom; cbn [map]; rewrite ?Hdiv, ?Hint by lia; reflexivity.
Qed.
Variables (x : nat -> T) (x' : nat -> T').
Lemma text_hom e f junk junk' : (forall i, (i < dims_of e)%nat -> x' i = h (x i)) -> rel junk junk' ->
  rel (text add sub mul divn int e f x junk) (text add' sub' mul' divn' int' e f x' junk').
Proof.
  intros X J. pose proof (node_hom e) as N.
  assert (X0 : x' 0%nat = h (x 0%nat)) by (apply X; destruct e; cbn; lia).
  assert (X1 : x' 1%nat = h (x 1%nat)) by (apply X; destruct e; cbn; lia).
  assert (X2 : match e with Quad4 | Quad8 | Quad12 => True | _ => x' 2%nat = h (x 2%nat) end) by (destruct e; try exact I; apply X; cbn; lia). clear X.
  destruct e, f; cbn [text nodeT] in *; try exact J;
  [unfold quad4_shapeT|unfold quad4_partial_xiT|unfold quad4_partial_etaT|unfold quad8_shapeT|unfold quad8_partial_xiT|unfold quad8_partial_etaT
  |unfold quad12_shapeT|unfold quad12_partial_xiT|unfold quad12_partial_etaT|unfold hex8_shapeT|unfold hex8_partial_xiT|unfold hex8_partial_etaT|unfold hex8_partial_muT
  |unfold hex20_shapeT|unfold hex20_partial_xiT|unfold hex20_partial_etaT|unfold hex20_partial_muT
  |unfold hex32_shapeT|unfold hex32_partial_xiT|unfold hex32_partial_etaT|unfold hex32_partial_muT];
  cbv zeta; repeat (apply rel_for; [intros i a a' Ha; apply rel_set; [exact Ha|]; repeat rewrite ?Hadd, ?Hsub, ?Hmul, ?Hdiv; rewrite ?Hint, ?N, ?X0, ?X1, ?X2 by lia; reflexivity|]); exact J.
Qed.
End Hom.
(** the functions write every entry before j < nodes *)
Lemma text_junk {T} (add sub mul : T -> T -> T) divn int e f x junk junk' j : has e f = true -> (j < nodes_of e)%nat ->
  text add sub mul divn int e f x junk j = text add sub mul divn int e f x junk' j.
Proof.
  intros H Hj. destruct e, f; try discriminate H; cbn [nodes_of] in Hj; cbn [text];
  do 32 (destruct j as [|j]; [reflexivity|]; try (exfalso; lia)).
Qed.

(** ** the formulas as trees *)
Definition intE (n : Z) : expr := if (n =? 1)%Z then EUnit false else if (n =? -1)%Z then EUnit true else EVar (3 + Z.to_nat n).
Definition formula (e : elem) (f : func) (j : nat) : expr := text EAdd ESub EMul EDiv intE e f EVar (fun _ => EVar 100) j.
Definition env (prec emax : Z) (D : nat) (x : nat -> spec_float) (i : nat) : spec_float :=
  if (i <? D)%nat then x i else if (i <? 3)%nat then f0 else if (i <? 23)%nat then of_int prec emax (Z.of_nat (i - 3)) else f0.
Lemma env_x prec emax D x i : (i < D)%nat -> env prec emax D x i = x i.
Proof. intros H. unfold env. apply Nat.ltb_lt in H. rewrite H. reflexivity. Qed.
Lemma env_int prec emax D x n : (D <= 3)%nat -> (-1 <= n < 20)%Z -> feval prec emax (env prec emax D x) (intE n) = of_int prec emax n.
Proof.
  intros HD H. unfold intE. destruct (Z.eqb_spec n 1) as [->|]; [reflexivity|]. destruct (Z.eqb_spec n (-1)) as [->|]; [reflexivity|]. cbn [feval]. unfold env.
  replace (3 + Z.to_nat n <? D)%nat with false by (symmetry; apply Nat.ltb_ge; lia). replace (3 + Z.to_nat n <? 3)%nat with false by (symmetry; apply Nat.ltb_ge; lia).
  replace (3 + Z.to_nat n <? 23)%nat with true by (symmetry; apply Nat.ltb_lt; lia). f_equal. lia.
Qed.
Lemma dims_le e : (dims_of e <= 3)%nat. Proof. destruct e; cbn; lia. Qed.
Lemma felem_formula prec emax e f x junk j : has e f = true -> (j < nodes_of e)%nat ->
  felem prec emax e f x junk j = feval prec emax (env prec emax (dims_of e) x) (formula e f j).
Proof.
  intros H Hj. unfold felem, formula. rewrite (text_junk _ _ _ _ _ e f x junk (fun _ => feval prec emax (env prec emax (dims_of e) x) (EVar 100)) j H Hj).
  apply (text_hom EAdd ESub EMul EDiv intE (SFadd prec emax) (SFsub prec emax) (SFmul prec emax) (fun a n => SFdiv prec emax a (of_int prec emax n)) (of_int prec emax)
    (feval prec emax (env prec emax (dims_of e) x))); try reflexivity.
  - intros n Hn. apply env_int; [apply dims_le|exact Hn].
  - intros i Hi. symmetry. apply env_x, Hi.
  - intros k. reflexivity.
Qed.
Lemma relem_formula e f x junk j (w : nat -> R) : has e f = true -> (j < nodes_of e)%nat ->
  (forall i, (i < dims_of e)%nat -> w i = x i) -> (forall n, (0 <= n < 20)%Z -> n <> 1%Z -> w (3 + Z.to_nat n)%nat = IZR n) ->
  relem e f x junk j = reval w (formula e f j).
Proof.
  intros H Hj Hx Hi. unfold relem, formula. rewrite (text_junk _ _ _ _ _ e f x junk (fun _ => reval w (EVar 100)) j H Hj).
  apply (text_hom EAdd ESub EMul EDiv intE Rplus Rminus Rmult (fun a n => a / IZR n) IZR (reval w)); try reflexivity.
  - intros n Hn. unfold intE. destruct (Z.eqb_spec n 1) as [->|]; [reflexivity|]. destruct (Z.eqb_spec n (-1)) as [->|]; [reflexivity|]. apply Hi; lia.
  - intros i Hii. symmetry. apply Hx, Hii.
  - intros k. reflexivity.
Qed.

(** ** bounds by evaluation in rationals: absolute values, losses by underflow, ranges *)
Local Open Scope Q_scope.
Definition qenv (i : nat) : Q := if (i <? 3)%nat then 1 else inject_Z (Z.of_nat (i - 3)).
Fixpoint qa (e : expr) : Q :=
  match e with
  | EVar i => qenv i
  | EUnit _ => 1
  | EAdd a b | ESub a b => qa a + qa b
  | EMul a b => qa a * qa b
  | ENeg a | EAbs a | EPlus0 a => qa a
  | EDiv a n => qa a / inject_Z n
  end.
Fixpoint ql (e : expr) : Q :=
  match e with
  | EVar _ | EUnit _ => 0
  | EAdd a b | ESub a b => ql a + ql b
  | EMul a b => ql a * qa b + ql b * qa a + ql a * ql b + 1
  | ENeg a | EAbs a | EPlus0 a => ql a
  | EDiv a n => ql a / inject_Z n + 1
  end.
(* the divisors are among 2 .. 64, the depth is below 64, and every subformula is below 256 *)
Fixpoint qdiv (e : expr) : bool :=
  match e with
  | EVar i => (i <? 23)%nat
  | EUnit _ => true
  | EAdd a b | ESub a b | EMul a b => qdiv a && qdiv b
  | ENeg a | EAbs a | EPlus0 a => qdiv a
  | EDiv a n => qdiv a && (0 <? n)%Z && (n <=? 64)%Z
  end.
Definition qbase (e : expr) : bool := (depth e <=? 64)%nat && Qle_bool (qa e + ql e / 512) 256.
Fixpoint qrange (e : expr) : bool :=
  qbase e &&
  match e with
  | EVar _ | EUnit _ => true
  | EAdd a b | ESub a b | EMul a b => qrange a && qrange b
  | ENeg a | EAbs a | EPlus0 a | EDiv a _ => qrange a
  end.
(* 256/(256-d) (d A + L/512) *)
Definition qerr (e : expr) : Q :=
  let d := inject_Z (Z.of_nat (depth e)) in (256 / (256 - d)) * (d * qa e + ql e / 512).
Local Close Scope Q_scope.

Lemma pw_8 : pw (-8) = / 256. Proof. pose proof (pw_inv 8) as I. rewrite <- (pw_Z 8) in I by lia. change (2 ^ 8)%Z with 256%Z in I. change (Z.opp 8) with (-8)%Z in I. lra. Qed.
Lemma pw_9 : pw (-9) = / 512. Proof. pose proof (pw_inv 9) as I. rewrite <- (pw_Z 9) in I by lia. change (2 ^ 9)%Z with 512%Z in I. change (Z.opp 9) with (-9)%Z in I. lra. Qed.
Section Bounds.
Variables prec emax : Z.
Hypothesis Hf : format prec emax.
Hypothesis H8 : (8 <= prec)%Z.
Notation u := (uu prec).
Notation eta := (eta prec emax).
Lemma u_small : 0 < u <= / 256.
Proof.
  split; [apply u_pos|]. unfold uu. apply Rle_trans with (pw (-8)); [apply pw_le; lia|]. rewrite pw_8. lra.
Qed.
Lemma eta_small : 0 < eta <= u / 512.
Proof.
  destruct Hf as [_ Hm]. split; [apply eta_pos|]. unfold FloatRound.eta, uu, emin. replace (3 - emax - prec - 1)%Z with (- prec + (2 - emax))%Z by lia. rewrite pw_add.
  unfold Rdiv. apply Rmult_le_compat_l; [left; apply pw_pos|]. apply Rle_trans with (pw (-9)); [apply pw_le; lia|]. rewrite pw_9. lra.
Qed.
Lemma emax_big : 2048 <= pw emax.
Proof. destruct Hf as [_ Hm]. apply Rle_trans with (pw 11); [rewrite <- (pw_Z 11) by lia; change (2 ^ 11)%Z with 2048%Z; lra|apply pw_le; lia]. Qed.
Lemma pow_small d : (d <= 64)%nat -> (1 + u) ^ d * (256 - INR d) <= 256.
Proof.
  destruct u_small as [U1 U2]. intros H. assert (B : forall n, (n <= 64)%nat -> (1 + u) ^ n * (1 - INR n * u) <= 1).
  { induction n; intros Hn; [cbn; lra|]. specialize (IHn ltac:(lia)). rewrite S_INR. cbn [pow].
    assert (P : 0 < (1 + u) ^ n) by (apply pow_lt; lra). pose proof (pos_INR n) as N.
    replace ((1 + u) * (1 + u) ^ n * (1 - (INR n + 1) * u)) with ((1 + u) ^ n * (1 - INR n * u) - (1 + u) ^ n * (u * u * (INR n + 1))) by ring.
    assert (0 <= (1 + u) ^ n * (u * u * (INR n + 1))); [|lra]. apply Rmult_le_pos; [lra|]. apply Rmult_le_pos; [nra|lra]. }
  specialize (B d H). assert (P : 0 < (1 + u) ^ d) by (apply pow_lt; lra). pose proof (pos_INR d) as N.
  assert (X : 1 - INR d / 256 <= 1 - INR d * u) by nra.
  assert (Y : (1 + u) ^ d * (1 - INR d / 256) <= 1) by (eapply Rle_trans; [apply Rmult_le_compat_l; [lra|exact X]|exact B]). lra.
Qed.
Lemma pow_small_1 d : (d <= 64)%nat -> ((1 + u) ^ d - 1) * (256 - INR d) <= 256 * (INR d * u).
Proof.
  destruct u_small as [U1 U2]. intros H. induction d; [cbn; lra|]. specialize (IHd ltac:(lia)). pose proof (pow_small (S d) H) as P. rewrite S_INR in *. cbn [pow] in *.
  assert (Q : 1 <= (1 + u) ^ d) by (apply pow_R1_Rle; lra). pose proof (le_INR d 63 ltac:(lia)) as N. rewrite (INR_IZR_INZ 63) in N. change (Z.of_nat 63) with 63%Z in N.
  pose proof (pow_small d ltac:(lia)) as P0.
  replace (((1 + u) * (1 + u) ^ d - 1) * (256 - (INR d + 1))) with (((1 + u) ^ d - 1) * (256 - INR d) + u * ((1 + u) ^ d * (256 - INR d)) - ((1 + u) * (1 + u) ^ d - 1)) by ring.
  nra.
Qed.
Section Expr.
Variable v : nat -> spec_float.
Hypothesis V : forall i, number prec emax (v i).
Hypothesis Fv : forall i, fin (v i) = true.
Hypothesis Bv : forall i, (i < 23)%nat -> Rabs (FR (v i)) <= Q2R (qenv i).
Notation w := (fun i => FR (v i)).
Lemma qdiv_divisors e : qdiv e = true -> divisors prec e.
Proof.
  induction e; cbn [qdiv divisors]; rewrite ?andb_true_iff; try tauto. intros [[H1 H2] H3]. split; [tauto|]. apply Z.ltb_lt in H2. apply Z.leb_le in H3.
  assert (64 < 2 ^ prec)%Z by (change 64%Z with (2 ^ 6)%Z; apply Z.pow_lt_mono_r; lia). lia.
Qed.
Lemma Q2R_nonneg q : (0 <= q)%Q -> 0 <= Q2R q. Proof. intros H. apply Qle_Rle in H. unfold Q2R at 1 in H. cbn in H. lra. Qed.
Lemma Q2R_Z n : Q2R (inject_Z n) = IZR n. Proof. unfold Q2R. cbn. rewrite Rinv_1. ring. Qed.
Lemma Q2R_1 : Q2R 1 = 1. Proof. apply (Q2R_Z 1). Qed.
Lemma Q2R_0 : Q2R 0 = 0. Proof. apply (Q2R_Z 0). Qed.
Lemma Q2R_divZ q n : (0 < n)%Z -> Q2R (q / inject_Z n) = Q2R q / IZR n.
Proof. intros H. rewrite Q2R_div, Q2R_Z; [reflexivity|]. intro E. unfold Qeq in E. cbn in E. lia. Qed.
Lemma aeval_qa e : qdiv e = true -> aeval w e <= Q2R (qa e).
Proof.
  induction e; cbn [qdiv qa aeval]; rewrite ?andb_true_iff; intros H.
  - apply Nat.ltb_lt in H. apply Bv, H.
  - rewrite Q2R_1. lra.
  - destruct H as [H1 H2]. specialize (IHe1 H1). specialize (IHe2 H2). rewrite Q2R_plus. lra.
  - destruct H as [H1 H2]. specialize (IHe1 H1). specialize (IHe2 H2). rewrite Q2R_plus. lra.
  - destruct H as [H1 H2]. specialize (IHe1 H1). specialize (IHe2 H2). rewrite Q2R_mult. apply Rmult_le_compat; try assumption; eapply aeval_nonneg; apply qdiv_divisors; assumption.
  - auto.
  - auto.
  - auto.
  - destruct H as [[H1 H2] H3]. specialize (IHe H1). apply Z.ltb_lt in H2. rewrite Q2R_divZ by exact H2. pose proof (IZR_lt 0 n H2). unfold Rdiv. apply Rmult_le_compat_r; [left; apply Rinv_0_lt_compat; assumption|exact IHe].
Qed.
Lemma lost_ql e : qdiv e = true -> lost prec emax w e <= Q2R (ql e).
Proof.
  pose proof eta_small as [E1 E2]. pose proof u_small as [U1 U2].
  induction e; cbn [qdiv ql lost]; rewrite ?andb_true_iff; intros H.
  - rewrite Q2R_0. lra.
  - rewrite Q2R_0. lra.
  - destruct H as [H1 H2]. specialize (IHe1 H1). specialize (IHe2 H2). rewrite Q2R_plus. lra.
  - destruct H as [H1 H2]. specialize (IHe1 H1). specialize (IHe2 H2). rewrite Q2R_plus. lra.
  - destruct H as [H1 H2]. specialize (IHe1 H1). specialize (IHe2 H2). rewrite !Q2R_plus, !Q2R_mult, Q2R_1.
    pose proof (aeval_qa _ H1) as A1. pose proof (aeval_qa _ H2) as A2. pose proof (aeval_nonneg prec w _ (qdiv_divisors _ H1)). pose proof (aeval_nonneg prec w _ (qdiv_divisors _ H2)).
    pose proof (lost_nonneg prec emax Hf v _ (qdiv_divisors _ H1)) as L1. pose proof (lost_nonneg prec emax Hf v _ (qdiv_divisors _ H2)) as L2.
    apply Rplus_le_compat_r. repeat apply Rplus_le_compat.
    + apply Rmult_le_compat; assumption.
    + apply Rmult_le_compat; assumption.
    + apply Rle_trans with (1 * (lost prec emax w e1 * lost prec emax w e2)); [apply Rmult_le_compat_r; [apply Rmult_le_pos; assumption|lra]|]. rewrite Rmult_1_l. apply Rmult_le_compat; assumption.
  - auto.
  - auto.
  - auto.
  - destruct H as [[H1 H2] H3]. specialize (IHe H1). apply Z.ltb_lt in H2. rewrite Q2R_plus, Q2R_divZ, Q2R_1 by exact H2. pose proof (IZR_lt 0 n H2). apply Rplus_le_compat_r. unfold Rdiv. apply Rmult_le_compat_r; [left; apply Rinv_0_lt_compat; assumption|exact IHe].
Qed.
Lemma Qle_bool_R p q : Qle_bool p q = true -> Q2R p <= Q2R q. Proof. intros H. apply Qle_Rle, Qle_bool_iff, H. Qed.
Lemma Q2R_512 q : Q2R (q / 512) = Q2R q / 512. Proof. change 512%Q with (inject_Z 512). rewrite Q2R_divZ by lia. reflexivity. Qed.
Lemma range_expr e : qdiv e = true -> qrange e = true -> every (in_range prec emax v) e.
Proof.
  assert (B : forall e, qdiv e = true -> qbase e = true -> in_range prec emax v e).
  { clear e. intros e D H. unfold qbase in H. apply andb_true_iff in H. destruct H as [H1 H2]. apply Nat.leb_le in H1. apply Qle_bool_R in H2. rewrite Q2R_plus, Q2R_512 in H2.
    change 256%Q with (inject_Z 256) in H2. rewrite Q2R_Z in H2.
    unfold in_range. pose proof (aeval_qa _ D) as A. pose proof (lost_ql _ D) as L. pose proof (under_lost prec emax Hf v e (qdiv_divisors _ D)) as W.
    pose proof (aeval_nonneg prec w _ (qdiv_divisors _ D)) as A0. pose proof (lost_nonneg prec emax Hf v _ (qdiv_divisors _ D)) as L0.
    pose proof eta_small as [E1 E2]. pose proof u_small as [U1 U2]. pose proof emax_big as M. pose proof (pow_small _ H1) as P. set (c := (1 + u) ^ depth e) in *.
    assert (N : INR (depth e) <= 64) by (replace 64 with (INR 64) by (rewrite INR_IZR_INZ; reflexivity); apply le_INR, H1).
    assert (C1 : 1 <= c) by (apply pow_R1_Rle; lra). assert (C : c <= 2) by nra.
    assert (X : eta * under prec emax w e <= c * (Q2R (ql e) / 512)).
    { apply Rle_trans with (/ 512 * (c * lost prec emax w e)); [|nra]. apply Rmult_le_compat; [lra|apply under_nonneg, qdiv_divisors, D|lra|exact W]. }
    assert (Y : c * aeval w e <= c * Q2R (qa e)) by nra. assert (Z : c * (Q2R (qa e) + Q2R (ql e) / 512) <= 2 * 256) by nra. lra. }
  induction e; cbn [qrange qdiv every]; rewrite ?andb_true_iff; intros D H; (split; [apply B; cbn [qdiv]; rewrite ?andb_true_iff; tauto|]); tauto.
Qed.
Lemma expr_error e : qdiv e = true -> qrange e = true ->
  fin (feval prec emax v e) = true /\ Rabs (FR (feval prec emax v e) - reval w e) <= Q2R (qerr e) * u.
Proof.
  intros D H. pose proof (range_expr e D H) as R. pose proof (feval_finite prec emax Hf v V e (qdiv_divisors _ D) Fv R) as F. split; [exact F|].
  eapply Rle_trans; [apply (feval_error' prec emax Hf v V e (qdiv_divisors _ D) F)|].
  assert (H1 : (depth e <= 64)%nat). { destruct e; cbn [qrange] in H; apply andb_true_iff in H; destruct H as [H _]; apply andb_true_iff in H; apply Nat.leb_le, H. }
  pose proof (aeval_qa _ D) as A. pose proof (lost_ql _ D) as L. pose proof (aeval_nonneg prec w _ (qdiv_divisors _ D)) as A0. pose proof (lost_nonneg prec emax Hf v _ (qdiv_divisors _ D)) as L0.
  pose proof eta_small as [E1 E2]. pose proof u_small as [U1 U2]. pose proof (pow_small _ H1) as P. pose proof (pow_small_1 _ H1) as P1.
  assert (N : INR (depth e) <= 64) by (replace 64 with (INR 64) by (rewrite INR_IZR_INZ; reflexivity); apply le_INR, H1).
  assert (QE : Q2R (qerr e) = 256 / (256 - INR (depth e)) * (INR (depth e) * Q2R (qa e) + Q2R (ql e) / 512)).
  { unfold qerr. rewrite Q2R_mult, Q2R_plus, Q2R_mult, Q2R_512, Q2R_Z, <- INR_IZR_INZ. f_equal. rewrite Q2R_div, Q2R_minus, Q2R_Z, <- INR_IZR_INZ.
    - change 256%Q with (inject_Z 256). rewrite Q2R_Z. reflexivity.
    - intro E. apply Qeq_eqR in E. rewrite Q2R_minus, Q2R_Z, <- INR_IZR_INZ, Q2R_0 in E. change 256%Q with (inject_Z 256) in E. rewrite Q2R_Z in E. lra. }
  rewrite QE. set (d := INR (depth e)) in *. set (c := (1 + u) ^ depth e) in *. assert (K : 0 < 256 - d) by lra.
  assert (C : c <= 256 / (256 - d)) by (apply (Rmult_le_reg_r (256 - d)); [exact K|]; unfold Rdiv; rewrite Rmult_assoc, Rinv_l by lra; lra).
  assert (C1 : c - 1 <= 256 / (256 - d) * (d * u)) by (apply (Rmult_le_reg_r (256 - d)); [exact K|]; replace (256 / (256 - d) * (d * u) * (256 - d)) with (256 * (d * u)) by (field; lra); exact P1).
  assert (C0 : 1 <= c) by (apply pow_R1_Rle; lra). assert (D0 : 0 <= d) by apply pos_INR.
  set (g := 256 / (256 - d)) in *.
  apply Rle_trans with (g * (d * u) * Q2R (qa e) + u / 512 * (g * Q2R (ql e))); [|right; field].
  apply Rplus_le_compat.
  - apply Rmult_le_compat; lra.
  - apply Rmult_le_compat; [lra|apply Rmult_le_pos; lra|lra|]. apply Rmult_le_compat; lra.
Qed.
End Expr.
End Bounds.

(** ** one third: every rounding of the shape functions at the nodes with a coordinate 1/3 *)
Section Round.
Variables prec emax : Z.
Hypothesis Hf : format prec emax.
Hypothesis H8 : (8 <= prec)%Z.
Let Hprec : (1 < prec)%Z. Proof. lia. Qed.
Let Hem : (prec < emax)%Z. Proof. destruct Hf; lia. Qed.
Lemma even_half n (X : R) r : Rabs (IZR r - X) <= / 2 -> (Rabs (IZR r - X) = / 2 -> Z.even r = true) ->
  Rabs (IZR n - X) <= / 2 -> (Rabs (IZR n - X) = / 2 -> Z.even n = true) -> n = r.
Proof.
  intros A A' B B'. assert (C : Rabs (IZR (n - r)) <= 1) by (rewrite minus_IZR; unfold Rabs in *; repeat destruct Rcase_abs; lra).
  rewrite <- abs_IZR in C. apply le_IZR in C. assert (D : (n - r = 0 \/ n - r = 1 \/ n - r = -1)%Z) by lia. destruct D as [D|[D|D]]; [lia| |].
  - assert (E : IZR n = IZR r + 1) by (rewrite <- plus_IZR; f_equal; lia). assert (F : Rabs (IZR r - X) = / 2 /\ Rabs (IZR n - X) = / 2) by (unfold Rabs in *; repeat destruct Rcase_abs; lra).
    destruct F as [F1 F2]. specialize (A' F1). specialize (B' F2). replace n with (Z.succ r) in B' by lia. rewrite Z.even_succ, <- Z.negb_even, A' in B'. discriminate.
  - assert (E : IZR n = IZR r - 1) by (rewrite <- minus_IZR; f_equal; lia). assert (F : Rabs (IZR r - X) = / 2 /\ Rabs (IZR n - X) = / 2) by (unfold Rabs in *; repeat destruct Rcase_abs; lra).
    destruct F as [F1 F2]. specialize (A' F1). specialize (B' F2). replace r with (Z.succ n) in A' by lia. rewrite Z.even_succ, <- Z.negb_even, B' in A'. discriminate.
Qed.
Lemma round_to s z w err f r : approx prec emax z (sgnR s * w) err -> (emin prec emax <= f)%Z -> pw (prec - 1 + f) <= w < pw (prec + f) -> (prec + f < emax)%Z ->
  Rabs (IZR r - w * pw (- f)) <= / 2 -> (Rabs (IZR r - w * pw (- f)) = / 2 -> Z.even r = true) ->
  fin z = true /\ number prec emax z /\ FR z = sgnR s * (IZR r * pw f).
Proof.
  intros A Hmin [B1 B2] Hmax N T. pose proof (approx_valid prec emax _ _ _ A) as Vz. destruct A as [(s' & w' & f' & r' & W0 & W1 & (M1 & M2 & M3 & M4 & M5) & C) _].
  pose proof (pw_pos (prec - 1 + f)) as P. assert (s' = s /\ w' = w) as [-> ->] by (destruct s, s'; cbn [sgnR] in W1; split; reflexivity || lra).
  assert (f' = f) as ->.
  { destruct (Z_lt_ge_dec f' f) as [L|L]; [exfalso; assert (X := pw_le (prec + f') (prec - 1 + f) ltac:(lia)); lra|].
    destruct (Z.eq_dec f' f) as [E|E]; [exact E|exfalso]. destruct M3 as [M3|M3]; [lia|]. assert (X := pw_le (prec + f) (prec - 1 + f') ltac:(lia)). lra. }
  assert (r' = r) as -> by (apply (even_half r' (w * pw (- f)) r); assumption).
  destruct C as [[-> C]|[(m & e & -> & Bd & C)|[-> C]]].
  - repeat split. cbn [FR]. rewrite C. ring.
  - repeat split; [exact Vz|]. rewrite C. reflexivity.
  - exfalso. assert (X : IZR r * pw f <= w + pw f / 2).
    { pose proof (pw_pos f) as Pf. pose proof (pw_inv f) as I. apply Rabs_le_inv in N. assert (Y : IZR r <= w * pw (- f) + / 2) by lra.
      apply (Rmult_le_compat_r (pw f)) in Y; [|lra]. rewrite Rmult_plus_distr_r, Rmult_assoc, I in Y. lra. }
    pose proof (pw_le (prec + f + 1) emax ltac:(lia)) as Y. rewrite pw_add, pw_1 in Y. pose proof (pw_le f (prec + f) ltac:(lia)) as Z. pose proof (pw_pos f). lra.
Qed.
(** the same with the binade [2^(k-1), 2^k), the unit 2^(k-prec) *)
Notation G := (pw (prec - 1)).
Notation i := (pw (1 - prec)).
Lemma G_i : G * i = 1. Proof. rewrite <- pw_add. replace (prec - 1 + (1 - prec))%Z with 0%Z by lia. apply pw_0. Qed.
Lemma round_in s z w err k r : approx prec emax z (sgnR s * w) err -> (-8 <= k <= 8)%Z -> pw (k - 1) <= w < pw k ->
  Rabs (IZR r - w * (G * pw (1 - k))) <= / 2 -> (Rabs (IZR r - w * (G * pw (1 - k))) = / 2 -> Z.even r = true) ->
  fin z = true /\ number prec emax z /\ FR z = sgnR s * (IZR r * (i * pw (k - 1))).
Proof.
  intros A K B N T. destruct Hf as [_ Hm]. rewrite <- !pw_add in *. replace (prec - 1 + (1 - k))%Z with (- (k - prec))%Z in * by lia. replace (1 - prec + (k - 1))%Z with (k - prec)%Z by lia.
  apply (round_to s z w err (k - prec) r); [exact A|unfold emin; lia| |lia|exact N|exact T]. replace (prec - 1 + (k - prec))%Z with (k - 1)%Z by lia. replace (prec + (k - prec))%Z with k by lia. exact B.
Qed.
(** 2^(prec-1) modulo 9 *)
Definition classes (g : Z) : Prop := exists q, (14 <= q)%Z /\
  (g = 9 * q + 1 \/ g = 9 * q + 2 \/ g = 9 * q + 4 \/ g = 9 * q + 8 \/ g = 9 * q + 7 \/ g = 9 * q + 5)%Z.
Lemma pow_classes : classes (2 ^ (prec - 1)).
Proof.
  replace (prec - 1)%Z with (7 + (prec - 8))%Z by lia. rewrite Z.pow_add_r by lia. change (2 ^ 7)%Z with 128%Z.
  assert (P : forall n, (0 <= n)%Z -> classes (128 * 2 ^ n)).
  { apply natlike_ind; [exists 14%Z; change (128 * 2 ^ 0)%Z with 128%Z; lia|]. intros n Hn (q & Hq & C). rewrite Z.pow_succ_r by exact Hn. replace (128 * (2 * 2 ^ n))%Z with (2 * (128 * 2 ^ n))%Z by ring.
    set (x := (128 * 2 ^ n)%Z) in *. destruct C as [C|[C|[C|[C|[C|C]]]]].
    - exists (2 * q)%Z. lia.
    - exists (2 * q)%Z. lia.
    - exists (2 * q)%Z. lia.
    - exists (2 * q + 1)%Z. lia.
    - exists (2 * q + 1)%Z. lia.
    - exists (2 * q + 1)%Z. lia. }
  apply P. lia.
Qed.
Notation ap z v := (exists err, approx prec emax z v err).
Definition good (z : spec_float) (x : R) : Prop := fin z = true /\ number prec emax z /\ FR z = x.
(** the values met with a third: t, t t, 1 + t t, 1 - t t *)
Definition thirds (T Z W V : R) : Prop :=
  0 < T < 1 /\ 0 < Z < 1 /\ 0 < W < 2 /\ 0 < V < 1
  /\ (forall s z, ap z (sgnR s * (1 / 3)) -> good z (sgnR s * T))
  /\ (forall s z, ap z (sgnR s * (9 * T)) -> good z (sgnR s * 3))
  /\ (forall s z, ap z (sgnR s * (3 * T)) -> good z (sgnR s * 1))
  /\ (forall z, ap z (T * T) -> good z Z)
  /\ (forall z, ap z (1 + Z) -> good z W)
  /\ (forall z, ap z (9 * W) -> good z 10)
  /\ (forall z, ap z (1 - Z) -> good z V)
  /\ (forall j z, (0 <= j <= 8)%Z -> ap z (9 * pw (- j) * V) -> good z (8 * pw (- j))).
Lemma pw_m2 : pw (-2) = / 4. Proof. change (-2)%Z with (-1 - 1)%Z. rewrite pw_half, pw_m1. lra. Qed.
Lemma pw_m3 : pw (-3) = / 8. Proof. change (-3)%Z with (-2 - 1)%Z. rewrite pw_half, pw_m2. lra. Qed.
Lemma pw_m4 : pw (-4) = / 16. Proof. change (-4)%Z with (-3 - 1)%Z. rewrite pw_half, pw_m3. lra. Qed.
Lemma pw_2 : pw 2 = 4. Proof. rewrite <- (pw_Z 2) by lia. reflexivity. Qed.
Lemma pw_3 : pw 3 = 8. Proof. rewrite <- (pw_Z 3) by lia. reflexivity. Qed.
Lemma pw_4 : pw 4 = 16. Proof. rewrite <- (pw_Z 4) by lia. reflexivity. Qed.
Lemma i_small : 0 < i <= / 128.
Proof. split; [apply pw_pos|]. apply Rle_trans with (pw (-7)); [apply pw_le; lia|]. change (-7)%Z with (-8 + 1)%Z. rewrite pw_add, pw_8, pw_1. lra. Qed.
Lemma IZR_G : IZR (2 ^ (prec - 1)) = G. Proof. apply pw_Z. lia. Qed.
Lemma even_2 n : Z.even (2 * n) = true. Proof. apply Z.even_spec. exists n. reflexivity. Qed.
Lemma round_good s z w err k r lo il X x : pw (k - 1) = lo -> pw (1 - k) = il -> approx prec emax z (sgnR s * w) err -> (-8 <= k <= 8)%Z -> lo <= w < 2 * lo ->
  w * (G * il) = X -> Rabs (IZR r - X) <= / 2 -> (Rabs (IZR r - X) = / 2 -> Z.even r = true) -> IZR r * (i * lo) = x -> good z (sgnR s * x).
Proof.
  intros <- <- A K B <- N T <-. apply (round_in s z w err k r A K); [|exact N|exact T]. replace (pw k) with (2 * pw (k - 1)) by (rewrite pw_half; field). exact B.
Qed.
Lemma round_good1 z w err k r lo il X x : pw (k - 1) = lo -> pw (1 - k) = il -> approx prec emax z w err -> (-8 <= k <= 8)%Z -> lo <= w < 2 * lo ->
  w * (G * il) = X -> Rabs (IZR r - X) <= / 2 -> (Rabs (IZR r - X) = / 2 -> Z.even r = true) -> IZR r * (i * lo) = x -> good z x.
Proof.
  intros H1 H2 A K B HX N T E. replace x with (sgnR false * x) by (cbn; ring). apply (round_good false z w err k r lo il X); try assumption. replace (sgnR false * w) with w by (cbn; ring). exact A.
Qed.
Ltac absr := unfold Rabs; repeat destruct Rcase_abs; lra.
Lemma thirds_case (q c a rho n wn vn : Z) : (2 ^ (prec - 1) = 9 * q + c)%Z -> (14 <= q)%Z -> (1 <= c <= 8)%Z -> (a = 1 \/ a = -1)%Z -> (3 * rho = 4 * c + a)%Z ->
  (-4 <= 16 * c + 8 * a - 9 * n <= 4)%Z -> (0 <= n <= 16)%Z -> (-8 < 16 * c + n - 16 * wn < 8)%Z -> (-4 <= 9 * wn - 10 * c <= 4)%Z ->
  (-4 <= 16 * c - n - 8 * vn <= 4)%Z -> Z.even vn = true \/ (-4 < 16 * c - n - 8 * vn < 4)%Z -> (-4 <= 9 * vn - 16 * c <= 4)%Z ->
  exists T Z W V, thirds T Z W V.
Proof.
  intros Hg Hq Hc Ha Hrho Hn Hn' Hw Hw' Hv Hv' Hv''. pose proof i_small as [I0 I1]. pose proof G_i as GI. pose proof IZR_G as EG. pose proof Hg as Hg'. apply (f_equal IZR) in Hg'. rewrite EG, plus_IZR, mult_IZR in Hg'.
  set (Q := IZR q) in *. set (C := IZR c) in *. set (A := IZR a) in *. set (N := IZR n) in *. set (Wn := IZR wn) in *. set (Vn := IZR vn) in *.
  assert (Q1 : 14 <= Q) by (apply IZR_le; lia). assert (C1 : 1 <= C <= 8) by (split; apply IZR_le; lia).
  assert (A1 : A = 1 \/ A = -1) by (destruct Ha as [-> | ->]; [left|right]; reflexivity). assert (A2 : -1 <= A <= 1) by (destruct A1; lra).
  assert (R1 : 3 * IZR rho = 4 * C + A) by (apply (f_equal IZR) in Hrho; rewrite plus_IZR, !mult_IZR in Hrho; exact Hrho).
  assert (N1 : -4 <= 16 * C + 8 * A - 9 * N <= 4) by (destruct Hn as [L U]; apply IZR_le in L, U; rewrite minus_IZR, plus_IZR, !mult_IZR in L, U; fold C A N in L, U; lra).
  assert (N2 : 0 <= N <= 16) by (split; apply IZR_le; lia).
  assert (W1 : -8 < 16 * C + N - 16 * Wn < 8) by (destruct Hw as [L U]; apply IZR_lt in L, U; rewrite minus_IZR, plus_IZR, !mult_IZR in L, U; fold C N Wn in L, U; lra).
  assert (W2 : -4 <= 9 * Wn - 10 * C <= 4) by (destruct Hw' as [L U]; apply IZR_le in L, U; rewrite minus_IZR, !mult_IZR in L, U; fold C Wn in L, U; lra).
  assert (V1 : -4 <= 16 * C - N - 8 * Vn <= 4) by (destruct Hv as [L U]; apply IZR_le in L, U; rewrite !minus_IZR, !mult_IZR in L, U; fold C N Vn in L, U; lra).
  assert (V2 : -4 <= 9 * Vn - 16 * C <= 4) by (destruct Hv'' as [L U]; apply IZR_le in L, U; rewrite !minus_IZR, !mult_IZR in L, U; fold C Vn in L, U; lra).
  assert (V3 : Z.even vn = true \/ -4 < 16 * C - N - 8 * Vn < 4) by (destruct Hv' as [E|[L U]]; [left; exact E|right; apply IZR_lt in L, U; rewrite !minus_IZR, !mult_IZR in L, U; fold C N Vn in L, U; lra]).
  set (T := 1 / 3 + A * i / 12). set (Z := 1 / 9 + (N - 16 * C / 9) / 16 * i). set (W := 10 / 9 + (Wn - 10 * C / 9) * i). set (V := 8 / 9 + (Vn - 16 * C / 9) / 2 * i).
  assert (BT : 0.3 < T < 0.35) by (unfold T; split; nra).
  assert (BZ : 0.08 < Z < 0.12) by (unfold Z; split; nra).
  assert (BW : 1.1 < W < 1.12) by (unfold W; split; nra).
  assert (BV : 0.88 < V < 0.9) by (unfold V; split; nra).
  exists T, Z, W, V. unfold thirds. repeat (split; [lra|]).
  repeat match goal with |- _ /\ _ => split end; intros; match goal with H : ap _ _ |- _ => destruct H as [err H] end.
  - eapply (round_good s z (1 / 3) err (-1) (12 * q + rho)); [apply pw_m2|apply pw_2|exact H|lia|lra|reflexivity| | |].
    + rewrite plus_IZR, mult_IZR. fold Q. absr.
    + rewrite plus_IZR, mult_IZR. fold Q. intros X. exfalso. revert X. absr.
    + rewrite plus_IZR, mult_IZR. fold Q. unfold T. replace (12 * Q + IZR rho) with (4 / 3 * G + A / 3) by lra. transitivity ((G * i) / 3 + A * i / 12); [field|rewrite GI; field].
  - assert (E : IZR (6 * 2 ^ (prec - 3)) = 3 / 2 * G) by (rewrite mult_IZR, pw_Z by lia; replace (prec - 1)%Z with (prec - 3 + 2)%Z by lia; rewrite pw_add, pw_2; lra).
    eapply (round_good s z (9 * T) err 2 (6 * 2 ^ (prec - 3))); [apply pw_1|apply pw_m1|exact H|lia|lra| | | |].
    + instantiate (1 := 3 / 2 * G + 3 * A / 8). unfold T. transitivity (3 / 2 * G + 3 * A / 8 * (G * i)); [field|rewrite GI; ring].
    + rewrite E. absr.
    + rewrite E. intros X. exfalso. revert X. absr.
    + rewrite E. transitivity (3 * (G * i)); [field|rewrite GI; ring].
  - destruct A1 as [EA|EA].
    + eapply (round_good s z (3 * T) err 1 (2 ^ (prec - 1))); [apply pw_0|apply pw_0|exact H|lia|unfold T; rewrite EA; lra| | | |].
      * instantiate (1 := G + / 4). unfold T. rewrite EA. transitivity (G + / 4 * (G * i)); [field|rewrite GI; ring].
      * rewrite EG. absr.
      * rewrite EG. intros X. exfalso. revert X. absr.
      * rewrite EG. lra.
    + assert (E : IZR (2 * 2 ^ (prec - 1)) = 2 * G) by (rewrite mult_IZR, EG; reflexivity).
      eapply (round_good s z (3 * T) err 0 (2 * 2 ^ (prec - 1))); [apply pw_m1|apply pw_1|exact H|lia|unfold T; rewrite EA; lra| | | |].
      * instantiate (1 := 2 * G - / 2). unfold T. rewrite EA. transitivity (2 * G - / 2 * (G * i)); [field|rewrite GI; ring].
      * rewrite E. absr.
      * intros _. apply even_2.
      * rewrite E. lra.
  - assert (BX : T * T * (G * 16) = 16 * G / 9 + 8 * A / 9 + i / 9).
    { assert (AA : A * A = 1) by (destruct A1 as [-> | ->]; ring). unfold T. transitivity (16 * G / 9 + 8 * A / 9 * (G * i) + (A * A) * (G * i) * i / 9); [field|rewrite GI, AA; field]. }
    eapply (round_good1 z (T * T) err (-3) (16 * q + n)); [apply pw_m4|apply pw_4|exact H|lia|split; nra|exact BX| | |].
    + rewrite plus_IZR, mult_IZR. fold Q N. absr.
    + rewrite plus_IZR, mult_IZR. fold Q N. intros X. exfalso. revert X. absr.
    + rewrite plus_IZR, mult_IZR. fold Q N. unfold Z. replace (16 * Q + N) with (16 / 9 * G + (N - 16 * C / 9)) by lra. transitivity ((G * i) / 9 + (N - 16 * C / 9) / 16 * i); [field|rewrite GI; field].
  - assert (BX : (1 + Z) * (G * 1) = G + G / 9 + (N - 16 * C / 9) / 16) by (unfold Z; transitivity (G + G / 9 + (N - 16 * C / 9) / 16 * (G * i)); [field|rewrite GI; field]).
    eapply (round_good1 z (1 + Z) err 1 (10 * q + wn)); [apply pw_0|apply pw_0|exact H|lia|lra|exact BX| | |].
    + rewrite plus_IZR, mult_IZR. fold Q Wn. absr.
    + rewrite plus_IZR, mult_IZR. fold Q Wn. intros X. exfalso. revert X. absr.
    + rewrite plus_IZR, mult_IZR. fold Q Wn. unfold W. replace (10 * Q + Wn) with (10 / 9 * G + (Wn - 10 * C / 9)) by lra. transitivity (10 / 9 * (G * i) + (Wn - 10 * C / 9) * i); [field|rewrite GI; field].
  - assert (E : IZR (2 * (5 * 2 ^ (prec - 4))) = 10 / 8 * G) by (rewrite !mult_IZR, pw_Z by lia; replace (prec - 1)%Z with (prec - 4 + 3)%Z by lia; rewrite pw_add, pw_3; lra).
    assert (BX : 9 * W * (G * / 8) = 10 / 8 * G + (9 * Wn - 10 * C) / 8) by (unfold W; transitivity (10 / 8 * G + (9 * Wn - 10 * C) / 8 * (G * i)); [field|rewrite GI; field]).
    eapply (round_good1 z (9 * W) err 4 (2 * (5 * 2 ^ (prec - 4)))); [apply pw_3|apply pw_m3|exact H|lia|lra|exact BX| | |].
    + rewrite E. absr.
    + intros _. apply even_2.
    + rewrite E. transitivity (10 * (G * i)); [field|rewrite GI; ring].
  - assert (BX : (1 - Z) * (G * 2) = 16 / 9 * G - (N - 16 * C / 9) / 8) by (unfold Z; transitivity (16 / 9 * G - (N - 16 * C / 9) / 8 * (G * i)); [field|rewrite GI; field]).
    eapply (round_good1 z (1 - Z) err 0 (16 * q + vn)); [apply pw_m1|apply pw_1|exact H|lia|lra|exact BX| | |].
    + rewrite plus_IZR, mult_IZR. fold Q Vn. absr.
    + intros X. destruct V3 as [E|V3]; [rewrite Z.even_add, E; replace (16 * q)%Z with (2 * (8 * q))%Z by ring; rewrite even_2; reflexivity|]. exfalso. revert X. rewrite plus_IZR, mult_IZR. fold Q Vn. absr.
    + rewrite plus_IZR, mult_IZR. fold Q Vn. unfold V. replace (16 * Q + Vn) with (16 / 9 * G + (Vn - 16 * C / 9)) by lra. transitivity (8 / 9 * (G * i) + (Vn - 16 * C / 9) / 2 * i); [field|rewrite GI; field].
  - pose proof (pw_pos (- j)) as Pj. pose proof (pw_inv j) as Ij. set (p := pw (- j)) in *. assert (PP : p * pw j = 1) by exact Ij.
    assert (EV : 9 * V = 8 + (9 * Vn - 16 * C) / 2 * i) by (unfold V; field).
    assert (EW : 9 * p * V = p * (8 + (9 * Vn - 16 * C) / 2 * i)) by (rewrite <- EV; ring).
    destruct (Rle_dec 0 (9 * Vn - 16 * C)) as [S|S].
    + eapply (round_good1 z (9 * p * V) err (4 - j) (2 ^ (prec - 1)) (p * 8) (pw j / 8)).
      * replace (4 - j - 1)%Z with (- j + 3)%Z by lia. rewrite pw_add, pw_3. reflexivity.
      * replace (1 - (4 - j))%Z with (j + -3)%Z by lia. rewrite pw_add, pw_m3. reflexivity.
      * eassumption.
      * lia.
      * rewrite EW. assert (0 <= (9 * Vn - 16 * C) / 2 * i <= 1) by nra. split; nra.
      * rewrite EW. instantiate (1 := G + (9 * Vn - 16 * C) / 16). transitivity ((p * pw j) * (G + (9 * Vn - 16 * C) / 16 * (G * i))); [field|rewrite GI, PP; ring].
      * rewrite EG. absr.
      * rewrite EG. intros X. exfalso. revert X. absr.
      * rewrite EG. transitivity (8 * p * (G * i)); [ring|rewrite GI; ring].
    + assert (E : IZR (2 * 2 ^ (prec - 1)) = 2 * G) by (rewrite mult_IZR, EG; reflexivity).
      eapply (round_good1 z (9 * p * V) err (3 - j) (2 * 2 ^ (prec - 1)) (p * 4) (pw j / 4)).
      * replace (3 - j - 1)%Z with (- j + 2)%Z by lia. rewrite pw_add, pw_2. reflexivity.
      * replace (1 - (3 - j))%Z with (j + -2)%Z by lia. rewrite pw_add, pw_m2. reflexivity.
      * eassumption.
      * lia.
      * rewrite EW. assert (-1 <= (9 * Vn - 16 * C) / 2 * i < 0) by nra. split; nra.
      * rewrite EW. instantiate (1 := 2 * G + (9 * Vn - 16 * C) / 8). transitivity ((p * pw j) * (2 * G + (9 * Vn - 16 * C) / 8 * (G * i))); [field|rewrite GI, PP; ring].
      * rewrite E. absr.
      * intros _. apply even_2.
      * rewrite E. transitivity (8 * p * (G * i)); [ring|rewrite GI; ring].
Qed.
Lemma thirds_exist : exists T Z W V, thirds T Z W V.
Proof.
  destruct pow_classes as (q & Hq & [C|[C|[C|[C|[C|C]]]]]).
  - apply (thirds_case q 1 (-1) 1 1 1 2); try lia; (left; reflexivity) || idtac.
  - apply (thirds_case q 2 1 3 4 2 4); try lia; (left; reflexivity) || idtac.
  - apply (thirds_case q 4 (-1) 5 6 4 7); try lia.
  - apply (thirds_case q 8 1 11 15 9 14); try lia; (left; reflexivity) || idtac.
  - apply (thirds_case q 7 (-1) 9 12 8 12); try lia; (left; reflexivity) || idtac.
  - apply (thirds_case q 5 1 7 10 6 9); try lia.
Qed.
End Round.

(** ** values at the nodes *)
Inductive av : Type := Dy (m k : Z) | Ti (s : bool) | Sq | Wn | Vn | Ba (b : Z).
Definition mag (a : av) : Z := match a with Dy m k => (Z.abs m / 2 ^ k + 1) | Ba b => b | Wn => 2 | _ => 1 end%Z.
Fixpoint reduce (fuel : nat) (m k : Z) : Z * Z :=
  match fuel with
  | O => (m, k)
  | S n => if (Z.even m && (0 <? k)%Z)%bool then reduce n (Z.div2 m) (k - 1) else (m, k)
  end.
Definition dy (m k : Z) : option av :=
  if ((Z.abs m <? 256) && (0 <=? k) && (k <=? 8))%Z%bool then Some (let '(m, k) := reduce 9 m k in Dy m k) else None.
Definition ba (b : Z) : option av := if (b <? 256)%Z then Some (Ba b) else None.
Definition sgnZ (s : bool) : Z := if s then (-1)%Z else 1%Z.
Definition addv (a b : av) : option av :=
  match a, b with
  | Dy m k, Dy n l => let K := Z.max k l in dy (m * 2 ^ (K - k) + n * 2 ^ (K - l)) K
  | Dy m k, Sq => if ((m =? 1) && (k =? 0))%Z%bool then Some Wn else ba (mag a + mag b)
  | Sq, Dy m k => if ((m =? 1) && (k =? 0))%Z%bool then Some Wn else ba (mag a + mag b)
  | _, _ => ba (mag a + mag b)
  end.
Definition subv (a b : av) : option av :=
  match a, b with
  | Dy m k, Dy n l => let K := Z.max k l in dy (m * 2 ^ (K - k) - n * 2 ^ (K - l)) K
  | Dy m k, Sq => if ((m =? 1) && (k =? 0))%Z%bool then Some Vn else ba (mag a + mag b)
  | _, _ => ba (mag a + mag b)
  end.
Definition mulv (a b : av) : option av :=
  match a, b with
  | Dy m k, Dy n l => dy (m * n) (k + l)
  | Dy m k, Ti s => if (m =? 0)%Z then Some (Dy 0 0) else
      if ((m =? 1) && (k =? 0))%Z%bool then Some (Ti s) else if ((m =? -1) && (k =? 0))%Z%bool then Some (Ti (negb s)) else
      if ((m =? 9) && (k =? 0))%Z%bool then Some (Dy (sgnZ s * 3) 0) else
      if ((m =? 3) && (k =? 0))%Z%bool then Some (Dy (sgnZ s) 0) else if ((m =? -3) && (k =? 0))%Z%bool then Some (Dy (sgnZ (negb s)) 0) else ba (mag a * mag b)
  | Ti s, Dy m k => if (m =? 0)%Z then Some (Dy 0 0) else
      if ((m =? 1) && (k =? 0))%Z%bool then Some (Ti s) else if ((m =? -1) && (k =? 0))%Z%bool then Some (Ti (negb s)) else ba (mag a * mag b)
  | Ti s, Ti s' => if eqb s s' then Some Sq else ba (mag a * mag b)
  | Dy m k, Wn => if (m =? 0)%Z then Some (Dy 0 0) else if ((m =? 9) && (k =? 0))%Z%bool then Some (Dy 10 0) else ba (mag a * mag b)
  | Dy m k, Vn => if (m =? 0)%Z then Some (Dy 0 0) else if ((m =? 9) && (0 <=? k) && (k <=? 8))%Z%bool then dy 8 k else ba (mag a * mag b)
  | Dy m k, _ | _, Dy m k => if (m =? 0)%Z then Some (Dy 0 0) else ba (mag a * mag b)
  | _, _ => ba (mag a * mag b)
  end.
Definition divv (a : av) (n : Z) : option av :=
  match a with
  | Dy m k => if (n =? 3)%Z then (if ((m =? 1) && (k =? 0))%Z%bool then Some (Ti false) else if ((m =? -1) && (k =? 0))%Z%bool then Some (Ti true) else None)
      else if ((0 <? n) && (n =? 2 ^ Z.log2 n) && (n <? 256))%Z%bool then dy m (k + Z.log2 n) else None
  | _ => None
  end.
Definition obind {A B} (o : option A) (f : A -> option B) : option B := match o with Some a => f a | None => None end.
Fixpoint ev (e : expr) : option av :=
  match e with
  | EVar i => if ((3 <=? i) && (i <? 23))%nat%bool then dy (Z.of_nat (i - 3)) 0 else None
  | EUnit s => Some (Dy (sgnZ s) 0)
  | EAdd a b => obind (ev a) (fun p => obind (ev b) (addv p))
  | ESub a b => obind (ev a) (fun p => obind (ev b) (subv p))
  | EMul a b => obind (ev a) (fun p => obind (ev b) (mulv p))
  | EDiv a n => obind (ev a) (fun p => divv p n)
  | _ => None
  end.
(* the formula j at the node k *)
Definition formula_at (e : elem) (f : func) (k j : nat) : expr := text EAdd ESub EMul EDiv intE e f (nodeT EDiv intE e k) (fun _ => EVar 100) j.
Definition delta (k j : nat) : Z := if Nat.eqb k j then 1 else 0.
Definition nodes_ok (e : elem) : bool :=
  forallb (fun k => forallb (fun j => match ev (formula_at e Shape k j) with Some (Dy m 0) => (m =? delta k j)%Z | _ => false end) (seq 0 (nodes_of e))) (seq 0 (nodes_of e)).
Definition exact_ok (e : elem) (f : func) : bool :=
  forallb (fun k => forallb (fun j => match ev (formula_at e f k j) with Some (Dy m _) => true | _ => false end) (seq 0 (nodes_of e))) (seq 0 (nodes_of e)).

Section Sound.
Variables prec emax : Z.
Hypothesis Hf : format prec emax.
Hypothesis H8 : (8 <= prec)%Z.
Let Hprec : (1 < prec)%Z. Proof. lia. Qed.
Let Hem : (prec < emax)%Z. Proof. destruct Hf; lia. Qed.
Variables T Z W V : R.
Hypothesis TH : thirds prec emax T Z W V.
Notation ap z v := (exists err, approx prec emax z v err).
Definition val (a : av) (x : R) : Prop :=
  match a with
  | Dy m k => (0 <= k <= 8)%Z /\ x = IZR m * pw (- k)
  | Ti s => x = sgnR s * T
  | Sq => x = Z
  | Wn => x = W
  | Vn => x = V
  | Ba b => Rabs x <= IZR b
  end.
Definition sound (a : av) (z : spec_float) : Prop := fin z = true /\ number prec emax z /\ val a (FR z).
Lemma good_sound a z x : good prec emax z x -> val a x -> sound a z.
Proof. intros (F & N & E) H. unfold sound. rewrite E. auto. Qed.
Lemma sgnZ_IZR s : IZR (sgnZ s) = sgnR s. Proof. destruct s; reflexivity. Qed.
Lemma isfl_dy m k : (Z.abs m < 256)%Z -> (0 <= k <= 8)%Z -> isfl prec emax (IZR m * pw (- k)).
Proof.
  intros Hm Hk. destruct Hf as [_ Hm2]. assert (P : (256 <= 2 ^ prec)%Z) by (change 256%Z with (2 ^ 8)%Z; apply Z.pow_le_mono_r; lia).
  destruct (Z_lt_ge_dec 0 m) as [L|L]; [apply isfl_scaled; try assumption; unfold emin; lia|].
  destruct (Z.eq_dec m 0) as [->|N]; [rewrite Rmult_0_l; apply isfl_0|]. replace (IZR m * pw (- k)) with (- (IZR (- m) * pw (- k))) by (rewrite opp_IZR; ring).
  apply isfl_opp, isfl_scaled; try assumption; unfold emin; lia.
Qed.
Lemma exact_good z x : ap z x -> isfl prec emax x -> good prec emax z x.
Proof. intros [err A] I. destruct (approx_exact prec emax _ _ _ A I) as [F E]. repeat split; [exact F|exact (approx_valid prec emax _ _ _ A)|exact E]. Qed.
Lemma reduce_spec n m k m' k' : (0 <= k)%Z -> reduce n m k = (m', k') -> (0 <= k' <= k)%Z /\ IZR m * pw (- k) = IZR m' * pw (- k').
Proof.
  revert m k. induction n; cbn [reduce]; intros m k Hk E; [injection E as <- <-; split; [lia|reflexivity]|].
  destruct (Z.even m && (0 <? k)%Z)%bool eqn:B; [|injection E as <- <-; split; [lia|reflexivity]]. apply andb_true_iff in B. destruct B as [B1 B2]. apply Z.ltb_lt in B2.
  apply IHn in E; [|lia]. destruct E as [E1 E2]. split; [lia|]. rewrite <- E2. apply Z.even_spec in B1. destruct B1 as [r ->]. rewrite Z.div2_div. rewrite Z.mul_comm, Z.div_mul by lia. rewrite mult_IZR.
  replace (- (k - 1))%Z with (- k + 1)%Z by lia. rewrite pw_add, pw_1. ring.
Qed.
Lemma dy_sound m k a z : dy m k = Some a -> ap z (IZR m * pw (- k)) -> sound a z.
Proof.
  unfold dy. destruct ((Z.abs m <? 256) && (0 <=? k) && (k <=? 8))%Z%bool eqn:B; [|discriminate]. rewrite !andb_true_iff, Z.ltb_lt, !Z.leb_le in B. destruct B as [[B1 B2] B3].
  destruct (reduce 9 m k) as [m' k'] eqn:R. intros [= <-] A. destruct (reduce_spec _ _ _ _ _ B2 R) as [K E].
  eapply good_sound; [apply exact_good; [exact A|apply isfl_dy; lia]|]. cbn [val]. split; [lia|exact E].
Qed.
Lemma small_sound b a z x : ba b = Some a -> ap z x -> Rabs x <= IZR b -> sound a z.
Proof.
  unfold ba. destruct (Z.ltb_spec b 256) as [B|B]; [|discriminate]. intros [= <-] [err A] L. assert (B0 : (0 <= b)%Z) by (apply le_IZR; pose proof (Rabs_pos x); lra).
  pose proof (isfl_dy b 0 ltac:(lia) ltac:(lia)) as I1. pose proof (isfl_dy (- b) 0 ltac:(lia) ltac:(lia)) as I2. change (- 0)%Z with 0%Z in I1, I2. rewrite pw_0, Rmult_1_r in I1, I2. rewrite opp_IZR in I2.
  pose proof (approx_valid prec emax _ _ _ A) as Vz. apply Rabs_le_inv in L.
  destruct A as [_ [(F & _ & _ & N)|(s & -> & _ & N)]].
  - repeat split; [exact F|exact Vz|]. cbn [val]. pose proof (N _ I1) as N1. pose proof (N _ I2) as N2. unfold Rabs in *. repeat destruct Rcase_abs; lra.
  - exfalso. destruct s; [specialize (N _ I2)|specialize (N _ I1)]; cbn [sgnR] in N; lra.
Qed.
Lemma mag_val a x : val a x -> Rabs x <= IZR (mag a).
Proof.
  destruct TH as (BT & BZ & BW & BV & _). destruct a; cbn [val mag]; intros H.
  - destruct H as [K ->]. rewrite Rabs_mult, (Rabs_right (pw (- k))) by (left; apply pw_pos). rewrite <- abs_IZR, plus_IZR.
    assert (P : (0 < 2 ^ k)%Z) by (apply Z.pow_pos_nonneg; lia). pose proof (Z.div_mod (Z.abs m) (2 ^ k) ltac:(lia)) as D. pose proof (Z.mod_pos_bound (Z.abs m) (2 ^ k) P) as M.
    assert (L : (Z.abs m <= 2 ^ k * (Z.abs m / 2 ^ k + 1))%Z) by lia. apply IZR_le in L. rewrite mult_IZR, pw_Z, plus_IZR in L by lia.
    apply (Rmult_le_compat_r (pw (- k))) in L; [|left; apply pw_pos]. pose proof (pw_inv k) as I. eapply Rle_trans; [exact L|]. right. transitivity ((pw (- k) * pw k) * (IZR (Z.abs m / 2 ^ k) + 1)); [ring|rewrite I; ring].
  - rewrite H. destruct s; cbn [sgnR]; unfold Rabs; destruct Rcase_abs; lra.
  - rewrite H. unfold Rabs; destruct Rcase_abs; lra.
  - rewrite H. unfold Rabs; destruct Rcase_abs; lra.
  - rewrite H. unfold Rabs; destruct Rcase_abs; lra.
  - exact H.
Qed.
Lemma zero_good z : ap z 0 -> sound (Dy 0 0) z.
Proof. intros A. apply (good_sound _ _ 0); [apply exact_good; [exact A|apply isfl_0]|]. cbn [val]. split; [lia|]. ring. Qed.
Lemma add_default a b c x y z : ba (mag a + mag b) = Some c -> val a x -> val b y -> ap z (x + y) -> sound c z.
Proof. intros B Ha Hb A. eapply small_sound; [exact B|exact A|]. rewrite plus_IZR. pose proof (mag_val _ _ Ha). pose proof (mag_val _ _ Hb). pose proof (Rabs_triang x y). lra. Qed.
Lemma mul_default a b c x y z : ba (mag a * mag b) = Some c -> val a x -> val b y -> ap z (x * y) -> sound c z.
Proof. intros B Ha Hb A. eapply small_sound; [exact B|exact A|]. rewrite mult_IZR, Rabs_mult. pose proof (mag_val _ _ Ha). pose proof (mag_val _ _ Hb). apply Rmult_le_compat; try assumption; apply Rabs_pos. Qed.
Ltac test := match goal with |- context [if ?b then _ else _] => let B := fresh "B" in destruct b eqn:B; rewrite ?andb_true_iff, ?Z.eqb_eq, ?Z.leb_le in B end.
Lemma scale m k K : (0 <= k <= K)%Z -> IZR (m * 2 ^ (K - k)) * pw (- K) = IZR m * pw (- k).
Proof. intros H. rewrite mult_IZR, pw_Z by lia. rewrite Rmult_assoc, <- pw_add. f_equal. f_equal. lia. Qed.
Lemma ap_eq z x y : ap z x -> x = y -> ap z y. Proof. intros A <-. exact A. Qed.
Lemma addv_sound a b c x y z : addv a b = Some c -> val a x -> val b y -> ap z (x + y) -> sound c z.
Proof.
  intros E Ha Hb A. destruct TH as (_ & _ & _ & _ & _ & _ & _ & _ & TW & _).
  assert (Y : a = Sq -> b = Dy 1 0 -> c = Wn -> sound c z) by (intros -> -> ->; cbn [val] in *; destruct Hb as [_ ->]; subst x; eapply good_sound; [apply TW; eapply ap_eq; [exact A|]; change (- 0)%Z with 0%Z; rewrite pw_0; ring|reflexivity]).
  assert (X : a = Dy 1 0 -> b = Sq -> c = Wn -> sound c z) by (intros -> -> ->; cbn [val] in *; destruct Ha as [_ ->]; subst y; eapply good_sound; [apply TW; eapply ap_eq; [exact A|]; change (- 0)%Z with 0%Z; rewrite pw_0; ring|reflexivity]).
  destruct a, b; cbn [addv] in E; try (eapply add_default; [exact E|exact Ha|exact Hb|exact A]).
  - cbn [val] in Ha, Hb. destruct Ha as [K1 ->], Hb as [K2 ->]. eapply dy_sound; [exact E|]. destruct A as [err A]. exists err. rewrite plus_IZR, Rmult_plus_distr_r, !scale by lia. exact A.
  - revert E. test; [|intros E; eapply add_default; [exact E|exact Ha|exact Hb|exact A]]. intros [= <-]. destruct B as [-> ->]. apply X; reflexivity.
  - revert E. test; [|intros E; eapply add_default; [exact E|exact Ha|exact Hb|exact A]]. intros [= <-]. destruct B as [-> ->]. apply Y; reflexivity.
Qed.
Lemma val_opp b y : val b y -> Rabs (- y) <= IZR (mag b). Proof. intros H. rewrite Rabs_Ropp. apply mag_val, H. Qed.
Lemma sub_default a b c x y z : ba (mag a + mag b) = Some c -> val a x -> val b y -> ap z (x - y) -> sound c z.
Proof. intros B Ha Hb A. eapply small_sound; [exact B|exact A|]. rewrite plus_IZR. pose proof (mag_val _ _ Ha). pose proof (val_opp _ _ Hb). pose proof (Rabs_triang x (- y)). unfold Rminus. lra. Qed.
Lemma subv_sound a b c x y z : subv a b = Some c -> val a x -> val b y -> ap z (x - y) -> sound c z.
Proof.
  intros E Ha Hb A. destruct TH as (_ & _ & _ & _ & _ & _ & _ & _ & _ & _ & TV & _).
  assert (X : a = Dy 1 0 -> b = Sq -> c = Vn -> sound c z) by (intros -> -> ->; cbn [val] in *; destruct Ha as [_ ->]; subst y; eapply good_sound; [apply TV; eapply ap_eq; [exact A|]; change (- 0)%Z with 0%Z; rewrite pw_0; ring|reflexivity]).
  destruct a, b; cbn [subv] in E; try (eapply sub_default; [exact E|exact Ha|exact Hb|exact A]).
  - cbn [val] in Ha, Hb. destruct Ha as [K1 ->], Hb as [K2 ->]. eapply dy_sound; [exact E|]. destruct A as [err A]. exists err. rewrite minus_IZR. replace ((IZR (m * 2 ^ (Z.max k k0 - k)) - IZR (m0 * 2 ^ (Z.max k k0 - k0))) * pw (- Z.max k k0)) with (IZR (m * 2 ^ (Z.max k k0 - k)) * pw (- Z.max k k0) - IZR (m0 * 2 ^ (Z.max k k0 - k0)) * pw (- Z.max k k0)) by ring. rewrite !scale by lia. exact A.
  - revert E. test; [|intros E; eapply sub_default; [exact E|exact Ha|exact Hb|exact A]]. intros [= <-]. destruct B as [-> ->]. apply X; reflexivity.
Qed.
Lemma isfl_third s : isfl prec emax (sgnR s * T).
Proof.
  destruct TH as (_ & _ & _ & _ & TT & _). assert (E : exists z, ap z (sgnR false * (1 / 3))).
  { destruct (of_int_exact prec emax Hprec (proj2 Hf) 3) as (F3 & V3 & R3); [split; [lia|apply Z.lt_le_trans with (2 ^ 8)%Z; [reflexivity|apply Z.pow_le_mono_r; lia]]|].
    destruct (unit_exact prec emax Hf false) as (F1 & V1 & R1). exists (SFdiv prec emax (of_int prec emax 1) (of_int prec emax 3)). eexists.
    pose proof (div_correct prec emax Hprec Hem _ _ F1 F3 V1 V3 ltac:(rewrite R3; lra)) as D. rewrite R1, R3 in D. cbn [sgnR] in *. replace (1 * (1 / 3)) with (1 / 3) by field. exact D. }
  destruct E as [z A]. destruct (TT _ _ A) as (F & N & E). cbn [sgnR] in E. rewrite Rmult_1_l in E. destruct s; cbn [sgnR]; [replace (-1 * T) with (- T) by ring; apply isfl_opp|rewrite Rmult_1_l]; rewrite <- E; apply isfl_FR; assumption.
Qed.
Lemma mulv_sound a b c x y z : mulv a b = Some c -> val a x -> val b y -> ap z (x * y) -> sound c z.
Proof.
  intros E Ha Hb A. pose proof TH as (_ & _ & _ & _ & _ & T9 & T3 & TS & _ & TW & _ & TV).
  destruct a, b; cbn [mulv] in E; try (eapply mul_default; [exact E|exact Ha|exact Hb|exact A]).
  - cbn [val] in Ha, Hb. destruct Ha as [K1 ->], Hb as [K2 ->]. eapply dy_sound; [exact E|]. eapply ap_eq; [exact A|]. rewrite mult_IZR, Z.opp_add_distr, pw_add. ring.
  - revert E. cbn [val] in Ha, Hb. destruct Ha as [K1 Ha].
    test; [intros [= <-]; apply zero_good; eapply ap_eq; [exact A|]; subst; ring|].
    test; [intros [= <-]; destruct B0 as [-> ->]; eapply good_sound; [apply exact_good; [exact A|]; rewrite Ha, Hb; change (- 0)%Z with 0%Z; rewrite pw_0, !Rmult_1_l; apply isfl_third|cbn [val]; rewrite Ha, Hb; change (- 0)%Z with 0%Z; rewrite pw_0; ring]|].
    test; [intros [= <-]; destruct B1 as [-> ->]; assert (EQ : x * y = sgnR (negb s) * T) by (rewrite Ha, Hb; change (- 0)%Z with 0%Z; rewrite pw_0; destruct s; cbn; ring); eapply good_sound; [apply exact_good; [exact A|]; rewrite EQ; apply isfl_third|cbn [val]; exact EQ]|].
    test; [intros [= <-]; destruct B2 as [-> ->]; eapply good_sound; [apply (T9 s); eapply ap_eq; [exact A|]; rewrite Ha, Hb; change (- 0)%Z with 0%Z; rewrite pw_0; ring|cbn [val]; split; [lia|]; change (- 0)%Z with 0%Z; rewrite pw_0, mult_IZR, sgnZ_IZR; ring]|].
    test; [intros [= <-]; destruct B3 as [-> ->]; eapply good_sound; [apply (T3 s); eapply ap_eq; [exact A|]; rewrite Ha, Hb; change (- 0)%Z with 0%Z; rewrite pw_0; ring|cbn [val]; split; [lia|]; change (- 0)%Z with 0%Z; rewrite pw_0, sgnZ_IZR; ring]|].
    test; [intros [= <-]; destruct B4 as [-> ->]; eapply good_sound; [apply (T3 (negb s)); eapply ap_eq; [exact A|]; rewrite Ha, Hb; change (- 0)%Z with 0%Z; rewrite pw_0; destruct s; cbn; ring|cbn [val]; split; [lia|]; change (- 0)%Z with 0%Z; rewrite pw_0, sgnZ_IZR; ring]|].
    intros E. eapply mul_default; [exact E| | |exact A]; cbn [val]; auto.
  - revert E. test; [intros [= <-]; apply zero_good; cbn [val] in Ha; destruct Ha as [_ Ha]; eapply ap_eq; [exact A|]; rewrite Ha, B; ring|]. intros E; eapply mul_default; [exact E|exact Ha|exact Hb|exact A].
  - revert E. cbn [val] in Ha, Hb. destruct Ha as [K1 Ha]. test; [intros [= <-]; apply zero_good; eapply ap_eq; [exact A|]; rewrite Ha, B; ring|].
    test; [intros [= <-]; destruct B0 as [-> ->]; eapply good_sound; [apply TW; eapply ap_eq; [exact A|]; rewrite Ha, Hb; change (- 0)%Z with 0%Z; rewrite pw_0; ring|cbn [val]; split; [lia|]; change (- 0)%Z with 0%Z; rewrite pw_0; ring]|].
    intros E. eapply mul_default; [exact E| | |exact A]; cbn [val]; auto.
  - revert E. cbn [val] in Ha, Hb. destruct Ha as [K1 Ha]. test; [intros [= <-]; apply zero_good; eapply ap_eq; [exact A|]; rewrite Ha, B; ring|].
    test; [|intros E; eapply mul_default; [exact E| | |exact A]; cbn [val]; auto].
    destruct B0 as [[-> _] _]. intros E. assert (Gd : good prec emax z (8 * pw (- k))) by (apply TV; [exact K1|]; eapply ap_eq; [exact A|]; rewrite Ha, Hb; reflexivity).
    destruct Gd as (F & N & EZ). revert E. unfold dy. destruct ((Z.abs 8 <? 256) && (0 <=? k) && (k <=? 8))%Z%bool; [|discriminate]. destruct (reduce 9 8 k) as [m' k'] eqn:R. intros [= <-].
    destruct (reduce_spec _ _ _ _ _ (proj1 K1) R) as [K E2]. repeat split; try assumption; cbn [val]; [lia|lia|rewrite EZ; exact E2].
  - revert E. test; [intros [= <-]; apply zero_good; cbn [val] in Ha; destruct Ha as [_ Ha]; eapply ap_eq; [exact A|]; rewrite Ha, B; ring|]. intros E; eapply mul_default; [exact E|exact Ha|exact Hb|exact A].
  - revert E. cbn [val] in Ha, Hb. destruct Hb as [K1 Hb].
    test; [intros [= <-]; apply zero_good; eapply ap_eq; [exact A|]; rewrite Hb, B; ring|].
    test; [intros [= <-]; destruct B0 as [-> ->]; assert (EQ : x * y = sgnR s * T) by (rewrite Ha, Hb; change (- 0)%Z with 0%Z; rewrite pw_0; ring); eapply good_sound; [apply exact_good; [exact A|]; rewrite EQ; apply isfl_third|cbn [val]; exact EQ]|].
    test; [intros [= <-]; destruct B1 as [-> ->]; assert (EQ : x * y = sgnR (negb s) * T) by (rewrite Ha, Hb; change (- 0)%Z with 0%Z; rewrite pw_0; destruct s; cbn; ring); eapply good_sound; [apply exact_good; [exact A|]; rewrite EQ; apply isfl_third|cbn [val]; exact EQ]|].
    intros E. eapply mul_default; [exact E| | |exact A]; cbn [val]; auto.
  - revert E. cbn [val] in Ha, Hb. destruct (eqb s s0) eqn:B; [|intros E; eapply mul_default; [exact E| | |exact A]; cbn [val]; auto]. apply eqb_prop in B. subst s0. intros [= <-].
    eapply good_sound; [apply TS; eapply ap_eq; [exact A|]; rewrite Ha, Hb; destruct s; cbn; ring|reflexivity].
  - revert E. test; [intros [= <-]; apply zero_good; cbn [val] in Hb; destruct Hb as [_ Hb]; eapply ap_eq; [exact A|]; rewrite Hb, B; ring|]. intros E; eapply mul_default; [exact E|exact Ha|exact Hb|exact A].
  - revert E. test; [intros [= <-]; apply zero_good; cbn [val] in Hb; destruct Hb as [_ Hb]; eapply ap_eq; [exact A|]; rewrite Hb, B; ring|]. intros E; eapply mul_default; [exact E|exact Ha|exact Hb|exact A].
  - revert E. test; [intros [= <-]; apply zero_good; cbn [val] in Hb; destruct Hb as [_ Hb]; eapply ap_eq; [exact A|]; rewrite Hb, B; ring|]. intros E; eapply mul_default; [exact E|exact Ha|exact Hb|exact A].
  - revert E. test; [intros [= <-]; apply zero_good; cbn [val] in Hb; destruct Hb as [_ Hb]; eapply ap_eq; [exact A|]; rewrite Hb, B; ring|]. intros E; eapply mul_default; [exact E|exact Ha|exact Hb|exact A].
Qed.
Lemma int_good n : (-1 <= n < 20)%Z -> good prec emax (of_int prec emax n) (IZR n).
Proof.
  intros Hn. assert (P : (256 <= 2 ^ prec)%Z) by (change 256%Z with (2 ^ 8)%Z; apply Z.pow_le_mono_r; lia).
  destruct (Z.eq_dec n 0) as [->|N0]; [repeat split|]. destruct (Z.eq_dec n (-1)) as [->|N1]; [destruct (unit_exact prec emax Hf true) as (F & N & E); repeat split; assumption|].
  destruct (of_int_exact prec emax Hprec (proj2 Hf) n) as (F & V0 & E); [lia|]. repeat split; assumption.
Qed.
Lemma pow_good n : (0 < n < 256)%Z -> good prec emax (of_int prec emax n) (IZR n).
Proof.
  intros Hn. assert (P : (256 <= 2 ^ prec)%Z) by (change 256%Z with (2 ^ 8)%Z; apply Z.pow_le_mono_r; lia).
  destruct (of_int_exact prec emax Hprec (proj2 Hf) n) as (F & V0 & E); [lia|]. repeat split; assumption.
Qed.
Lemma div_sound a n c y : divv a n = Some c -> sound a y -> sound c (SFdiv prec emax y (of_int prec emax n)).
Proof.
  intros E (F & N & Va). pose proof TH as (_ & _ & _ & _ & TT & _). destruct a; cbn [divv] in E; try discriminate. cbn [val] in Va. destruct Va as [K Va]. revert E.
  destruct (Z.eqb_spec n 3) as [->|N3].
  - destruct (pow_good 3 ltac:(lia)) as (F3 & V3 & R3).
    pose proof (div_correct prec emax Hprec Hem _ _ F F3 N V3 ltac:(rewrite R3; lra)) as D. rewrite R3 in D.
    test; [intros [= <-]; destruct B as [-> ->]; eapply good_sound; [apply (TT false); eexists; replace (sgnR false * (1 / 3)) with (FR y / 3) by (rewrite Va; change (- 0)%Z with 0%Z; rewrite pw_0; cbn; field); exact D|reflexivity]|].
    test; [intros [= <-]; destruct B0 as [-> ->]; eapply good_sound; [apply (TT true); eexists; replace (sgnR true * (1 / 3)) with (FR y / 3) by (rewrite Va; change (- 0)%Z with 0%Z; rewrite pw_0; cbn; field); exact D|reflexivity]|].
    discriminate.
  - destruct ((0 <? n) && (n =? 2 ^ Z.log2 n) && (n <? 256))%Z%bool eqn:B; [|discriminate]. rewrite !andb_true_iff, !Z.ltb_lt, Z.eqb_eq in B. destruct B as [[B1 B2] B3]. intros E.
    destruct (pow_good n ltac:(lia)) as (Fn & Vn0 & Rn). assert (L : (0 <= Z.log2 n)%Z) by apply Z.log2_nonneg.
    assert (Pn : IZR n = pw (Z.log2 n)) by (rewrite B2 at 1; apply pw_Z, L). pose proof (pw_pos (Z.log2 n)) as P0.
    pose proof (div_correct prec emax Hprec Hem _ _ F Fn N Vn0 ltac:(rewrite Rn, Pn; lra)) as D. eapply dy_sound; [exact E|]. eexists. replace (IZR m * pw (- (k + Z.log2 n))) with (FR y / FR (of_int prec emax n)); [exact D|].
    rewrite Rn, Va, Pn, Z.opp_add_distr, pw_add. pose proof (pw_inv (Z.log2 n)) as I. unfold Rdiv. rewrite Rmult_assoc. f_equal. f_equal. apply (Rmult_eq_reg_r (pw (Z.log2 n))); [|lra]. rewrite I. field. lra.
Qed.
Lemma ev_sound v e a : (forall n, (0 <= n < 20)%Z -> v (3 + Z.to_nat n)%nat = of_int prec emax n) -> ev e = Some a -> sound a (feval prec emax v e).
Proof.
  intros Hv. revert a. induction e; cbn [ev feval]; intros c E; try discriminate.
  - destruct ((3 <=? i) && (i <? 23))%nat%bool eqn:B; [|discriminate]. rewrite andb_true_iff, Nat.leb_le, Nat.ltb_lt in B. destruct B as [B1 B2].
    replace i with (3 + Z.to_nat (Z.of_nat (i - 3)))%nat at 1 by lia. rewrite Hv by lia. destruct (int_good (Z.of_nat (i - 3)) ltac:(lia)) as (F & N & R0).
    revert E. unfold dy. destruct ((Z.abs (Z.of_nat (i - 3)) <? 256) && (0 <=? 0) && (0 <=? 8))%Z%bool; [|discriminate]. destruct (reduce 9 (Z.of_nat (i - 3)) 0) as [m' k'] eqn:R. intros [= <-].
    destruct (reduce_spec _ _ _ _ _ (Z.le_refl 0) R) as [K E2]. repeat split; try assumption; cbn [val]; [lia|lia|]. rewrite R0, <- E2. change (- 0)%Z with 0%Z. rewrite pw_0. ring.
  - injection E as <-. destruct (unit_exact prec emax Hf s) as (F & N & R0). repeat split; try assumption; cbn [val]; [lia|lia|]. rewrite R0, sgnZ_IZR. change (- 0)%Z with 0%Z. rewrite pw_0. ring.
  - destruct (ev e1) as [p|] eqn:E1; [|discriminate]. destruct (ev e2) as [q|] eqn:E2; [|discriminate]. cbn [obind] in E. destruct (IHe1 _ eq_refl) as (F1 & N1 & V1). destruct (IHe2 _ eq_refl) as (F2 & N2 & V2).
    eapply addv_sound; [exact E|exact V1|exact V2|]. eexists. apply add_correct; assumption.
  - destruct (ev e1) as [p|] eqn:E1; [|discriminate]. destruct (ev e2) as [q|] eqn:E2; [|discriminate]. cbn [obind] in E. destruct (IHe1 _ eq_refl) as (F1 & N1 & V1). destruct (IHe2 _ eq_refl) as (F2 & N2 & V2).
    eapply subv_sound; [exact E|exact V1|exact V2|]. eexists. apply sub_correct; assumption.
  - destruct (ev e1) as [p|] eqn:E1; [|discriminate]. destruct (ev e2) as [q|] eqn:E2; [|discriminate]. cbn [obind] in E. destruct (IHe1 _ eq_refl) as (F1 & N1 & V1). destruct (IHe2 _ eq_refl) as (F2 & N2 & V2).
    eapply mulv_sound; [exact E|exact V1|exact V2|]. eexists. apply mul_correct; assumption.
  - destruct (ev e) as [p|] eqn:E1; [|discriminate]. cbn [obind] in E. eapply div_sound; [exact E|]. apply IHe. reflexivity.
Qed.
End Sound.

(** ** values at the nodes *)
Lemma felem_at prec emax e f k junk j : has e f = true -> (j < nodes_of e)%nat ->
  felem prec emax e f (fnode prec emax e k) junk j = feval prec emax (env prec emax 0 (fun _ => f0)) (formula_at e f k j).
Proof.
  intros H Hj. unfold felem, formula_at. rewrite (text_junk _ _ _ _ _ e f _ junk (fun _ => feval prec emax (env prec emax 0 (fun _ => f0)) (EVar 100)) j H Hj).
  apply (text_hom EAdd ESub EMul EDiv intE (SFadd prec emax) (SFsub prec emax) (SFmul prec emax) (fun a n => SFdiv prec emax a (of_int prec emax n)) (of_int prec emax)
    (feval prec emax (env prec emax 0 (fun _ => f0)))); try reflexivity.
  - intros n Hn. apply env_int; [lia|exact Hn].
  - intros i Hi. apply (node_hom EDiv intE (fun a n => SFdiv prec emax a (of_int prec emax n)) (of_int prec emax)); [reflexivity|intros n Hn; apply env_int; [lia|exact Hn]].
  - intros i. reflexivity.
Qed.
Definition wint (i : nat) : R := IZR (Z.of_nat (i - 3)).
Lemma wint_int n : (-1 <= n < 20)%Z -> reval wint (intE n) = IZR n.
Proof.
  intros Hn. unfold intE. destruct (Z.eqb_spec n 1) as [->|]; [reflexivity|]. destruct (Z.eqb_spec n (-1)) as [->|]; [reflexivity|].
  cbn [reval]. unfold wint. f_equal. lia.
Qed.
Lemma relem_at e f k junk j : has e f = true -> (j < nodes_of e)%nat ->
  relem e f (rnode e k) junk j = reval wint (formula_at e f k j).
Proof.
  intros H Hj. unfold relem, formula_at. rewrite (text_junk _ _ _ _ _ e f _ junk (fun _ => reval wint (EVar 100)) j H Hj).
  apply (text_hom EAdd ESub EMul EDiv intE Rplus Rminus Rmult (fun a n => a / IZR n) IZR (reval wint)); try reflexivity.
  - apply wint_int.
  - intros i Hi. apply (node_hom EDiv intE (fun a n => a / IZR n) IZR); [reflexivity|apply wint_int].
  - intros i. reflexivity.
Qed.
Lemma env0 prec emax n : (0 <= n < 20)%Z -> env prec emax 0 (fun _ => f0) (3 + Z.to_nat n)%nat = of_int prec emax n.
Proof.
  intros H. unfold env. replace (3 + Z.to_nat n <? 0)%nat with false by (symmetry; apply Nat.ltb_ge; lia). replace (3 + Z.to_nat n <? 3)%nat with false by (symmetry; apply Nat.ltb_ge; lia).
  replace (3 + Z.to_nat n <? 23)%nat with true by (symmetry; apply Nat.ltb_lt; lia). f_equal. lia.
Qed.
Lemma at_node prec emax e f k junk j m q : format prec emax -> (8 <= prec)%Z -> has e f = true -> (j < nodes_of e)%nat -> ev (formula_at e f k j) = Some (Dy m q) ->
  good prec emax (felem prec emax e f (fnode prec emax e k) junk j) (IZR m * pw (- q)).
Proof.
  intros Hf H8 H Hj E. destruct (thirds_exist prec emax Hf H8) as (T & Z & W & V & TH). rewrite (felem_at prec emax e f k junk j H Hj).
  destruct (ev_sound prec emax Hf H8 T Z W V TH _ _ _ (env0 prec emax) E) as (F & N & K & R0). repeat split; assumption.
Qed.
Lemma nodes_ok_all e : nodes_ok e = true. Proof. destruct e; vm_compute; reflexivity. Qed.
Lemma nodal_ev e k j : (k < nodes_of e)%nat -> (j < nodes_of e)%nat -> ev (formula_at e Shape k j) = Some (Dy (delta k j) 0).
Proof.
  intros Hk Hj. pose proof (nodes_ok_all e) as N. unfold nodes_ok in N. rewrite forallb_forall in N. specialize (N k ltac:(apply in_seq; lia)). cbv beta in N. rewrite forallb_forall in N.
  specialize (N j ltac:(apply in_seq; lia)). cbv beta in N. destruct (ev (formula_at e Shape k j)) as [[m [|q|q]| | | | |]|]; try discriminate. apply Z.eqb_eq in N. subst m. reflexivity.
Qed.
(** formulas all of whose subformulas are small dyadic numbers are computed exactly *)
Definition isdy (e : expr) : bool := match ev e with Some (Dy _ _) => true | _ => false end.
Fixpoint alldy (e : expr) : bool :=
  isdy e && match e with
  | EAdd a b | ESub a b | EMul a b => alldy a && alldy b
  | EDiv a _ => alldy a
  | _ => true
  end.
Lemma dy_val m k a : dy m k = Some a -> exists m' k', a = Dy m' k' /\ (0 <= k')%Z /\ IZR m' * pw (- k') = IZR m * pw (- k).
Proof.
  unfold dy. destruct ((Z.abs m <? 256) && (0 <=? k) && (k <=? 8))%Z%bool eqn:B; [|discriminate]. rewrite !andb_true_iff, !Z.leb_le in B. destruct (reduce 9 m k) as [m' k'] eqn:R. intros [= <-].
  destruct (reduce_spec _ _ _ _ _ (proj2 (proj1 B)) R) as [K E]. exists m', k'. repeat split; [lia|]. symmetry. exact E.
Qed.
Lemma alldy_reval e : alldy e = true -> exists m k, ev e = Some (Dy m k) /\ (0 <= k)%Z /\ reval wint e = IZR m * pw (- k).
Proof.
  induction e; cbn [alldy]; rewrite ?andb_true_iff; intros H.
  - destruct H as [H _]. unfold isdy in H. cbn [ev] in *. destruct ((3 <=? i) && (i <? 23))%nat%bool; [|discriminate]. destruct (dy _ 0) as [a|] eqn:D; [|discriminate].
    destruct (dy_val _ _ _ D) as (m & k & -> & K & E). exists m, k. repeat split; [exact K|]. rewrite E. cbn [reval]. unfold wint. change (- 0)%Z with 0%Z. rewrite pw_0. ring.
  - exists (sgnZ s), 0%Z. repeat split; [lia|]. change (- 0)%Z with 0%Z. rewrite pw_0. cbn. destruct s; cbn; ring.
  - destruct H as [H [H1 H2]]. destruct (IHe1 H1) as (m & k & E1 & K1 & R1), (IHe2 H2) as (n & l & E2 & K2 & R2). unfold isdy in H. cbn [ev obind reval] in *. rewrite E1, E2 in *. cbn [obind addv] in *.
    destruct (dy _ _) as [a|] eqn:D; [|discriminate]. destruct (dy_val _ _ _ D) as (m' & k' & -> & K & E). exists m', k'. repeat split; [exact K|]. rewrite E, R1, R2, plus_IZR, Rmult_plus_distr_r, !scale by lia. reflexivity.
  - destruct H as [H [H1 H2]]. destruct (IHe1 H1) as (m & k & E1 & K1 & R1), (IHe2 H2) as (n & l & E2 & K2 & R2). unfold isdy in H. cbn [ev obind reval] in *. rewrite E1, E2 in *. cbn [obind subv] in *.
    destruct (dy _ _) as [a|] eqn:D; [|discriminate]. destruct (dy_val _ _ _ D) as (m' & k' & -> & K & E). exists m', k'. repeat split; [exact K|]. rewrite E, R1, R2, minus_IZR, Rmult_minus_distr_r, !scale by lia. reflexivity.
  - destruct H as [H [H1 H2]]. destruct (IHe1 H1) as (m & k & E1 & K1 & R1), (IHe2 H2) as (n & l & E2 & K2 & R2). unfold isdy in H. cbn [ev obind reval] in *. rewrite E1, E2 in *. cbn [obind mulv] in *.
    destruct (dy _ _) as [a|] eqn:D; [|discriminate]. destruct (dy_val _ _ _ D) as (m' & k' & -> & K & E). exists m', k'. repeat split; [exact K|]. rewrite E, R1, R2, mult_IZR, Z.opp_add_distr, pw_add. ring.
  - destruct H as [H H1]. unfold isdy in H. cbn [ev] in H. discriminate.
  - destruct H as [H H1]. unfold isdy in H. cbn [ev] in H. discriminate.
  - destruct H as [H H1]. unfold isdy in H. cbn [ev] in H. discriminate.
  - destruct H as [H H1]. destruct (IHe H1) as (m & k & E1 & K1 & R1). unfold isdy in H. cbn [ev obind reval] in *. rewrite E1 in *. cbn [obind divv] in *.
    destruct (n =? 3)%Z; [repeat (destruct (_ && _)%bool; try discriminate)|].
    destruct ((0 <? n) && (n =? 2 ^ Z.log2 n) && (n <? 256))%Z%bool eqn:B; [|discriminate]. rewrite !andb_true_iff, !Z.ltb_lt, Z.eqb_eq in B. destruct B as [[B1 B2] B3].
    destruct (dy _ _) as [a|] eqn:D; [|discriminate]. destruct (dy_val _ _ _ D) as (m' & k' & -> & K & E). exists m', k'. repeat split; [exact K|]. rewrite E, R1.
    assert (Pn : IZR n = pw (Z.log2 n)) by (rewrite B2 at 1; apply pw_Z, Z.log2_nonneg). rewrite Pn, Z.opp_add_distr, pw_add. pose proof (pw_inv (Z.log2 n)) as I. pose proof (pw_pos (Z.log2 n)).
    unfold Rdiv. rewrite Rmult_assoc. f_equal. f_equal. apply (Rmult_eq_reg_r (pw (Z.log2 n))); [|lra]. rewrite Rinv_l by lra. lra.
Qed.
Definition all_dyadic (e : elem) (f : func) : bool :=
  forallb (fun k => forallb (fun j => alldy (formula_at e f k j)) (seq 0 (nodes_of e))) (seq 0 (nodes_of e)).
Lemma dyadic_at prec emax e f k junk junk' j : format prec emax -> (8 <= prec)%Z -> has e f = true -> all_dyadic e f = true -> (k < nodes_of e)%nat -> (j < nodes_of e)%nat ->
  good prec emax (felem prec emax e f (fnode prec emax e k) junk j) (relem e f (rnode e k) junk' j).
Proof.
  intros Hf H8 H N Hk Hj. unfold all_dyadic in N. rewrite forallb_forall in N. specialize (N k ltac:(apply in_seq; lia)). cbv beta in N. rewrite forallb_forall in N.
  specialize (N j ltac:(apply in_seq; lia)). cbv beta in N. destruct (alldy_reval _ N) as (m & q & E & _ & R0). rewrite (relem_at e f k junk' j H Hj), R0. apply at_node; assumption.
Qed.

(** ** accuracy *)
Definition bound (e : elem) (f : func) : Z :=
  match e, f with
  | Quad4, Shape => 8 | Quad4, _ => 3
  | Quad8, Shape => 35 | Quad8, _ => 15
  | Quad12, Shape => 58 | Quad12, _ => 100
  | Hex8, Shape => 11 | Hex8, _ => 5
  | Hex20, Shape => 81 | Hex20, _ => 38
  | Hex32, Shape => 103 | Hex32, _ => 128
  end.
Definition within (e : elem) (f : func) : bool :=
  forallb (fun j => let t := formula e f j in qdiv t && qrange t && Qle_bool (qerr t) (inject_Z (bound e f)))%bool (seq 0 (nodes_of e)).
Lemma within_all e f : has e f = true -> within e f = true.
Proof. destruct e, f; intros H; try discriminate H; vm_compute; reflexivity. Qed.
Section Accuracy.
Variables prec emax : Z.
Hypothesis Hf : format prec emax.
Hypothesis H8 : (8 <= prec)%Z.
Variable D : nat.
Variable x : nat -> spec_float.
Hypothesis HD : (D <= 3)%nat.
Hypothesis Hx : forall i, (i < D)%nat -> number prec emax (x i) /\ fin (x i) = true /\ Rabs (FR (x i)) <= 1.
Lemma env_good i : number prec emax (env prec emax D x i) /\ fin (env prec emax D x i) = true /\ ((i < 23)%nat -> Rabs (FR (env prec emax D x i)) <= Q2R (qenv i)).
Proof.
  unfold env, qenv. destruct (Nat.ltb_spec i D) as [L|L].
  - destruct (Hx i L) as (N & F & B). repeat split; try assumption. intros _. replace (i <? 3)%nat with true by (symmetry; apply Nat.ltb_lt; lia). rewrite Q2R_1. exact B.
  - destruct (Nat.ltb_spec i 3) as [L3|L3]; [repeat split; intros _; rewrite Q2R_1; cbn; rewrite Rabs_R0; lra|].
    destruct (Nat.ltb_spec i 23) as [L23|L23]; [|repeat split; intros; lia].
    destruct (int_good prec emax Hf H8 (Z.of_nat (i - 3)) ltac:(lia)) as (F & N & R0). repeat split; try assumption. intros _. rewrite R0, Q2R_Z, Rabs_pos_eq by (apply IZR_le; lia). lra.
Qed.
Lemma accuracy e f junk junk' j : dims_of e = D -> has e f = true -> (j < nodes_of e)%nat ->
  fin (felem prec emax e f x junk j) = true /\ number prec emax (felem prec emax e f x junk j) /\
  Rabs (FR (felem prec emax e f x junk j) - relem e f (fun i => FR (x i)) junk' j) <= IZR (bound e f) * uu prec.
Proof.
  intros ED H Hj. pose proof (within_all e f H) as Wn0. unfold within in Wn0. rewrite forallb_forall in Wn0. specialize (Wn0 j ltac:(apply in_seq; lia)). cbv beta zeta in Wn0.
  rewrite !andb_true_iff in Wn0. destruct Wn0 as [[W1 W2] W3].
  rewrite (felem_formula prec emax e f x junk j H Hj). rewrite ED.
  rewrite (relem_formula e f _ junk' j (fun i => FR (env prec emax D x i)) H Hj).
  - destruct (expr_error prec emax Hf H8 (env prec emax D x) (fun i => proj1 (env_good i)) (fun i => proj1 (proj2 (env_good i))) (fun i => proj2 (proj2 (env_good i))) _ W1 W2) as [F E].
    split; [exact F|]. split; [apply feval_valid; [exact Hf|intros; apply env_good|apply (qdiv_divisors prec H8), W1]|]. eapply Rle_trans; [exact E|]. apply Rmult_le_compat_r; [apply Rlt_le, u_pos|]. rewrite <- Q2R_Z. apply Qle_bool_R, W3.
  - intros i Hi. f_equal. apply env_x. rewrite <- ED. exact Hi.
  - intros n Hn _. unfold env. replace (3 + Z.to_nat n <? D)%nat with false by (symmetry; apply Nat.ltb_ge; lia). replace (3 + Z.to_nat n <? 3)%nat with false by (symmetry; apply Nat.ltb_ge; lia).
    replace (3 + Z.to_nat n <? 23)%nat with true by (symmetry; apply Nat.ltb_lt; lia). replace (Z.of_nat (3 + Z.to_nat n - 3)) with n by lia. apply (int_good prec emax Hf H8 n). lia.
Qed.
End Accuracy.

(** ** sums against the basis: physical positions and rows of Jacobians *)
Definition amp (e : elem) (f : func) : Z :=
  match e, f with
  | Quad4, _ => 1
  | Quad8, Shape => 3 | Quad8, _ => 2
  | Quad12, Shape => 5 | Quad12, _ => 8
  | Hex8, _ => 1
  | Hex20, Shape => 5 | Hex20, _ => 3
  | Hex32, Shape => 6 | Hex32, _ => 8
  end.
Definition ipol (e : elem) (f : func) : Z :=
  match e, f with
  | Quad4, Shape => 49 | Quad4, _ => 29
  | Quad8, Shape => 488 | Quad8, _ => 256
  | Quad12, Shape => 1486 | Quad12, _ => 2468
  | Hex8, Shape => 157 | Hex8, _ => 108
  | Hex20, Shape => 3927 | Hex20, _ => 2127
  | Hex32, Shape => 10789 | Hex32, _ => 14044
  end.
Lemma amp_all e f : has e f = true -> forallb (fun j => Qle_bool (qa (formula e f j)) (inject_Z (amp e f))) (seq 0 (nodes_of e)) = true.
Proof. destruct e, f; intros H; try discriminate H; vm_compute; reflexivity. Qed.
Lemma tables e f : let n := Z.of_nat (nodes_of e) in let A := amp e f in let K := bound e f in
  (n <= 32 /\ 0 < K /\ 0 < A /\ n * n * (256 * A + K) + n * K * (256 - n) <= ipol e f * (256 - n) /\ n * (256 * A + K) <= 400 * (255 - n))%Z.
Proof. destruct e, f; cbn; lia. Qed.
Lemma sum_sumR n (f : nat -> R) : sum n f = sumR (map f (seq 0 n)).
Proof. induction n; [reflexivity|]. rewrite seq_S, map_app, sumR_app, Nat.add_0_l. change (sum (S n) f) with (sum n f + f n). rewrite IHn. cbn. ring. Qed.
Lemma sumR_const {A} (l : list A) (f : A -> R) c : (forall x, In x l -> f x <= c) -> sumR (map f l) <= INR (length l) * c.
Proof.
  intros H. eapply Rle_trans; [apply (sumR_le f (fun _ => c)); exact H|]. clear H. induction l; [cbn; lra|]. cbn [map]. rewrite sumR_cons. change (length (a :: l)) with (S (length l)). rewrite S_INR. lra.
Qed.
Lemma sumR_minus {A} (l : list A) (f g : A -> R) : sumR (map f l) - sumR (map g l) = sumR (map (fun x => f x - g x) l).
Proof. induction l; [cbn; ring|]. cbn [map]. rewrite !sumR_cons, <- IHl. ring. Qed.
Section Interp.
Variables prec emax : Z.
Hypothesis Hf : format prec emax.
Hypothesis H8 : (8 <= prec)%Z.
Variables (e : elem) (f : func) (x : nat -> spec_float).
Hypothesis He : has e f = true.
Hypothesis Hx : forall i, (i < dims_of e)%nat -> number prec emax (x i) /\ fin (x i) = true /\ Rabs (FR (x i)) <= 1.
Notation u := (uu prec).
Lemma amplitude junk j : (j < nodes_of e)%nat -> Rabs (relem e f (fun i => FR (x i)) junk j) <= IZR (amp e f).
Proof.
  intros Hj. pose proof (amp_all e f He) as A. rewrite forallb_forall in A. specialize (A j ltac:(apply in_seq; lia)). cbv beta in A.
  pose proof (within_all e f He) as Wn0. unfold within in Wn0. rewrite forallb_forall in Wn0. specialize (Wn0 j ltac:(apply in_seq; lia)). cbv beta zeta in Wn0.
  rewrite !andb_true_iff in Wn0. destruct Wn0 as [[W1 W2] W3]. pose proof (env_good prec emax Hf H8 (dims_of e) x (dims_le e) Hx) as G.
  rewrite (relem_formula e f _ junk j (fun i => FR (env prec emax (dims_of e) x i)) He Hj).
  - eapply Rle_trans; [apply (reval_aeval prec), (qdiv_divisors prec H8), W1|]. eapply Rle_trans; [eapply (aeval_qa prec H8); [intros i Hi; apply G, Hi|exact W1]|]. rewrite <- Q2R_Z. apply Qle_bool_R, A.
  - intros i Hi. f_equal. apply env_x, Hi.
  - intros n Hn _. pose proof (dims_le e). unfold env. replace (3 + Z.to_nat n <? dims_of e)%nat with false by (symmetry; apply Nat.ltb_ge; lia). replace (3 + Z.to_nat n <? 3)%nat with false by (symmetry; apply Nat.ltb_ge; lia).
    replace (3 + Z.to_nat n <? 23)%nat with true by (symmetry; apply Nat.ltb_lt; lia). replace (Z.of_nat (3 + Z.to_nat n - 3)) with n by lia. apply (int_good prec emax Hf H8 n). lia.
Qed.
Variables (junk : nat -> spec_float) (junk' : nat -> R) (c : nat -> spec_float) (M : R).
Hypothesis Hc : forall v, (v < nodes_of e)%nat -> number prec emax (c v) /\ fin (c v) = true /\ Rabs (FR (c v)) <= M.
Hypothesis HM : 512 * M <= pw emax.
Lemma interp : let z := fold_left (fun s v => SFadd prec emax s (SFmul prec emax (c v) (felem prec emax e f x junk v))) (seq 0 (nodes_of e)) f0 in
  fin z = true /\ Rabs (FR z - sum (nodes_of e) (fun v => FR (c v) * relem e f (fun i => FR (x i)) junk' v)) <= u * (IZR (ipol e f) * M + 1).
Proof.
  cbv zeta. set (n := nodes_of e) in *. set (s := felem prec emax e f x junk). set (r := relem e f (fun i => FR (x i)) junk').
  destruct (u_small prec H8) as [U1 U2]. destruct (eta_small prec emax Hf H8) as [E1 E2]. pose proof (emax_big prec emax Hf H8) as EB.
  set (A := IZR (amp e f)). set (K := IZR (bound e f)). set (N := INR n).
  assert (AC : forall v, In v (seq 0 n) -> number prec emax (c v) /\ number prec emax (s v) /\ fin (c v) = true /\ fin (s v) = true /\ Rabs (FR (c v)) <= M /\ Rabs (FR (s v) - r v) <= K * u /\ Rabs (r v) <= A).
  { intros v Hv. apply in_seq in Hv. destruct (Hc v ltac:(lia)) as (C1 & C2 & C3). destruct (accuracy prec emax Hf H8 (dims_of e) x (dims_le e) Hx e f junk junk' v eq_refl He ltac:(unfold n in Hv; lia)) as (S1 & S2 & S3).
    pose proof (amplitude junk' v ltac:(unfold n in Hv; lia)). repeat split; assumption. }
  assert (M0 : 0 <= M) by (destruct (Hc 0%nat ltac:(unfold n; destruct e; cbn; lia)) as (_ & _ & Q); pose proof (Rabs_pos (FR (c 0%nat))); lra).
  pose proof (tables e f) as T. cbv zeta in T. destruct T as (T1 & T2 & T3 & T4 & T5).
  fold n in T1, T4, T5. assert (Nn : N = IZR (Z.of_nat n)) by (unfold N; apply INR_IZR_INZ).
  apply IZR_le in T1, T4, T5. apply IZR_lt in T2, T3. repeat first [rewrite plus_IZR in T4|rewrite minus_IZR in T4|rewrite mult_IZR in T4]. repeat first [rewrite plus_IZR in T5|rewrite minus_IZR in T5|rewrite mult_IZR in T5]. rewrite <- Nn in T1, T4, T5. fold A K in T2, T3, T4, T5.
  assert (N0 : 0 <= N) by (apply pos_INR).
  assert (B : sumR (map (fun p => Rabs (FR (c p) * FR (s p))) (seq 0 n)) <= N * (M * (A + K * / 256))).
  { pose proof (sumR_const (seq 0 n) (fun p => Rabs (FR (c p) * FR (s p))) (M * (A + K * / 256))) as Q. rewrite seq_length in Q. apply Q. clear Q. intros v Hv. destruct (AC v Hv) as (_ & _ & _ & _ & C3 & S3 & R3). rewrite Rabs_mult.
    apply Rmult_le_compat; try apply Rabs_pos; [exact C3|]. replace (FR (s v)) with (r v + (FR (s v) - r v)) by ring. eapply Rle_trans; [apply Rabs_triang|]. nra. }
  assert (L : length (seq 0 n) = n) by apply seq_length.
  pose proof (pow_small prec H8 (S n) ltac:(apply INR_le; rewrite S_INR; fold N; rewrite INR_IZR_INZ; change (Z.of_nat 64) with 64%Z; lra)) as P1. rewrite S_INR in P1. fold N in P1.
  assert (S0 : 0 <= sumR (map (fun p => Rabs (FR (c p) * FR (s p))) (seq 0 n))) by (apply sumR_nonneg, Forall_forall; intros q Hq; apply in_map_iff in Hq; destruct Hq as (v & <- & _); apply Rabs_pos).
  assert (Q1 : 1 <= (1 + u) ^ S n) by (apply pow_R1_Rle; lra).
  assert (F : fin (fold_left (fun s0 v => SFadd prec emax s0 (SFmul prec emax (c v) (s v))) (seq 0 n) f0) = true).
  { apply (fold_terms_fin prec emax Hf c s); [intros p Hp; destruct (AC p Hp) as (C1 & S1 & C2 & S2 & _); repeat split; assumption|]. rewrite L.
    fold N. set (S := sumR _) in *. set (q := (1 + u) ^ _) in *. assert (X : S + N * eta prec emax <= N * (M * (A + K * / 256)) + N * / 131072) by nra.
    assert (Y : (255 - N) * (q * (S + N * eta prec emax)) <= 256 * (N * (M * (A + K * / 256)) + N * / 131072)).
    { replace ((255 - N) * (q * (S + N * eta prec emax))) with ((q * (256 - (N + 1))) * (S + N * eta prec emax)) by ring. apply Rmult_le_compat; try lra; [apply Rmult_le_pos; lra|apply Rplus_le_le_0_compat; [lra|apply Rmult_le_pos; lra]]. }
    assert (Y0 : 256 * (N * (M * (A + K * / 256)) + N * / 131072) = M * (N * (256 * A + K)) + N * / 512) by field.
    assert (Y2 : M * (N * (256 * A + K)) <= M * (400 * (255 - N))) by (apply Rmult_le_compat_l; [exact M0|lra]).
    assert (Y3 : (255 - N) * (q * (S + N * eta prec emax)) <= (255 - N) * (400 * M + 1)) by nra. apply Rmult_le_reg_l in Y3; [|lra]. lra. }
  split; [exact F|].
  pose proof (fold_terms prec emax Hf c s (seq 0 n) ltac:(intros p Hp; destruct (AC p Hp) as (C1 & S1 & _); split; assumption) F) as E. rewrite L in E. cbv zeta in E.
  rewrite sum_sumR. set (z := fold_left _ _ _) in *. set (t := sumR (map (fun p => FR (c p) * FR (s p)) (seq 0 n))) in *. set (w := sumR (map (fun v => FR (c v) * r v) (seq 0 n))).
  assert (D : Rabs (t - w) <= N * (M * (K * u))).
  { unfold t, w. rewrite sumR_minus. eapply Rle_trans; [apply sumR_abs|]. pose proof (sumR_const (seq 0 n) (fun x0 => Rabs (FR (c x0) * FR (s x0) - FR (c x0) * r x0)) (M * (K * u))) as Q. rewrite seq_length in Q. apply Q. clear Q. intros v Hv. destruct (AC v Hv) as (_ & _ & _ & _ & C3 & S3 & R3).
    replace (FR (c v) * FR (s v) - FR (c v) * r v) with (FR (c v) * (FR (s v) - r v)) by ring. rewrite Rabs_mult. apply Rmult_le_compat; try apply Rabs_pos; assumption. }
  replace (FR z - w) with ((FR z - t) + (t - w)) by ring. eapply Rle_trans; [apply Rabs_triang|].
  pose proof (pow_small prec H8 n ltac:(apply INR_le; fold N; rewrite INR_IZR_INZ; change (Z.of_nat 64) with 64%Z; lra)) as P2. fold N in P2.
  pose proof (pow_small_1 prec H8 n ltac:(apply INR_le; fold N; rewrite INR_IZR_INZ; change (Z.of_nat 64) with 64%Z; lra)) as P3. fold N in P3, E.
  assert (Q2 : 1 <= (1 + u) ^ n) by (apply pow_R1_Rle; lra). set (q := (1 + u) ^ n) in *. set (S := sumR (map (fun p => Rabs (FR (c p) * FR (s p))) (seq 0 n))) in *.
  assert (G : (256 - N) * (Rabs (FR z - t) + Rabs (t - w)) <= (256 - N) * (u * (IZR (ipol e f) * M + 1))); [|apply Rmult_le_reg_l in G; lra].
  assert (G1 : (256 - N) * ((q - 1) * S) <= 256 * (N * u) * (N * (M * (A + K * / 256)))).
  { replace ((256 - N) * ((q - 1) * S)) with (((q - 1) * (256 - N)) * S) by ring. apply Rmult_le_compat; try lra. apply Rmult_le_pos; lra. }
  assert (G2 : (256 - N) * (q * (N * eta prec emax)) <= 256 * (N * (u / 512))).
  { replace ((256 - N) * (q * (N * eta prec emax))) with ((q * (256 - N)) * (N * eta prec emax)) by ring. apply Rmult_le_compat; try lra; [apply Rmult_le_pos; lra|apply Rmult_le_pos; lra|apply Rmult_le_compat_l; lra]. }
  assert (G3 : (256 - N) * Rabs (FR z - t) <= 256 * (N * u) * (N * (M * (A + K * / 256))) + 256 * (N * (u / 512))) by nra.
  assert (G4 : (256 - N) * Rabs (t - w) <= (256 - N) * (N * (M * (K * u)))) by (apply Rmult_le_compat_l; lra).
  assert (G5 : 256 * (N * u) * (N * (M * (A + K * / 256))) + (256 - N) * (N * (M * (K * u))) = (u * M) * (N * N * (256 * A + K) + N * K * (256 - N))) by field.
  assert (G6 : (u * M) * (N * N * (256 * A + K) + N * K * (256 - N)) <= (u * M) * (IZR (ipol e f) * (256 - N))) by (apply Rmult_le_compat_l; [apply Rmult_le_pos; lra|exact T4]).
  assert (G7 : 256 * (N * (u / 512)) <= (256 - N) * u) by nra.
  nra.
Qed.
End Interp.
(* at a node: the sum is one of the values, exactly *)
Lemma interp_node prec emax (Hf : format prec emax) (H8 : (8 <= prec)%Z) n (c s : nat -> spec_float) k :
  (forall v, (v < n)%nat -> number prec emax (c v) /\ fin (c v) = true) -> (forall v, (v < n)%nat -> good prec emax (s v) (IZR (delta k v))) ->
  good prec emax (fold_left (fun z v => SFadd prec emax z (SFmul prec emax (c v) (s v))) (seq 0 n) f0) (if (k <? n)%nat then FR (c k) else 0).
Proof.
  assert (Hprec : (1 < prec)%Z) by lia. assert (Hem : (prec < emax)%Z) by (destruct Hf; lia).
  induction n; intros Hc Hs; [repeat split|]. rewrite seq_S, fold_left_app. cbn [fold_left Nat.add]. destruct IHn as (F & N & R0); [intros; apply Hc; lia|intros; apply Hs; lia|].
  destruct (Hc n ltac:(lia)) as [C1 C2]. destruct (Hs n ltac:(lia)) as (S1 & S2 & S3). unfold delta in S3.
  assert (P : good prec emax (SFmul prec emax (c n) (s n)) (if Nat.eqb k n then FR (c n) else 0)).
  { pose proof (mul_correct prec emax Hprec Hem _ _ C2 S1 C1 S2) as Q. rewrite S3 in Q. destruct (Nat.eqb k n).
    - rewrite Rmult_1_r in Q. apply (exact_good prec emax); [eexists; exact Q|apply isfl_FR; assumption].
    - rewrite Rmult_0_r in Q. apply (exact_good prec emax); [eexists; exact Q|apply isfl_0]. }
  destruct P as (P1 & P2 & P3). apply (exact_good prec emax).
  - eexists. pose proof (add_correct prec emax Hprec Hem _ _ F P1 N P2) as Q. rewrite R0, P3 in Q.
    replace (if (k <? S n)%nat then FR (c k) else 0) with ((if (k <? n)%nat then FR (c k) else 0) + (if Nat.eqb k n then FR (c n) else 0)); [exact Q|].
    destruct (Nat.ltb_spec k n), (Nat.eqb_spec k n), (Nat.ltb_spec k (S n)); try lia; subst; ring.
  - destruct (Nat.ltb_spec k (S n)) as [L|L]; [|apply isfl_0]. apply isfl_FR; apply Hc; exact L.
Qed.
(** ** physical_position, read with any arithmetic, is a sum in the order of the nodes *)
Section Pos.
Context {T : Type} (add mul : T -> T -> T) (int : Z -> T).
Lemma loop_setT D (g : nat -> T -> T) (xp : nat -> T) d : loop D (fun d xp => setT xp d (g d (xp d))) xp d = if (d <? D)%nat then g d (xp d) else xp d.
Proof.
  induction D; [reflexivity|]. cbn [loop]. unfold setT at 1. destruct (Nat.eqb_spec d D) as [->|N].
  - rewrite IHD. destruct (Nat.ltb_spec D D), (Nat.ltb_spec D (S D)); try lia. reflexivity.
  - rewrite IHD. destruct (Nat.ltb_spec d D), (Nat.ltb_spec d (S D)); try lia; reflexivity.
Qed.
Lemma zero_pointT_spec D (xp : nat -> T) d : (d < D)%nat -> zero_pointT int D xp d = int 0%Z.
Proof. intros H. unfold zero_pointT. rewrite for_step_loop, (loop_setT D (fun _ _ => int 0%Z)). apply Nat.ltb_lt in H. rewrite H. reflexivity. Qed.
Lemma positionT_spec n D shape (vertices : nat -> nat -> T) xp d : (d < D)%nat ->
  positionT add mul int n D shape vertices xp d = fold_left (fun s v => add s (mul (vertices v d) (shape v))) (seq 0 n) (int 0%Z).
Proof.
  intros H. unfold positionT. rewrite for_step_loop. induction n; [apply zero_pointT_spec, H|]. rewrite seq_S, fold_left_app. cbn [fold_left Nat.add loop]. rewrite <- IHn.
  rewrite for_step_loop, (loop_setT D (fun d y => add y (mul (vertices n d) (shape n)))). apply Nat.ltb_lt in H. rewrite H. reflexivity.
Qed.
Lemma position_dim_firstT_spec n D shape (vertices : nat -> nat -> T) xp d : (d < D)%nat ->
  position_dim_firstT add mul int n D shape vertices xp d = fold_left (fun s v => add s (mul (vertices v d) (shape v))) (seq 0 n) (int 0%Z).
Proof.
  intros H. unfold position_dim_firstT. rewrite for_step_loop.
  assert (I : forall m k a (y : nat -> T), for_step 0 m 1 (fun v xp => setT xp k (add (xp k) (mul (vertices v k) (shape v)))) y a
    = if Nat.eqb a k then fold_left (fun s v => add s (mul (vertices v k) (shape v))) (seq 0 m) (y k) else y a).
  { intros m k a y. rewrite for_step_loop. induction m; [cbn; destruct (Nat.eqb_spec a k); subst; reflexivity|]. rewrite seq_S, fold_left_app. cbn [fold_left Nat.add loop]. unfold setT at 1.
    assert (J : loop m (fun v xp => setT xp k (add (xp k) (mul (vertices v k) (shape v)))) y k = fold_left (fun s v => add s (mul (vertices v k) (shape v))) (seq 0 m) (y k)).
    { clear. induction m; [reflexivity|]. rewrite seq_S, fold_left_app. cbn [fold_left Nat.add loop]. unfold setT at 1. rewrite Nat.eqb_refl, IHm. reflexivity. }
    rewrite J. destruct (Nat.eqb_spec a k); [reflexivity|]. rewrite IHm. destruct (Nat.eqb_spec a k); [contradiction|reflexivity]. }
  assert (G : forall m y, loop m (fun d xp => for_step 0 n 1 (fun v xp => setT xp d (add (xp d) (mul (vertices v d) (shape v)))) xp) y d
    = if (d <? m)%nat then fold_left (fun s v => add s (mul (vertices v d) (shape v))) (seq 0 n) (y d) else y d).
  { clear H. induction m; intros y; [reflexivity|]. cbn [loop]. rewrite I. destruct (Nat.eqb_spec d m) as [->|N].
    - rewrite IHm. destruct (Nat.ltb_spec m m), (Nat.ltb_spec m (S m)); try lia. reflexivity.
    - rewrite IHm. destruct (Nat.ltb_spec d m), (Nat.ltb_spec d (S m)); try lia; reflexivity. }
  rewrite G, (zero_pointT_spec D xp d H). apply Nat.ltb_lt in H. rewrite H. reflexivity.
Qed.
End Pos.
Lemma position_text_spec {T} (add sub mul : T -> T -> T) divn int e xp x vertices junk d : (d < dims_of e)%nat ->
  position_text add sub mul divn int e xp x vertices junk d
  = fold_left (fun s v => add s (mul (vertices v d) (text add sub mul divn int e Shape x junk v))) (seq 0 (nodes_of e)) (int 0%Z).
Proof.
  intros H. destruct e; cbn [position_text text nodes_of dims_of] in *.
  - apply positionT_spec, H.
  - apply positionT_spec, H.
  - apply positionT_spec, H.
  - apply positionT_spec, H.
  - apply position_dim_firstT_spec, H.
  - apply positionT_spec, H.
Qed.
