(** Error analysis of the loops of FloatModel. *)
From Coq Require Import ZArith Reals Lia Lra Psatz Bool List SpecFloat.
From Verif Require Import FloatRound FloatModel.
Import ListNotations.
Local Open Scope R_scope.

Definition sumR (l : list R) : R := fold_right Rplus 0 l.
Lemma sumR_cons x l : sumR (x :: l) = x + sumR l. Proof. reflexivity. Qed.
Lemma sumR_nil : sumR [] = 0. Proof. reflexivity. Qed.
Lemma sumR_app a b : sumR (a ++ b) = sumR a + sumR b.
Proof. induction a as [|x a IH]; [rewrite sumR_nil, app_nil_l; ring|]. rewrite <- app_comm_cons, !sumR_cons, IH. ring. Qed.
Lemma sumR_nonneg l : Forall (fun x => 0 <= x) l -> 0 <= sumR l.
Proof. induction 1; [rewrite sumR_nil; lra|]. rewrite sumR_cons. lra. Qed.
Lemma sumR_le {A} (f g : A -> R) l : (forall x, In x l -> f x <= g x) -> sumR (map f l) <= sumR (map g l).
Proof.
  induction l as [|x l IH]; intros H; cbn [map]; [rewrite sumR_nil; lra|]. assert (A0 := H x (or_introl eq_refl)).
  rewrite !sumR_cons. assert (B : sumR (map f l) <= sumR (map g l)) by (apply IH; intros y Hy; apply H; right; exact Hy). lra.
Qed.
Lemma sumR_abs {A} (f : A -> R) l : Rabs (sumR (map f l)) <= sumR (map (fun x => Rabs (f x)) l).
Proof.
  induction l as [|x l IH]; cbn [map]; [rewrite sumR_nil, Rabs_R0; lra|]. rewrite !sumR_cons. eapply Rle_trans; [apply Rabs_triang|]. lra.
Qed.

Section Format.
Variables prec emax : Z.
Hypothesis Hprec : (1 < prec)%Z.
Hypothesis Hemax : (prec + 3 <= emax)%Z.
Let Hem : (prec < emax)%Z. Proof. lia. Qed.
Notation add := (SFadd prec emax).
Notation sub := (SFsub prec emax).
Notation mul := (SFmul prec emax).
Notation div := (SFdiv prec emax).
Notation sqrtf := (SFsqrt prec emax).
Notation valid := (valid_binary prec emax).
Notation u := (uu prec).
Notation eta := (eta prec emax).

Lemma u_pos : 0 < u. Proof. apply uu_pos. Qed.
Lemma u_le : u <= /4. Proof. apply uu_le; exact Hprec. Qed.

(** an operation with a finite result has finite operands, and its result is near the exact value *)
Lemma add_fin x y : fin (add x y) = true -> fin x = true /\ fin y = true.
Proof.
  destruct x as [sx|sx| |sx mx ex], y as [sy|sy| |sy my ey]; cbn [SFadd fin]; intros H; try discriminate; try (split; reflexivity).
  destruct (Bool.eqb sx sy); discriminate.
Qed.
Lemma sub_fin x y : fin (sub x y) = true -> fin x = true /\ fin y = true.
Proof. rewrite sub_opp. intros H. apply add_fin in H. rewrite fin_opp in H. exact H. Qed.
Lemma mul_fin x y : fin (mul x y) = true -> fin x = true /\ fin y = true.
Proof. destruct x as [sx|sx| |sx mx ex], y as [sy|sy| |sy my ey]; cbn [SFmul fin]; intros H; try discriminate; split; reflexivity. Qed.
Lemma sqrt_fin x : fin (sqrtf x) = true -> fin x = true /\ 0 <= FR x.
Proof.
  destruct x as [s|[]| |[] m e]; cbn [SFsqrt fin FR]; intros H; try discriminate; split; try reflexivity; try lra.
  pose proof (FR_finite_pos m e). lra.
Qed.
Lemma add_near x y : valid x = true -> valid y = true -> fin (add x y) = true ->
  valid (add x y) = true /\ Rabs (FR (add x y) - (FR x + FR y)) <= u * Rabs (FR x + FR y).
Proof.
  intros Vx Vy F. destruct (add_fin _ _ F) as [Fx Fy].
  destruct (add_correct prec emax Hprec Hem x y Fx Fy Vx Vy) as [_ [(_ & V & E & _)|(s & E & _)]]; [split; assumption|rewrite E in F; discriminate].
Qed.
Lemma sub_near x y : valid x = true -> valid y = true -> fin (sub x y) = true ->
  valid (sub x y) = true /\ Rabs (FR (sub x y) - (FR x - FR y)) <= u * Rabs (FR x - FR y).
Proof.
  intros Vx Vy F. destruct (sub_fin _ _ F) as [Fx Fy].
  destruct (sub_correct prec emax Hprec Hem x y Fx Fy Vx Vy) as [_ [(_ & V & E & _)|(s & E & _)]]; [split; assumption|rewrite E in F; discriminate].
Qed.
Lemma mul_near x y : valid x = true -> valid y = true -> fin (mul x y) = true ->
  valid (mul x y) = true /\ Rabs (FR (mul x y) - FR x * FR y) <= Rmax (u * Rabs (FR x * FR y)) eta.
Proof.
  intros Vx Vy F. destruct (mul_fin _ _ F) as [Fx Fy].
  destruct (mul_correct prec emax Hprec Hem x y Fx Fy Vx Vy) as [_ [(_ & V & E & _)|(s & E & _)]]; [split; assumption|rewrite E in F; discriminate].
Qed.
Lemma mul_near' x y : valid x = true -> valid y = true -> fin (mul x y) = true ->
  Rabs (FR (mul x y) - FR x * FR y) <= u * Rabs (FR x * FR y) + eta.
Proof.
  intros Vx Vy F. destruct (mul_near x y Vx Vy F) as [_ E]. eapply Rle_trans; [exact E|].
  assert (0 < eta) by apply eta_pos. assert (0 <= u * Rabs (FR x * FR y)) by (apply uabs; assumption). apply Rmax_lub; lra.
Qed.
(** results are valid whatever happens *)
Lemma approx_valid z v e : approx prec emax z v e -> valid z = true.
Proof. intros [_ [(_ & V & _)|(s & -> & _)]]; [exact V|reflexivity]. Qed.
Lemma valid_add x y : valid x = true -> valid y = true -> valid (add x y) = true.
Proof.
  intros Vx Vy. destruct (fin x) eqn:Fx; [destruct (fin y) eqn:Fy|].
  - eapply approx_valid, add_correct; assumption.
  - destruct x as [sx|sx| |sx mx ex], y as [sy|sy| |sy my ey]; try discriminate; reflexivity.
  - destruct x as [sx|sx| |sx mx ex], y as [sy|sy| |sy my ey]; try discriminate; try reflexivity. cbn. destruct (Bool.eqb sx sy); reflexivity.
Qed.
Lemma valid_sub x y : valid x = true -> valid y = true -> valid (sub x y) = true.
Proof. intros Vx Vy. rewrite sub_opp. apply valid_add; [exact Vx|rewrite valid_opp; exact Vy]. Qed.
Lemma valid_mul x y : valid x = true -> valid y = true -> valid (mul x y) = true.
Proof.
  intros Vx Vy. destruct (fin x) eqn:Fx; [destruct (fin y) eqn:Fy|].
  - eapply approx_valid, mul_correct; assumption.
  - destruct x as [sx|sx| |sx mx ex], y as [sy|sy| |sy my ey]; try discriminate; reflexivity.
  - destruct x as [sx|sx| |sx mx ex], y as [sy|sy| |sy my ey]; try discriminate; reflexivity.
Qed.
Lemma valid_fold xs : forall s, valid s = true -> Forall (fun x => valid x = true) xs -> valid (fold_left add xs s) = true.
Proof. induction xs as [|x xs IH]; intros s Vs V; [exact Vs|]. inversion V; subst. apply IH; [apply valid_add; assumption|assumption]. Qed.
Lemma valid_abs x : valid (SFabs x) = valid x. Proof. destruct x; reflexivity. Qed.
Lemma fin_abs x : fin (SFabs x) = fin x. Proof. destruct x; reflexivity. Qed.
Lemma FR_abs x : FR (SFabs x) = Rabs (FR x).
Proof.
  destruct x as [s|s| |s m e]; cbn [FR SFabs]; rewrite ?Rabs_R0; try reflexivity. pose proof (FR_finite_pos m e).
  destruct s; [rewrite Rabs_left1 by lra|rewrite Rabs_right by lra]; ring.
Qed.
(** adding to zero is exact *)
Lemma add_0 x : FR (add f0 x) = FR x /\ fin (add f0 x) = fin x.
Proof. destruct x as [s|s| |s m e]; cbn; try (split; reflexivity). destruct s; split; reflexivity. Qed.

(** ** sums *)
Notation pu n := ((1 + u) ^ n).
Lemma pu_ge1 n : 1 <= pu n.
Proof. apply pow_R1_Rle. pose proof u_pos. lra. Qed.
Lemma fold_fin xs : forall s, fin (fold_left add xs s) = true -> fin s = true /\ Forall (fun x => fin x = true) xs.
Proof.
  induction xs as [|x xs IH]; intros s F; [split; [exact F|constructor]|]. apply IH in F as [F1 F2]. apply add_fin in F1 as [F0 Fx].
  split; [exact F0|constructor; assumption].
Qed.
Lemma fold_err xs : forall s, valid s = true -> Forall (fun x => valid x = true) xs -> fin (fold_left add xs s) = true ->
  Rabs (FR (fold_left add xs s) - (FR s + sumR (map FR xs))) <= (pu (length xs) - 1) * (Rabs (FR s) + sumR (map (fun x => Rabs (FR x)) xs)).
Proof.
  induction xs as [|x xs IH]; intros s Vs V F.
  - cbn. rewrite Rplus_0_r, Rminus_diag_eq, Rabs_R0 by reflexivity. lra.
  - inversion V as [|? ? Vx Vxs]; subst. cbn [fold_left] in F.
    destruct (fold_fin xs _ F) as [F1 _]. destruct (add_near s x Vs Vx F1) as [V1 E1].
    specialize (IH (add s x) V1 Vxs F). cbn [map fold_left length].
    set (z := fold_left add xs (add s x)) in *. set (t := FR (add s x)) in *.
    change (sumR (FR x :: map FR xs)) with (FR x + sumR (map FR xs)).
    change (sumR (Rabs (FR x) :: map (fun x0 => Rabs (FR x0)) xs)) with (Rabs (FR x) + sumR (map (fun x0 => Rabs (FR x0)) xs)).
    set (S1 := sumR (map FR xs)) in *. set (A1 := sumR (map (fun x0 => Rabs (FR x0)) xs)) in *.
    assert (A0 : 0 <= A1) by (apply sumR_nonneg, Forall_forall; intros y Hy; apply in_map_iff in Hy as (w & <- & _); apply Rabs_pos).
    pose proof (Rabs_triang (FR s) (FR x)) as Tr. pose proof (pu_ge1 (length xs)) as P1. pose proof u_pos as U.
    set (q := pu (length xs)) in *.
    assert (Tt : Rabs t <= (1 + u) * (Rabs (FR s) + Rabs (FR x))).
    { replace t with ((t - (FR s + FR x)) + (FR s + FR x)) by ring. eapply Rle_trans; [apply Rabs_triang|]. nra. }
    replace (FR z - (FR s + (FR x + S1))) with ((FR z - (t + S1)) + (t - (FR s + FR x))) by ring.
    eapply Rle_trans; [apply Rabs_triang|]. cbn [pow]. fold q.
    apply Rle_trans with ((q - 1) * ((1 + u) * (Rabs (FR s) + Rabs (FR x)) + A1) + u * (Rabs (FR s) + Rabs (FR x))).
    + apply Rplus_le_compat; [eapply Rle_trans; [exact IH|]; apply Rmult_le_compat_l; lra|]. eapply Rle_trans; [exact E1|]. apply Rmult_le_compat_l; lra.
    + assert (0 <= (u * q) * A1) by (apply Rmult_le_pos; [apply Rmult_le_pos|]; lra). nra.
Qed.
(** a sum that starts from zero has one rounding less than it has terms *)
Lemma sum0_err xs : Forall (fun x => valid x = true) xs -> fin (fold_left add xs f0) = true ->
  Rabs (FR (fold_left add xs f0) - sumR (map FR xs)) <= (pu (length xs - 1) - 1) * sumR (map (fun x => Rabs (FR x)) xs).
Proof.
  intros V F. destruct xs as [|x xs]; [cbn; rewrite Rminus_0_r, Rabs_R0; lra|]. inversion V as [|? ? Vx Vxs]; subst.
  cbn [fold_left] in *. pose proof (fold_err xs (add f0 x) (valid_add f0 x eq_refl Vx) Vxs F) as E.
  destruct (add_0 x) as [E0 _]. rewrite E0 in E. cbn [length map]. replace (S (length xs) - 1)%nat with (length xs) by lia. exact E.
Qed.
Lemma sum0_fin xs : fin (fold_left add xs f0) = true -> Forall (fun x => fin x = true) xs.
Proof. intros F. apply (fold_fin xs f0 F). Qed.
(** sums of terms that are themselves approximations, with relative error r and absolute error eta *)
Lemma fold_map_add {A} (f : A -> spec_float) l : forall s, fold_left (fun s p => add s (f p)) l s = fold_left add (map f l) s.
Proof. induction l as [|p l IH]; intros s; [reflexivity|]. cbn. apply IH. Qed.

Lemma sum_terms {A} (f : A -> spec_float) (g h : A -> R) (l : list A) (c e : R) : 0 <= c -> 0 <= e ->
  (forall p, In p l -> valid (f p) = true) ->
  (forall p, In p l -> fin (f p) = true -> Rabs (FR (f p) - g p) <= c * h p + e) -> (forall p, In p l -> Rabs (g p) <= h p) ->
  fin (fold_left add (map f l) f0) = true ->
  Rabs (FR (fold_left add (map f l) f0) - sumR (map g l)) <=
    (pu (length l - 1) * (1 + c) - 1) * sumR (map h l) + pu (length l - 1) * (INR (length l) * e).
Proof.
  intros Hc He V E Gh F. assert (V' : Forall (fun x => valid x = true) (map f l)).
  { apply Forall_forall. intros x Hx. apply in_map_iff in Hx as (p & <- & Hp). apply V. exact Hp. }
  pose proof (sum0_err _ V' F) as S0. rewrite map_length, !map_map in S0. pose proof (sum0_fin _ F) as Ff. rewrite Forall_forall in Ff.
  set (q := pu (length l - 1)) in *. assert (Q1 : 1 <= q) by apply pu_ge1.
  assert (G1 : Rabs (sumR (map (fun p => FR (f p)) l) - sumR (map g l)) <= c * sumR (map h l) + INR (length l) * e /\
               sumR (map (fun p => Rabs (FR (f p))) l) <= (1 + c) * sumR (map h l) + INR (length l) * e).
  { assert (Ff' : forall p, In p l -> fin (f p) = true) by (intros p Hp; apply Ff; apply in_map; exact Hp).
    clear - E Gh Ff'. induction l as [|p l IH]; [cbn; rewrite Rminus_0_r, Rabs_R0; lra|].
    destruct IH as [I1 I2]; [intros; apply E; [right|]; assumption|intros; apply Gh; right; assumption|intros; apply Ff'; right; assumption|].
    specialize (E p (or_introl eq_refl) (Ff' p (or_introl eq_refl))). specialize (Gh p (or_introl eq_refl)).
    assert (LN : INR (length (p :: l)) = INR (length l) + 1) by (apply (S_INR (length l))). rewrite LN. cbn [map].
    change (sumR (FR (f p) :: map (fun p => FR (f p)) l)) with (FR (f p) + sumR (map (fun p => FR (f p)) l)).
    change (sumR (g p :: map g l)) with (g p + sumR (map g l)). change (sumR (h p :: map h l)) with (h p + sumR (map h l)).
    change (sumR (Rabs (FR (f p)) :: map (fun p => Rabs (FR (f p))) l)) with (Rabs (FR (f p)) + sumR (map (fun p => Rabs (FR (f p))) l)).
    split.
    - match goal with |- Rabs (?a + ?b - (?c + ?d)) <= _ => replace (a + b - (c + d)) with ((a - c) + (b - d)) by ring end.
      eapply Rle_trans; [apply Rabs_triang|]. lra.
    - assert (Rabs (FR (f p)) <= Rabs (FR (f p) - g p) + Rabs (g p)).
      { replace (FR (f p)) with ((FR (f p) - g p) + g p) at 1 by ring. apply Rabs_triang. }
      lra. }
  destruct G1 as [G1 G2].
  match goal with |- Rabs (?z - ?s) <= _ => replace (z - s) with ((z - sumR (map (fun p => FR (f p)) l)) + (sumR (map (fun p => FR (f p)) l) - s)) by ring end.
  eapply Rle_trans; [apply Rabs_triang|].
  assert (X : (q - 1) * sumR (map (fun p => Rabs (FR (f p))) l) <= (q - 1) * ((1 + c) * sumR (map h l) + INR (length l) * e)) by (apply Rmult_le_compat_l; lra).
  lra.
Qed.

(** ** sums of non-negative terms *)
Notation mu n := ((1 - u) ^ n).
Lemma mu_bounds n : 0 < mu n <= 1.
Proof.
  pose proof u_pos. pose proof u_le. induction n as [|n IH]; cbn [pow]; [lra|]. split; [apply Rmult_lt_0_compat; lra|].
  nra.
Qed.
Lemma isfl_FR x : fin x = true -> valid x = true -> isfl prec emax (FR x).
Proof. intros F V. exists x. repeat split; assumption. Qed.
Lemma isfl_0 : isfl prec emax 0.
Proof. exists f0. repeat split. Qed.
Lemma add_nonneg x y : valid x = true -> valid y = true -> fin (add x y) = true -> 0 <= FR x -> 0 <= FR y ->
  FR x <= FR (add x y) /\ FR y <= FR (add x y) /\ (1 - u) * (FR x + FR y) <= FR (add x y) <= (1 + u) * (FR x + FR y).
Proof.
  intros Vx Vy F Px Py. destruct (add_fin _ _ F) as [Fx Fy]. destruct (add_near x y Vx Vy F) as [_ E].
  pose proof (add_correct prec emax Hprec Hem x y Fx Fy Vx Vy) as A.
  destruct (approx_le prec emax _ _ _ (FR x) A F (isfl_FR x Fx Vx)) as [A1 _]. destruct (approx_le prec emax _ _ _ (FR y) A F (isfl_FR y Fy Vy)) as [A2 _].
  rewrite (Rabs_pos_eq (FR x + FR y)) in E by lra. assert (E1 := Rle_abs (FR (add x y) - (FR x + FR y))). assert (E2 := Rle_abs (- (FR (add x y) - (FR x + FR y)))).
  rewrite Rabs_Ropp in E2. split; [apply A1; lra|]. split; [apply A2; lra|]. split; lra.
Qed.
Lemma fold_pos xs : forall s, valid s = true -> Forall (fun x => valid x = true) xs -> fin (fold_left add xs s) = true ->
  0 <= FR s -> Forall (fun x => 0 <= FR x) xs ->
  FR s <= FR (fold_left add xs s) /\ Forall (fun x => FR x <= FR (fold_left add xs s)) xs /\
  mu (length xs) * (FR s + sumR (map FR xs)) <= FR (fold_left add xs s) <= pu (length xs) * (FR s + sumR (map FR xs)).
Proof.
  induction xs as [|x xs IH]; intros s Vs V F P Ps.
  - cbn [fold_left length map pow]. rewrite sumR_nil. repeat split; try constructor; lra.
  - inversion V as [|? ? Vx Vxs]; subst. inversion Ps as [|? ? Px Pxs]; subst. cbn [fold_left] in *.
    destruct (fold_fin xs _ F) as [F1 _]. destruct (add_nonneg s x Vs Vx F1 P Px) as (A1 & A2 & A3 & A4).
    destruct (IH (add s x) (valid_add _ _ Vs Vx) Vxs F ltac:(lra) Pxs) as (I1 & I2 & I3 & I4).
    cbn [length map pow]. rewrite sumR_cons. set (T := sumR (map FR xs)) in *.
    assert (T0 : 0 <= T) by (apply sumR_nonneg, Forall_map; exact Pxs). pose proof (mu_bounds (length xs)) as M. pose proof (pu_ge1 (length xs)) as G.
    pose proof u_pos. pose proof u_le. split; [lra|]. split; [constructor; [lra|exact I2]|]. split.
    + eapply Rle_trans; [|exact I3]. rewrite (Rmult_comm (1 - u)), Rmult_assoc. apply Rmult_le_compat_l; nra.
    + eapply Rle_trans; [exact I4|]. rewrite (Rmult_comm (1 + u)), Rmult_assoc. apply Rmult_le_compat_l; nra.
Qed.
Lemma fold_no_overflow xs : forall s, valid s = true -> fin s = true -> Forall (fun x => valid x = true) xs -> Forall (fun x => fin x = true) xs ->
  pu (length xs) * (Rabs (FR s) + sumR (map (fun x => Rabs (FR x)) xs)) < pw emax ->
  fin (fold_left add xs s) = true.
Proof.
  induction xs as [|x xs IH]; intros s Vs Fs V Fx B; [exact Fs|].
  inversion V as [|? ? Vx Vxs]; subst. inversion Fx as [|? ? Fx1 Fxs]; subst. cbn [fold_left length map pow] in *.
  rewrite sumR_cons in B. set (T := sumR (map (fun x => Rabs (FR x)) xs)) in *.
  assert (T0 : 0 <= T) by (apply sumR_nonneg, Forall_map, Forall_forall; intros; apply Rabs_pos).
  pose proof (pu_ge1 (length xs)) as G. pose proof u_pos. pose proof (Rabs_triang (FR s) (FR x)) as Tr. pose proof (Rabs_pos (FR s + FR x)) as Ap.
  assert (B1 : (1 + u) * (Rabs (FR s + FR x) + T) < pw emax).
  { eapply Rle_lt_trans; [|exact B]. rewrite (Rmult_comm (1 + u) (pu _)), Rmult_assoc.
    apply Rle_trans with (1 * ((1 + u) * (Rabs (FR s) + (Rabs (FR x) + T)))); [nra|]. apply Rmult_le_compat_r; [|exact G]. apply Rmult_le_pos; lra. }
  assert (F1 : fin (add s x) = true).
  { destruct (add_correct prec emax Hprec Hem s x Fs Fx1 Vs Vx) as [_ [(F & _)|(b & _ & O & _)]]; [exact F|exfalso].
    pose proof (Rle_abs (FR s + FR x)). pose proof (Rle_abs (- (FR s + FR x))) as N. rewrite Rabs_Ropp in N. destruct b; unfold sgnR in O; nra. }
  destruct (add_near s x Vs Vx F1) as [V1 E].
  apply IH; try assumption. fold T. eapply Rle_lt_trans; [|exact B].
  assert (Rabs (FR (add s x)) <= (1 + u) * Rabs (FR s + FR x)).
  { replace (FR (add s x)) with ((FR (add s x) - (FR s + FR x)) + (FR s + FR x)) by ring. eapply Rle_trans; [apply Rabs_triang|]. lra. }
  rewrite (Rmult_comm (1 + u)), Rmult_assoc. apply Rmult_le_compat_l; nra.
Qed.

(** ** squares and square roots *)
Lemma square_nonneg x : valid x = true -> fin (mul x x) = true -> 0 <= FR (mul x x).
Proof.
  intros V F. destruct (mul_fin _ _ F) as [Fx _]. pose proof (mul_correct prec emax Hprec Hem x x Fx Fx V V) as A.
  apply (approx_le prec emax _ _ _ 0 A F isfl_0). nra.
Qed.
Lemma sqrt_near s : valid s = true -> fin s = true -> 0 <= FR s ->
  fin (sqrtf s) = true /\ valid (sqrtf s) = true /\ 0 <= FR (sqrtf s) /\ Rabs (FR (sqrtf s) - sqrt (FR s)) <= u * sqrt (FR s) /\ rnd prec emax (sqrt (FR s)) (sqrtf s).
Proof.
  intros V F P. destruct (sqrt_correct prec emax Hprec Hem s Hemax F V P) as [F1 A]. split; [exact F1|].
  split; [exact (approx_valid _ _ _ A)|]. split.
  - apply (approx_le prec emax _ _ _ 0 A F1 isfl_0). apply sqrt_pos.
  - destruct A as [Rn [(_ & _ & E & _)|(b & E & _)]]; [split; assumption|rewrite E in F1; discriminate].
Qed.
Lemma sqrt_sq s : valid s = true -> fin s = true -> 0 <= FR s ->
  (1 - u) ^ 2 * FR s <= FR (sqrtf s) ^ 2 <= (1 + u) ^ 2 * FR s.
Proof.
  intros V F P. destruct (sqrt_near s V F P) as (_ & _ & Z & E & _). set (w := sqrt (FR s)) in *. set (z := FR (sqrtf s)) in *.
  assert (W : w * w = FR s) by (apply sqrt_sqrt; exact P). assert (W0 : 0 <= w) by apply sqrt_pos. rewrite <- W.
  assert (E1 := Rle_abs (z - w)). assert (E2 := Rle_abs (- (z - w))). rewrite Rabs_Ropp in E2. pose proof u_pos. pose proof u_le.
  assert (L : (1 - u) * w <= z) by lra. assert (U : z <= (1 + u) * w) by lra. assert (0 <= (1 - u) * w) by (apply Rmult_le_pos; lra).
  split; [apply Rle_trans with (((1 - u) * w) ^ 2); [right; ring|]|apply Rle_trans with (((1 + u) * w) ^ 2); [|right; ring]]; apply pow_incr; lra.
Qed.
(** the square root of a square is exact unless the square underflows or overflows *)
Lemma int_near (r : Z) (k : Z) y : Rabs (IZR r - y) <= /2 -> IZR k <= y -> (k <= r)%Z.
Proof.
  intros H K. assert (A := Rle_abs (- (IZR r - y))). rewrite Rabs_Ropp in A. apply Z.lt_succ_r, lt_IZR. unfold Z.succ. rewrite plus_IZR. lra.
Qed.
Theorem sqrt_square_exact x : valid x = true -> fin (mul x x) = true -> pw (emin prec emax + prec - 1) <= FR x * FR x ->
  FR (sqrtf (mul x x)) = Rabs (FR x) /\ fin (sqrtf (mul x x)) = true.
Proof.
  intros V F Hn. destruct (mul_fin _ _ F) as [Fx _]. pose proof (mul_correct prec emax Hprec Hem x x Fx Fx V V) as [Rn _].
  pose proof (square_nonneg x V F) as Ps. destruct (sqrt_near (mul x x) (valid_mul x x V V) F Ps) as (F1 & V1 & Z0 & _ & Rz).
  split; [|exact F1].
  destruct x as [sx|sx| |sx m e]; try discriminate; [cbn [FR] in Hn; pose proof (pw_pos (emin prec emax + prec - 1)); lra|].
  destruct (valid_finite _ _ _ _ _ V) as [C B]. set (X := IZR (Z.pos m) * pw e).
  assert (X0 : 0 < X) by apply FR_finite_pos. assert (EX : Rabs (FR (S754_finite sx m e)) = X) by (cbn [FR]; fold X; destruct sx; [rewrite Rabs_left1|rewrite Rabs_right]; lra).
  assert (XX : FR (S754_finite sx m e) * FR (S754_finite sx m e) = X * X) by (cbn [FR]; fold X; destruct sx; ring).
  rewrite EX. rewrite XX in Rn, Hn. set (xx := mul (S754_finite sx m e) (S754_finite sx m e)) in *.
  set (s := FR xx) in *.
  (* x is normal *)
  destruct (digits_bounds (Z.pos m) ltac:(lia)) as (D0 & D1 & D2). destruct (D2 ltac:(lia)) as [D3 D4].
  assert (XL : pw (emin prec emax + prec - 1) <= X).
  { apply Rnot_lt_le. intros L. assert (L1 : pw (emin prec emax + prec - 1) <= 1) by (rewrite <- pw_0; apply pw_le; unfold emin; lia). nra. }
  assert (Dm : Zdigits2 (Z.pos m) = prec).
  { unfold fexp in C. assert (Zdigits2 (Z.pos m) <= prec)%Z by lia. destruct (Z.eq_dec (Zdigits2 (Z.pos m)) prec) as [E|N]; [exact E|exfalso].
    assert (e = emin prec emax) by lia. assert (X < pw (emin prec emax + prec - 1)); [|lra]. unfold X.
    apply Rlt_le_trans with (pw (Zdigits2 (Z.pos m)) * pw e); [apply Rmult_lt_compat_r; [apply pw_pos|]; rewrite <- pw_Z by lia; apply IZR_lt; exact D1|].
    rewrite <- pw_add. apply pw_le. lia. }
  rewrite Dm in *.
  assert (XL1 : pw (prec - 1 + e) <= X) by (unfold X; rewrite pw_add; apply Rmult_le_compat_r; [left; apply pw_pos|]; rewrite <- pw_Z by lia; apply IZR_le; exact D4).
  assert (XU1 : X <= pw (prec + e) - pw e).
  { unfold X. rewrite pw_add. replace (pw prec * pw e - pw e) with ((pw prec - 1) * pw e) by ring. apply Rmult_le_compat_r; [left; apply pw_pos|].
    rewrite <- pw_Z, <- (minus_IZR _ 1) by lia. apply IZR_le. lia. }
  pose proof (pw_pos e) as Pe.
  (* the rounded square *)
  destruct Rn as (s0 & w & f & r & W0 & Ew & (Lf & Uf & Of & Hr & _) & Cs).
  assert (Es0 : w = X * X) by (destruct s0; unfold sgnR in Ew; nra). clear Ew. subst w.
  assert (Es : s = IZR r * pw f).
  { unfold s. destruct Cs as [[E Q]|[(m1 & e1 & E & _ & Q)|[E _]]]; rewrite E in *; cbn [FR fin] in *; try discriminate; [lra|].
    rewrite Q. destruct s0; [|ring]. exfalso. cbn [FR] in s. pose proof (FR_finite_pos m1 e1). subst s. rewrite E in Ps. cbn [FR] in Ps. lra. }
  assert (Of' : pw (prec - 1 + f) <= X * X).
  { destruct Of as [->|O]; [|exact O]. replace (prec - 1 + emin prec emax)%Z with (emin prec emax + prec - 1)%Z by lia. exact Hn. }
  assert (Fle : (f <= prec + 2 * e)%Z).
  { destruct (Z.le_gt_cases f (prec + 2 * e)) as [L|G]; [exact L|exfalso]. assert (X * X < pw (prec + e) * pw (prec + e)) by nra.
    rewrite <- pw_add in H. assert (pw (prec + e + (prec + e)) <= pw (prec - 1 + f)) by (apply pw_le; lia). lra. }
  assert (Pf := pw_pos f).
  assert (Del : Rabs (s - X * X) <= pw f / 2).
  { rewrite Es. replace (IZR r * pw f - X * X) with ((IZR r - X * X * pw (- f)) * pw f).
    - rewrite Rabs_mult, (Rabs_pos_eq (pw f)) by lra. apply Rle_trans with (/2 * pw f); [apply Rmult_le_compat_r; lra|lra].
    - rewrite Rmult_minus_distr_r, (Rmult_assoc (X * X)), <- pw_add, Z.add_opp_diag_l, pw_0. ring. }
  assert (Sge : forall k, (f <= k)%Z -> pw k <= X * X -> pw k <= s).
  { intros k Hk Hx. replace k with (k - f + f)%Z by lia. rewrite pw_add, Es. apply Rmult_le_compat_r; [lra|]. rewrite <- pw_Z by lia. apply IZR_le.
    apply (int_near r _ (X * X * pw (- f)) Hr). rewrite pw_Z by lia. unfold Z.sub. rewrite pw_add. apply Rmult_le_compat_r; [left; apply pw_pos|exact Hx]. }
  set (w := sqrt s) in *. assert (Ww : w * w = s) by (apply sqrt_sqrt; exact Ps). assert (Wp : 0 <= w) by apply sqrt_pos.
  assert (S1 : pw (prec - 1 + e) * pw (prec - 1 + e) <= s).
  { rewrite <- pw_add. apply Sge; [lia|]. rewrite pw_add. pose proof (pw_pos (prec - 1 + e)). nra. }
  assert (WL : pw (prec - 1 + e) <= w) by (pose proof (pw_pos (prec - 1 + e)); nra).
  assert (DW : Rabs (X - w) < pw e / 2).
  { assert (H : Rabs (X - w) * (X + w) = Rabs (s - X * X)).
    { rewrite <- (Rabs_pos_eq (X + w)) at 1 by lra. rewrite <- Rabs_mult, <- Ww. replace (w * w - X * X) with (- ((X - w) * (X + w))) by ring. rewrite Rabs_Ropp. reflexivity. }
    assert (K : pw f / 2 < pw e / 2 * (X + w)).
    { destruct (Z.le_gt_cases f (prec - 1 + 2 * e)) as [L|G].
      - apply Rle_lt_trans with (pw (prec - 1 + 2 * e) / 2); [apply Rmult_le_compat_r; [lra|apply pw_le; exact L]|].
        replace (prec - 1 + 2 * e)%Z with (prec - 1 + e + e)%Z by lia. rewrite (pw_add (prec - 1 + e)). pose proof (pw_pos (prec - 1 + e)). nra.
      - assert (E : f = (prec + 2 * e)%Z) by lia.
        assert (S2 : pw (2 * prec - 1 + 2 * e) <= s) by (apply Sge; [lia|]; replace (2 * prec - 1 + 2 * e)%Z with (prec - 1 + f)%Z by lia; exact Of').
        assert (X2 : pw (2 * prec - 1 + 2 * e) <= X * X) by (replace (2 * prec - 1 + 2 * e)%Z with (prec - 1 + f)%Z by lia; exact Of').
        assert (G2 : pw (prec + e) < X + w).
        { apply Rnot_le_lt. intros Bd. assert (Q : (X + w) * (X + w) <= pw (prec + e) * pw (prec + e)) by (apply Rmult_le_compat; lra).
          rewrite <- pw_add in Q. replace (prec + e + (prec + e))%Z with (1 + (2 * prec - 1 + 2 * e))%Z in Q by lia. rewrite pw_add, pw_1 in Q.
          assert (Y := pw_pos (2 * prec - 1 + 2 * e)). set (y := pw (2 * prec - 1 + 2 * e)) in *.
          assert (0 <= X * w) by (apply Rmult_le_pos; lra). assert (y * y <= (X * w) * (X * w)) by (replace (X * w * (X * w)) with ((X * X) * (w * w)) by ring; rewrite Ww; apply Rmult_le_compat; lra).
          assert (y <= X * w) by nra. nra. }
        rewrite E. replace (prec + 2 * e)%Z with (prec + e + e)%Z by lia. rewrite (pw_add (prec + e)). nra. }
    apply (Rmult_lt_reg_r (X + w)); [lra|]. rewrite H. lra. }
  (* so the root rounds to x *)
  assert (Rx : rnd prec emax w (S754_finite false m e)).
  { exists false, w, e, (Z.pos m). split; [exact Wp|]. split; [unfold sgnR; ring|]. split.
    - assert (DW1 := Rle_abs (X - w)). assert (DW2 := Rle_abs (- (X - w))). rewrite Rabs_Ropp in DW2.
      assert (Ym : Rabs (IZR (Z.pos m) - w * pw (- e)) < /2).
      { apply (Rmult_lt_reg_r (pw e)); [exact Pe|]. rewrite <- (Rabs_pos_eq (pw e)) at 1 by lra. rewrite <- Rabs_mult.
        rewrite Rmult_minus_distr_r, (Rmult_assoc w), <- pw_add, Z.add_opp_diag_l, pw_0, Rmult_1_r. fold X. lra. }
      split; [lia|]. split; [lra|]. split; [right; exact WL|]. split; [lra|]. intros; lra.
    - right. left. exists m, e. repeat split. exact V. }
  destruct (rnd_unique _ _ _ _ _ Rz Rx) as [E|(b1 & b2 & _ & E)]; [|discriminate]. rewrite E. cbn [FR]. fold X. ring.
Qed.

(** ** numbers of the format *)
Lemma isfl_scaled n e : (0 < n < 2 ^ prec)%Z -> (emin prec emax <= e <= emax - prec)%Z -> isfl prec emax (IZR n * pw e).
Proof.
  intros Hn He. set (d := Zdigits2 n). set (k := Z.min (prec - d) (e - emin prec emax)).
  destruct (digits_bounds n ltac:(lia)) as (D0 & D1 & D2). destruct (D2 ltac:(lia)) as [D3 D4]. fold d in D0, D1, D3, D4.
  assert (Dp : (d <= prec)%Z) by (apply digits_le; lia). assert (K : (0 <= k)%Z) by lia.
  assert (P2 : (0 < 2 ^ k)%Z) by (apply Z.pow_pos_nonneg; lia).
  destruct (n * 2 ^ k)%Z as [|m|m] eqn:Em; [nia| |nia].
  assert (Dm : Zdigits2 (Z.pos m) = (d + k)%Z).
  { pose proof (digits_ge (Z.pos m) (d - 1 + k)) as G. pose proof (digits_le (Z.pos m) (d + k)) as L.
    rewrite Z.pow_add_r in G, L by lia. specialize (G ltac:(nia) ltac:(lia)). specialize (L ltac:(nia) ltac:(lia)). lia. }
  exists (S754_finite false m (e - k)). split; [reflexivity|]. split.
  - cbn [valid_binary]. unfold bounded, canonical_mantissa. change (Z.pos (digits2_pos m)) with (Zdigits2 (Z.pos m)). rewrite Dm.
    apply andb_true_intro. split; [apply Zeq_is_eq_bool; unfold fexp; lia|apply Z.leb_le; lia].
  - cbn [FR]. rewrite Rmult_1_l, <- Em, mult_IZR, pw_Z, Rmult_assoc, <- pw_add by lia. do 2 f_equal. lia.
Qed.
Lemma isfl_int n : (0 < n < 2 ^ prec)%Z -> isfl prec emax (IZR n).
Proof. intros H. rewrite <- (Rmult_1_r (IZR n)), <- pw_0. apply isfl_scaled; [exact H|unfold emin; lia]. Qed.
Lemma of_int_exact n : (0 < n < 2 ^ prec)%Z -> fin (of_int prec emax n) = true /\ valid (of_int prec emax n) = true /\ FR (of_int prec emax n) = IZR n.
Proof.
  intros H. pose proof (normalize_correct prec emax Hprec Hem n 0 false ltac:(unfold emin; lia)) as A. rewrite pw_0, Rmult_1_r in A.
  destruct (approx_exact prec emax _ _ _ A (isfl_int n H)) as [F E]. repeat split; [exact F|exact (approx_valid _ _ _ A)|exact E].
Qed.
Lemma two_lt : (0 < 2 < 2 ^ prec)%Z.
Proof. split; [lia|]. apply Z.lt_le_trans with (2 ^ 2)%Z; [reflexivity|]. apply Z.pow_le_mono_r; lia. Qed.
(** twice a number is a number, or beyond the largest *)
Lemma isfl_double x : fin x = true -> valid x = true -> isfl prec emax (2 * FR x) \/ pw emax <= Rabs (2 * FR x).
Proof.
  intros F V. destruct x as [s|s| |s m e]; try discriminate; [left; cbn [FR]; rewrite Rmult_0_r; apply isfl_0|].
  destruct (valid_finite _ _ _ _ _ V) as [C B]. destruct (digits_bounds (Z.pos m) ltac:(lia)) as (D0 & D1 & D2). destruct (D2 ltac:(lia)) as [D3 D4].
  unfold fexp in C. assert (Dp : (Zdigits2 (Z.pos m) <= prec)%Z) by lia.
  assert (M : (0 < Z.pos m < 2 ^ prec)%Z) by (split; [lia|]; apply Z.lt_le_trans with (2 ^ Zdigits2 (Z.pos m))%Z; [exact D1|apply Z.pow_le_mono_r; lia]).
  assert (E2 : IZR (Z.pos m) * pw (e + 1) = 2 * (IZR (Z.pos m) * pw e)) by (rewrite pw_add, pw_1; ring).
  destruct (Z.le_gt_cases (e + 1) (emax - prec)) as [L|G].
  - left. cbn [FR]. pose proof (isfl_scaled (Z.pos m) (e + 1) M ltac:(lia)) as I. rewrite E2 in I.
    destruct s; [replace (2 * (-1 * (IZR (Z.pos m) * pw e))) with (- (2 * (IZR (Z.pos m) * pw e))) by ring; apply isfl_opp; exact I|rewrite Rmult_1_l; exact I].
  - right. assert (Ee : e = (emax - prec)%Z) by lia. assert (Ed : Zdigits2 (Z.pos m) = prec) by (unfold emin in *; lia). rewrite Ed in D4.
    assert (L : pw emax <= 2 * (IZR (Z.pos m) * pw e)).
    { rewrite <- E2. apply Rle_trans with (pw (prec - 1) * pw (e + 1)); [rewrite <- pw_add; apply pw_le; lia|].
      apply Rmult_le_compat_r; [left; apply pw_pos|]. rewrite <- pw_Z by lia. apply IZR_le. exact D4. }
    cbn [FR]. pose proof (FR_finite_pos m e). destruct s; [rewrite Rabs_left1 by lra|rewrite Rabs_right by lra]; lra.
Qed.
(** the operations do not distinguish the zeros, except in the sign of a zero result (and in dividing by one) *)
Lemma same_refl z : same z z. Proof. left. reflexivity. Qed.
Lemma same_FR z1 z2 : same z1 z2 -> FR z1 = FR z2 /\ fin z1 = fin z2.
Proof. intros [->|(s1 & s2 & -> & ->)]; split; reflexivity. Qed.
Lemma same_mul x x' y y' : same x x' -> same y y' -> same (mul x y) (mul x' y').
Proof.
  intros [->|(s1 & s2 & -> & ->)] [->|(t1 & t2 & -> & ->)]; try apply same_refl; [destruct x'|destruct y'|]; cbn [SFmul]; try apply same_refl; right; eauto.
Qed.
Lemma same_add x x' y y' : same x x' -> same y y' -> same (add x y) (add x' y').
Proof.
  intros [->|(s1 & s2 & -> & ->)] [->|(t1 & t2 & -> & ->)]; try apply same_refl; [destruct x' as [b| | |]|destruct y' as [b| | |]|];
    cbn [SFadd]; try apply same_refl; right.
  - destruct (Bool.eqb b t1), (Bool.eqb b t2); eauto.
  - destruct (Bool.eqb s1 b), (Bool.eqb s2 b); eauto.
  - destruct (Bool.eqb s1 t1), (Bool.eqb s2 t2); eauto.
Qed.
Lemma same_opp x x' : same x x' -> same (SFopp x) (SFopp x').
Proof. intros [->|(s1 & s2 & -> & ->)]; [apply same_refl|right; cbn; eauto]. Qed.
Lemma same_sub x x' y y' : same x x' -> same y y' -> same (sub x y) (sub x' y').
Proof. intros H1 H2. rewrite !sub_opp. apply same_add; [exact H1|apply same_opp; exact H2]. Qed.
Lemma same_abs x x' : same x x' -> SFabs x = SFabs x'.
Proof. intros [->|(s1 & s2 & -> & ->)]; reflexivity. Qed.
(** equal exact results give the same rounded result *)
Lemma sub_same x y x' y' : fin x = true -> fin y = true -> valid x = true -> valid y = true ->
  fin x' = true -> fin y' = true -> valid x' = true -> valid y' = true -> FR x - FR y = FR x' - FR y' -> same (sub x y) (sub x' y').
Proof.
  intros Fx Fy Vx Vy Fx' Fy' Vx' Vy' E. destruct (sub_correct prec emax Hprec Hem x y Fx Fy Vx Vy) as [R1 _].
  destruct (sub_correct prec emax Hprec Hem x' y' Fx' Fy' Vx' Vy') as [R2 _]. rewrite E in R1. exact (rnd_unique _ _ _ _ _ R1 R2).
Qed.
Lemma mul_same x y x' y' : fin x = true -> fin y = true -> valid x = true -> valid y = true ->
  fin x' = true -> fin y' = true -> valid x' = true -> valid y' = true -> FR x * FR y = FR x' * FR y' -> same (mul x y) (mul x' y').
Proof.
  intros Fx Fy Vx Vy Fx' Fy' Vx' Vy' E. destruct (mul_correct prec emax Hprec Hem x y Fx Fy Vx Vy) as [R1 _].
  destruct (mul_correct prec emax Hprec Hem x' y' Fx' Fy' Vx' Vy') as [R2 _]. rewrite E in R1. exact (rnd_unique _ _ _ _ _ R1 R2).
Qed.
(** commutation and sign *)
Lemma mul_comm x y : mul x y = mul y x.
Proof.
  destruct x as [sx|sx| |sx mx ex], y as [sy|sy| |sy my ey]; cbn [SFmul]; rewrite 1?xorb_comm, 1?(xorb_comm sx sy); try reflexivity.
  all: rewrite ?(xorb_comm sy sx), ?(Pos.mul_comm my mx), ?(Z.add_comm ey ex); reflexivity.
Qed.
Lemma add_comm x y : add x y = add y x.
Proof.
  destruct x as [sx|sx| |sx mx ex], y as [sy|sy| |sy my ey]; cbn [SFadd]; try reflexivity.
  - destruct sx, sy; reflexivity.
  - destruct sx, sy; reflexivity.
  - rewrite (Z.min_comm ey ex), Z.add_comm. reflexivity.
Qed.
Lemma round_aux_opp s m e l : binary_round_aux prec emax (negb s) m e l = SFopp (binary_round_aux prec emax s m e l).
Proof.
  unfold binary_round_aux. destruct (shr_fexp _ _ m e l) as [mrs' e']. destruct (shr_fexp _ _ _ e' loc_Exact) as [mrs'' e''].
  destruct (shr_m mrs''); try reflexivity. destruct (e'' <=? emax - prec)%Z; reflexivity.
Qed.
Lemma round_opp s m e : binary_round prec emax (negb s) m e = SFopp (binary_round prec emax s m e).
Proof. unfold binary_round. destruct (shl_align _ _ _) as [mz ez]. apply round_aux_opp. Qed.
(** y - x is the negation of x - y, except that a zero difference is the same zero *)
Lemma sub_anti x y : sub y x = SFopp (sub x y) \/ exists s1 s2, sub y x = S754_zero s1 /\ sub x y = S754_zero s2.
Proof.
  destruct x as [sx|sx| |sx mx ex], y as [sy|sy| |sy my ey]; cbn [SFsub SFopp];
    try (left; reflexivity); try (left; rewrite negb_involutive; reflexivity).
  - right. destruct (Bool.eqb sy (negb sx)), (Bool.eqb sx (negb sy)); eauto.
  - left. destruct sx, sy; reflexivity.
  - rewrite (Z.min_comm ey ex). set (ez := Z.min ex ey).
    set (a := cond_Zopp sx _). set (b := cond_Zopp sy _). replace (b - a)%Z with (- (a - b))%Z by lia.
    destruct (a - b)%Z as [|p|p]; cbn [Z.opp binary_normalize]; [right; eauto|left; apply (round_opp false)|left; apply (round_opp true)].
Qed.
Lemma sub_square x y : mul (sub x y) (sub x y) = mul (sub y x) (sub y x).
Proof.
  destruct (sub_anti x y) as [E|(s1 & s2 & E1 & E2)].
  - rewrite E. destruct (sub x y) as [s|s| |s m e]; cbn [SFopp SFmul]; rewrite ?xorb_nilpotent; reflexivity.
  - rewrite E1, E2. cbn. rewrite !xorb_nilpotent. reflexivity.
Qed.
End Format.
