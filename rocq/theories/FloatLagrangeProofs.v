(** Lemmas for FloatLagrangeProps.v. *)
From Coq Require Import ZArith List Bool Lia Reals Lra Psatz SpecFloat.
From Verif Require Import Outcome VectorModel VectorProofs LagrangeModel LagrangeProofs FloatModel FloatRound FloatProofs FloatProps FloatExpr FloatElementsProofs FloatLagrangeModel.
Import ListNotations.
Local Open Scope R_scope.

(** ** what the loops compute, with any arithmetic *)
Section Spec.
Context {T : Type} (add sub mul div : T -> T -> T) (zero one : T).
Definition selT (b : nat -> bool) (a : T) (xi : nat -> T) (n : nat) : T := loop n (fun j s => if b j then mul s (sub a (xi j)) else s) one.
Definition denT (N : nat) (xi : nat -> T) (i : nat) : T := selT (fun j => negb (j =? i)) (xi i) xi N.
Definition LT (N : nat) (xi : nat -> T) (i : nat) (x : T) : T := div (selT (fun j => negb (j =? i)) x xi N) (denT N xi i).
Definition termT (N : nat) (xi : nat -> T) (i j : nat) (x : T) : T := selT (fun k => negb (k =? j) && negb (k =? i))%bool x xi N.
Definition psumT (N : nat) (xi : nat -> T) (i : nat) (x : T) (n : nat) : T := loop n (fun j p => if negb (j =? i) then add p (termT N xi i j x) else p) zero.
Definition DLT (N : nat) (xi : nat -> T) (i : nat) (x : T) : T := div (psumT N xi i x N) (denT N xi i).
Lemma lag_loopT order x xi i s0 : l_n s0 = one -> l_d s0 = one -> l_p s0 = zero -> forall n,
  let s := loop (S n) (lag_bodyT add sub mul div one order x xi i) s0 in
  l_n s = selT (fun j => negb (j =? i)) x xi (S n) /\ l_d s = selT (fun j => negb (j =? i)) (xi i) xi (S n) /\ l_p s = psumT (order + 1) xi i x (S n)
  /\ l_c s = div (l_n s) (l_d s) /\ l_q s = div (l_p s) (l_d s).
Proof.
  intros E1 E2 E3. assert (A : forall n, let s := loop n (lag_bodyT add sub mul div one order x xi i) s0 in
    l_n s = selT (fun j => negb (j =? i)) x xi n /\ l_d s = selT (fun j => negb (j =? i)) (xi i) xi n /\ l_p s = psumT (order + 1) xi i x n).
  { induction n; cbv zeta; [repeat split; assumption|]. destruct IHn as (A1 & A2 & A3). unfold selT, psumT in *. cbn [loop].
    set (s := loop n _ s0) in *. unfold lag_bodyT. destruct (negb (n =? i)); cbn [l_n l_d l_p]; rewrite A1, A2, A3; repeat split; reflexivity. }
  intros n. cbv zeta. destruct (A (S n)) as (A1 & A2 & A3). repeat split; try assumption; cbn [loop]; set (s := loop n _ s0); unfold lag_bodyT; destruct (negb (n =? i)); reflexivity.
Qed.
Lemma lagrange_specT order x xi interp Dinterp i :
  fst (lagrange_1DT add sub mul div zero one order x xi interp Dinterp) i = (if (i <? order + 1)%nat then LT (order + 1) xi i x else interp i)
  /\ snd (lagrange_1DT add sub mul div zero one order x xi interp Dinterp) i = (if (i <? order + 1)%nat then DLT (order + 1) xi i x else Dinterp i).
Proof.
  unfold lagrange_1DT. set (body := fun i st => _).
  assert (A : forall n i, let st := loop n body ((interp, Dinterp), zero) in
    fst (fst st) i = (if (i <? n)%nat then LT (order + 1) xi i x else interp i)
    /\ snd (fst st) i = (if (i <? n)%nat then DLT (order + 1) xi i x else Dinterp i)).
  { induction n; intros k; cbv zeta; cbn [loop]; [split; reflexivity|]. specialize (IHn k). cbv zeta in IHn.
    destruct (loop n body ((interp, Dinterp), zero)) as [[a b] q]. unfold body at 1 2. cbn [fst snd] in *.
    set (s0 := {| l_n := one; l_d := one; l_c := one; l_p := zero; l_q := q |}).
    pose proof (lag_loopT order x xi n s0 eq_refl eq_refl eq_refl order) as P. cbv zeta in P.
    rewrite <- (Nat.add_1_r order) in P. destruct P as (P1 & P2 & P3 & P4 & P5). unfold lset.
    destruct (Nat.eqb_spec k n) as [->|Ne].
    - destruct (Nat.ltb_spec n (S n)); [|lia]. split; [rewrite P4, P1, P2; reflexivity|rewrite P5, P3, P2; reflexivity].
    - destruct IHn as [IH1 IH2]. rewrite IH1, IH2. destruct (Nat.ltb_spec k n), (Nat.ltb_spec k (S n)); try (exfalso; lia); split; reflexivity. }
  apply A.
Qed.
Lemma lset2_same (a : nat -> nat -> T) m d x : lset2 a m d x m = lset (a m) d x.
Proof. unfold lset2. rewrite Nat.eqb_refl. reflexivity. Qed.
Lemma lset2_other (a : nat -> nat -> T) m d x k : k <> m -> lset2 a m d x k = a k.
Proof. intros H. unfold lset2. destruct (Nat.eqb_spec k m); [congruence|reflexivity]. Qed.
Notation directionT := (directionT add sub mul div zero one).
Lemma directionT_spec order nodes1 xi m d i t : (1 <= i <= order + 1)%nat ->
  let t' := directionT order nodes1 xi m d i t in
  f_nodes t' = f_nodes t /\ f_basis t' = f_basis t /\ f_partial t' = f_partial t
  /\ f_val t' = lset2 (f_val t) m d (LT (order + 1) nodes1 (i - 1) (xi d))
  /\ f_dval t' = lset2 (f_dval t) m d (DLT (order + 1) nodes1 (i - 1) (xi d)).
Proof.
  intros Hi. unfold FloatLagrangeModel.directionT.
  destruct (lagrange_specT order (xi d) nodes1 (f_val1 t) (f_dval1 t) (i - 1)) as [E F].
  destruct (lagrange_1DT add sub mul div zero one order (xi d) nodes1 (f_val1 t) (f_dval1 t)) as [v dv]. cbn [fst snd] in E, F.
  destruct (Nat.ltb_spec (i - 1) (order + 1)); [|lia]. cbv zeta. cbn [f_nodes f_basis f_partial f_val f_dval].
  rewrite E, F. repeat match goal with |- _ /\ _ => split end; reflexivity.
Qed.
Definition quad_entryT (t : @tensorT T) (m : nat) : T * T * T * T * T :=
  (f_nodes t m 0%nat, f_nodes t m 1%nat, f_basis t m, f_partial t m 0%nat, f_partial t m 1%nat).
Lemma quadn_specT order nodes1 xi t m : let N := (order + 1)%nat in (m < N * N)%nat ->
  let a := (m mod N)%nat in let b := (m / N)%nat in
  quad_entryT (quadn_basis_partialsT add sub mul div zero one order nodes1 xi t) m
  = (nodes1 a, nodes1 b, mul (LT N nodes1 a (xi 0%nat)) (LT N nodes1 b (xi 1%nat)),
     mul (DLT N nodes1 a (xi 0%nat)) (LT N nodes1 b (xi 1%nat)), mul (LT N nodes1 a (xi 0%nat)) (DLT N nodes1 b (xi 1%nat))).
Proof.
  intros N Hm a b. subst a b. unfold quadn_basis_partialsT.
  apply (loop_at quad_entryT (quadn_bodyT add sub mul div zero one order nodes1 xi) (fun m => (nodes1 (m mod N)%nat, nodes1 (m / N)%nat,
    mul (LT N nodes1 (m mod N) (xi 0%nat)) (LT N nodes1 (m / N) (xi 1%nat)),
    mul (DLT N nodes1 (m mod N) (xi 0%nat)) (LT N nodes1 (m / N) (xi 1%nat)),
    mul (LT N nodes1 (m mod N) (xi 0%nat)) (DLT N nodes1 (m / N) (xi 1%nat))))); [| |exact Hm].
  - clear m Hm t. intros m t Hm. unfold quadn_bodyT. fold N. rewrite quadn_idx_spec by (unfold N; lia).
    assert (Ha : (m mod N < N)%nat) by (apply Nat.mod_upper_bound; unfold N; lia).
    assert (Hb : (m / N < N)%nat) by (apply Nat.div_lt_upper_bound; unfold N in *; lia).
    set (t0 := with_nodesT t _).
    pose proof (directionT_spec order nodes1 xi m 0 (m mod N + 1) t0 ltac:(unfold N in *; lia)) as D0. cbv zeta in D0.
    set (t1 := directionT order nodes1 xi m 0 (m mod N + 1) t0) in *.
    pose proof (directionT_spec order nodes1 xi m 1 (m / N + 1) t1 ltac:(unfold N in *; lia)) as D1. cbv zeta in D1.
    set (t2 := directionT order nodes1 xi m 1 (m / N + 1) t1) in *.
    destruct D0 as (A1 & A2 & A3 & A4 & A5), D1 as (B1 & B2 & B3 & B4 & B5).
    unfold quad_entryT, with_resultT. cbn [f_nodes f_basis f_partial].
    rewrite B4, B5, A4, A5, B1, A1. unfold t0, with_nodesT. cbn [f_nodes f_val f_dval]. rewrite !lset2_same. unfold lset. cbn [Nat.eqb].
    rewrite Nat.eqb_refl, !Nat.add_sub. reflexivity.
  - clear m Hm t. intros m t k Hk. unfold quadn_bodyT. destruct (quadn_idx (order + 1) m) as [i j].
    unfold FloatLagrangeModel.directionT. set (t0 := with_nodesT t _).
    destruct (lagrange_1DT add sub mul div zero one order (xi 0%nat) nodes1 (f_val1 t0) (f_dval1 t0)) as [v dv]. cbv zeta.
    destruct (lagrange_1DT add sub mul div zero one order (xi 1%nat) nodes1 _ _) as [v' dv'].
    unfold quad_entryT, with_resultT. cbn [f_nodes f_basis f_partial].
    unfold t0, with_nodesT. cbn [f_nodes f_basis f_partial]. rewrite !lset2_other by exact Hk. unfold lset.
    destruct (Nat.eqb_spec k m); [congruence|reflexivity].
Qed.
Definition hex_entryT (t : @tensorT T) (m : nat) : T * T * T * T * T * T * T :=
  (f_nodes t m 0%nat, f_nodes t m 1%nat, f_nodes t m 2%nat, f_basis t m,
   f_partial t m 0%nat, f_partial t m 1%nat, f_partial t m 2%nat).
Definition hex_valueT (N : nat) (nodes1 xi : nat -> T) (m : nat) : T * T * T * T * T * T * T :=
    let a := (m mod N)%nat in let b := ((m / N) mod N)%nat in let c := (m / (N * N))%nat in
    let La := LT N nodes1 a (xi 0%nat) in let Lb := LT N nodes1 b (xi 1%nat) in let Lc := LT N nodes1 c (xi 2%nat) in
    (nodes1 a, nodes1 b, nodes1 c, mul (mul La Lb) Lc,
     mul (mul (DLT N nodes1 a (xi 0%nat)) Lb) Lc, mul (mul La (DLT N nodes1 b (xi 1%nat))) Lc, mul (mul La Lb) (DLT N nodes1 c (xi 2%nat))).
Lemma hexn_specT order nodes1 xi t m : let N := (order + 1)%nat in (m < N * (N * N))%nat ->
  hex_entryT (hexn_basis_partialsT add sub mul div zero one order nodes1 xi t) m = hex_valueT N nodes1 xi m.
Proof.
  intros N Hm. unfold hexn_basis_partialsT.
  apply (loop_at hex_entryT (hexn_bodyT add sub mul div zero one order nodes1 xi) (hex_valueT N nodes1 xi)); [| |exact Hm].
  - clear m Hm t. intros m t Hm. unfold hex_valueT. cbv zeta. unfold hexn_bodyT. fold N. rewrite hexn_idx_spec by (unfold N; lia).
    assert (N0 : (0 < N)%nat) by (unfold N; lia).
    assert (Ha : (m mod N < N)%nat) by (apply Nat.mod_upper_bound; lia).
    assert (Hb : ((m / N) mod N < N)%nat) by (apply Nat.mod_upper_bound; lia).
    assert (Hc : (m / (N * N) < N)%nat) by (apply Nat.div_lt_upper_bound; lia).
    set (t0 := with_nodesT t _).
    pose proof (directionT_spec order nodes1 xi m 0 (m mod N + 1) t0 ltac:(unfold N in *; lia)) as D0. cbv zeta in D0.
    set (t1 := directionT order nodes1 xi m 0 (m mod N + 1) t0) in *.
    pose proof (directionT_spec order nodes1 xi m 1 ((m / N) mod N + 1) t1 ltac:(unfold N in *; lia)) as D1. cbv zeta in D1.
    set (t2 := directionT order nodes1 xi m 1 ((m / N) mod N + 1) t1) in *.
    pose proof (directionT_spec order nodes1 xi m 2 (m / (N * N) + 1) t2 ltac:(unfold N in *; lia)) as D2. cbv zeta in D2.
    set (t3 := directionT order nodes1 xi m 2 (m / (N * N) + 1) t2) in *.
    destruct D0 as (A1 & A2 & A3 & A4 & A5), D1 as (B1 & B2 & B3 & B4 & B5), D2 as (C1 & C2 & C3 & C4 & C5).
    unfold hex_entryT, with_resultT. cbn [f_nodes f_basis f_partial].
    rewrite C4, C5, B4, B5, A4, A5, C1, B1, A1. unfold t0, with_nodesT. cbn [f_nodes f_val f_dval].
    rewrite !lset2_same. unfold lset. cbn [Nat.eqb]. rewrite Nat.eqb_refl, !Nat.add_sub. reflexivity.
  - clear m Hm t. intros m t k Hk. unfold hexn_bodyT. destruct (hexn_idx (order + 1) m) as [[i j] l].
    unfold FloatLagrangeModel.directionT. set (t0 := with_nodesT t _).
    destruct (lagrange_1DT add sub mul div zero one order (xi 0%nat) nodes1 (f_val1 t0) (f_dval1 t0)) as [v dv]. cbv zeta.
    destruct (lagrange_1DT add sub mul div zero one order (xi 1%nat) nodes1 _ _) as [v' dv'].
    destruct (lagrange_1DT add sub mul div zero one order (xi 2%nat) nodes1 _ _) as [v'' dv''].
    unfold hex_entryT, with_resultT. cbn [f_nodes f_basis f_partial].
    unfold t0, with_nodesT. cbn [f_nodes f_basis f_partial]. rewrite !lset2_other by exact Hk. unfold lset.
    destruct (Nat.eqb_spec k m); [congruence|reflexivity].
Qed.
End Spec.
(** the reading over reals *)
Lemma selR_prod b a xi n : selT Rminus Rmult 1 b a xi n = prod n (fun j => if b j then a - xi j else 1).
Proof. unfold selT, prod. induction n; [reflexivity|]. cbn [loop]. rewrite IHn. destruct (b n); ring. Qed.
Lemma denR N xi i : denT Rminus Rmult 1 N xi i = prod_ne N i (fun j => xi i - xi j).
Proof. unfold denT. rewrite selR_prod. unfold prod_ne. apply prod_ext. intros j _. destruct (j =? i); reflexivity. Qed.
Lemma LR N xi i x : LT Rminus Rmult Rdiv 1 N xi i x = L N xi i x.
Proof. unfold LT, L. rewrite denR, selR_prod. f_equal. unfold prod_ne. apply prod_ext. intros j _. destruct (j =? i); reflexivity. Qed.
Lemma DLR N xi i x : DLT Rplus Rminus Rmult Rdiv 0 1 N xi i x = DL N xi i x.
Proof.
  unfold DLT, DL. rewrite denR. f_equal. unfold psumT.
  assert (A : forall n, loop n (fun j p => if negb (j =? i) then p + termT Rminus Rmult 1 N xi i j x else p) 0 =
    sum n (fun j => if j =? i then 0 else prod N (fun k => if (negb (k =? j) && negb (k =? i))%bool then x - xi k else 1))); [|apply A].
  induction n; [reflexivity|]. cbn [loop]. rewrite IHn. change (sum (S n) ?f) with (sum n f + f n). cbv beta. unfold termT. rewrite selR_prod. destruct (n =? i); cbn [negb]; ring.
Qed.

(** ** relative errors: products and quotients of factors 1 - u to 1/(1 - u) *)
Section Near.
Variables prec emax : Z.
Hypothesis Hf : format prec emax.
Let Hprec : (1 < prec)%Z. Proof. apply Hf. Qed.
Let Hem : (prec < emax)%Z. Proof. destruct Hf; lia. Qed.
Notation u := (uu prec).
Notation et := (eta prec emax).
Notation "'ρ'" := (1 - u).
Notation add := (SFadd prec emax). Notation sub := (SFsub prec emax). Notation mul := (SFmul prec emax). Notation fdiv := (SFdiv prec emax).
Notation one := (of_int prec emax 1).
Definition gam (k : nat) : R := / ρ ^ k.
Definition near (k : nat) (z : spec_float) (v : R) : Prop :=
  fin z = true /\ number prec emax z /\ exists t, ρ ^ k <= t <= gam k /\ FR z = v * t.
Lemma u_quarter : 0 < u <= / 4. Proof. split; [apply u_pos|apply uu_le, Hprec]. Qed.
Lemma rho_pos k : 0 < ρ ^ k. Proof. apply pow_lt. pose proof u_quarter. lra. Qed.
Lemma rho_le_1 k : ρ ^ k <= 1. Proof. pose proof u_quarter. induction k; [cbn; lra|]. cbn [pow]. pose proof (rho_pos k). nra. Qed.
Lemma gam_ge_1 k : 1 <= gam k. Proof. unfold gam. pose proof (rho_pos k). pose proof (rho_le_1 k). rewrite <- Rinv_1 at 1. apply Rinv_le_contravar; lra. Qed.
Lemma gam_add a b : gam (a + b) = gam a * gam b.
Proof. unfold gam. rewrite pow_add, Rinv_mult. reflexivity. Qed.
Lemma gam_S a : gam (S a) = gam a * gam 1. Proof. rewrite <- gam_add, Nat.add_1_r. reflexivity. Qed.
Lemma gam_1 : 1 + u <= gam 1.
Proof. unfold gam. rewrite pow_1. pose proof u_quarter. apply (Rmult_le_reg_r ρ); [lra|]. rewrite Rinv_l by lra. nra. Qed.
Lemma gam_le a b : (a <= b)%nat -> gam a <= gam b.
Proof. intros H. replace b with (a + (b - a))%nat by lia. rewrite gam_add. pose proof (gam_ge_1 a). pose proof (gam_ge_1 (b - a)). nra. Qed.
Lemma rho_le a b : (a <= b)%nat -> ρ ^ b <= ρ ^ a.
Proof. intros H. replace b with (a + (b - a))%nat by lia. rewrite pow_add. pose proof (rho_pos a). pose proof (rho_le_1 (b - a)). nra. Qed.
Lemma near_mono a b z v : (a <= b)%nat -> near a z v -> near b z v.
Proof. intros H (F & N & t & T & E). repeat split; try assumption. exists t. split; [|exact E]. pose proof (gam_le a b H). pose proof (rho_le a b H). lra. Qed.
Lemma rel_near z v : fin z = true -> number prec emax z -> Rabs (FR z - v) <= u * Rabs v -> near 1 z v.
Proof.
  intros F N E. repeat split; try assumption. destruct (Req_dec v 0) as [->|V].
  - rewrite Rabs_R0, Rmult_0_r in E. exists 1. pose proof (gam_ge_1 1). pose proof (rho_le_1 1). split; [lra|]. apply Rabs_0 in E || (pose proof (Rabs_pos (FR z - 0)); assert (Q : Rabs (FR z - 0) = 0) by lra; destruct (Req_dec (FR z - 0) 0) as [Q2|Q2]; [lra|apply Rabs_no_R0 in Q2; contradiction]).
  - exists (FR z / v). split; [|field; exact V]. pose proof gam_1 as G. rewrite pow_1.
    assert (B : Rabs (FR z / v - 1) <= u). { replace (FR z / v - 1) with ((FR z - v) / v) by (field; exact V). unfold Rdiv. rewrite Rabs_mult, Rabs_inv. apply Rabs_pos_lt in V. apply (Rmult_le_reg_r (Rabs v)); [exact V|]. rewrite Rmult_assoc, Rinv_l by lra. lra. }
    apply Rabs_le_inv in B. lra.
Qed.
Definition normal (v : R) : Prop := v = 0 \/ pw (emin prec emax + prec - 1) <= Rabs v.
Lemma approx_near z v : approx prec emax z v (Rmax (u * Rabs v) et) -> normal v -> Rabs v <= pw (emax - 1) -> near 1 z v.
Proof.
  intros A N B. destruct N as [->|N].
  - destruct (approx_exact prec emax _ _ _ A (isfl_0 prec emax)) as [F E]. apply rel_near; [exact F|exact (approx_valid prec emax _ _ _ A)|]. rewrite E, Rminus_0_r, Rabs_R0, Rmult_0_r. lra.
  - assert (X : et <= u * Rabs v). { eapply Rle_trans; [|apply Rmult_le_compat_l; [apply Rlt_le, u_pos|exact N]]. unfold eta, uu. rewrite <- pw_add. apply pw_le. lia. }
    rewrite Rmax_left in A by exact X. pose proof u_quarter as U. assert (P : pw emax = 2 * pw (emax - 1)) by (rewrite pw_half; lra). pose proof (pw_pos (emax - 1)).
    assert (F : fin z = true). { apply (approx_fin prec emax z v _ A). pose proof (Rabs_pos v). nra. }
    apply rel_near; [exact F|exact (approx_valid prec emax _ _ _ A)|]. destruct A as [_ [(_ & _ & E & _)|(s & -> & _)]]; [exact E|discriminate].
Qed.
Lemma sub_near_1 x y : fin x = true -> fin y = true -> number prec emax x -> number prec emax y -> Rabs (FR x - FR y) <= pw (emax - 1) -> near 1 (sub x y) (FR x - FR y).
Proof.
  intros Fx Fy Vx Vy B. pose proof (sub_correct prec emax Hprec Hem _ _ Fx Fy Vx Vy) as A. pose proof u_quarter as U. assert (P : pw emax = 2 * pw (emax - 1)) by (rewrite pw_half; lra). pose proof (pw_pos (emax - 1)).
  assert (F : fin (sub x y) = true). { apply (approx_fin prec emax _ _ _ A). pose proof (Rabs_pos (FR x - FR y)). nra. }
  apply rel_near; [exact F|exact (approx_valid prec emax _ _ _ A)|]. destruct A as [_ [(_ & _ & E & _)|(s & E & _)]]; [exact E|rewrite E in F; discriminate].
Qed.
Lemma near_step j k z v w t : ρ ^ j <= t <= gam j -> near k z (v * t) -> w = v -> near (j + k) z w.
Proof.
  intros T (F & N & t' & T' & E) ->. repeat split; try assumption. exists (t * t'). pose proof (rho_pos j). pose proof (rho_pos k). pose proof (gam_ge_1 j). pose proof (gam_ge_1 k).
  split; [|rewrite E; ring]. rewrite pow_add, gam_add. split; apply Rmult_le_compat; lra.
Qed.
Lemma near_mul a b x y v w : near a x v -> near b y w -> normal (FR x * FR y) -> Rabs (FR x * FR y) <= pw (emax - 1) -> near (a + b + 1) (mul x y) (v * w).
Proof.
  intros (Fx & Nx & t & T & Ex) (Fy & Ny & s & S & Ey) Q B. pose proof (mul_correct prec emax Hprec Hem _ _ Fx Fy Nx Ny) as A. apply approx_near in A; [|exact Q|exact B].
  eapply near_step; [|rewrite Ex, Ey in A|reflexivity]; [|replace (v * t * (w * s)) with (v * w * (t * s)) in A by ring; exact A].
  pose proof (rho_pos a). pose proof (rho_pos b). pose proof (gam_ge_1 a). pose proof (gam_ge_1 b). rewrite pow_add, gam_add. split; apply Rmult_le_compat; lra.
Qed.
Lemma gam_inv k t : ρ ^ k <= t <= gam k -> ρ ^ k <= / t <= gam k.
Proof.
  intros [A B]. pose proof (rho_pos k). unfold gam in *. split; [|apply Rinv_le_contravar; lra].
  rewrite <- (Rinv_inv (ρ ^ k)). apply Rinv_le_contravar; lra.
Qed.
Lemma near_div a b x y v w : near a x v -> near b y w -> w <> 0 -> normal (FR x / FR y) -> Rabs (FR x / FR y) <= pw (emax - 1) -> near (a + b + 1) (fdiv x y) (v / w).
Proof.
  intros (Fx & Nx & t & T & Ex) (Fy & Ny & s & S & Ey) W Q B. assert (S0 : 0 < s) by (pose proof (rho_pos b); lra).
  assert (Y : FR y <> 0) by (rewrite Ey; apply Rmult_integral_contrapositive; split; lra).
  pose proof (div_correct prec emax Hprec Hem _ _ Fx Fy Nx Ny Y) as A. apply approx_near in A; [|exact Q|exact B].
  eapply near_step; [|rewrite Ex, Ey in A|reflexivity]; [|replace (v * t / (w * s)) with (v / w * (t * / s)) in A by (field; split; lra); exact A].
  pose proof (rho_pos a). pose proof (rho_pos b). pose proof (gam_ge_1 a). pose proof (gam_ge_1 b). apply gam_inv in S. rewrite pow_add, gam_add. split; apply Rmult_le_compat; lra.
Qed.
Lemma one_near : near 0 one 1.
Proof.
  destruct (unit_exact prec emax Hf false) as (F & N & E). repeat split; try assumption. exists 1. unfold gam. cbn [pow]. rewrite Rinv_1. split; [lra|]. rewrite Rmult_1_r. exact E.
Qed.
Lemma half_rho N k : (16 * Z.of_nat N <= 2 ^ prec)%Z -> (k <= 8 * N)%nat -> / 2 <= ρ ^ k /\ gam k <= 2.
Proof.
  intros H K. assert (A : / 2 <= ρ ^ k).
  { pose proof u_quarter as U. assert (B : forall n, 1 - INR n * u <= ρ ^ n). { induction n; [cbn; lra|]. rewrite S_INR. cbn [pow]. pose proof (pos_INR n). pose proof (rho_pos n). nra. }
    eapply Rle_trans; [|apply B]. apply IZR_le in H. rewrite pw_Z in H by lia. rewrite mult_IZR, <- INR_IZR_INZ in H. apply le_INR in K. rewrite mult_INR in K. change (INR 8) with (IZR 8) in K || replace (INR 8) with 8 in K by (cbn; lra).
    pose proof (pw_inv prec) as I. fold u in I. change (pw (- prec)) with u in I. nra. }
  split; [exact A|]. unfold gam. rewrite <- (Rinv_inv 2). apply Rinv_le_contravar; lra.
Qed.
Section Prod.
Variables (N : nat) (a : Z).
Hypothesis Ha : (0 <= a)%Z.
Hypothesis C1 : ((a + 2) * Z.of_nat N + 4 <= emax)%Z.
Hypothesis C2 : (16 * Z.of_nat N <= 2 ^ prec)%Z.
Variable xi : nat -> spec_float.
Hypothesis Hxi : forall j, (j < N)%nat -> number prec emax (xi j) /\ fin (xi j) = true.
Notation y := (fun j => FR (xi j)).
Notation fsel := (selT sub mul one).
Notation rsel := (selT Rminus Rmult 1).
Definition apart (x : R) (j : nat) : Prop := x - FR (xi j) = 0 \/ pw (- a) <= Rabs (x - FR (xi j)).
Lemma two_pw : pw 1 = 2. Proof. apply pw_1. Qed.
Lemma Nmul k : (k <= N)%nat -> (a * Z.of_nat k <= a * Z.of_nat N)%Z. Proof. intros. apply Z.mul_le_mono_nonneg_l; lia. Qed.
Lemma sel_near b A : fin A = true -> number prec emax A -> (forall j, (j < N)%nat -> b j = true -> apart (FR A) j /\ Rabs (FR A - FR (xi j)) <= 2) ->
  forall k, (k <= N)%nat -> let V := rsel b (FR A) y k in
  near (2 * k) (fsel b A xi k) V /\ Rabs V <= pw (Z.of_nat k) /\ (V = 0 \/ pw (- (a * Z.of_nat k)) <= Rabs V).
Proof.
  intros FA NA G. cbv zeta. induction k; intros K.
  - split; [apply one_near|]. cbn. rewrite Rabs_R1, Z.mul_0_r. change (- 0)%Z with 0%Z. rewrite pw_0. split; [lra|right; lra].
  - destruct (IHk ltac:(lia)) as (I1 & I2 & I3). set (z := fsel b A xi k) in *. set (V := rsel b (FR A) y k) in *.
    assert (S1 : fsel b A xi (S k) = if b k then mul z (sub A (xi k)) else z) by reflexivity.
    assert (S2 : rsel b (FR A) y (S k) = if b k then V * (FR A - FR (xi k)) else V) by reflexivity. rewrite S1, S2. clear S1 S2.
    pose proof (Nmul (S k) K) as M. assert (AK : (a * Z.of_nat (S k) = a * Z.of_nat k + a)%Z) by lia.
    destruct (b k) eqn:B.
    + destruct (G k ltac:(lia) B) as [G1 G2]. destruct (Hxi k ltac:(lia)) as [X1 X2]. set (W := FR A - FR (xi k)) in *.
      assert (D : near 1 (sub A (xi k)) W). { apply sub_near_1; try assumption. eapply Rle_trans; [exact G2|]. rewrite <- two_pw. apply pw_le. lia. }
      assert (VW : Rabs (V * W) <= pw (Z.of_nat k + 1)) by (rewrite Rabs_mult, pw_add, two_pw; apply Rmult_le_compat; try apply Rabs_pos; assumption).
      assert (LW : V * W = 0 \/ pw (- (a * Z.of_nat (S k))) <= Rabs (V * W)).
      { destruct I3 as [->|I3]; [left; ring|]. destruct G1 as [E|G1]; [left; fold W in E; rewrite E; ring|]. right. rewrite Rabs_mult, AK, Z.opp_add_distr, pw_add. fold W in G1. pose proof (pw_pos (- a)). pose proof (pw_pos (- (a * Z.of_nat k))). apply Rmult_le_compat; lra. }
      split; [|split; [replace (Z.of_nat (S k)) with (Z.of_nat k + 1)%Z by lia; exact VW|exact LW]].
      replace (2 * S k)%nat with (2 * k + 1 + 1)%nat by lia. pose proof I1 as I1'. pose proof D as D'. destruct I1' as (_ & _ & t & T & E1), D' as (_ & _ & t' & T' & E2).
      assert (P : FR z * FR (sub A (xi k)) = V * W * (t * t')) by (rewrite E1, E2; ring). destruct (half_rho N (2 * k + 1) C2 ltac:(lia)) as [H1 H2].
      assert (TT : ρ ^ (2 * k + 1) <= t * t' <= gam (2 * k + 1)) by (pose proof (rho_pos (2 * k)); pose proof (rho_pos 1); pose proof (gam_ge_1 (2 * k)); pose proof (gam_ge_1 1); rewrite pow_add, gam_add; split; apply Rmult_le_compat; lra).
      apply near_mul; [exact I1|exact D| |]; rewrite P.
      * destruct LW as [->|LW]; [left; ring|right]. rewrite Rabs_mult, (Rabs_pos_eq (t * t')) by lra.
        apply Rle_trans with (pw (- (a * Z.of_nat (S k))) * pw (-1)); [rewrite <- pw_add; apply pw_le; unfold emin; lia|]. rewrite pw_m1. pose proof (pw_pos (- (a * Z.of_nat (S k)))). apply Rmult_le_compat; lra.
      * rewrite Rabs_mult, (Rabs_pos_eq (t * t')) by lra. apply Rle_trans with (pw (Z.of_nat k + 1) * pw 1); [rewrite two_pw; apply Rmult_le_compat; try lra; apply Rabs_pos|]. rewrite <- pw_add. apply pw_le. lia.
    + split; [apply (near_mono (2 * k)); [lia|exact I1]|]. split; [eapply Rle_trans; [exact I2|apply pw_le; lia]|]. destruct I3 as [->|I3]; [left; reflexivity|right]. eapply Rle_trans; [|exact I3]. apply pw_le. lia.
Qed.
(* the denominators *)
Hypothesis Gxi : forall i j, (i < N)%nat -> (j < N)%nat -> i <> j -> pw (- a) <= Rabs (FR (xi i) - FR (xi j)) <= 2.
Lemma den_near i : (i < N)%nat -> let D := denT Rminus Rmult 1 N y i in
  near (2 * N) (denT sub mul one N xi i) D /\ Rabs D <= pw (Z.of_nat N) /\ pw (- (a * Z.of_nat N)) <= Rabs D.
Proof.
  intros Hi. cbv zeta. destruct (Hxi i Hi) as [X1 X2].
  destruct (sel_near (fun j => negb (j =? i)) (xi i) X2 X1) with (k := N) as (S1 & S2 & S3); [|lia|].
  { intros j Hj B. apply negb_true_iff, Nat.eqb_neq in B. destruct (Gxi i j Hi Hj ltac:(congruence)) as [G1 G2]. split; [right|]; assumption. }
  split; [exact S1|]. split; [exact S2|]. destruct S3 as [S3|S3]; [|exact S3]. exfalso. rewrite selR_prod in S3. revert S3. apply prod_nonzero. intros j Hj. destruct (Nat.eqb_spec j i); cbn [negb]; [lra|].
  destruct (Gxi i j Hi Hj ltac:(congruence)) as [G1 _]. pose proof (pw_pos (- a)). intros Q. rewrite Q, Rabs_R0 in G1. lra.
Qed.
Variable x : spec_float.
Hypothesis Fx : fin x = true.
Hypothesis Nx : number prec emax x.
Hypothesis Gx : forall j, (j < N)%nat -> apart (FR x) j /\ Rabs (FR x - FR (xi j)) <= 2.
Lemma L_near i : (i < N)%nat -> near (4 * N + 1) (LT sub mul fdiv one N xi i x) (LT Rminus Rmult Rdiv 1 N y i (FR x)).
Proof.
  intros Hi. destruct (den_near i Hi) as (D1 & D2 & D3). destruct (sel_near (fun j => negb (j =? i)) x Fx Nx ltac:(intros; apply Gx; assumption) N (le_n N)) as (S1 & S2 & S3).
  unfold LT. set (n := fsel _ x xi N) in *. set (V := rsel _ (FR x) y N) in *. set (d := denT sub mul one N xi i) in *. set (D := denT Rminus Rmult 1 N y i) in *.
  pose proof (pw_pos (- (a * Z.of_nat N))) as P0. assert (D0 : D <> 0) by (intros E; rewrite E, Rabs_R0 in D3; lra).
  replace (4 * N + 1)%nat with (2 * N + 2 * N + 1)%nat by lia. apply near_div; [exact S1|exact D1|exact D0| |].
  all: destruct S1 as (_ & _ & t & T & E1), D1 as (_ & _ & s & S & E2); rewrite E1, E2; assert (s0 : 0 < s) by (pose proof (rho_pos (2 * N)); lra);
    assert (TT : ρ ^ (4 * N) <= t * / s <= gam (4 * N)) by (apply gam_inv in S; pose proof (rho_pos (2 * N)); pose proof (gam_ge_1 (2 * N)); replace (4 * N)%nat with (2 * N + 2 * N)%nat by lia; rewrite pow_add, gam_add; split; apply Rmult_le_compat; lra);
    destruct (half_rho N (4 * N) C2 ltac:(lia)) as [H1 H2]; replace (V * t / (D * s)) with (V * / D * (t * / s)) by (field; split; lra);
    assert (ID : pw (- Z.of_nat N) <= / Rabs D <= pw (a * Z.of_nat N)) by (assert (0 < Rabs D) by lra; pose proof (pw_inv (Z.of_nat N)); pose proof (pw_inv (a * Z.of_nat N)); pose proof (pw_pos (- Z.of_nat N)); pose proof (pw_pos (a * Z.of_nat N));
      split; apply (Rmult_le_reg_r (Rabs D)); try assumption; rewrite Rinv_l by lra; nra).
  - destruct S3 as [->|S3]; [left; ring|right]. rewrite (Rabs_mult (V * / D)), (Rabs_pos_eq (t * / s)), Rabs_mult, Rabs_inv by lra.
    apply Rle_trans with (pw (- (a * Z.of_nat N)) * pw (- Z.of_nat N) * pw (-1)); [rewrite <- !pw_add; apply pw_le; unfold emin; nia|]. rewrite pw_m1. pose proof (pw_pos (- Z.of_nat N)).
    apply Rmult_le_compat; try lra; [apply Rmult_le_pos; lra|apply Rmult_le_compat; lra].
  - rewrite (Rabs_mult (V * / D)), (Rabs_pos_eq (t * / s)), Rabs_mult, Rabs_inv by lra. apply Rle_trans with (pw (Z.of_nat N) * pw (a * Z.of_nat N) * pw 1); [|rewrite <- !pw_add; apply pw_le; nia]. rewrite two_pw. pose proof (Rabs_pos V).
    pose proof (pw_pos (- Z.of_nat N)). apply Rmult_le_compat; try lra; [apply Rmult_le_pos; lra|apply Rmult_le_compat; lra].
Qed.
(* the sums of the derivatives *)
Notation fterm := (termT sub mul one). Notation rterm := (termT Rminus Rmult 1).
Definition mags (i n : nat) : R := sum n (fun j => if j =? i then 0 else Rabs (rterm N y i j (FR x))).
Lemma mags_nonneg i n : 0 <= mags i n.
Proof. unfold mags. induction n; [cbn; lra|]. change (sum (S n) ?f) with (sum n f + f n). cbv beta. destruct (n =? i); [lra|]. pose proof (Rabs_pos (rterm N y i n (FR x))). lra. Qed.
Lemma nat_pw n : INR n <= pw (Z.of_nat n).
Proof. induction n; [cbn; lra|]. rewrite S_INR. replace (Z.of_nat (S n)) with (Z.of_nat n + 1)%Z by lia. rewrite pw_add, two_pw. pose proof (pw_le 0 (Z.of_nat n) ltac:(lia)) as Q. rewrite pw_0 in Q. lra. Qed.
Lemma term_near i j : (i < N)%nat -> near (2 * N) (fterm N xi i j x) (rterm N y i j (FR x)) /\ Rabs (rterm N y i j (FR x)) <= pw (Z.of_nat N).
Proof. intros Hi. destruct (sel_near (fun k => negb (k =? j) && negb (k =? i))%bool x Fx Nx ltac:(intros; apply Gx; assumption) N (le_n N)) as (S1 & S2 & _). split; assumption. Qed.
Lemma mags_le i n : (i < N)%nat -> (n <= N)%nat -> mags i n <= INR n * pw (Z.of_nat N).
Proof.
  intros Hi. unfold mags. induction n; intros Hn; [cbn; lra|]. specialize (IHn ltac:(lia)). change (sum (S n) ?f) with (sum n f + f n). cbv beta. rewrite S_INR. pose proof (pw_pos (Z.of_nat N)). destruct (term_near i n Hi) as [_ T]. destruct (n =? i); lra.
Qed.
Lemma near_abs k z v : near k z v -> Rabs (FR z - v) <= (gam k - 1) * Rabs v /\ Rabs (FR z) <= gam k * Rabs v.
Proof.
  intros (_ & _ & t & T & ->). pose proof (rho_pos k) as R0. pose proof (rho_le_1 k) as R1. assert (G : ρ ^ k * gam k = 1) by (unfold gam; field; lra). pose proof (gam_ge_1 k). pose proof (Rabs_pos v).
  split.
  - replace (v * t - v) with ((t - 1) * v) by ring. rewrite Rabs_mult. apply Rmult_le_compat_r; [assumption|]. apply Rabs_le. split; [|lra]. nra.
  - rewrite Rabs_mult, (Rabs_pos_eq t) by lra. rewrite Rmult_comm. apply Rmult_le_compat_r; lra.
Qed.
Lemma psum_mags i n : Rabs (psumT Rplus Rminus Rmult 0 1 N y i (FR x) n) <= mags i n.
Proof.
  induction n; [cbn; rewrite Rabs_R0; lra|].
  assert (S2 : psumT Rplus Rminus Rmult 0 1 N y i (FR x) (S n) = if negb (n =? i) then psumT Rplus Rminus Rmult 0 1 N y i (FR x) n + rterm N y i n (FR x) else psumT Rplus Rminus Rmult 0 1 N y i (FR x) n) by reflexivity.
  assert (S3 : mags i (S n) = mags i n + (if n =? i then 0 else Rabs (rterm N y i n (FR x)))) by reflexivity. rewrite S2, S3.
  destruct (n =? i); cbn [negb]; [lra|]. eapply Rle_trans; [apply Rabs_triang|]. lra.
Qed.
Lemma psum_near i n : (i < N)%nat -> (n <= N)%nat -> let z := psumT add sub mul f0 one N xi i x n in
  fin z = true /\ number prec emax z /\ Rabs (FR z - psumT Rplus Rminus Rmult 0 1 N y i (FR x) n) <= (gam (2 * N + n) - 1) * mags i n.
Proof.
  intros Hi. cbv zeta. induction n; intros Hn.
  - repeat split. cbn. rewrite Rminus_0_r, Rabs_R0. lra.
  - destruct (IHn ltac:(lia)) as (F & Nz & E). set (z := psumT add sub mul f0 one N xi i x n) in *. set (v := psumT Rplus Rminus Rmult 0 1 N y i (FR x) n) in *.
    assert (S1 : psumT add sub mul f0 one N xi i x (S n) = if negb (n =? i) then add z (fterm N xi i n x) else z) by reflexivity.
    assert (S2 : psumT Rplus Rminus Rmult 0 1 N y i (FR x) (S n) = if negb (n =? i) then v + rterm N y i n (FR x) else v) by reflexivity.
    assert (S3 : mags i (S n) = mags i n + (if n =? i then 0 else Rabs (rterm N y i n (FR x)))) by reflexivity. rewrite S1, S2, S3. clear S1 S2 S3.
    replace (2 * N + S n)%nat with (S (2 * N + n)) by lia. pose proof (mags_nonneg i n) as M0. pose proof (gam_ge_1 (2 * N + n)) as G1. pose proof (gam_le (2 * N + n) (S (2 * N + n)) ltac:(lia)) as G2.
    destruct (n =? i); cbn [negb]; [repeat split; try assumption; rewrite Rplus_0_r; nra|].
    destruct (term_near i n Hi) as [T1 T2]. pose proof T1 as T1'. destruct T1' as (TF & TN & _). destruct (near_abs _ _ _ T1) as [T3 T4]. set (s := fterm N xi i n x) in *. set (w := rterm N y i n (FR x)) in *.
    assert (VB : Rabs v <= mags i n).
    { apply psum_mags. }
    set (M := mags i n) in *. set (g := gam (2 * N + n)) in *. pose proof (gam_le (2 * N) (2 * N + n) ltac:(lia)) as G3. fold g in G3. pose proof (Rabs_pos w) as W0.
    assert (A0 : Rabs (FR z + FR s - (v + w)) <= (g - 1) * (M + Rabs w)).
    { replace (FR z + FR s - (v + w)) with ((FR z - v) + (FR s - w)) by ring. eapply Rle_trans; [apply Rabs_triang|]. nra. }
    assert (A1 : Rabs (FR z + FR s) <= g * (M + Rabs w)).
    { replace (FR z + FR s) with ((FR z + FR s - (v + w)) + (v + w)) by ring. eapply Rle_trans; [apply Rabs_triang|]. pose proof (Rabs_triang v w). lra. }
    pose proof (add_correct prec emax Hprec Hem _ _ F TF Nz TN) as AC. pose proof u_quarter as U.
    destruct (half_rho N (2 * N + n) C2 ltac:(lia)) as [_ H2]. fold g in H2. pose proof (mags_le i n Hi ltac:(lia)) as ML. fold M in ML.
    assert (FZ : fin (add z s) = true).
    { apply (approx_fin prec emax _ _ _ AC). assert (B : Rabs (FR z + FR s) <= pw (2 * Z.of_nat N + 1)).
      { eapply Rle_trans; [exact A1|]. assert (Q : M + Rabs w <= INR (S n) * pw (Z.of_nat N)) by (rewrite S_INR; lra). assert (Q2 : INR (S n) <= pw (Z.of_nat N)) by (eapply Rle_trans; [apply le_INR, Hn|apply nat_pw]).
        replace (2 * Z.of_nat N + 1)%Z with (1 + (Z.of_nat N + Z.of_nat N))%Z by lia. rewrite !pw_add, two_pw. pose proof (pw_pos (Z.of_nat N)). pose proof (pos_INR (S n)). apply Rmult_le_compat; try lra. eapply Rle_trans; [exact Q|]. apply Rmult_le_compat; lra. }
      assert (P : pw (2 * Z.of_nat N + 1) <= pw (emax - 1)) by (apply pw_le; nia). assert (P2 : pw emax = 2 * pw (emax - 1)) by (rewrite pw_half; lra). pose proof (pw_pos (emax - 1)). pose proof (Rabs_pos (FR z + FR s)). nra. }
    split; [exact FZ|]. split; [exact (approx_valid prec emax _ _ _ AC)|]. destruct AC as [_ [(_ & _ & EA & _)|(sg & EA & _)]]; [|rewrite EA in FZ; discriminate].
    replace (FR (add z s) - (v + w)) with ((FR (add z s) - (FR z + FR s)) + (FR z + FR s - (v + w))) by ring. eapply Rle_trans; [apply Rabs_triang|].
    rewrite gam_S. fold g. pose proof gam_1 as GG. assert (X : u * Rabs (FR z + FR s) <= u * (g * (M + Rabs w))) by (apply Rmult_le_compat_l; lra).
    assert (X2 : (g * (1 + u) - 1) * (M + Rabs w) <= (g * gam 1 - 1) * (M + Rabs w)) by (apply Rmult_le_compat_r; [lra|]; apply Rplus_le_compat_r, Rmult_le_compat_l; lra). lra.
Qed.
Lemma DL_near i : (i < N)%nat -> let q := DLT add sub mul fdiv f0 one N xi i x in
  fin q = true /\ number prec emax q /\ Rabs (FR q - DLT Rplus Rminus Rmult Rdiv 0 1 N y i (FR x)) <= (gam (5 * N + 1) - 1) * (mags i N / Rabs (denT Rminus Rmult 1 N y i)) + et.
Proof.
  intros Hi. cbv zeta. destruct (den_near i Hi) as (D1 & D2 & D3). destruct (psum_near i N Hi (le_n N)) as (PF & PN & PE). unfold DLT.
  set (p := psumT add sub mul f0 one N xi i x N) in *. set (v := psumT Rplus Rminus Rmult 0 1 N y i (FR x) N) in *. set (d := denT sub mul one N xi i) in *. set (D := denT Rminus Rmult 1 N y i) in *.
  pose proof (pw_pos (- (a * Z.of_nat N))) as P0. assert (D0 : 0 < Rabs D) by lra. assert (Dn : D <> 0) by (intros Q; rewrite Q, Rabs_R0 in D0; lra). destruct D1 as (DF & DN & s & S & ED). assert (s0 : 0 < s) by (pose proof (rho_pos (2 * N)); lra).
  assert (dn : FR d <> 0) by (rewrite ED; apply Rmult_integral_contrapositive; split; lra). pose proof (gam_inv _ _ S) as S'.
  pose proof (mags_nonneg i N) as M0. pose proof (mags_le i N Hi (le_n N)) as ML. set (M := mags i N) in *.
  assert (VB : Rabs v <= M).
  { apply psum_mags. }
  set (K := M / Rabs D). assert (K0 : 0 <= K) by (apply Rmult_le_pos; [exact M0|apply Rlt_le, Rinv_0_lt_compat, D0]).
  pose proof (gam_ge_1 (2 * N)) as G2. pose proof (gam_ge_1 (3 * N)) as G3. assert (G5 : gam (5 * N) = gam (3 * N) * gam (2 * N)) by (rewrite <- gam_add; f_equal; lia). replace (2 * N + N)%nat with (3 * N)%nat in PE by lia.
  assert (Q1 : Rabs (FR p / FR d - v / D) <= (gam (5 * N) - 1) * K).
  { rewrite ED. replace (FR p / (D * s) - v / D) with (((FR p - v) * / s + v * (/ s - 1)) * / D) by (field; split; lra). rewrite Rabs_mult, Rabs_inv. unfold K, Rdiv. rewrite <- Rmult_assoc. apply Rmult_le_compat_r; [apply Rlt_le, Rinv_0_lt_compat, D0|].
    eapply Rle_trans; [apply Rabs_triang|]. rewrite !Rabs_mult, (Rabs_pos_eq (/ s)) by (apply Rlt_le, Rinv_0_lt_compat, s0).
    assert (B : Rabs (/ s - 1) <= gam (2 * N) - 1) by (pose proof (rho_pos (2 * N)); assert (ρ ^ (2 * N) * gam (2 * N) = 1) by (unfold gam; field; lra); apply Rabs_le; split; [nra|lra]).
    rewrite G5. pose proof (Rabs_pos (FR p - v)). pose proof (Rabs_pos v). assert (B1 : Rabs (FR p - v) * / s <= ((gam (3 * N) - 1) * M) * gam (2 * N)) by (apply Rmult_le_compat; try lra; apply Rlt_le, Rinv_0_lt_compat, s0).
    assert (B2 : Rabs v * Rabs (/ s - 1) <= M * (gam (2 * N) - 1)) by (apply Rmult_le_compat; try lra; apply Rabs_pos). lra. }
  assert (VK : Rabs (v / D) <= K) by (unfold Rdiv, K; rewrite Rabs_mult, Rabs_inv; apply Rmult_le_compat_r; [apply Rlt_le, Rinv_0_lt_compat, D0|exact VB]).
  assert (Q2 : Rabs (FR p / FR d) <= gam (5 * N) * K).
  { replace (FR p / FR d) with ((FR p / FR d - v / D) + v / D) by ring. eapply Rle_trans; [apply Rabs_triang|]. lra. }
  pose proof (div_correct prec emax Hprec Hem _ _ PF DF PN DN dn) as AC. pose proof u_quarter as U. destruct (half_rho N (5 * N) C2 ltac:(lia)) as [_ H2].
  pose proof (gam_ge_1 (5 * N)) as G50. assert (E0 : 0 < et) by apply eta_pos.
  assert (KB : K <= pw (2 * Z.of_nat N + a * Z.of_nat N)).
  { unfold K, Rdiv. replace (2 * Z.of_nat N + a * Z.of_nat N)%Z with ((Z.of_nat N + Z.of_nat N) + a * Z.of_nat N)%Z by lia. rewrite !pw_add. pose proof (nat_pw N). pose proof (pw_pos (Z.of_nat N)). pose proof (pos_INR N).
    apply Rmult_le_compat; [exact M0|apply Rlt_le, Rinv_0_lt_compat, D0|eapply Rle_trans; [exact ML|]; apply Rmult_le_compat_r; lra|].
    pose proof (pw_inv (a * Z.of_nat N)). pose proof (pw_pos (a * Z.of_nat N)). apply (Rmult_le_reg_r (Rabs D)); [exact D0|]. rewrite Rinv_l by lra. nra. }
  assert (MX : Rmax (u * Rabs (FR p / FR d)) et <= u * Rabs (FR p / FR d) + et) by (assert (0 <= u * Rabs (FR p / FR d)) by (apply Rmult_le_pos; [lra|apply Rabs_pos]); apply Rmax_lub; lra).
  assert (FZ : fin (fdiv p d) = true).
  { apply (approx_fin prec emax _ _ _ AC). assert (P : pw (2 * Z.of_nat N + a * Z.of_nat N) <= pw (emax - 4)) by (apply pw_le; nia). assert (P2 : pw emax = 16 * pw (emax - 4)) by (replace emax with (emax - 4 + 4)%Z at 1 by lia; rewrite pw_add, pw_4; ring).
    assert (P3 : et <= pw (emax - 4)) by (apply pw_le; unfold emin; destruct Hf; nia). assert (X : Rabs (FR p / FR d) <= 2 * pw (emax - 4)) by nra. pose proof (pw_pos (emax - 4)). pose proof (Rabs_pos (FR p / FR d)). nra. }
  split; [exact FZ|]. split; [exact (approx_valid prec emax _ _ _ AC)|]. destruct AC as [_ [(_ & _ & EA & _)|(sg & EA & _)]]; [|rewrite EA in FZ; discriminate].
  replace (FR (fdiv p d) - v / D) with ((FR (fdiv p d) - FR p / FR d) + (FR p / FR d - v / D)) by ring. eapply Rle_trans; [apply Rabs_triang|].
  replace (5 * N + 1)%nat with (Datatypes.S (5 * N)) by lia. rewrite gam_S. pose proof gam_1 as GG. assert (X : u * Rabs (FR p / FR d) <= u * (gam (5 * N) * K)) by (apply Rmult_le_compat_l; lra).
  assert (X2 : (gam (5 * N) * (1 + u) - 1) * K <= (gam (5 * N) * gam 1 - 1) * K) by (apply Rmult_le_compat_r; [lra|]; apply Rplus_le_compat_r, Rmult_le_compat_l; lra). lra.
Qed.
Lemma L_range i : (i < N)%nat -> let l := LT Rminus Rmult Rdiv 1 N y i (FR x) in
  Rabs l <= pw ((a + 1) * Z.of_nat N) /\ (l = 0 \/ pw (- ((a + 1) * Z.of_nat N)) <= Rabs l).
Proof.
  intros Hi. cbv zeta. destruct (den_near i Hi) as (_ & D2 & D3). destruct (sel_near (fun j => negb (j =? i)) x Fx Nx ltac:(intros; apply Gx; assumption) N (le_n N)) as (_ & S2 & S3).
  unfold LT. set (V := rsel _ (FR x) y N) in *. set (D := denT Rminus Rmult 1 N y i) in *. pose proof (pw_pos (- (a * Z.of_nat N))) as P0. assert (0 < Rabs D) by lra. unfold Rdiv. rewrite Rabs_mult, Rabs_inv.
  assert (ID : pw (- Z.of_nat N) <= / Rabs D <= pw (a * Z.of_nat N)) by (pose proof (pw_inv (Z.of_nat N)); pose proof (pw_inv (a * Z.of_nat N)); pose proof (pw_pos (- Z.of_nat N)); pose proof (pw_pos (a * Z.of_nat N));
      split; apply (Rmult_le_reg_r (Rabs D)); try assumption; rewrite Rinv_l by lra; nra).
  replace ((a + 1) * Z.of_nat N)%Z with (Z.of_nat N + a * Z.of_nat N)%Z by lia. pose proof (pw_pos (- Z.of_nat N)). split.
  - rewrite pw_add. apply Rmult_le_compat; try lra. apply Rabs_pos.
  - destruct S3 as [->|S3]; [left; ring|right]. rewrite Z.add_comm, Z.opp_add_distr, pw_add. apply Rmult_le_compat; lra.
Qed.
End Prod.
Lemma near_0 k z : near k z 0 -> FR z = 0. Proof. intros (_ & _ & t & _ & ->). ring. Qed.
(* product of two near numbers within the range *)
Lemma near_mul_range N j k b c z w v v' : (16 * Z.of_nat N <= 2 ^ prec)%Z -> (j + k <= 8 * N)%nat -> near j z v -> near k w v' ->
  Rabs v <= pw b -> Rabs v' <= pw c -> (v = 0 \/ pw (- b) <= Rabs v) -> (v' = 0 \/ pw (- c) <= Rabs v') -> (b + c + 4 <= emax)%Z ->
  near (j + k + 1) (mul z w) (v * v') /\ Rabs (v * v') <= pw (b + c) /\ (v * v' = 0 \/ pw (- (b + c)) <= Rabs (v * v')).
Proof.
  intros HN K A B V1 W1 V2 W2 E. pose proof (Rabs_pos v). pose proof (Rabs_pos v'). pose proof (pw_pos (- b)). pose proof (pw_pos (- c)).
  assert (U1 : Rabs (v * v') <= pw (b + c)) by (rewrite Rabs_mult, pw_add; apply Rmult_le_compat; lra).
  assert (U2 : v * v' = 0 \/ pw (- (b + c)) <= Rabs (v * v')) by (destruct V2 as [->|V2]; [left; ring|]; destruct W2 as [->|W2]; [left; ring|]; right; rewrite Rabs_mult, Z.opp_add_distr, pw_add; apply Rmult_le_compat; lra).
  split; [|split; assumption]. pose proof A as A'. pose proof B as B'. destruct A' as (_ & _ & t & T & E1), B' as (_ & _ & t' & T' & E2).
  assert (TT : ρ ^ (j + k) <= t * t' <= gam (j + k)) by (pose proof (rho_pos j); pose proof (rho_pos k); pose proof (gam_ge_1 j); pose proof (gam_ge_1 k); rewrite pow_add, gam_add; split; apply Rmult_le_compat; lra).
  destruct (half_rho N (j + k) HN K) as [R1 R2]. assert (P : FR z * FR w = v * v' * (t * t')) by (rewrite E1, E2; ring).
  apply near_mul; [exact A|exact B| |]; rewrite P.
  - destruct U2 as [->|U2]; [left; ring|right]. rewrite Rabs_mult, (Rabs_pos_eq (t * t')) by lra. apply Rle_trans with (pw (- (b + c)) * pw (-1)); [rewrite <- pw_add; apply pw_le; unfold emin; lia|]. rewrite pw_m1. pose proof (pw_pos (- (b + c))). apply Rmult_le_compat; lra.
  - rewrite Rabs_mult, (Rabs_pos_eq (t * t')) by lra. apply Rle_trans with (pw (b + c) * pw 1); [rewrite two_pw; apply Rmult_le_compat; try lra; apply Rabs_pos|]. rewrite <- pw_add. apply pw_le. lia.
Qed.
Lemma gam_bound N k : (16 * Z.of_nat N <= 2 ^ prec)%Z -> (k <= 8 * N)%nat -> gam k - 1 <= 2 * INR k * u.
Proof.
  intros H K. destruct (half_rho N k H K) as [H1 H2]. pose proof u_quarter as U.
  assert (B : forall n, 1 - INR n * u <= ρ ^ n). { induction n; [cbn; lra|]. rewrite S_INR. cbn [pow]. pose proof (pos_INR n). pose proof (rho_pos n). nra. }
  specialize (B k). assert (G : ρ ^ k * gam k = 1) by (unfold gam; field; lra). pose proof (gam_ge_1 k). pose proof (pos_INR k). nra.
Qed.
Lemma near_error N k z v : (16 * Z.of_nat N <= 2 ^ prec)%Z -> (k <= 8 * N)%nat -> near k z v -> Rabs (FR z - v) <= 2 * INR k * u * Rabs v.
Proof. intros H K A. destruct (near_abs k z v A) as [E _]. eapply Rle_trans; [exact E|]. apply Rmult_le_compat_r; [apply Rabs_pos|apply (gam_bound N); assumption]. Qed.
End Near.
