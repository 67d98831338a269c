(** Properties C58-C60: Lagrange polynomials of any order, the elements QuadN and HexN, Chebyshev nodes. *)
From Coq Require Import Reals List ZArith Arith Bool Lia Lra.
From Verif Require Import Outcome VectorModel VectorProofs QuadratureProofs ElementsProps LagrangeModel LagrangeProofs.
Import ListNotations.
Open Scope R_scope.

(** ** C58: lagrange_1D, any order, any pairwise distinct nodes *)
Theorem C58_nodal : forall order xi f g i j, distinct (order + 1) xi -> (i <= order)%nat -> (j <= order)%nat ->
  fst (lagrange_1D order (xi j) xi f g) i = if Nat.eqb i j then 1 else 0.
Proof.
  intros order xi f g i j D Hi Hj. rewrite (proj1 (lagrange_spec order (xi j) xi f g i)).
  destruct (Nat.ltb_spec i (order + 1)); [|lia]. apply L_nodal; [exact D|lia|lia].
Qed.
Print Assumptions C58_nodal.
Lemma interp_sum order x xi f g (c : nat -> R) :
  sum (order + 1) (fun i => c i * fst (lagrange_1D order x xi f g) i) = sum (order + 1) (fun i => c i * L (order + 1) xi i x).
Proof.
  apply sum_ext. intros i Hi. rewrite (proj1 (lagrange_spec order x xi f g i)).
  destruct (Nat.ltb_spec i (order + 1)); [reflexivity|lia].
Qed.
(** p is a list of order + 1 coefficients (or fewer): every polynomial of degree at most order *)
Theorem C58_reproduce : forall order x xi f g p, distinct (order + 1) xi -> (length p <= order + 1)%nat ->
  sum (order + 1) (fun i => peval p (xi i) * fst (lagrange_1D order x xi f g) i) = peval p x.
Proof. intros order x xi f g p D Hp. rewrite interp_sum. apply reproduce; assumption. Qed.
Print Assumptions C58_reproduce.
Theorem C58_sum_one : forall order x xi f g, distinct (order + 1) xi ->
  sum (order + 1) (fst (lagrange_1D order x xi f g)) = 1.
Proof.
  intros order x xi f g D. pose proof (C58_reproduce order x xi f g [1] D ltac:(cbn [length]; lia)) as H.
  replace (peval [1] x) with 1 in H by (simpl; ring). rewrite <- H. apply sum_ext. intros i _. simpl. ring.
Qed.
Print Assumptions C58_sum_one.
Theorem C58_derivative : forall order xi f g i t, distinct (order + 1) xi -> (i <= order)%nat ->
  derivable_pt_lim (fun x => fst (lagrange_1D order x xi f g) i) t (snd (lagrange_1D order t xi f g) i).
Proof.
  intros order xi f g i t D Hi. rewrite (proj2 (lagrange_spec order t xi f g i)).
  destruct (Nat.ltb_spec i (order + 1)); [|lia].
  eapply derivable_pt_lim_ext; [|apply L_deriv]. intros z. rewrite (proj1 (lagrange_spec order z xi f g i)).
  destruct (Nat.ltb_spec i (order + 1)); [reflexivity|lia].
Qed.
Print Assumptions C58_derivative.
(** the derivatives sum to 0 and differentiate every polynomial of degree at most order exactly *)
Theorem C58_derivative_reproduce : forall order t xi f g p, distinct (order + 1) xi -> (length p <= order + 1)%nat ->
  derivable_pt_lim (peval p) t (sum (order + 1) (fun i => peval p (xi i) * snd (lagrange_1D order t xi f g) i)).
Proof.
  intros order t xi f g p D Hp.
  eapply derivable_pt_lim_ext; [intros z; exact (C58_reproduce order z xi f g p D Hp)|].
  assert (A : forall n, (n <= order + 1)%nat ->
    derivable_pt_lim (fun z => sum n (fun i => peval p (xi i) * fst (lagrange_1D order z xi f g) i)) t
      (sum n (fun i => peval p (xi i) * snd (lagrange_1D order t xi f g) i))).
  { induction n; intros Hn; simpl; [apply derivable_pt_lim_const|].
    apply (derivable_pt_lim_plus (fun z => sum n _) (fun z => _ * _)); [apply IHn; lia|].
    apply (derivable_pt_lim_scal (fun z => fst (lagrange_1D order z xi f g) n)). apply C58_derivative; [exact D|lia]. }
  apply A. lia.
Qed.
Print Assumptions C58_derivative_reproduce.
(** entries beyond the order are left as they were; the results do not depend on the old contents *)
Theorem C58_frame : forall order x xi f g i, (order < i)%nat ->
  fst (lagrange_1D order x xi f g) i = f i /\ snd (lagrange_1D order x xi f g) i = g i.
Proof.
  intros order x xi f g i Hi. destruct (lagrange_spec order x xi f g i) as [E F].
  destruct (Nat.ltb_spec i (order + 1)); [lia|]. split; assumption.
Qed.
Print Assumptions C58_frame.
Lemma distinct_id N : distinct N INR.
Proof. intros i j _ _ H E. apply INR_eq in E. contradiction. Qed.
Example C58_example : distinct 3 INR /\ (forall f g, fst (lagrange_1D 2 3 INR f g) 0%nat = 1
  /\ fst (lagrange_1D 2 3 INR f g) 1%nat = -3 /\ fst (lagrange_1D 2 3 INR f g) 2%nat = 3
  /\ snd (lagrange_1D 2 3 INR f g) 0%nat = 3 / 2).
Proof.
  split; [apply distinct_id|]. intros f g.
  repeat match goal with |- _ /\ _ => split end;
  rewrite ?(proj1 (lagrange_spec _ _ _ _ _ _)), ?(proj2 (lagrange_spec _ _ _ _ _ _)); simpl;
  unfold L, DL, prod_ne, prod; simpl; field.
Qed.

(** ** C59: QuadN *)
Theorem C59_quadn_entries : forall order nodes1 xi t m, let N := (order + 1)%nat in (m < N * N)%nat ->
  let r := quadn_basis_partials order nodes1 xi t in
  t_nodes r m 0%nat = nodes1 (m mod N)%nat /\ t_nodes r m 1%nat = nodes1 (m / N)%nat
  /\ t_basis r m = L N nodes1 (m mod N) (xi 0%nat) * L N nodes1 (m / N) (xi 1%nat).
Proof.
  intros order nodes1 xi t m N Hm r. pose proof (quadn_spec order nodes1 xi t m Hm) as E. cbv zeta in E.
  unfold quad_entry in E. injection E; intros. auto.
Qed.
Print Assumptions C59_quadn_entries.
Lemma deriv_scal_r f c t l : derivable_pt_lim f t l -> derivable_pt_lim (fun x => f x * c) t (l * c).
Proof.
  intros H. rewrite Rmult_comm. eapply derivable_pt_lim_ext; [intros z; apply Rmult_comm|]. apply (derivable_pt_lim_scal f). exact H.
Qed.
Lemma set_eq v i x : set v i x i = x.
Proof. unfold set. rewrite Nat.eqb_refl. reflexivity. Qed.
Lemma set_ne v i x j : j <> i -> set v i x j = v j.
Proof. intros H. unfold set. destruct (Nat.eqb_spec j i); [contradiction|reflexivity]. Qed.
(** lag_partial[m][d] is the derivative of lag_basis[m] in the d-th coordinate of xi_point *)
Theorem C59_quadn_partials : forall order nodes1 xi t m d, (m < (order + 1) * (order + 1))%nat -> (d < 2)%nat ->
  derivable_pt_lim (fun s => t_basis (quadn_basis_partials order nodes1 (set xi d s) t) m) (xi d)
    (t_partial (quadn_basis_partials order nodes1 xi t) m d).
Proof.
  intros order nodes1 xi t m d Hm Hd. pose proof (quadn_spec order nodes1 xi t m Hm) as E. cbv zeta in E.
  unfold quad_entry in E. injection E; intros P1 P0 _ _ _. clear E.
  assert (B : forall s, L (order + 1) nodes1 (m mod (order + 1)) (set xi d s 0%nat) * L (order + 1) nodes1 (m / (order + 1)) (set xi d s 1%nat)
    = t_basis (quadn_basis_partials order nodes1 (set xi d s) t) m).
  { intros s. symmetry. apply C59_quadn_entries; exact Hm. }
  destruct d as [|[|d]]; [| |lia].
  - apply (derivable_pt_lim_ext (fun s => L (order + 1) nodes1 (m mod (order + 1)) s * L (order + 1) nodes1 (m / (order + 1)) (xi 1%nat))).
    { intros s. rewrite <- B, set_eq, set_ne by lia. reflexivity. }
    rewrite P0. apply deriv_scal_r, L_deriv.
  - apply (derivable_pt_lim_ext (fun s => L (order + 1) nodes1 (m mod (order + 1)) (xi 0%nat) * L (order + 1) nodes1 (m / (order + 1)) s)).
    { intros s. rewrite <- B, set_eq, set_ne by lia. reflexivity. }
    rewrite P1. apply (derivable_pt_lim_scal (L (order + 1) nodes1 (m / (order + 1)))), L_deriv.
Qed.
Print Assumptions C59_quadn_partials.
Lemma quad_div_lt N m : (m < N * N)%nat -> (m mod N < N)%nat /\ (m / N < N)%nat.
Proof.
  intros H. assert (N <> 0)%nat by (intros ->; simpl in H; lia). split; [apply Nat.mod_upper_bound; assumption|].
  apply Nat.div_lt_upper_bound; assumption.
Qed.
(** nodal: at the coordinates of node m', basis m is 1 if m = m' and 0 otherwise *)
Theorem C59_quadn_nodal : forall order nodes1 xi t m m', let N := (order + 1)%nat in distinct N nodes1 ->
  (m < N * N)%nat -> (m' < N * N)%nat ->
  t_basis (quadn_basis_partials order nodes1 (t_nodes (quadn_basis_partials order nodes1 xi t) m') t) m
  = if Nat.eqb m m' then 1 else 0.
Proof.
  intros order nodes1 xi t m m' N D Hm Hm'.
  destruct (C59_quadn_entries order nodes1 xi t m' Hm') as (E0 & E1 & _).
  rewrite (proj2 (proj2 (C59_quadn_entries order nodes1 (t_nodes (quadn_basis_partials order nodes1 xi t) m') t m Hm))).
  fold N in E0, E1 |- *. rewrite E0, E1. destruct (quad_div_lt N m Hm) as [A1 A2]. destruct (quad_div_lt N m' Hm') as [B1 B2].
  rewrite !L_nodal by assumption.
  pose proof (Nat.div_mod m N ltac:(unfold N; lia)) as Q. pose proof (Nat.div_mod m' N ltac:(unfold N; lia)) as Q'.
  destruct (Nat.eqb_spec (m mod N) (m' mod N)) as [F|F], (Nat.eqb_spec (m / N) (m' / N)) as [G|G], (Nat.eqb_spec m m') as [H|H];
    try (ring); try (exfalso; congruence).
Qed.
Print Assumptions C59_quadn_nodal.
(** every product of polynomials of degree at most order is reproduced *)
Theorem C59_quadn_reproduce : forall order nodes1 xi t p q, let N := (order + 1)%nat in distinct N nodes1 ->
  (length p <= N)%nat -> (length q <= N)%nat -> let r := quadn_basis_partials order nodes1 xi t in
  sum (N * N) (fun m => peval p (t_nodes r m 0%nat) * peval q (t_nodes r m 1%nat) * t_basis r m)
  = peval p (xi 0%nat) * peval q (xi 1%nat).
Proof.
  intros order nodes1 xi t p q N D Hp Hq r. rewrite sum_prod.
  rewrite (sum_ext N _ (fun b => peval p (xi 0%nat) * (peval q (nodes1 b) * L N nodes1 b (xi 1%nat)))).
  { rewrite sum_scal. f_equal. apply reproduce; assumption. }
  intros b Hb. rewrite <- (reproduce N nodes1 p (xi 0%nat) D Hp). rewrite Rmult_comm, <- sum_scal. apply sum_ext. intros a Ha.
  assert (Hm : (a + N * b < N * N)%nat) by nia.
  destruct (C59_quadn_entries order nodes1 xi t (a + N * b) Hm) as (E0 & E1 & E2). fold N r in E0, E1, E2.
  assert (M : ((a + N * b) mod N)%nat = a) by (rewrite Nat.mul_comm, Nat.mod_add by (unfold N; lia); apply Nat.mod_small; exact Ha).
  assert (V : ((a + N * b) / N)%nat = b) by (rewrite Nat.mul_comm, Nat.div_add by (unfold N; lia); rewrite Nat.div_small by exact Ha; lia).
  rewrite M, V in *. rewrite E0, E1, E2. ring.
Qed.
Print Assumptions C59_quadn_reproduce.
Theorem C59_quadn_sum_one : forall order nodes1 xi t, distinct (order + 1) nodes1 ->
  sum ((order + 1) * (order + 1)) (t_basis (quadn_basis_partials order nodes1 xi t)) = 1.
Proof.
  intros order nodes1 xi t D.
  pose proof (C59_quadn_reproduce order nodes1 xi t [1] [1] D ltac:(cbn [length]; lia) ltac:(cbn [length]; lia)) as H. cbv zeta in H.
  replace (peval [1] (xi 0%nat) * peval [1] (xi 1%nat)) with 1 in H by (simpl; ring). rewrite <- H. apply sum_ext. intros. simpl. ring.
Qed.
Print Assumptions C59_quadn_sum_one.
(** corner c has coordinate d equal to the last 1-D node if bit d of c is set, else the first *)
Theorem C59_quadn_corners : forall order nodes1 xi t corner c d, (c < 4)%nat -> (d < 2)%nat ->
  quadn_corners order (t_nodes (quadn_basis_partials order nodes1 xi t)) corner c d
  = nodes1 (if Nat.testbit c d then order else 0%nat).
Proof.
  intros order nodes1 xi t corner c d Hc Hd. unfold quadn_corners. destruct (Nat.ltb_spec c 4); [|lia].
  set (N := (order + 1)%nat).
  assert (A : forall a b, (a <= order)%nat -> (b <= order)%nat ->
    t_nodes (quadn_basis_partials order nodes1 xi t) (a + N * b)%nat 0%nat = nodes1 a
    /\ t_nodes (quadn_basis_partials order nodes1 xi t) (a + N * b)%nat 1%nat = nodes1 b).
  { intros a b Ha Hb. destruct (C59_quadn_entries order nodes1 xi t (a + N * b) ltac:(fold N; unfold N in *; nia)) as (E0 & E1 & _).
    fold N in E0, E1. rewrite E0, E1. split; f_equal.
    - rewrite Nat.mul_comm, Nat.mod_add by (unfold N; lia). apply Nat.mod_small. unfold N; lia.
    - rewrite Nat.mul_comm, Nat.div_add by (unfold N; lia). rewrite Nat.div_small by (unfold N; lia). lia. }
  assert (I : quadn_corner_index order c = ((if Nat.testbit c 0 then order else 0) + N * (if Nat.testbit c 1 then order else 0))%nat).
  { do 4 (destruct c as [|c]; [cbn; unfold N; lia|]). lia. }
  rewrite I. destruct (A (if Nat.testbit c 0 then order else 0%nat) (if Nat.testbit c 1 then order else 0%nat)
    ltac:(destruct (Nat.testbit c 0); lia) ltac:(destruct (Nat.testbit c 1); lia)) as [A0 A1].
  destruct d as [|[|d]]; [exact A0|exact A1|lia].
Qed.
Print Assumptions C59_quadn_corners.

(** ** C59: HexN *)
Theorem C59_hexn_entries : forall order nodes1 xi t m, let N := (order + 1)%nat in (m < N * (N * N))%nat ->
  let r := hexn_basis_partials order nodes1 xi t in
  t_nodes r m 0%nat = nodes1 (m mod N)%nat /\ t_nodes r m 1%nat = nodes1 ((m / N) mod N)%nat
  /\ t_nodes r m 2%nat = nodes1 (m / (N * N))%nat
  /\ t_basis r m = L N nodes1 (m mod N) (xi 0%nat) * L N nodes1 ((m / N) mod N) (xi 1%nat) * L N nodes1 (m / (N * N)) (xi 2%nat).
Proof.
  intros order nodes1 xi t m N Hm r. pose proof (hexn_spec order nodes1 xi t m Hm) as E. cbv zeta in E.
  unfold hex_entry in E. injection E; intros. auto.
Qed.
Print Assumptions C59_hexn_entries.
Theorem C59_hexn_partials : forall order nodes1 xi t m d, (m < (order + 1) * ((order + 1) * (order + 1)))%nat -> (d < 3)%nat ->
  derivable_pt_lim (fun s => t_basis (hexn_basis_partials order nodes1 (set xi d s) t) m) (xi d)
    (t_partial (hexn_basis_partials order nodes1 xi t) m d).
Proof.
  intros order nodes1 xi t m d Hm Hd. pose proof (hexn_spec order nodes1 xi t m Hm) as E. cbv zeta in E.
  unfold hex_entry in E. injection E; intros P2 P1 P0 _ _ _ _. clear E.
  set (N := (order + 1)%nat) in *.
  assert (B : forall s, L N nodes1 (m mod N) (set xi d s 0%nat) * L N nodes1 ((m / N) mod N) (set xi d s 1%nat)
      * L N nodes1 (m / (N * N)) (set xi d s 2%nat)
    = t_basis (hexn_basis_partials order nodes1 (set xi d s) t) m).
  { intros s. symmetry. apply C59_hexn_entries; exact Hm. }
  destruct d as [|[|[|d]]]; [| | |lia].
  - apply (derivable_pt_lim_ext (fun s => L N nodes1 (m mod N) s * L N nodes1 ((m / N) mod N) (xi 1%nat) * L N nodes1 (m / (N * N)) (xi 2%nat))).
    { intros s. rewrite <- B, set_eq, !set_ne by lia. reflexivity. }
    rewrite P0. apply (deriv_scal_r (fun s => L N nodes1 (m mod N) s * L N nodes1 ((m / N) mod N) (xi 1%nat))), deriv_scal_r, L_deriv.
  - apply (derivable_pt_lim_ext (fun s => L N nodes1 (m mod N) (xi 0%nat) * L N nodes1 ((m / N) mod N) s * L N nodes1 (m / (N * N)) (xi 2%nat))).
    { intros s. rewrite <- B, set_eq, !set_ne by lia. reflexivity. }
    rewrite P1. apply (deriv_scal_r (fun s => L N nodes1 (m mod N) (xi 0%nat) * L N nodes1 ((m / N) mod N) s)), (derivable_pt_lim_scal (L N nodes1 ((m / N) mod N))), L_deriv.
  - apply (derivable_pt_lim_ext (fun s => L N nodes1 (m mod N) (xi 0%nat) * L N nodes1 ((m / N) mod N) (xi 1%nat) * L N nodes1 (m / (N * N)) s)).
    { intros s. rewrite <- B, set_eq, !set_ne by lia. reflexivity. }
    rewrite P2. apply (derivable_pt_lim_scal (L N nodes1 (m / (N * N)))), L_deriv.
Qed.
Print Assumptions C59_hexn_partials.
Lemma hex_split N m : (0 < N)%nat -> m = (m mod N + N * ((m / N) mod N + N * (m / (N * N))))%nat.
Proof.
  intros H. pose proof (Nat.div_mod m (N * N) ltac:(lia)). pose proof (Nat.mod_mul_r m N N ltac:(lia) ltac:(lia)). nia.
Qed.
Lemma hex_div_lt N m : (m < N * (N * N))%nat -> (m mod N < N)%nat /\ ((m / N) mod N < N)%nat /\ (m / (N * N) < N)%nat.
Proof.
  intros H. assert (N <> 0)%nat by (intros ->; simpl in H; lia).
  repeat split; try (apply Nat.mod_upper_bound; assumption). apply Nat.div_lt_upper_bound; lia.
Qed.
Theorem C59_hexn_nodal : forall order nodes1 xi t m m', let N := (order + 1)%nat in distinct N nodes1 ->
  (m < N * (N * N))%nat -> (m' < N * (N * N))%nat ->
  t_basis (hexn_basis_partials order nodes1 (t_nodes (hexn_basis_partials order nodes1 xi t) m') t) m
  = if Nat.eqb m m' then 1 else 0.
Proof.
  intros order nodes1 xi t m m' N D Hm Hm'.
  destruct (C59_hexn_entries order nodes1 xi t m' Hm') as (E0 & E1 & E2 & _).
  rewrite (proj2 (proj2 (proj2 (C59_hexn_entries order nodes1 (t_nodes (hexn_basis_partials order nodes1 xi t) m') t m Hm)))).
  fold N in E0, E1, E2 |- *. rewrite E0, E1, E2. destruct (hex_div_lt N m Hm) as (A1 & A2 & A3). destruct (hex_div_lt N m' Hm') as (B1 & B2 & B3).
  rewrite !L_nodal by assumption.
  pose proof (hex_split N m ltac:(unfold N; lia)) as Q. pose proof (hex_split N m' ltac:(unfold N; lia)) as Q'.
  destruct (Nat.eqb_spec (m mod N) (m' mod N)) as [F|F], (Nat.eqb_spec ((m / N) mod N) ((m' / N) mod N)) as [G|G],
    (Nat.eqb_spec (m / (N * N)) (m' / (N * N))) as [K|K], (Nat.eqb_spec m m') as [H|H];
    try (ring); exfalso; congruence.
Qed.
Print Assumptions C59_hexn_nodal.
Lemma hex_digits N a b c : (a < N)%nat -> (b < N)%nat ->
  ((a + N * (b + N * c)) mod N)%nat = a /\ (((a + N * (b + N * c)) / N) mod N)%nat = b /\ ((a + N * (b + N * c)) / (N * N))%nat = c.
Proof.
  intros Ha Hb. assert (H : (N <> 0)%nat) by lia.
  assert (V : ((a + N * (b + N * c)) / N)%nat = (b + N * c)%nat).
  { rewrite (Nat.mul_comm N (b + N * c)), Nat.div_add, Nat.div_small by assumption. lia. }
  repeat split.
  - rewrite (Nat.mul_comm N (b + N * c)), Nat.mod_add by assumption. apply Nat.mod_small; exact Ha.
  - rewrite V, (Nat.mul_comm N c), Nat.mod_add by assumption. apply Nat.mod_small; exact Hb.
  - rewrite <- Nat.div_div, V, (Nat.mul_comm N c), Nat.div_add, Nat.div_small by assumption. lia.
Qed.
Theorem C59_hexn_reproduce : forall order nodes1 xi t p q s, let N := (order + 1)%nat in distinct N nodes1 ->
  (length p <= N)%nat -> (length q <= N)%nat -> (length s <= N)%nat -> let r := hexn_basis_partials order nodes1 xi t in
  sum (N * (N * N)) (fun m => peval p (t_nodes r m 0%nat) * peval q (t_nodes r m 1%nat) * peval s (t_nodes r m 2%nat) * t_basis r m)
  = peval p (xi 0%nat) * peval q (xi 1%nat) * peval s (xi 2%nat).
Proof.
  intros order nodes1 xi t p q s N D Hp Hq Hs r. rewrite sum_prod.
  rewrite (sum_ext (N * N) _ (fun j => peval p (xi 0%nat) * (peval q (nodes1 (j mod N)%nat) * L N nodes1 (j mod N) (xi 1%nat)
    * (peval s (nodes1 (j / N)%nat) * L N nodes1 (j / N) (xi 2%nat))))).
  - rewrite sum_scal, Rmult_assoc. f_equal. rewrite sum_prod.
    rewrite (sum_ext N _ (fun c => peval q (xi 1%nat) * (peval s (nodes1 c) * L N nodes1 c (xi 2%nat)))).
    { rewrite sum_scal. f_equal. apply reproduce; assumption. }
    intros c Hc. rewrite <- (reproduce N nodes1 q (xi 1%nat) D Hq). rewrite Rmult_comm, <- sum_scal. apply sum_ext. intros b Hb.
    assert (M : ((b + N * c) mod N)%nat = b) by (rewrite Nat.mul_comm, Nat.mod_add by (unfold N; lia); apply Nat.mod_small; exact Hb).
    assert (V : ((b + N * c) / N)%nat = c) by (rewrite Nat.mul_comm, Nat.div_add by (unfold N; lia); rewrite Nat.div_small by exact Hb; lia).
    rewrite M, V. ring.
  - intros j Hj. destruct (quad_div_lt N j Hj) as [J1 J2].
    rewrite <- (reproduce N nodes1 p (xi 0%nat) D Hp). rewrite Rmult_comm, <- sum_scal. apply sum_ext. intros a Ha.
    assert (Hm : (a + N * j < N * (N * N))%nat) by nia.
    destruct (C59_hexn_entries order nodes1 xi t (a + N * j) Hm) as (E0 & E1 & E2 & E3). fold N r in E0, E1, E2, E3.
    pose proof (Nat.div_mod j N ltac:(unfold N; lia)) as Q.
    destruct (hex_digits N a (j mod N) (j / N) Ha J1) as (D0 & D1 & D2).
    replace (j mod N + N * (j / N))%nat with j in D0, D1, D2 by lia.
    rewrite D0, D1, D2 in *. rewrite E0, E1, E2, E3. ring.
Qed.
Print Assumptions C59_hexn_reproduce.
Theorem C59_hexn_sum_one : forall order nodes1 xi t, distinct (order + 1) nodes1 ->
  sum ((order + 1) * ((order + 1) * (order + 1))) (t_basis (hexn_basis_partials order nodes1 xi t)) = 1.
Proof.
  intros order nodes1 xi t D.
  pose proof (C59_hexn_reproduce order nodes1 xi t [1] [1] [1] D ltac:(cbn [length]; lia) ltac:(cbn [length]; lia) ltac:(cbn [length]; lia)) as H.
  cbv zeta in H.
  replace (peval [1] (xi 0%nat) * peval [1] (xi 1%nat) * peval [1] (xi 2%nat)) with 1 in H by (simpl; ring).
  rewrite <- H. apply sum_ext. intros. simpl. ring.
Qed.
Print Assumptions C59_hexn_sum_one.
Theorem C59_hexn_corners : forall order nodes1 xi t corner c d, (c < 8)%nat -> (d < 3)%nat ->
  hexn_corners order (t_nodes (hexn_basis_partials order nodes1 xi t)) corner c d
  = nodes1 (if Nat.testbit c d then order else 0%nat).
Proof.
  intros order nodes1 xi t corner c d Hc Hd. unfold hexn_corners. destruct (Nat.ltb_spec c 8); [|lia].
  set (N := (order + 1)%nat).
  assert (A : forall a b e, (a <= order)%nat -> (b <= order)%nat -> (e <= order)%nat -> let m := (a + N * (b + N * e))%nat in
    t_nodes (hexn_basis_partials order nodes1 xi t) m 0%nat = nodes1 a
    /\ t_nodes (hexn_basis_partials order nodes1 xi t) m 1%nat = nodes1 b
    /\ t_nodes (hexn_basis_partials order nodes1 xi t) m 2%nat = nodes1 e).
  { intros a b e Ha Hb He m.
    assert (B1 : (b + N * e < N * N)%nat) by (unfold N in *; nia).
    assert (Hm : (m < N * (N * N))%nat) by (unfold m; clear - B1 Ha; unfold N in *; nia).
    destruct (C59_hexn_entries order nodes1 xi t m Hm) as (E0 & E1 & E2 & _).
    destruct (hex_digits N a b e ltac:(unfold N; lia) ltac:(unfold N; lia)) as (D0 & D1 & D2).
    fold N in E0, E1, E2. fold m in D0, D1, D2. rewrite E0, E1, E2, D0, D1, D2. auto. }
  assert (I : hexn_corner_index order c = ((if Nat.testbit c 0 then order else 0) + N * ((if Nat.testbit c 1 then order else 0)
    + N * (if Nat.testbit c 2 then order else 0)))%nat).
  { assert (E : (N * N * N = N * (N * N))%nat) by lia.
    assert (N = order + 1)%nat by reflexivity. assert (E1 : (N * order = N * N - N)%nat) by nia.
    assert (E2 : (N * (N * order) = N * (N * N) - N * N)%nat) by nia.
    assert (N <= N * N)%nat by nia. assert (N * N <= N * (N * N))%nat by nia.
    do 8 (destruct c as [|c]; [cbn -[Nat.mul]; fold N; rewrite ?Nat.mul_0_r, ?Nat.add_0_r, ?Nat.mul_add_distr_l, ?E, ?E2, ?E1; lia|]). lia. }
  rewrite I. destruct (A (if Nat.testbit c 0 then order else 0%nat) (if Nat.testbit c 1 then order else 0%nat)
    (if Nat.testbit c 2 then order else 0%nat) ltac:(destruct (Nat.testbit c 0); lia) ltac:(destruct (Nat.testbit c 1); lia)
    ltac:(destruct (Nat.testbit c 2); lia)) as (A0 & A1 & A2).
  destruct d as [|[|[|d]]]; [exact A0|exact A1|exact A2|lia].
Qed.
Print Assumptions C59_hexn_corners.

(** ** C59: physical_position.  Only the first coordinate (QuadN) or the first two (HexN) are written, and they are added
    to the old contents of x_point. *)
Theorem C59_quadn_position_partial : forall order nodes basis x0 d,
  quadn_position order nodes basis x0 d
  = if (d <? 1)%nat then x0 d + sum ((order + 1) * (order + 1)) (fun v => nodes v d * basis v) else x0 d.
Proof. intros. apply lag_position_spec. Qed.
Print Assumptions C59_quadn_position_partial.
Theorem C59_hexn_position_partial : forall order nodes basis x0 d,
  hexn_position order nodes basis x0 d
  = if (d <? 2)%nat then x0 d + sum ((order + 1) * (order + 1) * (order + 1)) (fun v => nodes v d * basis v) else x0 d.
Proof. intros. apply lag_position_spec. Qed.
Print Assumptions C59_hexn_position_partial.
(** for every order and reference point there are node positions for which the result is wrong, even from a zeroed x_point *)
Theorem C59_quadn_position_refuted : forall order nodes1 xi t, distinct (order + 1) nodes1 ->
  exists nodes d, (d < 2)%nat /\
  let basis := t_basis (quadn_basis_partials order nodes1 xi t) in
  quadn_position order nodes basis (fun _ => 0) d <> sum ((order + 1) * (order + 1)) (fun v => nodes v d * basis v).
Proof.
  intros order nodes1 xi t D. exists (fun _ _ => 1), 1%nat. split; [lia|]. cbv zeta.
  rewrite C59_quadn_position_partial. cbn [Nat.ltb Nat.leb]. rewrite sum_scal, C59_quadn_sum_one by exact D. lra.
Qed.
Print Assumptions C59_quadn_position_refuted.
Theorem C59_hexn_position_refuted : forall order nodes1 xi t, distinct (order + 1) nodes1 ->
  exists nodes d, (d < 3)%nat /\
  let basis := t_basis (hexn_basis_partials order nodes1 xi t) in
  hexn_position order nodes basis (fun _ => 0) d <> sum ((order + 1) * ((order + 1) * (order + 1))) (fun v => nodes v d * basis v).
Proof.
  intros order nodes1 xi t D. exists (fun _ _ => 1), 2%nat. split; [lia|]. cbv zeta.
  rewrite C59_hexn_position_partial. cbn [Nat.ltb Nat.leb]. rewrite sum_scal, C59_hexn_sum_one by exact D. lra.
Qed.
Print Assumptions C59_hexn_position_refuted.
(** calling it twice on the same x_point doubles the result *)
Theorem C59_position_accumulates : forall order nodes basis,
  quadn_position order nodes basis (quadn_position order nodes basis (fun _ => 0)) 0%nat
  = 2 * sum ((order + 1) * (order + 1)) (fun v => nodes v 0%nat * basis v).
Proof. intros. rewrite !C59_quadn_position_partial. cbn [Nat.ltb Nat.leb]. ring. Qed.
Print Assumptions C59_position_accumulates.
Example C59_example : distinct 2 (fun i => 2 * INR i - 1) /\
  forall t, t_basis (quadn_basis_partials 1 (fun i => 2 * INR i - 1) (fun _ => 1 / 2) t) 2%nat = 3 / 16.
Proof.
  split.
  - intros i j _ _ H E. apply H, INR_eq. lra.
  - intros t. destruct (C59_quadn_entries 1 (fun i => 2 * INR i - 1) (fun _ => 1 / 2) t 2 ltac:(simpl; lia)) as (_ & _ & E).
    rewrite E. unfold L, prod_ne, prod. simpl. field.
Qed.

(** ** C60: the nodes, for any constant pi with 0 < pi <= PI *)
Theorem C60_increasing : forall pi order v i j, 0 < pi <= PI -> (1 <= order)%nat -> (i < j <= order)%nat ->
  chebyshev_nodes_1D pi order v i < chebyshev_nodes_1D pi order v j.
Proof. exact cheb_lt. Qed.
Print Assumptions C60_increasing.
Theorem C60_ends : forall pi order v, (1 <= order)%nat ->
  chebyshev_nodes_1D pi order v 0%nat = -1 /\ chebyshev_nodes_1D pi order v order = 1.
Proof.
  intros pi order v Ho. rewrite !cheb_spec by lia. rewrite !Nat.eqb_refl. destruct (Nat.eqb_spec 0 order); [lia|]. split; reflexivity.
Qed.
Print Assumptions C60_ends.
Theorem C60_distinct : forall pi order v, 0 < pi <= PI -> (1 <= order)%nat -> distinct (order + 1) (chebyshev_nodes_1D pi order v).
Proof.
  intros pi order v Hp Ho i j Hi Hj Ne E. destruct (Nat.lt_trichotomy i j) as [H|[H|H]]; [|contradiction|].
  - pose proof (cheb_lt pi order v i j Hp Ho ltac:(lia)). lra.
  - pose proof (cheb_lt pi order v j i Hp Ho ltac:(lia)). lra.
Qed.
Print Assumptions C60_distinct.
(** the literal of the source, and the double it is rounded to, qualify *)
Theorem C60_literal : 0 < pi_literal < PI /\ 0 < pi_double < PI.
Proof. split; [apply pi_literal_range|apply pi_double_range]. Qed.
Print Assumptions C60_literal.
(** the literal has 20 correct decimals and the double is within half a unit in the last place of pi *)
Theorem C60_close : 0 < PI - pi_literal < / 10 ^ 20 /\ 0 < PI - pi_double < / 2 ^ 52.
Proof.
  pose proof pi_literal_range. pose proof pi_double_range. split; (split; [lra|]).
  - assert (PI < 314159265358979323847 / 100000000000000000000) by (apply pi_below; vm_compute; reflexivity).
    unfold pi_literal in *. lra.
  - assert (PI < 14148475504056881 / 4503599627370496) by (apply pi_below; vm_compute; reflexivity).
    unfold pi_double in *. lra.
Qed.
Print Assumptions C60_close.
Corollary C60_code : forall order v, (1 <= order)%nat ->
  let x := chebyshev_nodes_1D pi_double order v in
  x 0%nat = -1 /\ x order = 1 /\ (forall i j, (i < j <= order)%nat -> x i < x j) /\ distinct (order + 1) x.
Proof.
  intros order v Ho x. pose proof pi_double_range. destruct (C60_ends pi_double order v Ho).
  split; [assumption|]. split; [assumption|]. split.
  - intros i j Hij. apply C60_increasing; [lra|assumption|assumption].
  - apply C60_distinct; [lra|assumption].
Qed.
Print Assumptions C60_code.
(** symmetry is exact for pi = PI; with a smaller constant it holds up to PI - pi *)
Theorem C60_symmetric : forall order v j, (1 <= order)%nat -> (j <= order)%nat ->
  chebyshev_nodes_1D PI order v (order - j)%nat = - chebyshev_nodes_1D PI order v j.
Proof.
  intros order v j Ho Hj. pose proof PI_RGT_0. pose proof (cheb_symmetric PI order v j ltac:(lra) Ho Hj) as H0.
  pose proof (Rle_abs (chebyshev_nodes_1D PI order v j + chebyshev_nodes_1D PI order v (order - j)%nat)) as H1.
  pose proof (Rle_abs (- (chebyshev_nodes_1D PI order v j + chebyshev_nodes_1D PI order v (order - j)%nat))) as H2.
  rewrite Rabs_Ropp in H2. lra.
Qed.
Print Assumptions C60_symmetric.
Theorem C60_near_symmetric : forall pi order v j, 0 < pi <= PI -> (1 <= order)%nat -> (j <= order)%nat ->
  Rabs (chebyshev_nodes_1D pi order v j + chebyshev_nodes_1D pi order v (order - j)%nat) <= PI - pi.
Proof. exact cheb_symmetric. Qed.
Print Assumptions C60_near_symmetric.
(** interior values, and what happens for order 0 and beyond the order *)
Theorem C60_values : forall pi order v j, (0 < j < order)%nat ->
  chebyshev_nodes_1D pi order v j = - cos (pi * (2 * INR j + 1) / (2 * (INR order + 1))).
Proof.
  intros pi order v j Hj. rewrite cheb_spec by lia. destruct (Nat.eqb_spec j order); [lia|]. destruct (Nat.eqb_spec j 0); [lia|]. reflexivity.
Qed.
Print Assumptions C60_values.
Theorem C60_order_zero : forall pi v, chebyshev_nodes_1D pi 0 v 0%nat = 1.
Proof. reflexivity. Qed.
Print Assumptions C60_order_zero.
(** so the C58 and C59 theorems apply to the element that the code builds *)
Theorem C60_basis : forall order v xi t, (1 <= order)%nat ->
  sum ((order + 1) * ((order + 1) * (order + 1)))
    (t_basis (hexn_basis_partials order (chebyshev_nodes_1D pi_double order v) xi t)) = 1.
Proof. intros order v xi t Ho. apply C59_hexn_sum_one. apply C60_code. exact Ho. Qed.
Print Assumptions C60_basis.
Example C60_example : forall v, chebyshev_nodes_1D PI 2 v 1%nat = 0.
Proof.
  intros v. rewrite C60_values by lia. simpl. replace (PI * (2 * 1 + 1) / (2 * (1 + 1 + 1))) with (PI / 2) by field.
  rewrite cos_PI2. ring.
Qed.
