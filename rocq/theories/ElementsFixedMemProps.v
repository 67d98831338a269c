(** C170: which sizes the vector arguments of the fixed-order element routines must have (ristra/elements/elements.cc). *)
From Coq Require Import Reals List ZArith Arith Lia Lra Bool.
From Verif Require Import Outcome VectorModel VectorProofs ElementsModel ElementsMemModel ElementsMemProofs ElementsFixedMemModel ElementsFixedMemProofs.
Import ListNotations.
Local Open Scope R_scope.

(** entries as a function *)
Definition fn (v : list R) : nat -> R := fun i => nth i v 0.
(** the first P rows of m have D entries or more *)
Definition rows (m : list (list R)) (P D : nat) : Prop := forall p, (p < P)%nat -> (D <= length (nth p m []))%nat.
(** [run xi out] is defined exactly when the point xi has N entries or more and the result out has K or more; it then leaves in
    out the values of [f], changes no size and no entry from K on. *)
Definition uses (run : list R -> list R -> outcome (list R)) (f : (nat -> R) -> (nat -> R) -> nat -> R) (N K : nat) : Prop :=
  forall xi out,
    ((N <= length xi)%nat -> (K <= length out)%nat ->
       exists out', run xi out = Ok out' /\ length out' = length out /\
         (forall i, (i < length out)%nat -> nth i out' 0 = f (fn xi) (fn out) i) /\
         (forall i, (K <= i)%nat -> nth i out' 0 = nth i out 0))
    /\ ((length xi < N \/ length out < K)%nat -> run xi out = UB).
(** physical_position is defined exactly when the point has D entries or more, x_point D or more, and vertices K rows of D or more;
    it then puts the sum over the vertices into the first D entries of x_point and changes nothing else.  A is the length of
    the local array, which holds anything before. *)
Definition places (run : list R -> list R -> list (list R) -> list R -> outcome (list R)) (f : (nat -> R) -> (nat -> R) -> nat -> R)
    (A K D : nat) : Prop :=
  forall x xi vertices local, length local = A ->
    ((D <= length xi)%nat -> (D <= length x)%nat -> rows vertices K D ->
       exists x', run x xi vertices local = Ok x' /\ length x' = length x /\
         (forall d, (d < D)%nat -> nth d x' 0 = sum K (fun p => nth d (nth p vertices []) 0 * f (fn xi) (fn local) p)) /\
         (forall i, (D <= i)%nat -> nth i x' 0 = nth i x 0))
    /\ ((length xi < D \/ length x < D)%nat \/ ~ rows vertices K D -> run x xi vertices local = UB).

Lemma uses_of segs ref f K N D : sizes segs K N D = true -> wide ref K D ->
  (forall x junk, stored (at2 ref) x segs junk = f x junk) -> uses (s_run segs ref) f N K.
Proof.
  intros Hs Hw Hf xi out. split.
  - intros Hx Ho. destruct (run_ok segs ref K N D xi out Hs Hw Hx Ho) as [out' [E [L [V U]]]]. exists out'.
    split; [exact E|]. split; [exact L|]. split; [|exact U]. intros i Li. rewrite V by exact Li. rewrite Hf. reflexivity.
  - intros F. apply not_ok_ub; [apply clean_run|]. intros a E. apply (run_need _ _ _ _ _ _ _ _ Hs) in E. lia.
Qed.
Lemma places_of segs ref f A K D : sizes segs K D D = true -> wide ref K D -> (K <= A)%nat -> (0 < K)%nat -> (0 < D)%nat ->
  (forall x junk, stored (at2 ref) x segs junk = f x junk) ->
  places (s_position segs ref K D) f A K D /\ places (s_position_dim segs ref K D) f A K D.
Proof.
  intros Hs Hw LA LK LD Hf. split; intros x xi vertices local HA.
  - split.
    + intros Hx Ho Hv. destruct (s_position_ok segs ref K D D x xi vertices local Hs Hw ltac:(lia) Hx Ho Hv) as [[x' [E P]] _].
      exists x'. split; [exact E|]. destruct P as [L [P U]]. split; [exact L|]. split; [|exact U]. intros d Ld. rewrite P by exact Ld.
      rewrite Hf. reflexivity.
    + intros F. apply not_ok_ub; [apply clean_position|]. intros a E.
      destruct (s_position_need segs ref K D D x xi vertices local a Hs LK LD (or_introl E)) as [A1 [A2 A3]].
      destruct F as [F|F]; [lia | exact (F A3)].
  - split.
    + intros Hx Ho Hv. destruct (s_position_ok segs ref K D D x xi vertices local Hs Hw ltac:(lia) Hx Ho Hv) as [_ [x' [E P]]].
      exists x'. split; [exact E|]. destruct P as [L [P U]]. split; [exact L|]. split; [|exact U]. intros d Ld. rewrite P by exact Ld.
      rewrite Hf. reflexivity.
    + intros F. apply not_ok_ub; [apply clean_position_dim|]. intros a E.
      destruct (s_position_need segs ref K D D x xi vertices local a Hs LK LD (or_intror E)) as [A1 [A2 A3]].
      destruct F as [F|F]; [lia | exact (F A3)].
Qed.
Ltac table := let p := fresh "p" in let L := fresh "L" in
  intros p L; do 33 (destruct p as [|p]; [cbn; lia|]); exfalso; cbn in L; lia.

Lemma quad4_wide : wide s_quad4_ref 4 2. Proof. table. Qed.
(** Quad_4_2D: partial_eta_shape_fcn does not read the second coordinate *)
Theorem C170_quad4 :
  uses (s_run s_quad4_basis s_quad4_ref) (quad4_basis) 2 4
  /\ uses (s_run s_quad4_partial_xi s_quad4_ref) (quad4_partial_xi) 2 4
  /\ uses (s_run s_quad4_partial_eta s_quad4_ref) (quad4_partial_eta) 1 4
  /\ places (s_quad4_position) (quad4_shape) 8 4 2.
Proof.
  split; [apply (uses_of _ _ _ 4 2 2); [vm_compute; reflexivity | exact quad4_wide | intros; apply stored_quad4_basis]|].
  split; [apply (uses_of _ _ _ 4 2 2); [vm_compute; reflexivity | exact quad4_wide | intros; apply stored_quad4_partial_xi]|].
  split; [apply (uses_of _ _ _ 4 1 2); [vm_compute; reflexivity | exact quad4_wide | intros; apply stored_quad4_partial_eta]|].
  apply (places_of _ _ _ 8 4 2); [vm_compute; reflexivity | exact quad4_wide | lia | lia | lia | intros; apply stored_quad4_shape].
Qed.
Print Assumptions C170_quad4.
Lemma quad8_wide : wide s_quad8_ref 8 2. Proof. table. Qed.
(** Quad_8_2D *)
Theorem C170_quad8 :
  uses (s_run s_quad8_basis s_quad8_ref) (quad8_basis) 2 8
  /\ uses (s_run s_quad8_partial_xi s_quad8_ref) (quad8_partial_xi) 2 8
  /\ uses (s_run s_quad8_partial_eta s_quad8_ref) (quad8_partial_eta) 2 8
  /\ places (s_quad8_position) (quad8_shape) 8 8 2.
Proof.
  split; [apply (uses_of _ _ _ 8 2 2); [vm_compute; reflexivity | exact quad8_wide | intros; apply stored_quad8_basis]|].
  split; [apply (uses_of _ _ _ 8 2 2); [vm_compute; reflexivity | exact quad8_wide | intros; apply stored_quad8_partial_xi]|].
  split; [apply (uses_of _ _ _ 8 2 2); [vm_compute; reflexivity | exact quad8_wide | intros; apply stored_quad8_partial_eta]|].
  apply (places_of _ _ _ 8 8 2); [vm_compute; reflexivity | exact quad8_wide | lia | lia | lia | intros; apply stored_quad8_shape].
Qed.
Print Assumptions C170_quad8.
Lemma quad12_wide : wide s_quad12_ref 12 2. Proof. table. Qed.
(** Quad_12_2D: basis writes the first 8 of the 12 nodes only *)
Theorem C170_quad12 :
  uses (s_run s_quad12_basis s_quad12_ref) (quad12_basis) 2 8
  /\ uses (s_run s_quad12_partial_xi s_quad12_ref) (quad12_partial_xi) 2 12
  /\ uses (s_run s_quad12_partial_eta s_quad12_ref) (quad12_partial_eta) 2 12
  /\ places (s_quad12_position) (quad12_shape) 12 12 2.
Proof.
  split; [apply (uses_of _ _ _ 8 2 2); [vm_compute; reflexivity | intros p L; apply quad12_wide; lia | intros; apply stored_quad12_basis]|].
  split; [apply (uses_of _ _ _ 12 2 2); [vm_compute; reflexivity | exact quad12_wide | intros; apply stored_quad12_partial_xi]|].
  split; [apply (uses_of _ _ _ 12 2 2); [vm_compute; reflexivity | exact quad12_wide | intros; apply stored_quad12_partial_eta]|].
  apply (places_of _ _ _ 12 12 2); [vm_compute; reflexivity | exact quad12_wide | lia | lia | lia | intros; apply stored_quad12_shape].
Qed.
Print Assumptions C170_quad12.
Lemma hex8_wide : wide s_hex8_ref 8 3. Proof. table. Qed.
(** Hex8: partial_mu_shape_fcn does not read the third coordinate *)
Theorem C170_hex8 :
  uses (s_run s_hex8_basis s_hex8_ref) (hex8_basis) 3 8
  /\ uses (s_run s_hex8_partial_xi s_hex8_ref) (hex8_partial_xi) 3 8
  /\ uses (s_run s_hex8_partial_eta s_hex8_ref) (hex8_partial_eta) 3 8
  /\ uses (s_run s_hex8_partial_mu s_hex8_ref) (hex8_partial_mu) 2 8
  /\ places (s_hex8_position) (hex8_shape) 8 8 3.
Proof.
  split; [apply (uses_of _ _ _ 8 3 3); [vm_compute; reflexivity | exact hex8_wide | intros; apply stored_hex8_basis]|].
  split; [apply (uses_of _ _ _ 8 3 3); [vm_compute; reflexivity | exact hex8_wide | intros; apply stored_hex8_partial_xi]|].
  split; [apply (uses_of _ _ _ 8 3 3); [vm_compute; reflexivity | exact hex8_wide | intros; apply stored_hex8_partial_eta]|].
  split; [apply (uses_of _ _ _ 8 2 3); [vm_compute; reflexivity | exact hex8_wide | intros; apply stored_hex8_partial_mu]|].
  apply (places_of _ _ _ 8 8 3); [vm_compute; reflexivity | exact hex8_wide | lia | lia | lia | intros; apply stored_hex8_shape].
Qed.
Print Assumptions C170_hex8.
Lemma hex20_wide : wide s_hex20_ref 20 3. Proof. table. Qed.
(** Hex20 *)
Theorem C170_hex20 :
  uses (s_run s_hex20_basis s_hex20_ref) (hex20_basis) 3 20
  /\ uses (s_run s_hex20_partial_xi s_hex20_ref) (hex20_partial_xi) 3 20
  /\ uses (s_run s_hex20_partial_eta s_hex20_ref) (hex20_partial_eta) 3 20
  /\ uses (s_run s_hex20_partial_mu s_hex20_ref) (hex20_partial_mu) 3 20
  /\ places (s_hex20_position) (hex20_shape) 20 20 3.
Proof.
  split; [apply (uses_of _ _ _ 20 3 3); [vm_compute; reflexivity | exact hex20_wide | intros; apply stored_hex20_basis]|].
  split; [apply (uses_of _ _ _ 20 3 3); [vm_compute; reflexivity | exact hex20_wide | intros; apply stored_hex20_partial_xi]|].
  split; [apply (uses_of _ _ _ 20 3 3); [vm_compute; reflexivity | exact hex20_wide | intros; apply stored_hex20_partial_eta]|].
  split; [apply (uses_of _ _ _ 20 3 3); [vm_compute; reflexivity | exact hex20_wide | intros; apply stored_hex20_partial_mu]|].
  apply (places_of _ _ _ 20 20 3); [vm_compute; reflexivity | exact hex20_wide | lia | lia | lia | intros; apply stored_hex20_shape].
Qed.
Print Assumptions C170_hex20.
Lemma hex32_wide : wide s_hex32_ref 32 3. Proof. table. Qed.
(** Hex32 *)
Theorem C170_hex32 :
  uses (s_run s_hex32_basis s_hex32_ref) (hex32_basis) 3 32
  /\ uses (s_run s_hex32_partial_xi s_hex32_ref) (hex32_partial_xi) 3 32
  /\ uses (s_run s_hex32_partial_eta s_hex32_ref) (hex32_partial_eta) 3 32
  /\ uses (s_run s_hex32_partial_mu s_hex32_ref) (hex32_partial_mu) 3 32
  /\ places (s_hex32_position) (hex32_shape) 32 32 3.
Proof.
  split; [apply (uses_of _ _ _ 32 3 3); [vm_compute; reflexivity | exact hex32_wide | intros; apply stored_hex32_basis]|].
  split; [apply (uses_of _ _ _ 32 3 3); [vm_compute; reflexivity | exact hex32_wide | intros; apply stored_hex32_partial_xi]|].
  split; [apply (uses_of _ _ _ 32 3 3); [vm_compute; reflexivity | exact hex32_wide | intros; apply stored_hex32_partial_eta]|].
  split; [apply (uses_of _ _ _ 32 3 3); [vm_compute; reflexivity | exact hex32_wide | intros; apply stored_hex32_partial_mu]|].
  apply (places_of _ _ _ 32 32 3); [vm_compute; reflexivity | exact hex32_wide | lia | lia | lia | intros; apply stored_hex32_shape].
Qed.
Print Assumptions C170_hex32.
(** Tess16: the member ref_vert holds rv, 16 rows of 4; partial_tau_shape_fcn does not read the fourth coordinate *)
Theorem C170_tess16 rv :
  rows rv 16 4 ->
  uses (s_run s_tess16_partial_xi rv) (tess16_partial_xi (fun i d => nth d (nth i rv []) 0)) 4 16
  /\ uses (s_run s_tess16_partial_eta rv) (tess16_partial_eta (fun i d => nth d (nth i rv []) 0)) 4 16
  /\ uses (s_run s_tess16_partial_mu rv) (tess16_partial_mu (fun i d => nth d (nth i rv []) 0)) 4 16
  /\ uses (s_run s_tess16_partial_tau rv) (tess16_partial_tau (fun i d => nth d (nth i rv []) 0)) 3 16
  /\ places (s_tess16_position rv) (tess16_shape (fun i d => nth d (nth i rv []) 0)) 16 16 4.
Proof.
  intros W.
  split; [apply (uses_of _ _ _ 16 4 4); [vm_compute; reflexivity | exact W | intros; apply stored_tess16_partial_xi]|].
  split; [apply (uses_of _ _ _ 16 4 4); [vm_compute; reflexivity | exact W | intros; apply stored_tess16_partial_eta]|].
  split; [apply (uses_of _ _ _ 16 4 4); [vm_compute; reflexivity | exact W | intros; apply stored_tess16_partial_mu]|].
  split; [apply (uses_of _ _ _ 16 3 4); [vm_compute; reflexivity | exact W | intros; apply stored_tess16_partial_tau]|].
  apply (places_of _ _ _ 16 16 4); [vm_compute; reflexivity | exact W | lia | lia | lia | intros; apply stored_tess16_shape].
Qed.
Print Assumptions C170_tess16.

(** runs *)
Example C170_ex1 : s_run s_quad4_partial_xi s_quad4_ref [0; 0] [9; 9; 9; 9; 7] =
    Ok [1 / 4 * -1 * (1 + 0 * -1); 1 / 4 * 1 * (1 + 0 * -1); 1 / 4 * 1 * (1 + 0 * 1); 1 / 4 * -1 * (1 + 0 * 1); 7]
  /\ s_run s_quad4_partial_xi s_quad4_ref [0] [9; 9; 9; 9; 7] = UB /\ s_run s_quad4_partial_xi s_quad4_ref [0; 0] [9; 9; 9] = UB.
Proof. repeat split. Qed.
Example C170_ex2 : exists x', s_quad4_position [9; 9; 7] [0; 0] [[1; 2]; [3; 2]; [3; 6]; [1; 6; 5]] [9; 9; 9; 9; 9; 9; 9; 9] = Ok x'
  /\ nth 0 x' 0 = 2 /\ nth 1 x' 0 = 4 /\ nth 2 x' 0 = 7.
Proof.
  destruct C170_quad4 as [_ [_ [_ P]]].
  destruct (P [9; 9; 7] [0; 0] [[1; 2]; [3; 2]; [3; 6]; [1; 6; 5]] [9; 9; 9; 9; 9; 9; 9; 9] eq_refl) as [G _].
  destruct G as [x' [E [_ [V U]]]]; [cbn; lia | cbn; lia | intros p L; do 4 (destruct p as [|p]; [cbn; lia|]); lia|].
  exists x'. split; [exact E|]. rewrite (V 0%nat), (V 1%nat), (U 2%nat) by lia.
  cbv [sum quad4_shape for_step steps set Nat.div Nat.divmod Nat.sub Nat.add Nat.eqb fst snd fn quad4_ref tab nth].
  repeat split; lra.
Qed.
