(** C52-C54: shape functions of the fixed-order elements (ristra/elements/elements.cc). *)
From Coq Require Import Reals List Arith Lia Lra.
From Verif Require Import Outcome VectorModel VectorProofs ElementsModel ElementsProofs.
Import ListNotations.
Open Scope R_scope.

Ltac conj := repeat match goal with |- _ /\ _ => split | |- _ -> _ /\ _ => intro end.

(** ** C52 partition of unity, interpolation at the nodes *)
Theorem C52_partition_of_unity : forall x junk,
  sum 4 (quad4_shape x junk) = 1 /\ sum 8 (quad8_shape x junk) = 1 /\ sum 12 (quad12_shape x junk) = 1
  /\ sum 8 (hex8_shape x junk) = 1 /\ sum 20 (hex20_shape x junk) = 1 /\ sum 32 (hex32_shape x junk) = 1
  /\ sum 16 (tess16_shape tess16_ref x junk) = 1.
Proof.
  intros x junk. conj; [apply quad4_unity|apply quad8_unity|apply quad12_unity|apply hex8_unity
  |apply hex20_unity|apply hex32_unity|apply tess16_unity].
Qed.
Print Assumptions C52_partition_of_unity.
Theorem C52_nodal : forall junk i j,
  let delta := if Nat.eqb i j then 1 else 0 in
  ((i < 4)%nat -> (j < 4)%nat -> quad4_shape (quad4_ref i) junk j = delta)
  /\ ((i < 8)%nat -> (j < 8)%nat -> quad8_shape (quad8_ref i) junk j = delta)
  /\ ((i < 12)%nat -> (j < 12)%nat -> quad12_shape (quad12_ref i) junk j = delta)
  /\ ((i < 8)%nat -> (j < 8)%nat -> hex8_shape (hex8_ref i) junk j = delta)
  /\ ((i < 20)%nat -> (j < 20)%nat -> hex20_shape (hex20_ref i) junk j = delta)
  /\ ((i < 32)%nat -> (j < 32)%nat -> hex32_shape (hex32_ref i) junk j = delta)
  /\ ((i < 16)%nat -> (j < 16)%nat -> tess16_shape tess16_ref (tess16_ref i) junk j = delta).
Proof.
  intros junk i j. cbv zeta. conj; intros; [apply quad4_nodal|apply quad8_nodal|apply quad12_nodal|apply hex8_nodal
  |apply hex20_nodal|apply hex32_nodal|apply tess16_nodal]; assumption.
Qed.
Print Assumptions C52_nodal.
(** the reference element maps to itself: the basis reproduces linear functions *)
Theorem C52_linear : forall x junk d,
  ((d < 2)%nat -> sum 4 (fun i => quad4_ref i d * quad4_shape x junk i) = x d
    /\ sum 8 (fun i => quad8_ref i d * quad8_shape x junk i) = x d
    /\ sum 12 (fun i => quad12_ref i d * quad12_shape x junk i) = x d)
  /\ ((d < 3)%nat -> sum 8 (fun i => hex8_ref i d * hex8_shape x junk i) = x d
    /\ sum 20 (fun i => hex20_ref i d * hex20_shape x junk i) = x d
    /\ sum 32 (fun i => hex32_ref i d * hex32_shape x junk i) = x d)
  /\ ((d < 4)%nat -> sum 16 (fun i => tess16_ref i d * tess16_shape tess16_ref x junk i) = x d).
Proof.
  intros x junk d. conj; [apply quad4_linear|apply quad8_linear|apply quad12_linear|apply hex8_linear
  |apply hex20_linear|apply hex32_linear|apply tess16_linear]; assumption.
Qed.
Print Assumptions C52_linear.

(** physical_position of any element is determined by its basis *)
Definition pos_at_nodes (n D : nat) (ref : nat -> vec) (pos : vec -> vec -> (nat -> vec) -> vec -> vec) : Prop :=
  forall xp vertices junk i d, (i < n)%nat -> (d < D)%nat -> pos xp (ref i) vertices junk d = vertices i d.
Definition pos_affine (D : nat) (pos : vec -> vec -> (nat -> vec) -> vec -> vec) : Prop :=
  forall xp xp' x (vertices : nat -> vec) junk junk' (A : nat -> nat -> R) (t : nat -> R) d, (d < D)%nat ->
    pos xp x (fun i e => sum D (fun k => A e k * vertices i k) + t e) junk d
    = sum D (fun k => A d k * pos xp' x vertices junk' k) + t d.
Definition pos_reference (D : nat) (ref : nat -> vec) (pos : vec -> vec -> (nat -> vec) -> vec -> vec) : Prop :=
  forall xp x junk d, (d < D)%nat -> pos xp x ref junk d = x d.

Lemma sum_delta n (f : nat -> R) i : (i < n)%nat -> sum n (fun v => f v * (if Nat.eqb i v then 1 else 0)) = f i.
Proof.
  induction n; intros H; [lia|]. simpl. destruct (Nat.eqb_spec i n) as [->|N].
  - rewrite (sum_ext n _ (fun _ => 0 * 0)).
    + rewrite sum_scal. ring.
    + intros v Hv. destruct (Nat.eqb_spec n v); [lia|ring].
  - rewrite IHn by lia. ring.
Qed.
Lemma sum_swap n m (f : nat -> nat -> R) : sum n (fun i => sum m (f i)) = sum m (fun j => sum n (fun i => f i j)).
Proof.
  induction n; simpl.
  - induction m; simpl; [reflexivity|]. rewrite <- IHm. ring.
  - rewrite IHn, <- sum_plus. reflexivity.
Qed.
Section Position.
  Variables (n D : nat) (ref : nat -> vec) (sh : vec -> vec -> vec)
    (pos : vec -> vec -> (nat -> vec) -> vec -> vec).
  Hypothesis P : forall xp x vertices junk d, (d < D)%nat ->
    pos xp x vertices junk d = sum n (fun v => vertices v d * sh x junk v).
  Lemma pos_at_nodes_gen : nodal n ref sh -> pos_at_nodes n D ref pos.
  Proof.
    intros N xp vertices junk i d Hi Hd. rewrite P by assumption.
    rewrite (sum_ext n _ (fun v => vertices v d * (if Nat.eqb i v then 1 else 0))).
    - apply (sum_delta n (fun v => vertices v d)), Hi.
    - intros v Hv. rewrite N by assumption. reflexivity.
  Qed.
  Lemma pos_affine_gen : (forall x junk junk' i, (i < n)%nat -> sh x junk i = sh x junk' i) ->
    unity n sh -> pos_affine D pos.
  Proof.
    intros J U xp xp' x vertices junk junk' A t d Hd. rewrite P by assumption.
    rewrite (sum_ext n _ (fun v => sum D (fun k => A d k * (vertices v k * sh x junk v)) + t d * sh x junk v)).
    - rewrite sum_plus, sum_scal, U, Rmult_1_r. f_equal.
      rewrite (sum_swap n D (fun v k => A d k * (vertices v k * sh x junk v))).
      apply sum_ext. intros k Hk. rewrite sum_scal, P by assumption. f_equal. apply sum_ext. intros v Hv.
      rewrite (J x junk junk') by assumption. reflexivity.
    - intros v Hv. rewrite Rmult_plus_distr_r. f_equal. rewrite Rmult_comm, <- sum_scal. apply sum_ext. intros. ring.
  Qed.
  Lemma pos_reference_gen : linear n D ref sh -> pos_reference D ref pos.
  Proof. intros L xp x junk d Hd. rewrite P by assumption. apply L, Hd. Qed.
End Position.
Ltac indep := intros x junk junk' i Hi; cases_lt i Hi ltac:(elem; reflexivity).

Theorem C52_position_at_nodes :
  pos_at_nodes 4 2 quad4_ref quad4_position /\ pos_at_nodes 8 2 quad8_ref quad8_position
  /\ pos_at_nodes 12 2 quad12_ref quad12_position /\ pos_at_nodes 8 3 hex8_ref hex8_position
  /\ pos_at_nodes 20 3 hex20_ref hex20_position /\ pos_at_nodes 32 3 hex32_ref hex32_position.
Proof.
  split; [|split; [|split; [|split; [|split]]]].
  - apply (pos_at_nodes_gen _ _ _ quad4_shape); [intros; apply position_spec; assumption|apply quad4_nodal].
  - apply (pos_at_nodes_gen _ _ _ quad8_shape); [intros; apply position_spec; assumption|apply quad8_nodal].
  - apply (pos_at_nodes_gen _ _ _ quad12_shape); [intros; apply position_spec; assumption|apply quad12_nodal].
  - apply (pos_at_nodes_gen _ _ _ hex8_shape); [intros; apply position_spec; assumption|apply hex8_nodal].
  - apply (pos_at_nodes_gen _ _ _ hex20_shape); [intros; apply position_dim_first_spec; assumption|apply hex20_nodal].
  - apply (pos_at_nodes_gen _ _ _ hex32_shape); [intros; apply position_spec; assumption|apply hex32_nodal].
Qed.
Print Assumptions C52_position_at_nodes.
Theorem C52_position_affine :
  pos_affine 2 quad4_position /\ pos_affine 2 quad8_position /\ pos_affine 2 quad12_position
  /\ pos_affine 3 hex8_position /\ pos_affine 3 hex20_position /\ pos_affine 3 hex32_position.
Proof.
  split; [|split; [|split; [|split; [|split]]]].
  - apply (pos_affine_gen 4 2 quad4_shape); [intros; apply position_spec; assumption|indep|apply quad4_unity].
  - apply (pos_affine_gen 8 2 quad8_shape); [intros; apply position_spec; assumption|indep|apply quad8_unity].
  - apply (pos_affine_gen 12 2 quad12_shape); [intros; apply position_spec; assumption|indep|apply quad12_unity].
  - apply (pos_affine_gen 8 3 hex8_shape); [intros; apply position_spec; assumption|indep|apply hex8_unity].
  - apply (pos_affine_gen 20 3 hex20_shape); [intros; apply position_dim_first_spec; assumption|indep|apply hex20_unity].
  - apply (pos_affine_gen 32 3 hex32_shape); [intros; apply position_spec; assumption|indep|apply hex32_unity].
Qed.
Print Assumptions C52_position_affine.
Theorem C52_position_reference :
  pos_reference 2 quad4_ref quad4_position /\ pos_reference 2 quad8_ref quad8_position
  /\ pos_reference 2 quad12_ref quad12_position /\ pos_reference 3 hex8_ref hex8_position
  /\ pos_reference 3 hex20_ref hex20_position /\ pos_reference 3 hex32_ref hex32_position.
Proof.
  split; [|split; [|split; [|split; [|split]]]].
  - apply (pos_reference_gen 4 2 quad4_ref quad4_shape); [intros; apply position_spec; assumption|apply quad4_linear].
  - apply (pos_reference_gen 8 2 quad8_ref quad8_shape); [intros; apply position_spec; assumption|apply quad8_linear].
  - apply (pos_reference_gen 12 2 quad12_ref quad12_shape); [intros; apply position_spec; assumption|apply quad12_linear].
  - apply (pos_reference_gen 8 3 hex8_ref hex8_shape); [intros; apply position_spec; assumption|apply hex8_linear].
  - apply (pos_reference_gen 20 3 hex20_ref hex20_shape);
      [intros; apply position_dim_first_spec; assumption|apply hex20_linear].
  - apply (pos_reference_gen 32 3 hex32_ref hex32_shape); [intros; apply position_spec; assumption|apply hex32_linear].
Qed.
Print Assumptions C52_position_reference.

(** Tess16: as documented if the member ref_vert holds the documented table ... *)
Theorem C52_tess16_partial : forall xp vertices junk,
  (forall i d, (i < 16)%nat -> (d < 4)%nat ->
     exists y, tess16_position (Some tess16_ref) xp (tess16_ref i) vertices junk = Ok y /\ y d = vertices i d)
  /\ (forall x d, (d < 4)%nat ->
     exists y, tess16_position (Some tess16_ref) xp x tess16_ref junk = Ok y /\ y d = x d).
Proof.
  intros xp vertices junk. split.
  - intros i d Hi Hd. eexists; split; [reflexivity|].
    rewrite position_spec by assumption.
    rewrite (sum_ext 16 _ (fun v => vertices v d * (if Nat.eqb i v then 1 else 0))).
    + apply (sum_delta 16 (fun v => vertices v d)), Hi.
    + intros v Hv. rewrite tess16_nodal by assumption. reflexivity.
  - intros x d Hd. eexists; split; [reflexivity|]. rewrite position_spec by assumption. apply tess16_linear, Hd.
Qed.
Print Assumptions C52_tess16_partial.
(** ... but nothing ever writes that member: a Tess16 object reads indeterminate values *)
Theorem C52_tess16_refuted : forall xp x vertices junk,
  tess16_position tess16_default xp x vertices junk = UB
  /\ tess16_obj_partial_xi tess16_default x junk = UB /\ tess16_obj_partial_eta tess16_default x junk = UB
  /\ tess16_obj_partial_mu tess16_default x junk = UB /\ tess16_obj_partial_tau tess16_default x junk = UB.
Proof. intros. conj; reflexivity. Qed.
Print Assumptions C52_tess16_refuted.
(** and even a zero-filled member (value initialisation) does not interpolate the vertices *)
Theorem C52_tess16_zeroed_refuted : forall xp junk,
  exists vertices y, tess16_position (Some (fun _ _ => 0)) xp (tess16_ref 0) vertices junk = Ok y
  /\ y O <> vertices O O.
Proof.
  intros xp junk. exists (fun i _ => if Nat.eqb i 0 then 1 else 0). eexists; split; [reflexivity|].
  rewrite position_spec by lia. elem. lra.
Qed.
Print Assumptions C52_tess16_zeroed_refuted.
Example C52_ex : hex20_shape (fun d => if Nat.eqb d 0 then 1/2 else 0) (fun _ => 7) 9%nat = 3/8
  /\ quad12_shape (fun d => if Nat.eqb d 0 then 1/2 else 1/4) (fun _ => 7) 0%nat = -1/32 * (1/2) * (3/4) * (115/16).
Proof. split; elem; field. Qed.
Example C52_position_ex : (* a sheared square *)
  quad4_position (fun _ => 99) (fun d => if Nat.eqb d 0 then 1/2 else 0)
    (tab [[0; 0]; [2; 0]; [3; 1]; [1; 1]]) (fun _ => 7) 0%nat = 2.
Proof. unfold quad4_position. rewrite position_spec by lia. elem. field. Qed.

(** ** C53 the partials are the derivatives *)
Theorem C53_quad : forall x junk junk' i,
  let d0 sh := derivable_pt_lim (fun t : R => sh (set x 0 t) junk i) (x O) in
  let d1 sh := derivable_pt_lim (fun t : R => sh (set x 1 t) junk i) (x 1%nat) in
  ((i < 4)%nat -> d0 quad4_shape (quad4_partial_xi x junk' i) /\ d1 quad4_shape (quad4_partial_eta x junk' i))
  /\ ((i < 8)%nat -> d0 quad8_shape (quad8_partial_xi x junk' i) /\ d1 quad8_shape (quad8_partial_eta x junk' i))
  /\ ((i < 12)%nat -> d0 quad12_shape (quad12_partial_xi x junk' i) /\ d1 quad12_shape (quad12_partial_eta x junk' i)).
Proof.
  intros x junk junk' i. cbv zeta. conj.
  - apply quad4_partials; assumption.
  - apply quad4_partials; assumption.
  - apply quad8_partials; assumption.
  - apply quad8_partials; assumption.
  - apply quad12_partials; assumption.
  - apply quad12_partials; assumption.
Qed.
Print Assumptions C53_quad.
Theorem C53_hex : forall x junk junk' i,
  let d0 sh := derivable_pt_lim (fun t : R => sh (set x 0 t) junk i) (x O) in
  let d1 sh := derivable_pt_lim (fun t : R => sh (set x 1 t) junk i) (x 1%nat) in
  let d2 sh := derivable_pt_lim (fun t : R => sh (set x 2 t) junk i) (x 2%nat) in
  ((i < 8)%nat -> d0 hex8_shape (hex8_partial_xi x junk' i) /\ d1 hex8_shape (hex8_partial_eta x junk' i)
     /\ d2 hex8_shape (hex8_partial_mu x junk' i))
  /\ ((i < 20)%nat -> d0 hex20_shape (hex20_partial_xi x junk' i) /\ d1 hex20_shape (hex20_partial_eta x junk' i)
     /\ d2 hex20_shape (hex20_partial_mu x junk' i))
  /\ ((i < 32)%nat -> d0 hex32_shape (hex32_partial_xi x junk' i) /\ d1 hex32_shape (hex32_partial_eta x junk' i)
     /\ d2 hex32_shape (hex32_partial_mu x junk' i)).
Proof.
  intros x junk junk' i. cbv zeta. destruct hex8_partials as (A & B & C), hex20_partials as (E & F & G),
    hex32_partials as (U & V & W).
  conj; [apply A|apply B|apply C|apply E|apply F|apply G|apply U|apply V|apply W]; assumption.
Qed.
Print Assumptions C53_hex.
(** Tess16, for whatever table the member holds *)
Theorem C53_tess16 : forall rv x junk junk' i, (i < 16)%nat ->
  derivable_pt_lim (fun t => tess16_shape rv (set x 0 t) junk i) (x O) (tess16_partial_xi rv x junk' i)
  /\ derivable_pt_lim (fun t => tess16_shape rv (set x 1 t) junk i) (x 1%nat) (tess16_partial_eta rv x junk' i)
  /\ derivable_pt_lim (fun t => tess16_shape rv (set x 2 t) junk i) (x 2%nat) (tess16_partial_mu rv x junk' i)
  /\ derivable_pt_lim (fun t => tess16_shape rv (set x 3 t) junk i) (x 3%nat) (tess16_partial_tau rv x junk' i).
Proof.
  intros rv x junk junk' i Hi. destruct (tess16_partials rv) as (A & B & C & E).
  conj; [apply A|apply B|apply C|apply E]; assumption.
Qed.
Print Assumptions C53_tess16.
Example C53_ex : quad8_partial_xi (fun d => if Nat.eqb d 0 then 1/2 else 1/3) (fun _ => 0) 2%nat = 4/9.
Proof. elem. field. Qed.

(** ** C54 basis() against the shape functions of physical_position *)
Theorem C54_basis_agrees : forall x junk junk' i,
  ((i < 4)%nat -> quad4_basis x junk i = quad4_shape x junk' i)
  /\ ((i < 8)%nat -> quad8_basis x junk i = quad8_shape x junk' i)
  /\ ((i < 8)%nat -> hex8_basis x junk i = hex8_shape x junk' i)
  /\ ((i < 20)%nat -> hex20_basis x junk i = hex20_shape x junk' i)
  /\ ((i < 32)%nat -> hex32_basis x junk i = hex32_shape x junk' i).
Proof.
  intros x junk junk' i. conj; intros Hi; cases_lt i Hi ltac:(elem; reflexivity).
Qed.
Print Assumptions C54_basis_agrees.
Example C54_ex : hex8_basis (fun _ => 0) (fun _ => 3) 5%nat = 1/8.
Proof. elem. field. Qed.
(** what Quad_12_2D::basis writes for nodes 0..7: the serendipity functions of Quad_8_2D with the nodes of the
    twelve-node element *)
Theorem C54_quad12_values : forall x junk i, let r := quad12_ref i in
  ((i < 4)%nat -> quad12_basis x junk i
    = 1/4 * (1 + x 0%nat * r 0%nat) * (1 + x 1%nat * r 1%nat) * (x 0%nat * r 0%nat + x 1%nat * r 1%nat - 1))
  /\ (i = 4%nat \/ i = 6%nat -> quad12_basis x junk i = 1/2 * (1 - x 0%nat * x 0%nat) * (1 + x 1%nat * r 1%nat))
  /\ (i = 5%nat \/ i = 7%nat -> quad12_basis x junk i = 1/2 * (1 + x 0%nat * r 0%nat) * (1 - x 1%nat * x 1%nat)).
Proof.
  intros x junk i. cbv zeta. split; [|split].
  - intro Hi. cases_lt i Hi ltac:(elem; field).
  - intros [-> | ->]; elem; field.
  - intros [-> | ->]; elem; field.
Qed.
Print Assumptions C54_quad12_values.
(** Quad_12_2D::basis leaves the entries of nodes 8..11 as they were ... *)
Theorem C54_quad12_unwritten_refuted : forall x junk i, (8 <= i)%nat -> quad12_basis x junk i = junk i.
Proof.
  intros x junk i Hi. do 8 (destruct i as [|i]; [lia|]). reflexivity.
Qed.
Print Assumptions C54_quad12_unwritten_refuted.
(** ... and what it writes for the others is not the shape function: at node 4 the entry of node 4 is 8/9 *)
Theorem C54_quad12_refuted : forall junk junk',
  quad12_basis (quad12_ref 4) junk 4%nat = 8/9 /\ quad12_shape (quad12_ref 4) junk' 4%nat = 1.
Proof. intros. split; elem; field. Qed.
Print Assumptions C54_quad12_refuted.
