(** C162: shape functions, derivatives and physical positions of the fixed-order elements in floating point
    (ristra/elements/elements.cc 878-2127). *)
From Coq Require Import ZArith List Bool Lia Reals Lra SpecFloat.
From Verif Require Import Outcome VectorModel VectorProofs ElementsModel ElementsProofs ElementsProps FloatModel FloatRound FloatProofs FloatProps FloatExpr FloatElementsModel FloatElementsProofs.
Import ListNotations.
Local Open Scope R_scope.

(** a point of the reference element, given by finite numbers of the format *)
Definition ref_point (prec emax : Z) (D : nat) (x : nat -> spec_float) : Prop :=
  forall i, (i < D)%nat -> number prec emax (x i) /\ fin (x i) = true /\ Rabs (FR (x i)) <= 1.
Definition exactly (prec emax : Z) (z : spec_float) (v : R) : Prop := fin z = true /\ number prec emax z /\ FR z = v.
(** errors in units of u = 2^-prec *)
Definition shape_bound (e : elem) (f : func) : Z :=
  match e, f with
  | Quad4, Shape => 8 | Quad4, _ => 3
  | Quad8, Shape => 35 | Quad8, _ => 15
  | Quad12, Shape => 58 | Quad12, _ => 100
  | Hex8, Shape => 11 | Hex8, _ => 5
  | Hex20, Shape => 81 | Hex20, _ => 38
  | Hex32, Shape => 103 | Hex32, _ => 128
  end.
Definition position_bound (e : elem) : Z :=
  match e with Quad4 => 49 | Quad8 => 488 | Quad12 => 1486 | Hex8 => 157 | Hex20 => 3927 | Hex32 => 10789 end.

(** the texts, read over exact reals, are the functions of ElementsModel.v *)
Ltac rt r rr := change (r (fun a n => a / IZR n) IZR) with rr; change (@setT R) with set; reflexivity.
Ltac rt' r rr := change (r IZR) with rr; change (@setT R) with set; reflexivity.
Theorem C162_text : (forall x junk,
     relem Quad4 Shape x junk = quad4_shape x junk /\ relem Quad8 Shape x junk = quad8_shape x junk /\ relem Quad12 Shape x junk = quad12_shape x junk
  /\ relem Hex8 Shape x junk = hex8_shape x junk /\ relem Hex20 Shape x junk = hex20_shape x junk /\ relem Hex32 Shape x junk = hex32_shape x junk)
  /\ (forall x junk,
     relem Quad4 Partial_xi x junk = quad4_partial_xi x junk /\ relem Quad4 Partial_eta x junk = quad4_partial_eta x junk
  /\ relem Quad8 Partial_xi x junk = quad8_partial_xi x junk /\ relem Quad8 Partial_eta x junk = quad8_partial_eta x junk
  /\ relem Quad12 Partial_xi x junk = quad12_partial_xi x junk /\ relem Quad12 Partial_eta x junk = quad12_partial_eta x junk
  /\ relem Hex8 Partial_xi x junk = hex8_partial_xi x junk /\ relem Hex8 Partial_eta x junk = hex8_partial_eta x junk /\ relem Hex8 Partial_mu x junk = hex8_partial_mu x junk
  /\ relem Hex20 Partial_xi x junk = hex20_partial_xi x junk /\ relem Hex20 Partial_eta x junk = hex20_partial_eta x junk /\ relem Hex20 Partial_mu x junk = hex20_partial_mu x junk
  /\ relem Hex32 Partial_xi x junk = hex32_partial_xi x junk /\ relem Hex32 Partial_eta x junk = hex32_partial_eta x junk /\ relem Hex32 Partial_mu x junk = hex32_partial_mu x junk)
  /\ (rnode Quad4 = quad4_ref /\ rnode Quad8 = quad8_ref /\ rnode Quad12 = quad12_ref /\ rnode Hex8 = hex8_ref /\ rnode Hex20 = hex20_ref /\ rnode Hex32 = hex32_ref).
Proof.
  split; [|split].
  - intros x junk. unfold relem, text. split; [|split; [|split; [|split; [|split]]]].
    + unfold quad4_shapeT, quad4_shape. rt' (@quad4_refT R) quad4_ref.
    + unfold quad8_shapeT, quad8_shape. rt' (@quad8_refT R) quad8_ref.
    + unfold quad12_shapeT, quad12_shape. rt (@quad12_refT R) quad12_ref.
    + unfold hex8_shapeT, hex8_shape. rt' (@hex8_refT R) hex8_ref.
    + unfold hex20_shapeT, hex20_shape. rt' (@hex20_refT R) hex20_ref.
    + unfold hex32_shapeT, hex32_shape. rt (@hex32_refT R) hex32_ref.
  - intros x junk. unfold relem, text. split; [|split; [|split; [|split; [|split; [|split; [|split; [|split; [|split; [|split; [|split; [|split; [|split; [|split]]]]]]]]]]]]].
    + unfold quad4_partial_xiT, quad4_partial_xi. rt' (@quad4_refT R) quad4_ref.
    + unfold quad4_partial_etaT, quad4_partial_eta. rt' (@quad4_refT R) quad4_ref.
    + unfold quad8_partial_xiT, quad8_partial_xi. rt' (@quad8_refT R) quad8_ref.
    + unfold quad8_partial_etaT, quad8_partial_eta. rt' (@quad8_refT R) quad8_ref.
    + unfold quad12_partial_xiT, quad12_partial_xi. rt (@quad12_refT R) quad12_ref.
    + unfold quad12_partial_etaT, quad12_partial_eta. rt (@quad12_refT R) quad12_ref.
    + unfold hex8_partial_xiT, hex8_partial_xi. rt' (@hex8_refT R) hex8_ref.
    + unfold hex8_partial_etaT, hex8_partial_eta. rt' (@hex8_refT R) hex8_ref.
    + unfold hex8_partial_muT, hex8_partial_mu. rt' (@hex8_refT R) hex8_ref.
    + unfold hex20_partial_xiT, hex20_partial_xi. rt' (@hex20_refT R) hex20_ref.
    + unfold hex20_partial_etaT, hex20_partial_eta. rt' (@hex20_refT R) hex20_ref.
    + unfold hex20_partial_muT, hex20_partial_mu. rt' (@hex20_refT R) hex20_ref.
    + unfold hex32_partial_xiT, hex32_partial_xi. rt (@hex32_refT R) hex32_ref.
    + unfold hex32_partial_etaT, hex32_partial_eta. rt (@hex32_refT R) hex32_ref.
    + unfold hex32_partial_muT, hex32_partial_mu. rt (@hex32_refT R) hex32_ref.
  - repeat split; reflexivity.
Qed.
Print Assumptions C162_text.
(** basis evaluates the same formulas as physical_position, in the same order *)
Theorem C162_basis {T} (add sub mul : T -> T -> T) divn int (x junk : nat -> T) : let shape e := text add sub mul divn int e Shape x junk in
  quad4_basisT add mul divn int x junk = shape Quad4 /\ quad8_basisT add sub mul divn int x junk = shape Quad8 /\ hex8_basisT add mul divn int x junk = shape Hex8
  /\ hex20_basisT add sub mul divn int x junk = shape Hex20 /\ hex32_basisT add sub mul divn int x junk = shape Hex32.
Proof. cbv zeta. split; [|split; [|split; [|split]]]; reflexivity. Qed.
Print Assumptions C162_basis.

(** ** at the nodes *)
(** every basis function is exactly 1 at its own node and exactly 0 at the others, in every format with at least 8 bits *)
Theorem C162_nodal prec emax e junk k j : format prec emax -> (8 <= prec)%Z -> (k < nodes_of e)%nat -> (j < nodes_of e)%nat ->
  exactly prec emax (felem prec emax e Shape (fnode prec emax e k) junk j) (if Nat.eqb k j then 1 else 0).
Proof.
  intros Hf H8 Hk Hj. pose proof (at_node prec emax e Shape k junk j _ _ Hf H8 ltac:(destruct e; reflexivity) Hj (nodal_ev e k j Hk Hj)) as G.
  change (- 0)%Z with 0%Z in G. rewrite pw_0, Rmult_1_r in G. unfold delta in G. destruct (Nat.eqb k j); exact G.
Qed.
Print Assumptions C162_nodal.
(** the derivatives of Quad4, Quad8, Hex8 and Hex20 are exact at the nodes *)
Theorem C162_derivatives_at_nodes prec emax e f junk junk' k j : format prec emax -> (8 <= prec)%Z -> has e f = true -> e <> Quad12 -> e <> Hex32 ->
  (k < nodes_of e)%nat -> (j < nodes_of e)%nat ->
  exactly prec emax (felem prec emax e f (fnode prec emax e k) junk j) (relem e f (rnode e k) junk' j).
Proof.
  intros Hf H8 H N1 N2 Hk Hj. refine (dyadic_at prec emax e f k junk junk' j Hf H8 H _ Hk Hj). destruct e, f; try discriminate H; try contradiction; vm_compute; reflexivity.
Qed.
Print Assumptions C162_derivatives_at_nodes.
(** physical_position maps every node to its vertex, exactly *)
Theorem C162_position_at_nodes prec emax e xp vertices junk k d : format prec emax -> (8 <= prec)%Z -> (k < nodes_of e)%nat -> (d < dims_of e)%nat ->
  (forall v, (v < nodes_of e)%nat -> number prec emax (vertices v d) /\ fin (vertices v d) = true) ->
  exactly prec emax (fposition prec emax e xp (fnode prec emax e k) vertices junk d) (FR (vertices k d)).
Proof.
  intros Hf H8 Hk Hd HV. unfold fposition. rewrite position_text_spec by exact Hd. change (of_int prec emax 0) with f0.
  pose proof (interp_node prec emax Hf H8 (nodes_of e) (fun v => vertices v d) (felem prec emax e Shape (fnode prec emax e k) junk) k HV) as G.
  replace (k <? nodes_of e)%nat with true in G by (symmetry; apply Nat.ltb_lt, Hk). apply G. intros v Hv.
  pose proof (C162_nodal prec emax e junk k v Hf H8 Hk Hv) as Q. unfold delta. destruct (Nat.eqb k v); exact Q.
Qed.
Print Assumptions C162_position_at_nodes.

(** ** inside the element *)
Theorem C162_accuracy prec emax e f x junk junk' j : format prec emax -> (8 <= prec)%Z -> has e f = true -> (j < nodes_of e)%nat ->
  ref_point prec emax (dims_of e) x ->
  let z := felem prec emax e f x junk j in
  fin z = true /\ number prec emax z /\ Rabs (FR z - relem e f (fun i => FR (x i)) junk' j) <= IZR (shape_bound e f) * uu prec.
Proof. intros Hf H8 H Hj Hx. apply (accuracy prec emax Hf H8 (dims_of e) x (dims_le e) Hx e f junk junk' j eq_refl H Hj). Qed.
Print Assumptions C162_accuracy.
(** the computed values add up to 1 *)
Theorem C162_partition_of_unity prec emax e x junk : format prec emax -> (8 <= prec)%Z -> ref_point prec emax (dims_of e) x ->
  Rabs (sum (nodes_of e) (fun j => FR (felem prec emax e Shape x junk j)) - 1) <= INR (nodes_of e) * (IZR (shape_bound e Shape) * uu prec).
Proof.
  intros Hf H8 Hx. set (junk' := fun _ : nat => 0). assert (One : sum (nodes_of e) (relem e Shape (fun i => FR (x i)) junk') = 1).
  { destruct C162_text as (S & _ & _). specialize (S (fun i => FR (x i)) junk'). destruct S as (S1 & S2 & S3 & S4 & S5 & S6).
    destruct (C52_partition_of_unity (fun i => FR (x i)) junk') as (P1 & P2 & P3 & P4 & P5 & P6 & _).
    destruct e; cbn [nodes_of]; [rewrite S1|rewrite S2|rewrite S3|rewrite S4|rewrite S5|rewrite S6]; assumption. }
  rewrite <- One at 1. rewrite !sum_sumR, sumR_minus. eapply Rle_trans; [apply sumR_abs|]. pose proof (sumR_const (seq 0 (nodes_of e)) (fun j => Rabs (FR (felem prec emax e Shape x junk j) - relem e Shape (fun i => FR (x i)) junk' j)) (IZR (shape_bound e Shape) * uu prec)) as Q.
  rewrite seq_length in Q. apply Q. intros j Hj. apply in_seq in Hj. apply (C162_accuracy prec emax e Shape x junk junk' j Hf H8); [destruct e; reflexivity|lia|exact Hx].
Qed.
Print Assumptions C162_partition_of_unity.
(** physical_position: with vertices below M in magnitude the error is at most u (P M + 1), and nothing overflows *)
Theorem C162_position prec emax e xp x vertices junk xp' junk' M d : format prec emax -> (8 <= prec)%Z -> (d < dims_of e)%nat -> ref_point prec emax (dims_of e) x ->
  (forall v, (v < nodes_of e)%nat -> number prec emax (vertices v d) /\ fin (vertices v d) = true /\ Rabs (FR (vertices v d)) <= M) -> 512 * M <= pw emax ->
  let z := fposition prec emax e xp x vertices junk d in
  fin z = true /\ Rabs (FR z - rposition e xp' (fun i => FR (x i)) (fun v d => FR (vertices v d)) junk' d) <= uu prec * (IZR (position_bound e) * M + 1).
Proof.
  intros Hf H8 Hd Hx HV HM. cbv zeta. unfold fposition, rposition. rewrite !position_text_spec by exact Hd. change (of_int prec emax 0) with f0.
  assert (E : forall n (g : nat -> R), fold_left (fun s v => s + g v) (seq 0 n) 0 = sum n g).
  { induction n; intros g; [reflexivity|]. rewrite seq_S, fold_left_app, IHn. reflexivity. }
  specialize (E (nodes_of e) (fun v => FR (vertices v d) * relem e Shape (fun i => FR (x i)) junk' v)). cbv beta in E. unfold relem at 1 in E. rewrite E.
  pose proof (interp prec emax Hf H8 e Shape x ltac:(destruct e; reflexivity) Hx junk junk' (fun v => vertices v d) M HV HM) as I. cbv zeta in I.
  replace (position_bound e) with (ipol e Shape) by (destruct e; reflexivity). exact I.
Qed.
Print Assumptions C162_position.

(** ** examples in double precision *)
Definition dnum (m e : Z) : spec_float := binary_normalize 53 1024 m e false.
Example C162_ex_nodes : (* Quad12 at the node (-1/3, -1): 1/3 is rounded, the basis is not *)
  let x := fnode 53 1024 Quad12 4 in let a := felem 53 1024 Quad12 Shape x (fun _ => S754_nan) in
  FR (x 0%nat) <> -1/3 /\ map (fun j => SFeqb (a j) (of_int 53 1024 (if Nat.eqb j 4 then 1 else 0))) (seq 0 12) = repeat true 12.
Proof.
  cbv zeta. split; [|vm_compute; reflexivity].
  replace (fnode 53 1024 Quad12 4 0%nat) with (S754_finite true 6004799503160661 (-54)) by (vm_compute; reflexivity). intros E. apply (f_equal (Rmult 3)) in E.
  assert (pw (-54) * IZR (2 ^ 54) = 1) by (rewrite pw_Z by lia; apply (pw_inv 54)). cbn [FR] in E.
  assert (P : IZR (3 * 6004799503160661 - 2 ^ 54) = 0); [|apply eq_IZR in P; vm_compute in P; discriminate].
  rewrite minus_IZR, mult_IZR. set (p := pw (-54)) in *. unfold sgnR in E. nra.
Qed.
Definition sample (i : nat) : spec_float := nth i [S754_finite false 7205759403792794 (-56); S754_finite true 4503599627370496 (-54)] f0. (* 0.1, -1/4 *)
Lemma pw_le_inv m k : (0 <= m <= 2 ^ k)%Z -> (0 <= k)%Z -> IZR m * pw (- k) <= 1.
Proof. intros [Hm Hk] K. apply IZR_le in Hk. rewrite pw_Z in Hk by exact K. pose proof (pw_pos (- k)). rewrite <- (pw_inv k), (Rmult_comm (pw k)) || rewrite <- (pw_inv k). nra. Qed.
Example C162_ex_inside : (* the reference square mapped to itself: 0.1 comes back two units in the last place too large *)
  ref_point 53 1024 2 sample /\
  felem 53 1024 Quad4 Shape sample (fun _ => S754_nan) 0%nat = S754_finite false 5066549580791808 (-54) /\
  fposition 53 1024 Quad4 (fun _ => S754_nan) sample (fnode 53 1024 Quad4) (fun _ => S754_nan) 0%nat = S754_finite false 7205759403792796 (-56).
Proof.
  split; [|split; vm_compute; reflexivity]. intros i Hi. destruct i as [|[|i]]; [| |lia]; cbn [sample nth]; (split; [vm_compute; reflexivity|]); (split; [reflexivity|]); cbn [FR]; unfold sgnR.
  - pose proof (pw_le_inv 7205759403792794 56 ltac:(lia) ltac:(lia)). pose proof (pw_pos (-56)). change (- (56))%Z with (-56)%Z in *. rewrite Rabs_pos_eq by nra. lra.
  - pose proof (pw_le_inv 4503599627370496 54 ltac:(lia) ltac:(lia)). pose proof (pw_pos (-54)). change (- (54))%Z with (-54)%Z in *. rewrite Rabs_left by nra. lra.
Qed.
