(** C108-C110: reference nodes, faces shared by two elements, and polynomial completeness of the fixed-order
    elements (ristra/elements/elements.cc). *)
From Coq Require Import Reals List Arith Lia Lra.
From Verif Require Import Outcome VectorModel VectorProofs ElementsModel ElementsProofs ElementsConf.
Import ListNotations.
Open Scope R_scope.
Ltac conj := repeat match goal with |- _ /\ _ => split | |- _ -> _ /\ _ => intro end.

(** ** C108 the node numbering drawn in the comments *)
(** m lies on the segment from a to b, at the fraction t *)
Definition on_edge (D : nat) (a b : vec) (t : R) (m : vec) : Prop :=
  forall d, (d < D)%nat -> m d = a d + t * (b d - a d).
Definition thirds (D : nat) (ref : nat -> vec) (e : (nat * nat) * (nat * nat)) : Prop :=
  let '((a, b), (m, k)) := e in on_edge D (ref a) (ref b) (1/3) (ref m) /\ on_edge D (ref a) (ref b) (2/3) (ref k).
Definition mid (D : nat) (ref : nat -> vec) (e : (nat * nat) * nat) : Prop :=
  let '((a, b), m) := e in on_edge D (ref a) (ref b) (1/2) (ref m).
(** the first four nodes are the corners of [-1,1]^2, counter-clockwise from (-1,-1) *)
Definition corners2 (ref : nat -> vec) : Prop := forall i d, (i < 4)%nat -> (d < 2)%nat ->
  ref i d = nth d (nth i [[-1; -1]; [1; -1]; [1; 1]; [-1; 1]] []) 0.
(** the first eight nodes are the corners of [-1,1]^3: the ring 0,1,2,3 in the plane of the second coordinate -1,
    from (-1,-1,-1) first along the first coordinate; node i + 4 opposite to i along the second coordinate *)
Definition corners3 (ref : nat -> vec) : Prop :=
  (forall i, (i < 4)%nat -> forall d, (d < 3)%nat ->
     ref i d = nth d (nth i [[-1; -1; -1]; [1; -1; -1]; [1; -1; 1]; [-1; -1; 1]] []) 0)
  /\ forall i d, (i < 4)%nat -> (d < 3)%nat -> ref (i + 4)%nat d = if Nat.eqb d 1 then 1 else ref i d.

Ltac prove_corners := let i := fresh "i" in let d := fresh "d" in let Hi := fresh in let Hd := fresh in
  intros i d Hi Hd; cases_lt i Hi ltac:(idtac; cases_lt d Hd ltac:(reflexivity)).
Ltac prove_corners3 := split; [let i := fresh "i" in let d := fresh "d" in let Hi := fresh in let Hd := fresh in
    intros i Hi d Hd; cases_lt i Hi ltac:(idtac; cases_lt d Hd ltac:(reflexivity))
  | prove_corners].
Ltac prove_edge := let d := fresh "d" in let Hd := fresh in intros d Hd; cases_lt d Hd ltac:(elem; field).
(** elements.cc 862-874, 970-987, 1151-1169: the pictures of the quadrilaterals.  In the lists below, ((a, b), m): node
    m in the middle of the edge from a to b; ((a, b), (m, k)): m at one third and k at two thirds of the edge *)
Theorem C108_quads :
  (corners2 quad4_ref /\ corners2 quad8_ref /\ corners2 quad12_ref)
  /\ Forall (mid 2 quad8_ref) [((0,1), 4); ((1,2), 5); ((2,3), 6); ((3,0), 7)]%nat
  /\ Forall (thirds 2 quad12_ref) [((0,1), (4,5)); ((1,2), (9,10)); ((2,3), (6,7)); ((3,0), (11,8))]%nat.
Proof.
  split; [conj; prove_corners|].
  split; repeat (apply Forall_cons; [try split; prove_edge|]); apply Forall_nil.
Qed.
Print Assumptions C108_quads.
(** elements.cc 1371-1388, 1500-1522, 1797-1828: the pictures of the hexahedra *)
Theorem C108_hexes :
  (corners3 hex8_ref /\ corners3 hex20_ref /\ corners3 hex32_ref)
  /\ Forall (mid 3 hex20_ref) [((0,1), 8); ((1,2), 9); ((2,3), 10); ((3,0), 11); ((4,5), 12); ((5,6), 13); ((6,7), 14); ((7,4), 15); ((0,4), 16); ((1,5), 17); ((2,6), 18); ((3,7), 19)]%nat
  /\ Forall (thirds 3 hex32_ref) [((0,1), (16,17)); ((3,2), (19,18)); ((4,5), (20,21)); ((7,6), (23,22)); ((0,3), (8,11)); ((1,2), (9,10)); ((4,7), (12,15)); ((5,6), (13,14)); ((0,4), (24,28)); ((1,5), (25,29)); ((2,6), (26,30)); ((3,7), (27,31))]%nat.
Proof.
  split; [split; [prove_corners3 | split; prove_corners3]|].
  split; repeat (apply Forall_cons; [try split; prove_edge|]); apply Forall_nil.
Qed.
Print Assumptions C108_hexes.
(** the coordinates are left-handed, as the note under the picture says: the edges 0-1, 0-3 and 0-4 *)
Theorem C108_left_handed :
  let e := fun j d => hex8_ref j d - hex8_ref 0%nat d in
  let det := fun a b c : vec => a 0%nat * (b 1%nat * c 2%nat - b 2%nat * c 1%nat)
    - a 1%nat * (b 0%nat * c 2%nat - b 2%nat * c 0%nat) + a 2%nat * (b 0%nat * c 1%nat - b 1%nat * c 0%nat) in
  det (e 1%nat) (e 4%nat) (e 3%nat) = 8.
Proof. cbv zeta. elem. ring. Qed.
Print Assumptions C108_left_handed.
(** elements.cc 2701-2728: the tesseract is the hexahedron twice, first with tau = -1, then with tau = 1 *)
Theorem C108_tess : corners3 tess16_ref
  /\ (forall i d, (i < 8)%nat -> (d < 3)%nat -> tess16_ref (i + 8)%nat d = tess16_ref i d)
  /\ (forall i, (i < 8)%nat -> tess16_ref i 3%nat = -1 /\ tess16_ref (i + 8)%nat 3%nat = 1).
Proof.
  split; [prove_corners3|]. split.
  - intros i d Hi Hd. cases_lt i Hi ltac:(idtac; cases_lt d Hd ltac:(reflexivity)).
  - intros i Hi. cases_lt i Hi ltac:(split; reflexivity).
Qed.
Print Assumptions C108_tess.
Example C108_ex : hex32_ref 30 1%nat = 1/3 /\ on_edge 3 (hex32_ref 2) (hex32_ref 6) (2/3) (hex32_ref 30).
Proof. split; [reflexivity|]. prove_edge. Qed.

(** ** C109 two elements that share a face agree on it *)
(** on a face of the reference element the position depends only on the nodes of this face *)
Definition face_determined (n D : nat) (ref : nat -> vec) (pos : vec -> vec -> (nat -> vec) -> vec -> vec) : Prop :=
  forall xp xp' x V V' junk junk' d k, (d < D)%nat -> (k < D)%nat -> (x d = 1 \/ x d = -1) ->
    (forall i, (i < n)%nat -> ref i d = x d -> V i k = V' i k) -> pos xp x V junk k = pos xp' x V' junk' k.
(** a second element lies behind the face x_d = 1: its nodes with x_d = -1 are at the places of the nodes of the first
    with x_d = 1 and equal other reference coordinates.  Then there is neither a gap nor an overlap *)
Definition continuous_join (n D : nat) (ref : nat -> vec) (pos : vec -> vec -> (nat -> vec) -> vec -> vec) : Prop :=
  forall xp xp' x V V' junk junk' d k, (d < D)%nat -> (k < D)%nat -> x d = 1 ->
    (forall i j, (i < n)%nat -> (j < n)%nat -> ref i d = 1 -> ref j d = -1 ->
       (forall e, (e < D)%nat -> e <> d -> ref i e = ref j e) -> V i k = V' j k) ->
    pos xp x V junk k = pos xp' (set x d (-1)) V' junk' k.
(** Tess16::physical_position once its table is set *)
Definition tess16_pos (xp x : vec) (V : nat -> vec) (junk : vec) : vec :=
  match tess16_position (Some tess16_ref) xp x V junk with Ok y => y | _ => xp end.
Ltac pos_s := intros; (apply position_spec || apply position_dim_first_spec); assumption.
Ltac no_junk := let i := fresh "i" in let Hi := fresh in intros ? ? ? i Hi; cases_lt i Hi ltac:(elem; reflexivity).
Ltac prove_det L := intros xp xp' x V V' junk junk' d k; eapply trace_gen; [pos_s | exact L | no_junk].
Ltac prove_join L M := intros xp xp' x V V' junk junk' d k; eapply join_gen; [pos_s | exact L | exact M | no_junk].
Theorem C109_face :
  face_determined 4 2 quad4_ref quad4_position
  /\ face_determined 8 2 quad8_ref quad8_position
  /\ face_determined 12 2 quad12_ref quad12_position
  /\ face_determined 8 3 hex8_ref hex8_position
  /\ face_determined 20 3 hex20_ref hex20_position
  /\ face_determined 32 3 hex32_ref hex32_position
  /\ face_determined 16 4 tess16_ref tess16_pos.
Proof.
  conj; [prove_det quad4_face | prove_det quad8_face | prove_det quad12_face | prove_det hex8_face | prove_det hex20_face | prove_det hex32_face | prove_det tess16_face].
Qed.
Print Assumptions C109_face.
Theorem C109_join :
  continuous_join 4 2 quad4_ref quad4_position
  /\ continuous_join 8 2 quad8_ref quad8_position
  /\ continuous_join 12 2 quad12_ref quad12_position
  /\ continuous_join 8 3 hex8_ref hex8_position
  /\ continuous_join 20 3 hex20_ref hex20_position
  /\ continuous_join 32 3 hex32_ref hex32_position
  /\ continuous_join 16 4 tess16_ref tess16_pos.
Proof.
  conj; [prove_join quad4_face quad4_mirrored | prove_join quad8_face quad8_mirrored | prove_join quad12_face quad12_mirrored | prove_join hex8_face hex8_mirrored | prove_join hex20_face hex20_mirrored | prove_join hex32_face hex32_mirrored | prove_join tess16_face tess16_mirrored].
Qed.
Print Assumptions C109_join.

(** two unit squares side by side, the left one sheared: they agree on the common edge *)
Example C109_ex :
  let V := tab [[0; 0]; [1; 0]; [1; 1]; [0; 2]] in let V' := tab [[1; 0]; [3; -1]; [3; 3]; [1; 1]] in
  (forall y junk, quad4_position y (fun d => if Nat.eqb d 0 then 1 else 1/3) V junk 1%nat
     = quad4_position y (set (fun d => if Nat.eqb d 0 then 1 else 1/3) 0 (-1)) V' junk 1%nat)
  /\ (forall y junk, quad4_position y (fun d => if Nat.eqb d 0 then 1 else 1/3) V junk 1%nat = 2/3).
Proof.
  split; intros y junk.
  - apply (proj1 C109_join); [lia|lia|reflexivity|]. intros i j Hi Hj.
    cases_lt i Hi ltac:(idtac; cases_lt j Hj ltac:(elem; intros A B E; first [reflexivity | exfalso; lra
      | specialize (E 1%nat ltac:(lia) ltac:(lia)); cbv in E; exfalso; lra])).
  - unfold quad4_position. rewrite position_spec by lia. elem. field.
Qed.

(** ** C110 polynomials are reproduced *)
(** a polynomial in three variables: coefficients and exponents *)
Definition poly := list (R * (nat * nat * nat)).
Definition peval (p : poly) (x : vec) : R :=
  fold_right (fun m acc => let '(c, (a, b, e)) := m in c * (x 0%nat ^ a * x 1%nat ^ b * x 2%nat ^ e) + acc) 0 p.
(** of total degree at most k; two variables only if flat *)
Definition degree (k : nat) (flat : bool) (p : poly) : Prop :=
  Forall (fun m : R * (nat * nat * nat) => let '(_, (a, b, e)) := m in (a + b + e <= k)%nat /\ (flat = true -> e = O)) p.
Definition reproduces (n k : nat) (flat : bool) (ref : nat -> vec) (sh : vec -> vec -> vec) : Prop :=
  forall p x junk, degree k flat p -> sum n (fun i => peval p (ref i) * sh x junk i) = peval p x.
Lemma reproduces_gen n k cmax (flat : bool) ref sh : complete n k cmax ref sh -> (if flat then cmax = O else cmax = k) ->
  reproduces n k flat ref sh.
Proof.
  intros C Hc p x junk. induction p as [|[c [[a b] e]] p IH]; intro H.
  - cbn [peval fold_right]. rewrite (sum_ext _ _ (fun _ => 0)) by (intros; ring). clear. induction n; cbn; [reflexivity|]. rewrite IHn. ring.
  - inversion H as [|? ? H0 H3]; subst. destruct H0 as [H1 H2]. cbn [peval fold_right]. fold (peval p x). rewrite <- IH by assumption.
    rewrite <- (C x junk a b e) by (destruct flat; [specialize (H2 eq_refl)|]; lia).
    rewrite <- sum_scal, <- sum_plus. apply sum_ext. intros i Hi. cbn [peval fold_right]. fold (peval p (ref i)). ring.
Qed.
Theorem C110_complete :
  reproduces 4 1 true quad4_ref quad4_shape /\ reproduces 8 2 true quad8_ref quad8_shape
  /\ reproduces 12 3 true quad12_ref quad12_shape /\ reproduces 8 1 false hex8_ref hex8_shape
  /\ reproduces 20 2 false hex20_ref hex20_shape /\ reproduces 32 3 false hex32_ref hex32_shape.
Proof.
  conj; [apply (reproduces_gen _ _ 0) | apply (reproduces_gen _ _ 0) | apply (reproduces_gen _ _ 0)
    | apply (reproduces_gen _ _ 1) | apply (reproduces_gen _ _ 2) | apply (reproduces_gen _ _ 3)];
  first [reflexivity | apply quad4_complete | apply quad8_complete | apply quad12_complete
    | apply hex8_complete | apply hex20_complete | apply hex32_complete].
Qed.
Print Assumptions C110_complete.
Theorem C110_multilinear :
  multilinear 4 2 quad4_ref quad4_shape /\ multilinear 8 3 hex8_ref hex8_shape
  /\ multilinear 16 4 tess16_ref (tess16_shape tess16_ref).
Proof. conj; [apply quad4_multilinear | apply hex8_multilinear | apply tess16_multilinear]. Qed.
Print Assumptions C110_multilinear.
(** the degrees are the largest possible *)
Lemma sharp_aux (A : Prop) (a b : R) : A -> a <> b -> (A -> a = b) -> False.
Proof. tauto. Qed.
Theorem C110_sharp :
  ~ reproduces 4 2 true quad4_ref quad4_shape /\ ~ reproduces 8 3 true quad8_ref quad8_shape
  /\ ~ reproduces 12 4 true quad12_ref quad12_shape /\ ~ reproduces 8 2 false hex8_ref hex8_shape
  /\ ~ reproduces 20 3 false hex20_ref hex20_shape /\ ~ reproduces 32 4 false hex32_ref hex32_shape.
Proof.
  conj; intro H.
  - specialize (H [(1, (2, 0, 0)%nat)] (fun _ => 1/2) (fun _ => 0)). revert H. apply sharp_aux; [repeat constructor; lia|]. elem; cbn [peval fold_right pow]; lra.
  - specialize (H [(1, (3, 0, 0)%nat)] (fun _ => 1/2) (fun _ => 0)). revert H. apply sharp_aux; [repeat constructor; lia|]. elem; cbn [peval fold_right pow]; lra.
  - specialize (H [(1, (4, 0, 0)%nat)] (fun _ => 1/2) (fun _ => 0)). revert H. apply sharp_aux; [repeat constructor; lia|]. elem; cbn [peval fold_right pow]; lra.
  - specialize (H [(1, (2, 0, 0)%nat)] (fun _ => 1/2) (fun _ => 0)). revert H. apply sharp_aux; [repeat constructor; lia|]. elem; cbn [peval fold_right pow]; lra.
  - specialize (H [(1, (3, 0, 0)%nat)] (fun _ => 1/2) (fun _ => 0)). revert H. apply sharp_aux; [repeat constructor; lia|]. elem; cbn [peval fold_right pow]; lra.
  - specialize (H [(1, (4, 0, 0)%nat)] (fun _ => 1/2) (fun _ => 0)). revert H. apply sharp_aux; [repeat constructor; lia|]. elem; cbn [peval fold_right pow]; lra.
Qed.
Print Assumptions C110_sharp.
Example C110_ex : (* 2 x y + 3 y^2 - 1 at (1/2, 1/3) *)
  sum 8 (fun i => peval [(2, (1, 1, 0)%nat); (3, (0, 2, 0)%nat); (-1, (0, 0, 0)%nat)] (quad8_ref i)
    * quad8_shape (fun d => if Nat.eqb d 0 then 1/2 else 1/3) (fun _ => 7) i) = -1/3.
Proof.
  rewrite (proj1 (proj2 C110_complete)) by (repeat constructor; lia). cbn [peval fold_right pow Nat.eqb]. field.
Qed.
