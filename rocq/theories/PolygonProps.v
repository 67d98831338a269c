(** C46, C47, C51, C85: polygons and triangles. *)
From Coq Require Import Reals List Bool Lia Lra Psatz Permutation.
From Verif Require Import Outcome VectorModel GeometryModel GeometryProofs.
Import ListNotations.
Local Open Scope R_scope.

(** the shoelace sum over the closed vertex list: twice the signed area *)
Definition shoelace (l : list v2) : R := rsum (fun e => cross2 (fst e) (snd e)) (edges l).
(** first moment: six times the area integral of a coordinate f *)
Definition moment (f : v2 -> R) (l : list v2) : R := rsum (fun e => (f (fst e) + f (snd e)) * cross2 (fst e) (snd e)) (edges l).
Lemma area2_pi a b s : area2_body a b s = s + cross2 (fst (a, b)) (snd (a, b)).
Proof. unfold area2_body, cross2; simpl. ring. Qed.

(** C46: every version computes half the absolute shoelace sum *)
Theorem C46_area dbg (l : list v2) : (3 <= length l)%nat ->
  polygon2_area dbg l = Ok (Rabs (shoelace l) / 2).
Proof.
  intro L. unfold polygon2_area, assert_then.
  assert (E : match l with nil => UB | _ => Ok (Rabs (edge_loop area2_body l 0 / 2)) end = Ok (Rabs (shoelace l) / 2)).
  { destruct l as [|a l]; [simpl in L; lia|]. f_equal.
    rewrite (edge_loop_spec area2_body (fun s => s) (fun e => cross2 (fst e) (snd e)) area2_pi). unfold shoelace.
    rewrite Rplus_0_l. unfold Rdiv. rewrite Rabs_mult, (Rabs_pos_eq (/ 2)) by lra. reflexivity. }
  destruct dbg; [|exact E]. destruct (Nat.ltb_spec 2 (length l)); [exact E|lia].
Qed.
Print Assumptions C46_area.
Theorem C46_variadic_agrees dbg (t : v2) (args : list v2) : (2 <= length args)%nat ->
  polygon2_area dbg (t :: args) = Ok (polygon2_area_variadic t args).
Proof.
  intro L. rewrite C46_area by (simpl; lia). f_equal. unfold polygon2_area_variadic.
  rewrite (pairs_closed area2_body (fun s => s) (fun e => cross2 (fst e) (snd e)) area2_pi). unfold shoelace.
  rewrite Rplus_0_l. unfold Rdiv. rewrite Rabs_mult, (Rabs_pos_eq (/ 2)) by lra. reflexivity.
Qed.
Print Assumptions C46_variadic_agrees.
Theorem C46_too_few (l : list v2) : (length l < 3)%nat -> polygon2_area true l = AssertFail.
Proof. intro H. unfold polygon2_area, assert_then. destruct (Nat.ltb_spec 2 (length l)); [lia|reflexivity]. Qed.
Print Assumptions C46_too_few.

Lemma shoelace_perm l l' : Permutation (edges l) (edges l') -> shoelace l = shoelace l'.
Proof. apply rsum_perm. Qed.
Lemma shoelace_rev l : shoelace (rev l) = - shoelace l.
Proof.
  unfold shoelace. rewrite (rsum_perm _ _ _ (edges_rev l)), rsum_map.
  replace (- rsum (fun e => cross2 (fst e) (snd e)) (edges l)) with ((-1) * rsum (fun e => cross2 (fst e) (snd e)) (edges l)) by ring.
  rewrite <- rsum_scal. apply rsum_ext. intros [a b] _. unfold cross2; simpl. ring.
Qed.
Lemma shoelace_translate t l : shoelace (map (add2 t) l) = shoelace l.
Proof.
  unfold shoelace. rewrite edges_map, rsum_map.
  rewrite (rsum_ext _ (fun e => cross2 (fst e) (snd e) + (cross2 t (snd e) - cross2 t (fst e)))).
  - rewrite rsum_plus, (telescope (cross2 t)). ring.
  - intros [a b] _. unfold cross2; simpl. ring.
Qed.
(** a linear map with matrix (p q; r s) *)
Definition lin2 (p q r s : R) (a : v2) : v2 := V2 (p * x2 a + q * y2 a) (r * x2 a + s * y2 a).
Lemma shoelace_linear p q r s l : shoelace (map (lin2 p q r s) l) = (p * s - q * r) * shoelace l.
Proof.
  unfold shoelace. rewrite edges_map, rsum_map, <- rsum_scal. apply rsum_ext. intros [a b] _. unfold cross2; simpl. ring.
Qed.
(** cyclic relabelling, reversal, translation, linear maps *)
Theorem C46_invariance dbg (l a b : list v2) (t : v2) p q r s : (3 <= length l)%nat -> l = a ++ b ->
  polygon2_area dbg (b ++ a) = polygon2_area dbg l /\
  polygon2_area dbg (rev l) = polygon2_area dbg l /\
  polygon2_area dbg (map (add2 t) l) = polygon2_area dbg l /\
  polygon2_area dbg (map (lin2 p q r s) l) = bind (polygon2_area dbg l) (fun A => Ok (Rabs (p * s - q * r) * A)).
Proof.
  intros L E. assert (L' : (3 <= length (b ++ a))%nat) by (subst l; rewrite app_length in *; lia).
  rewrite !C46_area by (rewrite ?map_length, ?rev_length; assumption). rewrite bind_ok.
  rewrite shoelace_rev, Rabs_Ropp, shoelace_translate, shoelace_linear, Rabs_mult.
  repeat split; f_equal; [|unfold Rdiv; ring]. f_equal. f_equal. subst l. apply shoelace_perm, edges_rot.
Qed.
Print Assumptions C46_invariance.
(** rotation and scaling are the instances with determinant 1 and c^2 *)
Theorem C46_rotation_scaling dbg (l : list v2) (theta c A : R) : (3 <= length l)%nat -> polygon2_area dbg l = Ok A ->
  polygon2_area dbg (map (lin2 (cos theta) (- sin theta) (sin theta) (cos theta)) l) = Ok A /\
  polygon2_area dbg (map (lin2 c 0 0 c) l) = Ok (c ^ 2 * A).
Proof.
  intros L E. destruct (C46_invariance dbg l l nil zero2 (cos theta) (- sin theta) (sin theta) (cos theta) L) as (_ & _ & _ & H1); [rewrite app_nil_r; reflexivity|].
  destruct (C46_invariance dbg l l nil zero2 c 0 0 c L) as (_ & _ & _ & H2); [rewrite app_nil_r; reflexivity|].
  rewrite H1, H2, E, !bind_ok. split; f_equal.
  - replace (cos theta * cos theta - - sin theta * sin theta) with 1; [rewrite Rabs_R1; ring|].
    pose proof (sin2_cos2 theta) as S. unfold Rsqr in S. lra.
  - replace (c * c - 0 * 0) with (c ^ 2) by ring. rewrite Rabs_pos_eq; [reflexivity|]. nra.
Qed.
Print Assumptions C46_rotation_scaling.
(** the signed sum is additive when the polygon is cut along a diagonal, and is the triangle's for a triangle;
    so it is the signed area of any triangulation *)
Theorem C46_cut (a b : v2) l1 l2 : shoelace (a :: l1 ++ b :: l2) = shoelace (a :: l1 ++ [b]) + shoelace (b :: l2 ++ [a]).
Proof. apply edges_cut. unfold cross2; simpl. ring. Qed.
Print Assumptions C46_cut.
Theorem C46_triangle dbg (a b c : v2) :
  polygon2_area dbg [a; b; c] = Ok (triangle2_area a b c) /\
  polygon2_normal dbg [a; b; c] = Ok (triangle2_normal a b c).
Proof.
  split.
  - rewrite C46_area by (simpl; lia). unfold triangle2_area. f_equal.
    replace (shoelace [a; b; c]) with (cross2 (V2 (x2 b - x2 a) (y2 b - y2 a)) (V2 (x2 c - x2 a) (y2 c - y2 a))).
    { unfold Rdiv. ring. }
    unfold shoelace, cross2; simpl. ring.
  - unfold polygon2_normal, assert_then, edge_loop, triangle2_normal, area2_body, cross2; simpl. destruct dbg; apply f_equal; apply f_equal; field.
Qed.
Print Assumptions C46_triangle.
(** the 2-D "normal" carries the signed area in its second component: it changes sign under reversal *)
Theorem C46_normal dbg (t : v2) (args : list v2) : (2 <= length args)%nat ->
  polygon2_normal dbg (t :: args) = Ok (V2 0 (shoelace (t :: args) / 2)) /\
  polygon2_normal_variadic t args = V2 0 (shoelace (t :: args) / 2).
Proof.
  intro L. split.
  - unfold polygon2_normal, assert_then. 
    rewrite (edge_loop_spec area2_body (fun s => s) (fun e => cross2 (fst e) (snd e)) area2_pi), Rplus_0_l.
    destruct dbg; [|reflexivity]. destruct (Nat.ltb_spec 2 (length (t :: args))); [reflexivity|simpl in *; lia].
  - unfold polygon2_normal_variadic. rewrite (pairs_closed area2_body (fun s => s) (fun e => cross2 (fst e) (snd e)) area2_pi), Rplus_0_l. reflexivity.
Qed.
Print Assumptions C46_normal.
Example C46_example : polygon2_area true [V2 0 0; V2 2 0; V2 2 3; V2 0 3] = Ok 6 /\ polygon2_area_variadic (V2 0 0) [V2 1 0; V2 0 1] = 1 / 2.
Proof.
  split.
  - rewrite C46_area by (simpl; lia). f_equal. unfold shoelace, cross2; simpl. rewrite Rabs_pos_eq by lra. field.
  - unfold polygon2_area_variadic, area2_body; simpl. rewrite Rabs_pos_eq by lra. field.
Qed.

(** C47: centroid *)
Theorem C47_centroid dbg (t : v2) (args : list v2) : (2 <= length args)%nat ->
  let l := t :: args in
  let c := V2 (moment x2 l / (3 * shoelace l)) (moment y2 l / (3 * shoelace l)) in
  polygon2_centroid dbg l = Ok c /\ polygon2_centroid_variadic t args = c.
Proof.
  intros L l c. unfold polygon2_centroid, polygon2_centroid_variadic, assert_then, c, l, moment, shoelace, div2.
  split.
  - rewrite (edge_loop_spec centroid2_body_it (fun s => x2 (fst s)) (fun e => (x2 (fst e) + x2 (snd e)) * cross2 (fst e) (snd e)))
      by (intros; unfold centroid2_body_it, cross2; simpl; ring).
    rewrite (edge_loop_spec centroid2_body_it (fun s => y2 (fst s)) (fun e => (y2 (fst e) + y2 (snd e)) * cross2 (fst e) (snd e)))
      by (intros; unfold centroid2_body_it, cross2; simpl; ring).
    rewrite (edge_loop_spec centroid2_body_it snd (fun e => cross2 (fst e) (snd e)))
      by (intros; unfold centroid2_body_it, cross2; simpl; ring).
    cbn [fst snd x2 y2 zero2]. rewrite !Rplus_0_l.
    destruct dbg; [|reflexivity]. destruct (Nat.ltb_spec 2 (length (t :: args))); [reflexivity|simpl in *; lia].
  - rewrite (pairs_closed centroid2_body (fun s => x2 (fst s)) (fun e => (x2 (fst e) + x2 (snd e)) * cross2 (fst e) (snd e)))
      by (intros; unfold centroid2_body, cross2; simpl; ring).
    rewrite (pairs_closed centroid2_body (fun s => y2 (fst s)) (fun e => (y2 (fst e) + y2 (snd e)) * cross2 (fst e) (snd e)))
      by (intros; unfold centroid2_body, cross2; simpl; ring).
    rewrite (pairs_closed centroid2_body snd (fun e => cross2 (fst e) (snd e)))
      by (intros; unfold centroid2_body, cross2; simpl; ring).
    cbn [fst snd x2 y2 zero2]. rewrite !Rplus_0_l. reflexivity.
Qed.
Print Assumptions C47_centroid.
Lemma centroid_list dbg l : (3 <= length l)%nat ->
  polygon2_centroid dbg l = Ok (V2 (moment x2 l / (3 * shoelace l)) (moment y2 l / (3 * shoelace l))).
Proof. destruct l as [|t args]; simpl; intro L; [lia|]. apply C47_centroid. lia. Qed.
Lemma moment_rev f l : moment f (rev l) = - moment f l.
Proof.
  unfold moment. rewrite (rsum_perm _ _ _ (edges_rev l)), rsum_map.
  match goal with |- _ = - ?x => replace (- x) with ((-1) * x) by ring end.
  rewrite <- rsum_scal. apply rsum_ext. intros [a b] _. unfold cross2; simpl. ring.
Qed.
Lemma moment_linear (f g : v2 -> R) (u w : R) p q r s l : (forall a, f (lin2 p q r s a) = u * x2 a + w * y2 a) ->
  moment f (map (lin2 p q r s) l) = (p * s - q * r) * (u * moment x2 l + w * moment y2 l).
Proof.
  intro H. unfold moment. rewrite edges_map, rsum_map, <- !rsum_scal, <- rsum_plus, <- rsum_scal. apply rsum_ext. intros [a b] _.
  cbn [fst snd]. rewrite !H. unfold cross2; simpl. ring.
Qed.
Lemma moment_translate_x t l : moment x2 (map (add2 t) l) = moment x2 l + 3 * x2 t * shoelace l.
Proof.
  unfold moment, shoelace. rewrite edges_map, rsum_map, <- rsum_scal, <- rsum_plus.
  pose (g := fun a => x2 t * x2 t * y2 a + x2 t * x2 a * y2 a + x2 t * x2 t * y2 a - y2 t * x2 a * x2 a - 2 * (x2 t * y2 t * x2 a)).
  rewrite (rsum_ext _ (fun e => ((x2 (fst e) + x2 (snd e)) * cross2 (fst e) (snd e) + 3 * x2 t * cross2 (fst e) (snd e)) + (g (snd e) - g (fst e)))).
  - rewrite rsum_plus, (telescope g). ring.
  - intros [a b] _. unfold g, cross2; simpl. ring.
Qed.
Lemma moment_translate_y t l : moment y2 (map (add2 t) l) = moment y2 l + 3 * y2 t * shoelace l.
Proof.
  unfold moment, shoelace. rewrite edges_map, rsum_map, <- rsum_scal, <- rsum_plus.
  pose (g := fun a => - (y2 t * y2 t * x2 a + y2 t * y2 a * x2 a + y2 t * y2 t * x2 a - x2 t * y2 a * y2 a - 2 * (y2 t * x2 t * y2 a))).
  rewrite (rsum_ext _ (fun e => ((y2 (fst e) + y2 (snd e)) * cross2 (fst e) (snd e) + 3 * y2 t * cross2 (fst e) (snd e)) + (g (snd e) - g (fst e)))).
  - rewrite rsum_plus, (telescope g). ring.
  - intros [a b] _. unfold g, cross2; simpl. ring.
Qed.
(** equivariance under relabelling, reversal, translation and every invertible linear map (rotations included) *)
Theorem C47_equivariance dbg (l a b : list v2) (t c : v2) p q r s :
  (3 <= length l)%nat -> l = a ++ b -> shoelace l <> 0 -> polygon2_centroid dbg l = Ok c -> p * s - q * r <> 0 ->
  polygon2_centroid dbg (b ++ a) = Ok c /\ polygon2_centroid dbg (rev l) = Ok c /\
  polygon2_centroid dbg (map (add2 t) l) = Ok (add2 t c) /\
  polygon2_centroid dbg (map (lin2 p q r s) l) = Ok (lin2 p q r s c).
Proof.
  intros L E A Hc D. rewrite centroid_list in Hc by assumption. injection Hc as Hc. subst c.
  assert (L' : (3 <= length (b ++ a))%nat) by (subst l; rewrite app_length in *; lia).
  rewrite !centroid_list by (rewrite ?map_length, ?rev_length; assumption).
  split; [|split; [|split]].
  - subst l. unfold moment. rewrite !(rsum_perm _ _ _ (edges_rot a b)), (shoelace_perm _ _ (edges_rot a b)). reflexivity.
  - rewrite !moment_rev, shoelace_rev. do 2 f_equal; field; assumption.
  - rewrite moment_translate_x, moment_translate_y, shoelace_translate. unfold add2; simpl. do 2 f_equal; field; assumption.
  - rewrite (moment_linear x2 x2 p q) by reflexivity. rewrite (moment_linear y2 y2 r s) by reflexivity. rewrite shoelace_linear.
    unfold lin2; simpl. do 2 f_equal; field; split; assumption.
Qed.
Print Assumptions C47_equivariance.
(** a triangle's centroid is the vertex average; cutting along a diagonal gives the area-weighted mean *)
Theorem C47_triangle dbg (a b c : v2) : shoelace [a; b; c] <> 0 ->
  polygon2_centroid dbg [a; b; c] = Ok (triangle2_midpoint a b c).
Proof.
  intro H. rewrite centroid_list by (simpl; lia). unfold triangle2_midpoint. 
  assert (E : shoelace [a; b; c] = x2 a * y2 b - y2 a * x2 b + (x2 b * y2 c - y2 b * x2 c) + (x2 c * y2 a - y2 c * x2 a)) by (unfold shoelace, cross2; simpl; ring).
  rewrite E in *. unfold moment, cross2; simpl. do 2 f_equal; field; assumption.
Qed.
Print Assumptions C47_triangle.
Theorem C47_cut dbg (a b : v2) l1 l2 c c1 c2 : (1 <= length l1)%nat -> (1 <= length l2)%nat ->
  let P := a :: l1 ++ b :: l2 in let P1 := a :: l1 ++ [b] in let P2 := b :: l2 ++ [a] in
  shoelace P <> 0 -> shoelace P1 <> 0 -> shoelace P2 <> 0 ->
  polygon2_centroid dbg P = Ok c -> polygon2_centroid dbg P1 = Ok c1 -> polygon2_centroid dbg P2 = Ok c2 ->
  shoelace P * x2 c = shoelace P1 * x2 c1 + shoelace P2 * x2 c2 /\
  shoelace P * y2 c = shoelace P1 * y2 c1 + shoelace P2 * y2 c2.
Proof.
  intros L1 L2 P P1 P2 N N1 N2 H H1 H2.
  rewrite centroid_list in H by (unfold P; simpl; rewrite app_length; simpl; lia).
  rewrite centroid_list in H1 by (unfold P1; simpl; rewrite app_length; simpl; lia).
  rewrite centroid_list in H2 by (unfold P2; simpl; rewrite app_length; simpl; lia).
  injection H as <-. injection H1 as <-. injection H2 as <-. cbn [x2 y2].
  assert (M : forall f, moment f P = moment f P1 + moment f P2) by (intro f; apply edges_cut; unfold cross2; simpl; ring).
  rewrite !M. split; field; auto.
Qed.
Print Assumptions C47_cut.
Example C47_example : polygon2_centroid true [V2 0 0; V2 2 0; V2 2 4; V2 0 4] = Ok (V2 1 2) /\ shoelace [V2 0 0; V2 2 0; V2 2 4; V2 0 4] <> 0.
Proof.
  assert (E : shoelace [V2 0 0; V2 2 0; V2 2 4; V2 0 4] = 16) by (unfold shoelace, cross2; simpl; ring).
  split; [|rewrite E; lra]. rewrite centroid_list by (simpl; lia). rewrite E. unfold moment, cross2; simpl. do 2 f_equal; field.
Qed.

(** 3-D polygons *)
Definition in_plane (l : list v3) := exists n, (x3 n <> 0 \/ y3 n <> 0 \/ z3 n <> 0) /\ exists d, forall p, In p l -> dot3 n p = d.
Definition area_vector (l : list v3) : v3 :=
  let f c := rsum (fun e => c (cross3 (fst e) (snd e))) (edges l) / 2 in V3 (f x3) (f y3) (f z3).
Lemma polygon3_it_ok {S} dbg l (k : v3 -> outcome S) : l <> nil -> (dbg = true -> (4 <= length l)%nat) -> polygon3_it dbg l k = k (mean l).
Proof.
  intros N L. unfold polygon3_it, assert_then. rewrite average3_ok, bind_ok by assumption.
  destruct l as [|a l]; [congruence|]. destruct dbg; [|reflexivity].
  destruct (Nat.ltb_spec 3 (length (a :: l))); [reflexivity|]. specialize (L eq_refl). lia.
Qed.
Definition fan_area (xm : v3) (l : list v3) : R := rsum (fun e => triangle3_area (fst e) (snd e) xm) (edges l).
Lemma area3_it dbg l : l <> nil -> (dbg = true -> (4 <= length l)%nat) -> polygon3_area dbg l = Ok (fan_area (mean l) l).
Proof.
  intros. unfold polygon3_area. rewrite polygon3_it_ok by assumption. f_equal.
  rewrite (edge_loop_spec (area3_body (mean l)) (fun s => s) (fun e => triangle3_area (fst e) (snd e) (mean l))) by reflexivity.
  rewrite Rplus_0_l. reflexivity.
Qed.
Lemma nvec_fan c l xm : comp c -> rsum (fun e => c (nvec (fst e) (snd e) xm)) (edges l) = rsum (fun e => c (cross3 (fst e) (snd e))) (edges l).
Proof.
  intro H. rewrite (rsum_ext _ (fun e => c (cross3 (fst e) (snd e)) + (c (cross3 (snd e) xm) - c (cross3 (fst e) xm)))).
  - rewrite rsum_plus, (telescope (fun p => c (cross3 p xm))). ring.
  - intros [a b] _. destruct H as [->|[->| ->]]; simpl; ring.
Qed.
Lemma normal3_it dbg l : l <> nil -> (dbg = true -> (4 <= length l)%nat) -> polygon3_normal dbg l = Ok (area_vector l).
Proof.
  intros. unfold polygon3_normal. rewrite polygon3_it_ok by assumption. f_equal. apply v3_comp. intros c Hc.
  rewrite (edge_loop_spec (normal3_body (mean l)) c (fun e => 1 / 2 * c (nvec (fst e) (snd e) (mean l)))).
  - rewrite rsum_scal, nvec_fan, comp_zero by assumption. destruct Hc as [->|[->| ->]]; simpl; field.
  - intros. unfold normal3_body. rewrite comp_add, triangle3_normal_nvec, comp_scale by assumption. reflexivity.
Qed.
(** C51: the normal is the area vector (half the sum of edge cross products), for any polygon, planar or not;
    iterator and variadic versions agree *)
Theorem C51_normal dbg (t : v3) (args : list v3) : (3 <= length args)%nat ->
  polygon3_normal dbg (t :: args) = Ok (area_vector (t :: args)) /\ polygon3_normal_variadic t args = area_vector (t :: args).
Proof.
  intro L. split; [apply normal3_it; [discriminate|simpl; lia]|].
  apply v3_comp. intros c Hc. unfold polygon3_normal_variadic. rewrite average3_variadic_mean.
  rewrite (pairs_closed (normal3_body (mean (t :: args))) c (fun e => 1 / 2 * c (nvec (fst e) (snd e) (mean (t :: args))))).
  - rewrite rsum_scal, nvec_fan, comp_zero by assumption. destruct Hc as [->|[->| ->]]; simpl; field.
  - intros. unfold normal3_body. rewrite comp_add, triangle3_normal_nvec, comp_scale by assumption. reflexivity.
Qed.
Print Assumptions C51_normal.
Theorem C51_area_versions dbg (t : v3) (args : list v3) : (3 <= length args)%nat ->
  polygon3_area dbg (t :: args) = Ok (polygon3_area_variadic t args) /\
  polygon3_centroid dbg (t :: args) = Ok (polygon3_centroid_variadic t args).
Proof.
  intro L. split.
  - rewrite area3_it by (try discriminate; simpl; lia). f_equal. unfold polygon3_area_variadic. rewrite average3_variadic_mean.
    rewrite (pairs_closed (area3_body (mean (t :: args))) (fun s => s) (fun e => triangle3_area (fst e) (snd e) (mean (t :: args)))) by reflexivity.
    rewrite Rplus_0_l. reflexivity.
  - unfold polygon3_centroid, polygon3_centroid_variadic. rewrite polygon3_it_ok by (try discriminate; simpl; lia). f_equal.
    rewrite average3_variadic_mean. set (xm := mean (t :: args)).
    assert (F : fst (edge_loop (centroid3_body xm) (t :: args) (0, zero3)) = fst (pairs (centroid3_body xm) t (args ++ [t]) (0, zero3))).
    { rewrite (edge_loop_spec (centroid3_body xm) fst (fun e => triangle3_area (fst e) (snd e) xm)) by reflexivity.
      rewrite (pairs_closed (centroid3_body xm) fst (fun e => triangle3_area (fst e) (snd e) xm)) by reflexivity. reflexivity. }
    assert (G : snd (edge_loop (centroid3_body xm) (t :: args) (0, zero3)) = snd (pairs (centroid3_body xm) t (args ++ [t]) (0, zero3))).
    { apply v3_comp. intros c Hc.
      rewrite (edge_loop_spec (centroid3_body xm) (fun s => c (snd s)) (fun e => triangle3_area (fst e) (snd e) xm * c (triangle3_midpoint (fst e) (snd e) xm)))
        by (intros; unfold centroid3_body; cbn [fst snd]; rewrite comp_add, comp_scale by assumption; reflexivity).
      rewrite (pairs_closed (centroid3_body xm) (fun s => c (snd s)) (fun e => triangle3_area (fst e) (snd e) xm * c (triangle3_midpoint (fst e) (snd e) xm)))
        by (intros; unfold centroid3_body; cbn [fst snd]; rewrite comp_add, comp_scale by assumption; reflexivity). reflexivity. }
    rewrite F, G. reflexivity.
Qed.
Print Assumptions C51_area_versions.
(** triangles are refused by the assertion of the iterator overloads *)
Theorem C51_triangle_refuted :
  ~ (forall a b c, polygon3_area true [a; b; c] = Ok (triangle3_area a b c)) /\
  (forall a b c, polygon3_area true [a; b; c] = AssertFail /\ polygon3_normal true [a; b; c] = AssertFail /\ polygon3_centroid true [a; b; c] = AssertFail).
Proof. split; [intro H; specialize (H zero3 zero3 zero3); discriminate H|]. intros. repeat split. Qed.
Print Assumptions C51_triangle_refuted.
Lemma mag3_scale s a : mag3 (scale3 s a) = Rabs s * mag3 a.
Proof.
  unfold mag3. rewrite <- sqrt_Rsqr_abs, <- sqrt_mult; [|apply Rle_0_sqr|unfold dot3; nra].
  f_equal. unfold dot3, Rsqr; simpl. ring.
Qed.
Lemma triangle3_area_nvec a b c : triangle3_area a b c = 1 / 2 * mag3 (nvec a b c).
Proof. unfold triangle3_area. do 2 f_equal. apply v3_ext; simpl; ring. Qed.
(** with assertions off, the same code gives the triangle's area, normal and centroid *)
Theorem C51_triangle_release (a b c : v3) :
  polygon3_area false [a; b; c] = Ok (triangle3_area a b c) /\
  polygon3_normal false [a; b; c] = Ok (triangle3_normal a b c) /\
  (triangle3_area a b c <> 0 -> polygon3_centroid false [a; b; c] = Ok (triangle3_midpoint a b c)).
Proof.
  assert (T : forall u v, In (u, v) [(a, b); (b, c); (c, a)] -> triangle3_area u v (mean [a; b; c]) = 1 / 3 * triangle3_area a b c).
  { intros u v H. rewrite !triangle3_area_nvec.
    assert (E : nvec u v (mean [a; b; c]) = scale3 (1 / 3) (nvec a b c)).
    { simpl in H. destruct H as [H|[H|[H|[]]]]; injection H as <- <-; apply v3_ext; simpl; field. }
    rewrite E, mag3_scale, Rabs_pos_eq by lra. ring. }
  split; [|split].
  - rewrite area3_it by discriminate. f_equal. unfold fan_area. simpl. rewrite !T by (simpl; tauto). field.
  - rewrite normal3_it by discriminate. f_equal. apply v3_ext; simpl; field.
  - intro N. unfold polygon3_centroid. rewrite polygon3_it_ok by discriminate. f_equal. set (xm := mean [a; b; c]) in *.
    assert (F : fst (edge_loop (centroid3_body xm) [a; b; c] (0, zero3)) = triangle3_area a b c).
    { rewrite (edge_loop_spec (centroid3_body xm) fst (fun e => triangle3_area (fst e) (snd e) xm)) by reflexivity.
      simpl. rewrite !T by (simpl; tauto). field. }
    apply v3_comp. intros k Hk. rewrite comp_div by assumption. rewrite F.
    rewrite (edge_loop_spec (centroid3_body xm) (fun s => k (snd s)) (fun e => triangle3_area (fst e) (snd e) xm * k (triangle3_midpoint (fst e) (snd e) xm)))
      by (intros; unfold centroid3_body; cbn [fst snd]; rewrite comp_add, comp_scale by assumption; reflexivity).
    cbn [edges combine tl firstn app rsum fst snd]. rewrite !T by (simpl; tauto).
    unfold xm. destruct Hk as [->|[->| ->]]; simpl; field; assumption.
Qed.
Print Assumptions C51_triangle_release.
Example C51_triangle_example : triangle3_area (V3 0 0 0) (V3 1 0 0) (V3 0 1 0) = 1 / 2.
Proof. unfold triangle3_area, mag3, dot3; simpl. match goal with |- context [sqrt ?e] => replace e with (1 * 1) by ring end. rewrite sqrt_square by lra. lra. Qed.

(** invariance of area and normal under relabelling, reversal, translation *)
Lemma fan_perm xm l l' : Permutation (edges l) (edges l') -> fan_area xm l = fan_area xm l'.
Proof. apply rsum_perm. Qed.
Lemma mag3_neg a : mag3 (scale3 (-1) a) = mag3 a.
Proof. rewrite mag3_scale, Rabs_left by lra. ring. Qed.
Theorem C51_invariance dbg (l a b : list v3) (t : v3) : (4 <= length l)%nat -> l = a ++ b ->
  polygon3_area dbg (b ++ a) = polygon3_area dbg l /\ polygon3_normal dbg (b ++ a) = polygon3_normal dbg l /\
  polygon3_area dbg (rev l) = polygon3_area dbg l /\
  polygon3_normal dbg (rev l) = bind (polygon3_normal dbg l) (fun n => Ok (scale3 (-1) n)) /\
  polygon3_area dbg (map (add3 t) l) = polygon3_area dbg l /\ polygon3_normal dbg (map (add3 t) l) = polygon3_normal dbg l.
Proof.
  intros L E. assert (N : l <> nil) by (destruct l; simpl in L; [lia|discriminate]).
  assert (L' : (4 <= length (b ++ a))%nat) by (subst l; rewrite app_length in *; lia).
  assert (N' : b ++ a <> nil) by (intro X; rewrite X in L'; simpl in L'; lia).
  assert (NR : rev l <> nil) by (intro X; apply (f_equal (@length v3)) in X; rewrite rev_length in X; simpl in X; lia).
  assert (NM : map (add3 t) l <> nil) by (destruct l; [congruence|discriminate]).
  rewrite !area3_it, !normal3_it, bind_ok by (try assumption; intros; rewrite ?rev_length, ?map_length; assumption).
  assert (RL : INR (length l) <> 0) by (apply not_0_INR; lia).
  repeat split; f_equal.
  - subst l. rewrite (mean_perm (b ++ a) (a ++ b)) by apply Permutation_app_comm. apply fan_perm, edges_rot.
  - subst l. unfold area_vector. rewrite !(rsum_perm _ _ _ (edges_rot a b)). reflexivity.
  - rewrite (mean_perm (rev l) l) by (apply Permutation_sym, Permutation_rev). unfold fan_area.
    rewrite (rsum_perm _ _ _ (edges_rev l)), rsum_map. apply rsum_ext. intros [u v] _. cbn [swap fst snd].
    rewrite !triangle3_area_nvec, <- (mag3_neg (nvec u v _)). do 2 f_equal. apply v3_ext; simpl; ring.
  - unfold area_vector. rewrite !(rsum_perm _ _ _ (edges_rev l)), !rsum_map. 
    assert (G : forall c, comp c -> rsum (fun e => c (cross3 (fst (swap e)) (snd (swap e)))) (edges l) = (-1) * rsum (fun e => c (cross3 (fst e) (snd e))) (edges l)).
    { intros c Hc. rewrite <- rsum_scal. apply rsum_ext. intros [u v] _. destruct Hc as [->|[->| ->]]; simpl; ring. }
    unfold comp in G. rewrite !G by tauto. unfold scale3; simpl. f_equal; field.
  - assert (M : mean (map (add3 t) l) = add3 t (mean l)).
    { apply v3_comp. intros c Hc. rewrite comp_add, !comp_mean, map_length, rsum_map by assumption.
      rewrite (rsum_ext _ (fun p => c t + c p)) by (intros; apply comp_add; assumption). rewrite rsum_plus.
      replace (rsum (fun _ : v3 => c t) l) with (INR (length l) * c t).
      { field. assumption. }
      clear. induction l; [simpl; ring|]. cbn [length rsum]. rewrite S_INR, <- IHl. ring. }
    rewrite M. unfold fan_area. rewrite edges_map, rsum_map. apply rsum_ext. intros [u v] _. cbn [fst snd].
    unfold triangle3_area. do 2 f_equal. apply v3_ext; simpl; ring.
  - unfold area_vector. rewrite edges_map, !rsum_map.
    assert (G : forall c, comp c -> rsum (fun e => c (cross3 (fst (add3 t (fst e), add3 t (snd e))) (snd (add3 t (fst e), add3 t (snd e))))) (edges l) = rsum (fun e => c (cross3 (fst e) (snd e))) (edges l)).
    { intros c Hc. rewrite (rsum_ext _ (fun e => c (cross3 (fst e) (snd e)) + (c (cross3 t (snd e)) - c (cross3 t (fst e))))).
      - rewrite rsum_plus, (telescope (fun p => c (cross3 t p))). ring.
      - intros [u v] _. destruct Hc as [->|[->| ->]]; simpl; ring. }
    unfold comp in G. rewrite !G by tauto. reflexivity.
Qed.
Print Assumptions C51_invariance.

(** C85: area against the area vector *)
Lemma mag3_sq a : mag3 a * mag3 a = dot3 a a.
Proof. unfold mag3. apply sqrt_sqrt. unfold dot3. nra. Qed.
Lemma mag3_pos a : 0 <= mag3 a.
Proof. apply sqrt_pos. Qed.
Lemma dot3_le a b : dot3 a b <= mag3 a * mag3 b.
Proof.
  apply Rle_trans with (Rabs (dot3 a b)); [apply Rle_abs|].
  apply Rsqr_incr_0; [|apply Rabs_pos|apply Rmult_le_pos; apply mag3_pos]. unfold Rsqr.
  rewrite <- Rabs_mult, Rabs_pos_eq by (apply Rle_0_sqr).
  replace (mag3 a * mag3 b * (mag3 a * mag3 b)) with ((mag3 a * mag3 a) * (mag3 b * mag3 b)) by ring. rewrite !mag3_sq.
  assert (H : 0 <= dot3 (cross3 a b) (cross3 a b)) by (unfold dot3; nra).
  replace (dot3 a a * dot3 b b) with (dot3 (cross3 a b) (cross3 a b) + dot3 a b * dot3 a b) by (unfold dot3; simpl; ring). lra.
Qed.
Lemma dot_area u xm l : dot3 u (area_vector l) = rsum (fun e => 1 / 2 * dot3 u (nvec (fst e) (snd e) xm)) (edges l).
Proof.
  unfold area_vector. rewrite <- !(fun c H => nvec_fan c l xm H) by (unfold comp; tauto). unfold dot3 at 1; simpl. 
  induction (edges l) as [|e L IH]; [simpl; field|]. simpl rsum. rewrite <- IH. unfold dot3; simpl. field.
Qed.
Lemma half_inv a k u : scale3 (1 / 2) a = scale3 k u -> a = scale3 (2 * k) u.
Proof. destruct a, u. unfold scale3; simpl. intro E. injection E as A B C. f_equal; lra. Qed.
(** the area is never less than the magnitude of the normal, with equality when the fan about the
    midpoint does not fold: all triangle normals non-negative multiples of one direction *)
Theorem C85_area_ge_normal dbg (l : list v3) : (4 <= length l)%nat ->
  exists A n, polygon3_area dbg l = Ok A /\ polygon3_normal dbg l = Ok n /\ mag3 n <= A /\
  ((exists u, forall a b, In (a, b) (edges l) -> exists k, 0 <= k /\ triangle3_normal a b (mean l) = scale3 k u) -> A = mag3 n).
Proof.
  intro L. assert (N : l <> nil) by (destruct l; simpl in L; [lia|discriminate]).
  exists (fan_area (mean l) l), (area_vector l). rewrite area3_it, normal3_it by (assumption || (intros; assumption)).
  split; [reflexivity|]. split; [reflexivity|]. set (n := area_vector l). set (xm := mean l). 
  assert (LE : mag3 n <= fan_area xm l).
  { destruct (Req_dec (mag3 n) 0) as [Z|NZ].
    - rewrite Z. unfold fan_area. clear. induction (edges l); simpl; [lra|]. unfold triangle3_area at 1.
      match goal with |- context [mag3 ?x] => pose proof (mag3_pos x) end. lra.
    - assert (0 < mag3 n) by (pose proof (mag3_pos n); lra). apply Rmult_le_reg_l with (mag3 n); [assumption|].
      rewrite mag3_sq. unfold n at 2. rewrite (dot_area n xm). unfold fan_area. rewrite <- rsum_scal. apply rsum_le. intros [a b] _. cbn [fst snd].
      rewrite triangle3_area_nvec. pose proof (dot3_le n (nvec a b xm)). lra. }
  split; [exact LE|]. intros [u H].
  assert (G : fan_area xm l * mag3 u = dot3 u n).
  { unfold n. rewrite (dot_area u xm). unfold fan_area. rewrite Rmult_comm, <- rsum_scal. apply rsum_ext. intros [a b] I. cbn [fst snd].
    destruct (H a b I) as (k & K & E). rewrite triangle3_normal_nvec in E. fold xm in E. rewrite triangle3_area_nvec.
    assert (E' : nvec a b xm = scale3 (2 * k) u).
    { apply half_inv, E. }
    rewrite E', mag3_scale, Rabs_pos_eq by lra. 
    replace (mag3 u * (1 / 2 * (2 * k * mag3 u))) with (k * (mag3 u * mag3 u)) by field. rewrite mag3_sq. unfold dot3; simpl. field. }
  destruct (Req_dec (mag3 u) 0) as [Z|NZ].
  - assert (Q : fan_area xm l = 0).
    { unfold fan_area. transitivity (rsum (fun _ : v3 * v3 => 0 * 0) (edges l)); [|rewrite rsum_scal; ring]. apply rsum_ext. intros [a b] I. cbn [fst snd].
      destruct (H a b I) as (k & K & E). rewrite triangle3_normal_nvec in E. fold xm in E. rewrite triangle3_area_nvec.
      assert (X : mag3 (scale3 (1 / 2) (nvec a b xm)) = 0) by (rewrite E, mag3_scale, Z; ring).
      rewrite mag3_scale, Rabs_pos_eq in X by lra. lra. }
    pose proof (mag3_pos n). lra.
  - assert (0 < mag3 u) by (pose proof (mag3_pos u); lra). apply Rle_antisym; [|exact LE].
    apply Rmult_le_reg_l with (mag3 u); [assumption|]. rewrite (Rmult_comm _ (fan_area xm l)), G. apply dot3_le.
Qed.
Print Assumptions C85_area_ge_normal.
(** for a planar polygon that folds over its midpoint the area is wrong: an arrowhead in the plane z = 0 *)
Definition arrow : list v3 := [V3 0 0 0; V3 4 4 0; V3 0 1 0; V3 (-4) 4 0].
Lemma triangle3_flat p0 p1 q0 q1 r0 r1 : triangle3_area (V3 p0 p1 0) (V3 q0 q1 0) (V3 r0 r1 0) =
  1 / 2 * Rabs ((q0 - p0) * (r1 - p1) - (q1 - p1) * (r0 - p0)).
Proof.
  unfold triangle3_area, mag3, dot3; simpl. f_equal. rewrite <- sqrt_Rsqr_abs. f_equal. unfold Rsqr. ring.
Qed.
Theorem C85_nonconvex_refuted :
  ~ (forall l A n, in_plane l -> (4 <= length l)%nat -> polygon3_area true l = Ok A -> polygon3_normal true l = Ok n -> A = mag3 n).
Proof.
  intro H. specialize (H arrow 14 (V3 0 0 4)).
  assert (M : mean arrow = V3 0 (9 / 4) 0) by (apply v3_ext; simpl; field).
  assert (A : polygon3_area true arrow = Ok 14).
  { rewrite area3_it, M by (try discriminate; simpl; lia). f_equal. unfold fan_area, arrow; simpl. rewrite !triangle3_flat.
    rewrite (Rabs_pos_eq ((4 - 0) * _ - _)) by lra. rewrite (Rabs_pos_eq ((0 - -4) * _ - _)) by lra.
    rewrite (Rabs_left ((0 - 4) * _ - _)) by lra. rewrite (Rabs_left ((-4 - 0) * _ - _)) by lra. lra. }
  assert (B : polygon3_normal true arrow = Ok (V3 0 0 4)).
  { rewrite normal3_it by (try discriminate; simpl; lia). f_equal. apply v3_ext; simpl; field. }
  assert (E : 14 = mag3 (V3 0 0 4)).
  { apply H; [|simpl; lia|exact A|exact B]. exists (V3 0 0 1). split; [right; right; simpl; lra|]. exists 0.
    intros p Hp. simpl in Hp. unfold dot3. destruct Hp as [<-|[<-|[<-|[<-|[]]]]]; simpl; ring. }
  assert (Q : mag3 (V3 0 0 4) * mag3 (V3 0 0 4) = 16) by (rewrite mag3_sq; unfold dot3; simpl; ring). rewrite <- E in Q. lra.
Qed.
Print Assumptions C85_nonconvex_refuted.
Example C85_example : polygon3_normal true [V3 0 0 0; V3 1 0 0; V3 1 1 0; V3 0 1 0] = Ok (V3 0 0 1).
Proof. rewrite normal3_it by (try discriminate; simpl; lia). f_equal. apply v3_ext; simpl; field. Qed.
