(** Properties of averages and shapes for integer coordinates. The exact values they are compared with are those of
    GeometryModel over the reals. *)
From Coq Require Import List ZArith Bool Reals Lra Lia.
From Verif Require Import Outcome VectorModel GeometryModel IntGeometryModel.
Import ListNotations.
Local Open Scope Z_scope.

Definition r2 (p : i2) : v2 := V2 (IZR (ix2 p)) (IZR (iy2 p)).
Definition r3 (p : i3) : v3 := V3 (IZR (ix3 p)) (IZR (iy3 p)) (IZR (iz3 p)).
(** n is the largest integer not above x *)
Definition is_floor (n : Z) (x : R) : Prop := (IZR n <= x < IZR n + 1)%R.

Lemma quot_floor a n : 0 <= a -> 0 < n -> is_floor (Z.quot a n) (IZR a / IZR n).
Proof.
  intros Ha Hn. unfold is_floor. rewrite Z.quot_div_nonneg by lia.
  assert (P : (0 < IZR n)%R) by now apply IZR_lt.
  pose proof (Z.div_mod a n ltac:(lia)) as E. pose proof (Z.mod_pos_bound a n Hn) as B.
  apply (f_equal IZR) in E. rewrite plus_IZR, mult_IZR in E.
  destruct B as [B1 B2]. apply IZR_le in B1. apply IZR_lt in B2.
  rewrite E. replace ((IZR n * IZR (a / n) + IZR (a mod n)) / IZR n)%R with (IZR (a / n) + IZR (a mod n) / IZR n)%R by (field; lra).
  assert (0 <= IZR (a mod n) / IZR n < 1)%R.
  { split.
    - apply Rmult_le_pos; [lra|]. apply Rlt_le. now apply Rinv_0_lt_compat.
    - apply (Rmult_lt_reg_r (IZR n)); auto. unfold Rdiv. rewrite Rmult_assoc, Rinv_l, Rmult_1_r, Rmult_1_l by lra. lra. }
  lra.
Qed.
Lemma abs_quot a n : 0 < n -> Z.abs (Z.quot a n) = Z.quot (Z.abs a) n.
Proof. intros H. rewrite <- (Z.abs_eq n) at 2 by lia. symmetry. apply Z.quot_abs. lia. Qed.
Lemma Rabs_half a : Rabs (IZR a / 2) = (IZR (Z.abs a) / 2)%R.
Proof. unfold Rdiv. rewrite Rabs_mult, abs_IZR. f_equal. apply Rabs_right. lra. Qed.

Lemma edge_sum_real pts : edge_loop area2_body (map r2 pts) 0%R = IZR (iedge_sum pts).
Proof.
  unfold edge_loop, iedge_sum. rewrite <- map_rev. destruct (rev pts) as [|po t]; [reflexivity|]. cbn [map].
  assert (G : forall l a p,
    fst (fold_left (fun st pn => (area2_body (snd st) pn (fst st), pn)) (map r2 l) (IZR a, r2 p)) =
    IZR (fst (fold_left (fun st pn => (iarea_body (snd st) pn (fst st), pn)) l (a, p)))).
  { induction l as [|q l IH]; intros a p; [reflexivity|]. cbn [map fold_left fst snd].
    rewrite <- IH. do 3 f_equal. unfold area2_body, iarea_body. cbn.
    now rewrite plus_IZR, minus_IZR, !mult_IZR. }
  apply (G pts 0 po).
Qed.

(** ** C144: what holds. The area of a polygon and the volumes of a tetrahedron and a hexahedron are the exact value
    rounded down; the midpoint of two points is rounded towards zero. *)
Theorem C144_polygon_area : forall dbg pts, (2 < length pts)%nat ->
  exists a x, ipolygon2_area dbg pts = Ok a /\ polygon2_area dbg (map r2 pts) = Ok x /\ is_floor a x /\ 0 <= a.
Proof.
  intros dbg pts H. exists (Z.abs (Z.quot (iedge_sum pts) 2)), (Rabs (IZR (iedge_sum pts) / 2)).
  assert (L : Nat.ltb 2 (length pts) = true) by now apply Nat.ltb_lt.
  unfold ipolygon2_area, polygon2_area, assert_then. rewrite map_length, L, andb_false_r.
  destruct pts as [|p pts]; [cbn in H; lia|]. cbn [map]. split; [reflexivity|].
  rewrite <- edge_sum_real. cbn [map]. split; [reflexivity|].
  change (r2 p :: map r2 pts) with (map r2 (p :: pts)). rewrite edge_sum_real. split; [|lia].
  rewrite abs_quot, Rabs_half by lia. apply quot_floor; lia.
Qed.
Print Assumptions C144_polygon_area.
(** the normal has the same length, with sign *)
Theorem C144_polygon_normal : forall dbg pts, (2 < length pts)%nat ->
  exists n x, ipolygon2_normal dbg pts = Ok (I2 0 n) /\ polygon2_normal dbg (map r2 pts) = Ok (V2 0 x) /\
    is_floor (Z.abs n) (Rabs x) /\ (0 < IZR n -> 0 < x)%R /\ (IZR n < 0 -> x < 0)%R /\ ipolygon2_area dbg pts = Ok (Z.abs n).
Proof.
  intros dbg pts H. exists (Z.quot (iedge_sum pts) 2), (IZR (iedge_sum pts) / 2)%R.
  assert (L : Nat.ltb 2 (length pts) = true) by now apply Nat.ltb_lt.
  unfold ipolygon2_normal, polygon2_normal, ipolygon2_area, assert_then. rewrite map_length, L, andb_false_r.
  destruct pts as [|p pts]; [cbn in H; lia|]. cbn [map]. split; [reflexivity|].
  rewrite <- edge_sum_real. cbn [map]. split; [reflexivity|].
  change (r2 p :: map r2 pts) with (map r2 (p :: pts)). rewrite edge_sum_real. split; [|split; [|split; [|reflexivity]]].
  - rewrite abs_quot, Rabs_half by lia. apply quot_floor; lia.
  - intros Hn. assert (0 < iedge_sum (p :: pts))%Z.
    { destruct (Z.lt_ge_cases 0 (iedge_sum (p :: pts))); auto. apply lt_IZR in Hn.
      pose proof (Z.quot_le_mono (iedge_sum (p :: pts)) 0 2 ltac:(lia) ltac:(lia)) as Q. rewrite Z.quot_0_l in Q; lia. }
    apply IZR_lt in H0. lra.
  - intros Hn. assert (iedge_sum (p :: pts) < 0)%Z.
    { destruct (Z.lt_ge_cases (iedge_sum (p :: pts)) 0); auto. apply lt_IZR in Hn.
      pose proof (Z.quot_le_mono 0 (iedge_sum (p :: pts)) 2 ltac:(lia) ltac:(lia)) as Q. rewrite Z.quot_0_l in Q; lia. }
    apply IZR_lt in H0. lra.
Qed.
Print Assumptions C144_polygon_normal.

Ltac push := cbn; repeat (rewrite plus_IZR || rewrite minus_IZR || rewrite mult_IZR || rewrite opp_IZR).
Lemma tet_real p0 p1 p2 p3 : tet_det (r3 p0) (r3 p1) (r3 p2) (r3 p3) = IZR (itet_det p0 p1 p2 p3).
Proof. unfold tet_det, itet_det. push. reflexivity. Qed.
Lemma triple_real a b c : triple_product (r3 a) (r3 b) (r3 c) = IZR (itriple a b c).
Proof. unfold triple_product, itriple. push. ring. Qed.
Lemma sub_real a b : sub3 (r3 a) (r3 b) = r3 (isub3 a b).
Proof. unfold sub3, isub3, r3. cbn. now rewrite !minus_IZR. Qed.
Lemma add_real a b : add3 (r3 a) (r3 b) = r3 (iadd3 a b).
Proof. unfold add3, iadd3, r3. cbn. now rewrite !plus_IZR. Qed.

Theorem C144_volumes :
  (forall p0 p1 p2 p3, is_floor (itet_volume p0 p1 p2 p3) (tet_volume (r3 p0) (r3 p1) (r3 p2) (r3 p3))) /\
  (forall p0 p1 p2 p3 p4 p5 p6 p7, is_floor (ihex_volume p0 p1 p2 p3 p4 p5 p6 p7)
     (hex_volume (r3 p0) (r3 p1) (r3 p2) (r3 p3) (r3 p4) (r3 p5) (r3 p6) (r3 p7))).
Proof.
  split; intros.
  - unfold tet_volume, itet_volume. rewrite tet_real, <- abs_IZR. apply quot_floor; lia.
  - unfold hex_volume, ihex_volume. cbv zeta. rewrite !sub_real, !add_real, !triple_real, <- !abs_IZR, <- !plus_IZR.
    apply quot_floor; lia.
Qed.
Print Assumptions C144_volumes.

Theorem C144_midpoint : forall a b i, length a = length b -> (i < length a)%nat ->
  let m := nth i (ipoint_midpoint a b) 0 in let s := nth i a 0 + nth i b 0 in
  Z.abs (2 * m) <= Z.abs s < Z.abs (2 * m) + 2 /\ 0 <= m * s.
Proof.
  intros a b i L H. cbv zeta. unfold ipoint_midpoint.
  assert (E : nth i (map (fun p => Z.quot (fst p + snd p) 2) (combine a b)) 0 = Z.quot (nth i a 0 + nth i b 0) 2).
  { rewrite (nth_indep _ 0 (Z.quot (fst (0, 0) + snd (0, 0)) 2)) by (rewrite map_length, combine_length; lia).
    rewrite (map_nth (fun p => Z.quot (fst p + snd p) 2)). rewrite combine_nth by auto. reflexivity. }
  rewrite E. set (s := nth i a 0 + nth i b 0).
  pose proof (Z.quot_rem' s 2) as Q. pose proof (Z.rem_bound_abs s 2 ltac:(lia)) as B.
  pose proof (Z.rem_sign_mul s 2 ltac:(lia)) as Sg.
  split; nia.
Qed.
Print Assumptions C144_midpoint.
Theorem C144_distance : forall a b,
  let s := fold_left (fun s p => s + (fst p - snd p) * (fst p - snd p)) (combine a b) 0 in
  0 <= ipoint_distance a b /\ ipoint_distance a b ^ 2 <= s < (ipoint_distance a b + 1) ^ 2.
Proof.
  intros a b. cbv zeta. unfold ipoint_distance. set (s := fold_left _ _ _).
  assert (P : 0 <= s).
  { unfold s. generalize (combine a b). assert (G : forall l r, 0 <= r ->
      0 <= fold_left (fun s (p : Z * Z) => s + (fst p - snd p) * (fst p - snd p)) l r).
    { induction l as [|p l IH]; intros r Hr; cbn [fold_left]; auto. apply IH. pose proof (Z.square_nonneg (fst p - snd p)). lia. }
    intros l. apply G. lia. }
  pose proof (Z.sqrt_spec s P) as Q. split; [apply Z.sqrt_nonneg|]. rewrite !Z.pow_2_r. unfold Z.succ in Q. lia.
Qed.
Print Assumptions C144_distance.
Example C144_ex :
  ipolygon2_area true [I2 0 0; I2 3 0; I2 3 3; I2 0 4] = Ok 10 /\
  ipolygon2_normal true [I2 0 0; I2 0 4; I2 3 3; I2 3 0] = Ok (I2 0 (-10)) /\
  itet_volume (I3 0 0 0) (I3 3 0 0) (I3 0 3 0) (I3 0 0 3) = 4 /\
  ihex_volume (I3 0 0 0) (I3 2 0 0) (I3 2 3 0) (I3 0 3 0) (I3 0 0 4) (I3 2 0 4) (I3 2 3 4) (I3 0 3 4) = 24 /\
  ipoint_midpoint [1; -3] [4; -2] = [2; -2] /\ ipoint_distance [0; 0] [3; 4] = 5.
Proof. vm_compute. auto 10. Qed.

(** What fails. The area, the normal and the midpoint of any triangle, the midpoint of any quadrilateral,
    tetrahedron and hexahedron are zero; the centroid of a polygon is the origin or a division by zero; so is the
    centroid of two or more points. *)
Theorem C144_shapes_refuted :
  ~ (forall a b c, is_floor (itriangle2_area a b c) (triangle2_area (r2 a) (r2 b) (r2 c))) /\
  ~ (forall a b c x y, triangle2_midpoint (r2 a) (r2 b) (r2 c) = r2 (I2 x y) -> itriangle2_midpoint a b c = I2 x y) /\
  (forall a b c, itriangle2_area a b c = 0 /\ itriangle2_normal a b c = I2 0 0 /\ itriangle2_midpoint a b c = I2 0 0) /\
  (forall a b c, itriangle3_normal a b c = I3 0 0 0) /\
  (forall a b c d, iquad2_midpoint a b c d = I2 0 0) /\
  (forall a b c d, iquad3_midpoint a b c d = I3 0 0 0) /\
  (forall p0 p1 p2 p3 p4 p5 p6 p7, ihex_midpoint p0 p1 p2 p3 p4 p5 p6 p7 = I3 0 0 0).
Proof.
  assert (Z2 : forall a b c, itriangle2_area a b c = 0 /\ itriangle2_normal a b c = I2 0 0 /\ itriangle2_midpoint a b c = I2 0 0)
    by (intros; repeat split; reflexivity).
  split; [|split; [|split; [exact Z2|split; [|split; [|split]]]]].
  - intros H. specialize (H (I2 0 0) (I2 2 0) (I2 0 2)). destruct H as [_ H].
    assert (E : itriangle2_area (I2 0 0) (I2 2 0) (I2 0 2) = 0) by reflexivity. rewrite E in H. clear E.
    unfold triangle2_area, cross2, r2 in H. cbn in H.
    replace ((2 - 0) * (2 - 0) - (0 - 0) * (0 - 0))%R with 4%R in H by ring. rewrite Rabs_right in H by lra. lra.
  - intros H. specialize (H (I2 0 0) (I2 3 0) (I2 0 3) 1 1).
    assert (E : itriangle2_midpoint (I2 0 0) (I2 3 0) (I2 0 3) = I2 1 1).
    { apply H. unfold triangle2_midpoint, r2. cbn. f_equal; lra. }
    discriminate E.
  - intros. unfold itriangle3_normal. change (inverse_of 2) with 0. cbv zeta. now rewrite !Z.mul_0_r.
  - intros; reflexivity.
  - intros; reflexivity.
  - intros; reflexivity.
Qed.
Print Assumptions C144_shapes_refuted.

Lemma inv_3a a : a <> 0 -> Z.quot 1 (3 * a) = 0.
Proof. intros H. apply Z.quot_small_iff; lia. Qed.
Lemma centroid_area pts : snd (icentroid_loop pts) = iedge_sum pts.
Proof.
  unfold icentroid_loop, iedge_sum. destruct (rev pts) as [|po t]; [reflexivity|].
  assert (G : forall l (s : i2 * Z) p,
    snd (fst (fold_left (fun st pn => (icentroid_body (snd st) pn (fst st), pn)) l (s, p))) =
    fst (fold_left (fun st pn => (iarea_body (snd st) pn (fst st), pn)) l (snd s, p))).
  { induction l as [|q l IH]; intros s p; [reflexivity|]. cbn [fold_left fst snd]. rewrite IH. reflexivity. }
  apply G.
Qed.
Theorem C144_centroid_refuted :
  (forall dbg pts, (2 < length pts)%nat ->
     ipolygon2_centroid dbg pts = if iedge_sum pts =? 0 then UB else Ok (I2 0 0)) /\
  (forall D vs, (2 <= length vs)%nat -> Forall (fun v => length v = D) vs -> ipoint_centroid D vs = Ok (repeat 0 D)) /\
  (forall D, ipoint_centroid D [] = UB) /\
  (forall v, ipoint_centroid (length v) [v] = Ok v) /\
  ~ (forall dbg pts x y, polygon2_centroid dbg (map r2 pts) = Ok (r2 (I2 x y)) -> ipolygon2_centroid dbg pts = Ok (I2 x y)).
Proof.
  assert (P : forall dbg pts, (2 < length pts)%nat ->
     ipolygon2_centroid dbg pts = if iedge_sum pts =? 0 then UB else Ok (I2 0 0)).
  { intros dbg pts H. unfold ipolygon2_centroid, assert_then.
    assert (L : Nat.ltb 2 (length pts) = true) by now apply Nat.ltb_lt. rewrite L, andb_false_r.
    destruct pts as [|p pts]; [cbn in H; lia|]. cbv zeta. rewrite centroid_area. unfold idiv.
    destruct (Z.eqb_spec (iedge_sum (p :: pts)) 0) as [E|E].
    - rewrite E. reflexivity.
    - destruct (Z.eqb_spec (3 * iedge_sum (p :: pts)) 0); [lia|]. rewrite inv_3a by auto. cbn [bind].
      now rewrite !Z.mul_0_r. }
  split; [exact P|]. split; [|split; [|split]].
  - intros D vs H F. unfold ipoint_centroid, idiv. destruct (Z.eqb_spec (Z.of_nat (length vs)) 0); [lia|].
    assert (E : Z.quot 1 (Z.of_nat (length vs)) = 0) by (apply Z.quot_small_iff; lia). rewrite E. cbn [bind]. f_equal.
    assert (Ln : length (isum D vs) = D).
    { unfold isum. assert (G : forall vs t, length t = D -> Forall (fun v => length v = D) vs ->
        length (fold_left (fun tmp (v : list Z) => map (fun p => fst p + snd p) (combine tmp v)) vs t) = D).
      { clear. induction vs as [|v vs IH]; intros t Ht F; auto. inversion F; subst. cbn [fold_left]. apply IH; auto.
        rewrite map_length, combine_length. lia. }
      apply G; auto. apply repeat_length. }
    clear -Ln. rewrite <- Ln at 2. generalize (isum D vs). induction l as [|x l IH]; [reflexivity|].
    cbn [map length repeat]. f_equal; [lia|]. exact IH.
  - intros D. reflexivity.
  - intros v. unfold ipoint_centroid. cbn [length]. change (idiv 1 (Z.of_nat 1)) with (Ok 1). cbn [bind]. f_equal.
    unfold isum. cbn [fold_left]. induction v as [|x v IH]; [reflexivity|].
    cbn [length repeat combine map fst snd]. f_equal; [lia|]. exact IH.
  - intros H. specialize (H false [I2 0 0; I2 2 0; I2 2 2; I2 0 2] 1 1).
    assert (E : ipolygon2_centroid false [I2 0 0; I2 2 0; I2 2 2; I2 0 2] = Ok (I2 1 1)).
    { apply H. unfold polygon2_centroid, assert_then, edge_loop, centroid2_body_it, div2, r2. cbn. do 2 f_equal; field. }
    discriminate E.
Qed.
Print Assumptions C144_centroid_refuted.

(** ** C145: averages of int *)
(** sums that stay in the range of int *)
Fixpoint sums_ok (l : list Z) (s : Z) : Prop :=
  match l with [] => True | x :: t => - 2 ^ 31 <= s + x < 2 ^ 31 /\ sums_ok t (s + x) end.
Definition total (l : list Z) : Z := fold_right Z.add 0 l.
Lemma int_sum_ok l : forall s, sums_ok l s -> int_sum l s = Ok (s + total l).
Proof.
  induction l as [|x l IH]; intros s H; cbn [int_sum total fold_right]; [f_equal; lia|].
  destruct H as [B H]. unfold int_range.
  replace ((- 2 ^ 31 <=? s + x) && (s + x <? 2 ^ 31)) with true
    by (symmetry; apply andb_true_iff; rewrite Z.leb_le, Z.ltb_lt; lia).
  rewrite IH by auto. f_equal. unfold total. lia.
Qed.
Lemma sums_total l : forall s, - 2 ^ 31 <= s < 2 ^ 31 -> sums_ok l s -> - 2 ^ 31 <= s + total l < 2 ^ 31.
Proof.
  induction l as [|x l IH]; intros s B H; cbn [total fold_right]; [lia|]. destruct H as [B' H].
  specialize (IH _ B' H). unfold total in IH. lia.
Qed.
Lemma div_size_nonneg s n : 0 <= s < 2 ^ 31 -> (0 < n)%nat -> div_size s n = Z.quot s (Z.of_nat n).
Proof.
  intros B Hn. unfold div_size, to_size. rewrite Z.mod_small by lia. rewrite Z.quot_div_nonneg by lia.
  assert (0 <= s / Z.of_nat n <= s).
  { split; [apply Z.div_pos; lia|]. apply Z.div_le_upper_bound; nia. }
  unfold to_int. rewrite Z.mod_small by lia. lia.
Qed.

(** The iterator version (and the one of two arguments) truncates the exact average; the versions dividing by a size_t
    agree with it as long as the sum is not negative. *)
Theorem C145_average : forall dbg l, (0 < length l)%nat -> sums_ok l 0 ->
  iaverage_iter dbg l = Ok (Z.quot (total l) (Z.of_nat (length l))) /\
  (0 <= total l -> iaverage_container dbg l = iaverage_iter dbg l) /\
  (forall t args, l = t :: args -> 0 <= total l -> iaverage_args t args = iaverage_iter dbg l) /\
  (forall t u, l = [t; u] -> iaverage_two t u = iaverage_iter dbg l).
Proof.
  intros dbg l Hl Hs. assert (I : iaverage_iter dbg l = Ok (Z.quot (total l) (Z.of_nat (length l)))).
  { unfold iaverage_iter, assert_then. apply Nat.ltb_lt in Hl as L. rewrite L, andb_false_r.
    rewrite int_sum_ok by auto. cbn [bind]. unfold idiv. destruct (Z.eqb_spec (Z.of_nat (length l)) 0); [lia|].
    cbn [bind]. reflexivity. }
  rewrite I. split; [reflexivity|].
  assert (B := sums_total l 0 ltac:(lia) Hs). split; [|split].
  - intros P. unfold iaverage_container, assert_then. apply Nat.ltb_lt in Hl as L. rewrite L, andb_false_r.
    rewrite int_sum_ok by auto. cbn [bind]. destruct (Nat.eqb_spec (length l) 0); [lia|]. f_equal.
    now apply div_size_nonneg.
  - intros t args -> P. destruct Hs as [B0 Hs]. unfold iaverage_args. rewrite int_sum_ok by auto. cbn [bind]. f_equal.
    replace (length args + 1)%nat with (length (t :: args)) by (cbn; lia).
    change (t + total args) with (total (t :: args)). now apply div_size_nonneg.
  - intros t u ->. destruct Hs as (_ & B1 & _). unfold iaverage_two. cbn [total fold_right length].
    rewrite Z.add_0_r. assert (R : int_range (t + u) = true).
    { unfold int_range. apply andb_true_iff. rewrite Z.leb_le, Z.ltb_lt. cbn [Z.add] in B1. lia. }
    rewrite R. reflexivity.
Qed.
Print Assumptions C145_average.
Example C145_ex : sums_ok [7; -2; 5] 0 /\ iaverage_container true [7; -2; 5] = Ok 3 /\ iaverage_iter true [-7; 2; -5] = Ok (-3) /\
  iaverage_args 1 [2; 4] = Ok 2 /\ iaverage_two (-3) (-4) = Ok (-3).
Proof. cbn; split; [lia|]. vm_compute. auto. Qed.

(** With a negative sum the division is unsigned: the average of -3, -3 and -3 is 1431655762. *)
Theorem C145_negative_refuted :
  ~ (forall dbg l, (0 < length l)%nat -> sums_ok l 0 -> iaverage_container dbg l = iaverage_iter dbg l) /\
  iaverage_container true [-3; -3; -3] = Ok 1431655762 /\
  iaverage_args (-3) [-3; -3] = Ok 1431655762 /\
  iaverage_iter true [-3; -3; -3] = Ok (-3) /\
  (forall dbg l, (0 < length l)%nat -> sums_ok l 0 -> total l < 0 ->
     iaverage_container dbg l = Ok (to_int ((2 ^ 64 + total l) / Z.of_nat (length l)))).
Proof.
  split; [|split; [vm_compute; reflexivity|split; [vm_compute; reflexivity|split; [vm_compute; reflexivity|]]]].
  - intros H. specialize (H true [-3; -3; -3] ltac:(cbn; lia)). assert (C : sums_ok [-3; -3; -3] 0) by (cbn; lia).
    apply H in C. vm_compute in C. discriminate C.
  - intros dbg l Hl Hs Hn. unfold iaverage_container, assert_then. apply Nat.ltb_lt in Hl as L. rewrite L, andb_false_r.
    rewrite int_sum_ok by auto. cbn [bind]. destruct (Nat.eqb_spec (length l) 0); [lia|]. do 2 f_equal.
    assert (B := sums_total l 0 ltac:(lia) Hs). unfold div_size, to_size. do 2 f_equal.
    symmetry. apply (Z.mod_unique _ _ (-1)); lia.
Qed.
Print Assumptions C145_negative_refuted.
