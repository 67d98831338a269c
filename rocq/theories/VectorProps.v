(** C44, C45, C83, the rotation part of C42: vector algebra over the reals. *)
From Coq Require Import Reals List ZArith Bool Lia Lra Psatz.
From Verif Require Import Outcome VectorModel VectorProofs.
Import ListNotations.
Local Open Scope R_scope.

(** dot product: symmetric, bilinear, definite, in every dimension; the formula is stated by [sum] *)
Theorem C44_dot : forall D a b, dot_product D a b = sum D (fun i => a i * b i).
Proof. exact dot_sum. Qed.
Print Assumptions C44_dot.
Theorem C44_dot_bilinear D (a b c : vec) (s t : R) :
  dot_product D a b = dot_product D b a /\
  dot_product D (fun i => s * a i + t * b i) c = s * dot_product D a c + t * dot_product D b c /\
  dot_product D c (fun i => s * a i + t * b i) = s * dot_product D c a + t * dot_product D c b /\
  0 <= dot_product D a a /\ (dot_product D a a = 0 <-> forall i, (i < D)%nat -> a i = 0).
Proof.
  rewrite !dot_sum. repeat split.
  - apply sum_ext. intros. ring.
  - rewrite <- !sum_scal, <- sum_plus. apply sum_ext. intros. ring.
  - rewrite <- !sum_scal, <- sum_plus. apply sum_ext. intros. ring.
  - apply sq_nonneg.
  - intro H. apply mag_zero. rewrite mag_sum, H. apply sqrt_0.
  - intro H. apply mag_zero in H. rewrite <- mag_sq, H. ring.
Qed.
Print Assumptions C44_dot_bilinear.
Example C44_dot_example : dot_product 3 (fun i => INR i) (fun i => INR i) = 5.
Proof. unfold dot_product. simpl. ring. Qed.

(** the run-time container version gives the same number, and is undefined when b is too short *)
Theorem C44_dot_container (a b : list R) :
  (length a = length b -> dot_container a b = Ok (dot_product (length a) (fun i => nth i a 0) (fun i => nth i b 0))) /\
  ((length b < length a)%nat -> dot_container a b = UB).
Proof.
  split.
  - intro L. unfold dot_container. rewrite inner_product_spec, dot_sum by assumption. f_equal. ring.
  - intro L. apply inner_product_short, L.
Qed.
Print Assumptions C44_dot_container.
Theorem C44_magnitude_container (a : list R) :
  magnitude_container a = Ok (magnitude (length a) (fun i => nth i a 0)).
Proof.
  unfold magnitude_container. destruct (C44_dot_container a a) as [H _]. rewrite (H eq_refl), bind_ok, mag_sum, dot_sum. reflexivity.
Qed.
Print Assumptions C44_magnitude_container.
Example C44_container_example : dot_container [1; 2] [3; 4; 5] = Ok 11 /\ dot_container [1; 2] [3] = UB.
Proof. split; [|reflexivity]. unfold dot_container. simpl. f_equal. ring. Qed.

(** magnitude is a norm *)
Theorem C44_cauchy_schwarz : forall D a b, Rabs (dot_product D a b) <= magnitude D a * magnitude D b.
Proof. exact cauchy. Qed.
Print Assumptions C44_cauchy_schwarz.
Theorem C44_magnitude_norm D (a b : vec) (c : R) :
  0 <= magnitude D a /\ magnitude D a * magnitude D a = sum D (fun i => a i * a i) /\
  (magnitude D a = 0 <-> forall i, (i < D)%nat -> a i = 0) /\
  magnitude D (fun i => c * a i) = Rabs c * magnitude D a /\
  magnitude D (fun i => a i + b i) <= magnitude D a + magnitude D b.
Proof.
  split; [apply mag_nonneg|]. split; [apply mag_sq|]. split; [apply mag_zero|]. split; [apply mag_scale|apply mag_triangle].
Qed.
Print Assumptions C44_magnitude_norm.
Theorem C44_unit D (x : vec) (i0 : nat) : (i0 < D)%nat -> x i0 <> 0 ->
  magnitude D (unit D x) = 1 /\ forall i, magnitude D x * unit D x i = x i.
Proof.
  intros Hi Hx. assert (P : magnitude D x <> 0). { intro E. apply Hx. apply (proj1 (mag_zero D x) E i0 Hi). }
  split.
  - unfold unit. rewrite (mag_ext D _ (fun i => / magnitude D x * x i)) by (intros; unfold Rdiv; ring).
    rewrite mag_scale, Rabs_pos_eq; [field; assumption|]. pose proof (mag_nonneg D x). left. apply Rinv_0_lt_compat. lra.
  - intro i. unfold unit. field. assumption.
Qed.
Print Assumptions C44_unit.
Example C44_magnitude_example : magnitude 2 (fun i => match i with O => 3 | _ => 4 end) = 5.
Proof. rewrite mag_sum. simpl. replace (0 + 3 * 3 + 4 * 4) with (5 * 5) by ring. apply sqrt_square. lra. Qed.

(** reflect is an isometry and an involution, for a unit normal *)
Lemma reflect_at D v n i : (i < D)%nat -> reflect D v n i = v i - 2 * dot_product D v n * n i.
Proof.
  intro H. unfold reflect. set (d := dot_product D v n).
  assert (L : forall f t k, (forall i t t', t i = t' i -> f i t = f i t') -> 
    loop k (fun i t => set t i (f i t)) t = loop k (fun i t' => set t' i (f i t)) t).
  { intros f t k Hf. induction k as [|k IH]; [reflexivity|]. simpl. rewrite IH. f_equal. apply Hf.
    clear -Hf. assert (G : forall j m, (m <= j)%nat -> loop m (fun i t' => set t' i (f i t)) t j = t j).
    { intros j m. induction m; intros; [reflexivity|]. simpl. unfold set at 1. destruct (Nat.eqb_spec j m); [lia|]. apply IHm. lia. }
    apply G. lia. }
  rewrite (L (fun i r => r i * (2 * d)) n D) by (intros; simpl; congruence).
  rewrite (L (fun i t => t i - loop D (fun i t' => set t' i (n i * (2 * d))) n i) v D) by (intros; simpl; congruence).
  rewrite loop_set, loop_set by assumption. ring.
Qed.
Theorem C44_reflect D (v w n : vec) : magnitude D n = 1 ->
  dot_product D (reflect D v n) (reflect D w n) = dot_product D v w /\
  magnitude D (reflect D v n) = magnitude D v /\
  (forall i, (i < D)%nat -> reflect D (reflect D v n) n i = v i) /\
  dot_product D (reflect D v n) n = - dot_product D v n.
Proof.
  intro U. assert (N : sum D (fun i => n i * n i) = 1) by (rewrite <- mag_sq, U; ring).
  assert (I : forall v w, sum D (fun i => reflect D v n i * reflect D w n i) = sum D (fun i => v i * w i)).
  { clear v w. intros v w.
    rewrite (sum_ext D _ (fun i => v i * w i + ((- 2 * dot_product D v n) * (w i * n i) + ((- 2 * dot_product D w n) * (v i * n i)
      + (4 * dot_product D v n * dot_product D w n) * (n i * n i))))) by (intros; rewrite !reflect_at by assumption; ring).
    rewrite !sum_plus, !sum_scal, N, !dot_sum. ring. }
  assert (E : dot_product D (reflect D v n) n = - dot_product D v n).
  { rewrite dot_sum. rewrite (sum_ext D _ (fun i => v i * n i + (- 2 * dot_product D v n) * (n i * n i))) by (intros; rewrite reflect_at by assumption; ring).
    rewrite sum_plus, sum_scal, N, dot_sum. ring. }
  split; [rewrite !dot_sum; apply I|]. split; [rewrite !mag_sum; f_equal; apply I|]. split; [|exact E].
  intros i Hi. rewrite reflect_at, E, reflect_at by assumption. ring.
Qed.
Print Assumptions C44_reflect.
Example C44_reflect_example : let n : vec := fun i => match i with O => 1 | _ => 0 end in
  magnitude 2 n = 1 /\ reflect 2 (fun _ => 7) n O = -7 /\ reflect 2 (fun _ => 7) n 1%nat = 7.
Proof.
  simpl. split.
  - rewrite mag_sum. simpl. replace (0 + 1 * 1 + 0 * 0) with (1 * 1) by ring. apply sqrt_square. lra.
  - rewrite !reflect_at by lia. unfold dot_product. simpl. lra.
Qed.

(** cross and triple products in the coordinates of the source *)
Theorem C44_cross3 (a b c : v3) (s : R) :
  dot3 a (cross3 a b) = 0 /\ dot3 b (cross3 a b) = 0 /\
  cross3 b a = V3 (- x3 (cross3 a b)) (- y3 (cross3 a b)) (- z3 (cross3 a b)) /\
  dot3 (cross3 a b) (cross3 a b) = dot3 a a * dot3 b b - dot3 a b * dot3 a b /\
  mag3 (cross3 a b) <= mag3 a * mag3 b /\
  cross3 (V3 (s * x3 a + x3 b) (s * y3 a + y3 b) (s * z3 a + z3 b)) c =
    V3 (s * x3 (cross3 a c) + x3 (cross3 b c)) (s * y3 (cross3 a c) + y3 (cross3 b c)) (s * z3 (cross3 a c) + z3 (cross3 b c)).
Proof.
  destruct a as [a0 a1 a2], b as [b0 b1 b2], c as [c0 c1 c2]. unfold cross3, dot3, mag3; simpl.
  split; [ring|]. split; [ring|]. split; [f_equal; ring|]. split; [ring|]. split; [|f_equal; ring].
  unfold dot3; simpl.
  assert (Q : forall x y z, 0 <= 0 + x * x + y * y + z * z) by (intros; nra).
  rewrite <- sqrt_mult by apply Q. apply sqrt_le_1; [apply Q|apply Rmult_le_pos; apply Q|].
  pose proof (Rle_0_sqr (a0 * b0 + a1 * b1 + a2 * b2)) as S. unfold Rsqr in S. lra.
Qed.
Print Assumptions C44_cross3.
(** the source's orientation: e_x x e_y = e_z (right-handed), fixing the sign *)
Example C44_cross3_example : cross3 (V3 1 0 0) (V3 0 1 0) = V3 0 0 1 /\ cross3 (V3 0 1 0) (V3 0 0 1) = V3 1 0 0.
Proof. unfold cross3; simpl. split; f_equal; ring. Qed.
Theorem C44_triple (a b c d : v3) (s : R) :
  triple_product a b c = dot3 a (cross3 b c) /\
  triple_product a b c = triple_product b c a /\
  triple_product b a c = - triple_product a b c /\ triple_product a c b = - triple_product a b c /\
  triple_product a a c = 0 /\ triple_product a b b = 0 /\ triple_product a b a = 0 /\
  triple_product (V3 (s * x3 a + x3 d) (s * y3 a + y3 d) (s * z3 a + z3 d)) b c = s * triple_product a b c + triple_product d b c /\
  triple_product (V3 1 0 0) (V3 0 1 0) (V3 0 0 1) = 1.
Proof. unfold triple_product, dot3, cross3; simpl. repeat split; ring. Qed.
Print Assumptions C44_triple.
Theorem C44_two_dimensions (a b : v2) :
  cross2 b a = - cross2 a b /\ cross2 a a = 0 /\
  cross2 a b * cross2 a b = dot2 a a * dot2 b b - dot2 a b * dot2 a b /\
  (let d := V2 (x2 b - x2 a) (y2 b - y2 a) in
   dot2 (normal2 a b) d = 0 /\ dot2 (normal2 a b) (normal2 a b) = dot2 d d /\ cross2 d (normal2 a b) = dot2 d d) /\
  cross2 (V2 1 0) (V2 0 1) = 1.
Proof. unfold cross2, dot2, normal2; simpl. repeat split; ring. Qed.
Print Assumptions C44_two_dimensions.
Theorem C44_normal3_throws (a b : v3) : normal3 a b = Throw.
Proof. reflexivity. Qed.
Print Assumptions C44_normal3_throws.
(** the fixed-size formulas are the D = 2, 3 instances of the loops *)
Theorem C44_dot_instances (a b : v3) (c d : v2) :
  dot3 a b = dot_product 3 (fun i => nth i [x3 a; y3 a; z3 a] 0) (fun i => nth i [x3 b; y3 b; z3 b] 0) /\
  dot2 c d = dot_product 2 (fun i => nth i [x2 c; y2 c] 0) (fun i => nth i [x2 d; y2 d] 0).
Proof. split; reflexivity. Qed.
Print Assumptions C44_dot_instances.

(** sqr, cube, sgn *)
Theorem C44_sgn v : IZR (sgn v) * Rabs v = v /\ (sgn v = 0%Z <-> v = 0) /\ (sgn v = 1%Z <-> 0 < v) /\ (sgn v = (-1)%Z <-> v < 0)
  /\ sqr v = v ^ 2 /\ cube v = v ^ 3.
Proof.
  unfold sgn, ltb, b2z, sqr, cube. destruct (Rlt_dec 0 v), (Rlt_dec v 0); try lra; simpl.
  - rewrite Rabs_pos_eq by lra. repeat split; try ring; intros; try discriminate; try lra; try reflexivity; try lia.
  - rewrite Rabs_left by lra. repeat split; try ring; intros; try discriminate; try lra; try reflexivity; try lia.
  - replace v with 0 by lra. repeat split; try ring; intros; try discriminate; try lra; try reflexivity; try lia.
Qed.
Print Assumptions C44_sgn.

(** C83: points. delta_magnitude and distance are the same metric; midpoint; centroid *)
Theorem C83_metric D (a b c : vec) :
  distance D a b = magnitude D (fun i => a i - b i) /\ delta_magnitude D a b = distance D a b /\
  0 <= distance D a b /\ distance D a b = distance D b a /\
  (distance D a b = 0 <-> forall i, (i < D)%nat -> a i = b i) /\
  distance D a c <= distance D a b + distance D b c.
Proof.
  rewrite !distance_delta, !delta_sum. split; [reflexivity|]. split; [reflexivity|]. split; [apply mag_nonneg|]. split.
  - rewrite (mag_ext D _ (fun i => -1 * (b i - a i))) by (intros; ring). rewrite mag_scale, Rabs_left by lra. ring.
  - split.
    + rewrite mag_zero. split; intros H i Hi; specialize (H i Hi); lra.
    + rewrite (mag_ext D (fun i => a i - c i) (fun i => (a i - b i) + (b i - c i))) by (intros; ring). apply (mag_triangle D (fun i => a i - b i)).
Qed.
Print Assumptions C83_metric.
Theorem C83_midpoint D (a b : vec) :
  distance D a (midpoint a b) = distance D a b / 2 /\ distance D (midpoint a b) b = distance D a b / 2 /\
  (forall i, midpoint a b i = midpoint b a i) /\ (forall i, a i + b i = 2 * midpoint a b i).
Proof.
  rewrite !distance_delta, !delta_sum. unfold midpoint.
  rewrite (mag_ext D (fun i => a i - (a i + b i) * (1 / 2)) (fun i => / 2 * (a i - b i))) by (intros; field).
  rewrite (mag_ext D (fun i => (a i + b i) * (1 / 2) - b i) (fun i => / 2 * (a i - b i))) by (intros; field).
  rewrite mag_scale, Rabs_pos_eq by lra. repeat split; intros; field.
Qed.
Print Assumptions C83_midpoint.
Lemma centroid_fold vs t i : fold_left (fun tmp v => (fun i => tmp i + v i)) vs t i = fold_left Rplus (map (fun v : vec => v i) vs) (t i).
Proof. revert t. induction vs as [|v vs IH]; intros; simpl; [reflexivity|]. rewrite IH. reflexivity. Qed.
Theorem C83_centroid (vs : list vec) (i : nat) (t : vec) : vs <> nil ->
  INR (length vs) * point_centroid vs i = fold_left Rplus (map (fun v : vec => v i) vs) 0 /\
  point_centroid (map (fun (v : vec) => (fun j => v j + t j) : vec) vs) i = point_centroid vs i + t i /\
  (forall m M, (forall v, In v vs -> m <= v i <= M) -> m <= point_centroid vs i <= M) /\
  point_centroid (rev vs) i = point_centroid vs i.
Proof.
  intro N. assert (P := INR_len_pos vs N). unfold point_centroid. rewrite map_length, rev_length, !centroid_fold, map_map. cbv beta.
  split; [field; lra|]. split; [|split].
  - replace (fold_left Rplus (map (fun x : vec => x i + t i) vs) 0) with (fold_left Rplus (map (fun v : vec => v i) vs) 0 + INR (length vs) * t i).
    { field. lra. }
    clear N P. induction vs as [|v vs IH]; [simpl; ring|]. cbn [map fold_left length]. rewrite S_INR, (fold_plus _ (0 + v i)), (fold_plus _ (0 + (v i + t i))), <- IH. ring.
  - intros m M H. set (l := map (fun v : vec => v i) vs).
    assert (L : length l = length vs) by apply map_length.
    assert (fold_left Rplus l 0 <= INR (length l) * M) by (apply fold_plus_le; intros x Hx; apply in_map_iff in Hx; destruct Hx as (v & <- & Hv); apply H, Hv).
    assert (INR (length l) * m <= fold_left Rplus l 0) by (apply fold_plus_ge; intros x Hx; apply in_map_iff in Hx; destruct Hx as (v & <- & Hv); apply H, Hv).
    rewrite L in *. split.
    + apply Rmult_le_reg_l with (INR (length vs)); [assumption|]. apply Rle_trans with (1 := H1). right. field. lra.
    + apply Rmult_le_reg_l with (INR (length vs)); [assumption|]. apply Rle_trans with (2 := H0). right. field. lra.
  - f_equal. rewrite map_rev. generalize (map (fun v : vec => v i) vs). intro l. induction l as [|x l IH]; [reflexivity|].
    simpl. rewrite fold_left_app. simpl. rewrite IH, (fold_plus l (0 + x)). ring.
Qed.
Print Assumptions C83_centroid.
Example C83_example : distance 2 (fun _ => 0) (fun i => match i with O => 3 | _ => 4 end) = 5 /\
  point_centroid [(fun _ => 0); (fun _ => 3); (fun _ => 6)] 1%nat = 3.
Proof.
  split.
  - unfold distance. simpl. replace (0 + (0 - 3) * (0 - 3) + (0 - 4) * (0 - 4)) with (5 * 5) by ring. apply sqrt_square. lra.
  - unfold point_centroid. simpl. field.
Qed.

(** C45: averages *)
Theorem C45_average dbg (vals : list R) : vals <> nil ->
  exists avg, average_container dbg vals = Ok avg /\ INR (length vals) * avg = fold_left Rplus vals 0 /\
    nth (min_element vals) vals 0 <= avg <= nth (max_element vals) vals 0.
Proof.
  intro N. assert (P := INR_len_pos vals N). exists (fold_left Rplus vals 0 / INR (length vals)). split; [|split].
  - unfold average_container, assert_then. destruct dbg; [|reflexivity]. destruct vals; [congruence|reflexivity].
  - field. lra.
  - destruct (min_element_spec vals N) as (_ & A & _), (max_element_spec vals N) as (_ & B & _).
    pose proof (fold_plus_le _ _ B). pose proof (fold_plus_ge _ _ A).
    split; apply Rmult_le_reg_l with (INR (length vals)); try assumption.
    + apply Rle_trans with (1 := H0). right. field. lra.
    + apply Rle_trans with (2 := H). right. field. lra.
Qed.
Print Assumptions C45_average.
Theorem C45_average_empty_asserts : average_container true nil = AssertFail.
Proof. reflexivity. Qed.
Print Assumptions C45_average_empty_asserts.
Theorem C45_average_versions_agree (t : R) (args : list R) :
  average_container true (t :: args) = Ok (average_variadic t args) /\
  (forall u, average_variadic t [u] = average2 t u).
Proof.
  split.
  - unfold average_container, average_variadic, assert_then. simpl. rewrite Nat.add_comm, Rplus_0_l. reflexivity.
  - intro u. unfold average_variadic, average2. simpl. f_equal.
Qed.
Print Assumptions C45_average_versions_agree.
Theorem C45_extreme_elements (l : list R) : l <> nil ->
  (let r := min_element l in (r < length l)%nat /\ (forall x, In x l -> nth r l 0 <= x) /\ forall k, (k < r)%nat -> nth r l 0 < nth k l 0) /\
  (let r := max_element l in (r < length l)%nat /\ (forall x, In x l -> x <= nth r l 0) /\ forall k, (k < r)%nat -> nth k l 0 < nth r l 0).
Proof. intro N. split; [apply min_element_spec|apply max_element_spec]; assumption. Qed.
Print Assumptions C45_extreme_elements.
Example C45_average_example : average_container true [1; 2; 6] = Ok 3 /\ average_variadic 1 [2; 6] = 3.
Proof. split; [|unfold average_variadic; simpl; field]. unfold average_container, assert_then. simpl. f_equal. field. Qed.

(** element-wise minimum and maximum: right for arrays, whatever the temporary held *)
Theorem C45_elementwise_arrays D (a b tmp : vec) i : (i < D)%nat ->
  min_array D a b tmp i = Rmin (a i) (b i) /\ max_array D a b tmp i = Rmax (a i) (b i).
Proof.
  intro H. unfold min_array, max_array. rewrite !loop_set, std_min_Rmin, std_max_Rmax by assumption. split; reflexivity.
Qed.
Print Assumptions C45_elementwise_arrays.
Example C45_elementwise_example : min_array 2 (fun _ => 1) (fun i => INR i) (fun _ => 9) O = 0 /\ max_array 2 (fun _ => 1) (fun i => INR i) (fun _ => 9) O = 1.
Proof. destruct (C45_elementwise_arrays 2 (fun _ => 1) (fun i => INR i) (fun _ => 9) O) as [A B]; [lia|]. rewrite A, B. simpl. rewrite Rmin_right, Rmax_left by lra. split; reflexivity. Qed.
(** ... but for run-time containers the temporary is never sized: every non-empty call writes out of bounds *)
Theorem C45_container_minmax_refuted :
  ~ (forall a b, length a = length b -> exists r, min_container a b = Ok r /\ length r = length a) /\
  ~ (forall a b, length a = length b -> exists r, max_container a b = Ok r /\ length r = length a).
Proof.
  split; intro H; destruct (H [1] [2] eq_refl) as (r & E & _); unfold min_container, max_container in E; rewrite elementwise_nonempty in E by discriminate; discriminate.
Qed.
Print Assumptions C45_container_minmax_refuted.
Theorem C45_container_minmax_always_undefined (a b : list R) : a <> nil -> min_container a b = UB /\ max_container a b = UB.
Proof. intro N. split; apply elementwise_nonempty, N. Qed.
Print Assumptions C45_container_minmax_always_undefined.

(** the container average of int divides in the unsigned type of size(): wrong for a negative sum *)
Theorem C45_int_average_refuted :
  ~ (forall vals : list Z, vals <> nil -> average_int_container vals = average_int_iter vals).
Proof. intro H. specialize (H [-3; -3; -3]%Z). assert (E : average_int_container [-3; -3; -3]%Z = 1431655762%Z) by reflexivity. rewrite E in H. discriminate H. discriminate. Qed.
Print Assumptions C45_int_average_refuted.
Theorem C45_int_average_nonnegative (vals : list Z) : vals <> nil ->
  (0 <= fold_left Z.add vals 0 < 2 ^ 31)%Z -> average_int_container vals = average_int_iter vals.
Proof.
  intros N H. unfold average_int_container, average_int_iter. set (t := fold_left Z.add vals 0%Z) in *. 
  assert (L : (1 <= Z.of_nat (length vals))%Z) by (destruct vals; [congruence|cbn [length]; lia]). set (n := Z.of_nat (length vals)) in *.
  unfold to_u64. rewrite Z.mod_small by lia. rewrite Z.quot_div_nonneg by lia.
  assert (0 <= t / n <= t)%Z by (split; [apply Z.div_pos; lia|apply Z.div_le_upper_bound; nia]).
  unfold to_i32. rewrite Z.mod_small by lia. lia.
Qed.
Print Assumptions C45_int_average_nonnegative.
Example C45_int_average_example : average_int_container [1; 2; 7]%Z = 3%Z /\ average_int_iter [1; 2; 7]%Z = 3%Z.
Proof. split; reflexivity. Qed.

(** C42, rotation_matrix *)
Definition rmul (A B : mat2) : mat2 := fun i j => A i O * B O j + A i 1%nat * B 1%nat j.
Definition rapply (A : mat2) (v : vec) : vec := fun i => A i O * v O + A i 1%nat * v 1%nat.
Theorem C42_rotation junk junk' junk'' (a b : R) (v : vec) :
  let Ra := rotation_matrix junk a in let Rb := rotation_matrix junk' b in
  magnitude 2 (rapply Ra v) = magnitude 2 v /\
  (forall i j, (i < 2)%nat -> (j < 2)%nat -> rmul Ra Rb i j = rotation_matrix junk'' (a + b) i j) /\
  Ra O O * Ra 1%nat 1%nat - Ra O 1%nat * Ra 1%nat O = 1 /\
  (forall i j, (i < 2)%nat -> (j < 2)%nat -> Ra j i = rotation_matrix junk' (- a) i j) /\
  (forall i j, (i < 2)%nat -> (j < 2)%nat -> rotation_matrix junk 0 i j = if Nat.eqb i j then 1 else 0).
Proof.
  assert (T : forall x, cos x * cos x + sin x * sin x = 1) by (intro x; pose proof (sin2_cos2 x) as S; unfold Rsqr in S; lra).
  assert (C : forall i, (i < 2)%nat -> i = O \/ i = 1%nat) by (intros; lia).
  intros Ra Rb. split; [|split; [|split; [|split]]].
  - rewrite !mag_sum. f_equal. simpl. unfold rapply, Ra, rotation_matrix, setm; simpl. specialize (T a).
    replace (0 + (cos a * v O + - sin a * v 1%nat) * (cos a * v O + - sin a * v 1%nat) + (sin a * v O + cos a * v 1%nat) * (sin a * v O + cos a * v 1%nat))
      with ((cos a * cos a + sin a * sin a) * (v O * v O) + (cos a * cos a + sin a * sin a) * (v 1%nat * v 1%nat)) by ring. rewrite T. ring.
  - intros i j Hi Hj. destruct (C i Hi) as [->| ->], (C j Hj) as [->| ->]; unfold rmul, Ra, Rb, rotation_matrix, setm; simpl; rewrite ?cos_plus, ?sin_plus; ring.
  - unfold Ra, rotation_matrix, setm; simpl. specialize (T a). lra.
  - intros i j Hi Hj. destruct (C i Hi) as [->| ->], (C j Hj) as [->| ->]; unfold Ra, rotation_matrix, setm; simpl; rewrite ?cos_neg, ?sin_neg; ring.
  - intros i j Hi Hj. destruct (C i Hi) as [->| ->], (C j Hj) as [->| ->]; unfold rotation_matrix, setm; simpl; rewrite ?cos_0, ?sin_0; ring.
Qed.
Print Assumptions C42_rotation.
(** the sense of rotation: counter-clockwise, e_x goes to e_y at a quarter turn *)
Example C42_rotation_example : rapply (rotation_matrix (fun _ _ => 77) (PI / 2)) (fun i => match i with O => 1 | _ => 0 end) 1%nat = 1.
Proof. unfold rapply, rotation_matrix, setm; simpl. rewrite sin_PI2. ring. Qed.
