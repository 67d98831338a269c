(** Property theorems for geometry/space_vector.h (C121) and the rest of utils/dimensioned_array.h (C122). *)
From Coq Require Import Reals ZArith Bool String List Lia Lra Psatz.
From Verif Require Import Outcome VectorModel VectorProofs SpaceVectorModel.
Import ListNotations.
Local Open Scope R_scope.

Lemma loop_set D (f : nat -> R) v i : loop D (fun d t => set t d (f d)) v i = if Nat.ltb i D then f i else v i.
Proof.
  induction D as [|D IH]; cbn [loop]; [reflexivity|]. unfold set at 1.
  destruct (Nat.eqb_spec i D) as [->|N].
  - rewrite (proj2 (Nat.ltb_lt D (S D))) by lia. reflexivity.
  - rewrite IH. destruct (Nat.ltb_spec i D), (Nat.ltb_spec i (S D)); try reflexivity; lia.
Qed.
(** C121. The vector functions agree with the ones on math::vector *)
Theorem C121_agree : forall D a b s junk i, (i < D)%nat ->
  point_to_vector D a junk i = a i /\ sv_scale D a s i = s * a i /\
  sv_dot D a b = dot_product D a b /\ sv_magnitude D a = magnitude D a.
Proof.
  intros D a b s junk i Hi. unfold point_to_vector, sv_scale. rewrite !loop_set, (proj2 (Nat.ltb_lt i D) Hi).
  repeat split.
Qed.
Print Assumptions C121_agree.
Ltac sqn := repeat apply Rplus_le_le_0_compat; try apply Rle_refl; apply Rle_0_sqr.
Lemma sq_sqrt x : 0 <= x -> sqrt x * sqrt x = x.
Proof. intros H. apply sqrt_sqrt. exact H. Qed.
(** cross_magnitude is the area of the parallelogram, |a| |b| sin(angle), in every dimension *)
Theorem C121_cross_magnitude : forall a b junk,
  let area D := sqrt (Rsqr (sv_magnitude D a) * Rsqr (sv_magnitude D b) - Rsqr (sv_dot D a b)) in
  cross_magnitude1 a b = area 1%nat /\ cross_magnitude2 a b = area 2%nat /\ cross_magnitude3 a b junk = area 3%nat.
Proof.
  intros a b junk area. unfold area, Rsqr, sv_magnitude, sv_dot. cbn [loop].
  set (a0 := a 0%nat). set (a1 := a 1%nat). set (a2 := a 2%nat). set (b0 := b 0%nat). set (b1 := b 1%nat). set (b2 := b 2%nat).
  rewrite !sq_sqrt by sqn.
  split; [|split].
  - unfold cross_magnitude1. replace ((0 + a0 * a0) * (0 + b0 * b0) - (0 + a0 * b0) * (0 + a0 * b0)) with 0 by ring.
    symmetry. apply sqrt_0.
  - unfold cross_magnitude2. rewrite <- sqrt_Rsqr_abs. f_equal. unfold Rsqr. fold a0 a1 b0 b1. ring.
  - unfold cross_magnitude3, sv_magnitude. cbn [loop set Nat.eqb]. fold a0 a1 a2 b0 b1 b2. f_equal. ring.
Qed.
Print Assumptions C121_cross_magnitude.
Example C121_case : forall junk, let a := of_args [1; 0; 0] in let b := of_args [3; 4; 0] in
  cross_magnitude3 a b junk = 4 /\ sv_dot 3 a b = 3 /\ sv_magnitude 3 b = 5.
Proof.
  intros junk a b. unfold cross_magnitude3, sv_magnitude, sv_dot, a, b, of_args. cbn [loop set Nat.eqb nth]. repeat split.
  - replace (0 + _ * _ + _ * _ + _ * _) with (Rsqr 4) by (unfold Rsqr; ring). apply sqrt_Rsqr. lra.
  - ring.
  - replace (0 + _ * _ + _ * _ + _ * _) with (Rsqr 5) by (unfold Rsqr; ring). apply sqrt_Rsqr. lra.
Qed.
Lemma dep2 s t a0 a1 b0 b1 : (s <> 0 \/ t <> 0) -> s * a0 = t * b0 -> s * a1 = t * b1 -> a0 * b1 - a1 * b0 = 0.
Proof.
  intros [N|N] E0 E1.
  - apply (Rmult_eq_reg_l s); [|exact N]. replace (s * (a0 * b1 - a1 * b0)) with ((s * a0) * b1 - (s * a1) * b0) by ring.
    rewrite E0, E1. ring.
  - apply (Rmult_eq_reg_l t); [|exact N]. replace (t * (a0 * b1 - a1 * b0)) with (a0 * (t * b1) - a1 * (t * b0)) by ring.
    rewrite <- E0, <- E1. ring.
Qed.
(** it vanishes exactly for linearly dependent vectors *)
Theorem C121_parallel : forall a b junk,
  (cross_magnitude2 a b = 0 <-> exists s t, (s <> 0 \/ t <> 0) /\ forall i, (i < 2)%nat -> s * a i = t * b i) /\
  (cross_magnitude3 a b junk = 0 <-> exists s t, (s <> 0 \/ t <> 0) /\ forall i, (i < 3)%nat -> s * a i = t * b i).
Proof.
  intros a b junk. split.
  - unfold cross_magnitude2. split.
    + intros H. assert (E : a 0%nat * b 1%nat - a 1%nat * b 0%nat = 0)
        by (destruct (Req_dec (a 0%nat * b 1%nat - a 1%nat * b 0%nat) 0) as [|N]; [assumption|]; apply Rabs_no_R0 in N; contradiction).
      destruct (Req_dec (b 0%nat) 0) as [Z0|N0].
      * destruct (Req_dec (b 1%nat) 0) as [Z1|N1].
        -- exists 0, 1. split; [right; lra|]. intros [|[|i]] Hi; try lia; rewrite ?Z0, ?Z1; ring.
        -- exists (b 1%nat), (a 1%nat). split; [left; exact N1|]. intros [|[|i]] Hi; try lia; [lra|ring].
      * exists (b 0%nat), (a 0%nat). split; [left; exact N0|]. intros [|[|i]] Hi; try lia; [ring|lra].
    + intros (s & t & N & E). pose proof (E 0%nat ltac:(lia)) as E0. pose proof (E 1%nat ltac:(lia)) as E1.
      rewrite (dep2 _ _ _ _ _ _ N E0 E1). apply Rabs_R0.
  - unfold cross_magnitude3, sv_magnitude. cbn [loop set Nat.eqb].
    set (x := a 1%nat * b 2%nat - a 2%nat * b 1%nat). set (y := - a 0%nat * b 2%nat + a 2%nat * b 0%nat).
    set (z := a 0%nat * b 1%nat - a 1%nat * b 0%nat).
    assert (Z : sqrt (0 + x * x + y * y + z * z) = 0 <-> x = 0 /\ y = 0 /\ z = 0).
    { split.
      - intros H. apply sqrt_eq_0 in H; [|nra]. repeat split; nra.
      - intros (-> & -> & ->). replace (0 + 0 * 0 + 0 * 0 + 0 * 0) with 0 by ring. apply sqrt_0. }
    rewrite Z. unfold x, y, z. split.
    + intros (Hx & Hy & Hz).
      destruct (Req_dec (b 0%nat) 0) as [Z0|N0].
      * destruct (Req_dec (b 1%nat) 0) as [Z1|N1].
        -- destruct (Req_dec (b 2%nat) 0) as [Z2|N2].
           ++ exists 0, 1. split; [right; lra|]. intros [|[|[|i]]] Hi; try lia; rewrite ?Z0, ?Z1, ?Z2; ring.
           ++ exists (b 2%nat), (a 2%nat). split; [left; exact N2|]. intros [|[|[|i]]] Hi; try lia; [lra|lra|ring].
        -- exists (b 1%nat), (a 1%nat). split; [left; exact N1|]. intros [|[|[|i]]] Hi; try lia; [lra|ring|lra].
      * exists (b 0%nat), (a 0%nat). split; [left; exact N0|]. intros [|[|[|i]]] Hi; try lia; [ring|lra|lra].
    + intros (s & t & N & E).
      pose proof (E 0%nat ltac:(lia)) as E0. pose proof (E 1%nat ltac:(lia)) as E1. pose proof (E 2%nat ltac:(lia)) as E2.
      assert (K : forall p q, s * a p = t * b p -> s * a q = t * b q -> a p * b q - a q * b p = 0).
      { intros p q Hp Hq. exact (dep2 _ _ _ _ _ _ N Hp Hq). }
      pose proof (K 1%nat 2%nat E1 E2). pose proof (K 0%nat 2%nat E0 E2). pose proof (K 0%nat 1%nat E0 E1). lra.
Qed.
Print Assumptions C121_parallel.
(** the normal of the edge from a to b: orthogonal, as long as the edge, on its left *)
Theorem C121_normal2 : forall a b, let e := fun i => b i - a i in
  sv_dot 2 (sv_normal2 a b) e = 0 /\ sv_magnitude 2 (sv_normal2 a b) = sv_magnitude 2 e /\
  e 0%nat * sv_normal2 a b 1%nat - e 1%nat * sv_normal2 a b 0%nat = Rsqr (sv_magnitude 2 e).
Proof.
  intros a b e. unfold e, sv_dot, sv_magnitude, sv_normal2, of_args, Rsqr. cbn [loop nth].
  split; [ring|]. split; [f_equal; ring|]. rewrite sq_sqrt by sqn. ring.
Qed.
Print Assumptions C121_normal2.
(** the normal of two vectors: orthogonal to both, of length cross_magnitude, right-handed *)
Theorem C121_normal3 : forall a b junk, let n := sv_normal3 a b in
  sv_dot 3 n a = 0 /\ sv_dot 3 n b = 0 /\ sv_magnitude 3 n = cross_magnitude3 a b junk /\
  (forall i, (i < 3)%nat -> sv_normal3 b a i = - n i) /\
  n 0%nat * (a 1%nat * b 2%nat - a 2%nat * b 1%nat) + n 1%nat * (a 2%nat * b 0%nat - a 0%nat * b 2%nat)
    + n 2%nat * (a 0%nat * b 1%nat - a 1%nat * b 0%nat) = Rsqr (sv_magnitude 3 n).
Proof.
  intros a b junk n. unfold n, sv_dot, sv_magnitude, sv_normal3, cross_magnitude3, sv_magnitude, of_args, Rsqr.
  cbn [loop nth set Nat.eqb]. split; [ring|]. split; [ring|]. split; [f_equal; ring|]. split.
  - intros [|[|[|i]]] Hi; try lia; cbn; ring.
  - rewrite sq_sqrt by sqn. ring.
Qed.
Print Assumptions C121_normal3.

(** C122. dimensioned_array: a list of the right length gives exactly its elements, axes name the
    first three, assignment of a value (its own elements included) fills *)
Theorem C122_list : forall (T : Type) dbg dim (l : list T), length l = dim ->
  exists st, dim_of_list dbg dim l = Ok st /\ length st = dim /\
  forall i v, nth_error l i = Some v -> dim_get st i = Ok v.
Proof.
  intros T dbg dim l E. unfold dim_of_list, assert_then. rewrite (proj2 (Nat.eqb_eq _ _) E), (proj2 (Nat.leb_le _ _)) by lia.
  exists (map Some l). rewrite E, Nat.sub_diag. cbn. rewrite app_nil_r.
  split; [destruct dbg; reflexivity|]. split; [rewrite map_length; exact E|].
  intros i v H. unfold dim_get. rewrite nth_error_map, H. reflexivity.
Qed.
Print Assumptions C122_list.
(** REFUTED for other lengths: caught in a debug build, but in a release build a long list writes
    past the end and a short one leaves elements uninitialised *)
Theorem C122_list_length : forall (T : Type) dim (l : list T), length l <> dim ->
  dim_of_list true dim l = AssertFail /\
  ((dim < length l)%nat -> dim_of_list false dim l = UB) /\
  ((length l < dim)%nat -> exists st, dim_of_list false dim l = Ok st /\ dim_get st (length l) = UB).
Proof.
  intros T dim l N. unfold dim_of_list, assert_then. rewrite (proj2 (Nat.eqb_neq _ _) N). cbn. split; [reflexivity|]. split.
  - intros H. rewrite (proj2 (Nat.leb_gt _ _) H). reflexivity.
  - intros H. rewrite (proj2 (Nat.leb_le _ _)) by lia. eexists. split; [reflexivity|]. unfold dim_get.
    rewrite nth_error_app2, map_length, Nat.sub_diag by (rewrite map_length; lia).
    destruct (dim - length l)%nat eqn:E; [lia|]. reflexivity.
Qed.
Print Assumptions C122_list_length.
Theorem C122_list_refuted : exists dim (l : list Z), dim_of_list false dim l = UB.
Proof. exists 2%nat, [1; 2; 3]%Z. reflexivity. Qed.
Print Assumptions C122_list_refuted.
Lemma put_nth {T} (st : list (option T)) i v k :
  nth_error (put st i v) k = if Nat.eqb k i && Nat.ltb i (length st) then Some v else nth_error st k.
Proof.
  revert i k. induction st as [|x st IH]; intros i k.
  - cbn. rewrite andb_false_r. reflexivity.
  - destruct i as [|i], k as [|k]; cbn [put nth_error length Nat.eqb]; try reflexivity. rewrite IH. reflexivity.
Qed.
Lemma put_len {T} (st : list (option T)) i v : length (put st i v) = length st.
Proof. revert i; induction st as [|x st IH]; intros [|i]; cbn; auto. Qed.
Theorem C122_fill : forall (T : Type) (st : list (option T)) (v : T) i, (i < length st)%nat ->
  dim_get (dim_assign st v) i = Ok v /\ dim_get (dim_filled (length st) v) i = Ok v /\
  (forall j, dim_get st j = Ok v -> dim_get (dim_assign_own st j) i = Ok v).
Proof.
  intros T st v i Hi. split; [|split].
  - unfold dim_assign, dim_get.
    assert (G : forall n, (n <= length st)%nat -> length (loop n (fun i st => put st i (Some v)) st) = length st /\
      forall k, (k < n)%nat -> nth_error (loop n (fun i st => put st i (Some v)) st) k = Some (Some v)).
    { induction n as [|n IH]; intros Hn; [split; [reflexivity|lia]|]. cbn [loop]. destruct (IH ltac:(lia)) as [L E].
      split; [rewrite put_len; exact L|]. intros k Hk. rewrite put_nth, L, (proj2 (Nat.ltb_lt n _)) by lia.
      destruct (Nat.eqb_spec k n) as [->|N]; [reflexivity|]. cbn. apply E. lia. }
    rewrite (proj2 (G (length st) (le_n _)) i Hi). reflexivity.
  - unfold dim_filled, dim_get. rewrite (nth_error_nth' _ (Some v)), nth_repeat by (rewrite repeat_length; exact Hi). reflexivity.
  - intros j Hj. unfold dim_assign_own, dim_get in *.
    destruct (nth_error st j) as [[w|]|] eqn:Ej; try discriminate. injection Hj as ->.
    assert (G : forall n, (n <= length st)%nat -> let r := loop n (fun i st => put st i (nth j st None)) st in length r = length st /\
      nth_error r j = Some (Some v) /\ forall k, (k < n)%nat -> nth_error r k = Some (Some v)).
    { induction n as [|n IH]; intros Hn; [split; [reflexivity|split; [exact Ej|lia]]|]. cbn [loop]. destruct (IH ltac:(lia)) as (L & J & E).
      cbv zeta. set (r := loop n _ st) in *. rewrite (nth_error_nth r j None J).
      split; [rewrite put_len; exact L|]. split.
      - rewrite put_nth. destruct (_ && _); [reflexivity|exact J].
      - intros k Hk. rewrite put_nth, L, (proj2 (Nat.ltb_lt n _)) by lia.
        destruct (Nat.eqb_spec k n) as [->|N]; [reflexivity|]. cbn. apply E. lia. }
    destruct (G (length st) (le_n _)) as (_ & _ & E). rewrite (E i Hi). reflexivity.
Qed.
Print Assumptions C122_fill.
(** the axes x, y, z name the first, second and third element *)
Theorem C122_axes : forall (T : Type) dbg (x y z : T), exists st,
  dim_of_list dbg 3 [x; y; z] = Ok st /\ dim_get st (axis_index ax_x) = Ok x /\
  dim_get st (axis_index ax_y) = Ok y /\ dim_get st (axis_index ax_z) = Ok z.
Proof. intros T dbg x y z. exists [Some x; Some y; Some z]. destruct dbg; repeat split. Qed.
Print Assumptions C122_axes.
Example C122_case : dim_assign_own [Some 4; Some 7; Some 9]%Z 1 = [Some 7; Some 7; Some 7]%Z /\
  dim_of_list false 2 [1]%Z = Ok [Some 1%Z; None] /\
  dim_get [Some 4; Some 7; Some 9]%Z (axis_index ax_z) = Ok 9%Z /\
  dim_out (fun x : bool => if x then "1" else "0")%string [true; false] = "[ 1 0 ]"%string.
Proof. repeat split. Qed.
