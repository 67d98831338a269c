(** Property C167: iterators over views and what views do as a whole (ristra/utils/array_view.h). *)
From Coq Require Import List Arith ZArith Bool Lia Sorting.Sorted.
From Verif Require Import Outcome BoundsModel BoundsProofs BoundsProps ViewIterModel.
Import ListNotations.
Local Open Scope Z_scope.

Lemma iter_incr a e c n : Nat.iter n s_incr (mk_sit a e c) = mk_sit a e (Nat.iter n (it_incr e) c).
Proof. induction n as [|n IH]; [reflexivity|]. cbn [Nat.iter nat_rect] in *. unfold Nat.iter in IH. rewrite IH. reflexivity. Qed.
Definition cell_at (p : Z) (b : bounds) (idx : list Z) : Z := p + linearize b idx.
Lemma nth_pos_S e n : nth_pos e (S n) = it_incr e (nth_pos e n). Proof. reflexivity. Qed.
Lemma rows_S e j n : rows e j (S n) = unrank e (Z.of_nat j) :: rows e (S j) n. Proof. reflexivity. Qed.
Lemma rows_snoc e j n : rows e j (S n) = rows e j n ++ [unrank e (Z.of_nat (j + n))].
Proof. unfold rows. rewrite seq_S, map_app. reflexivity. Qed.
Lemma assert_same dbg a e c c' {A} (k : outcome A) : assert_then dbg (Nat.eqb (s_view (mk_sit a e c)) (s_view (mk_sit a e c'))) k = k.
Proof. cbn [s_view]. rewrite Nat.eqb_refl. destruct dbg; reflexivity. Qed.
Lemma s_walk_rows dbg W a p b : W a = Some (mk_view (Some p) b) -> exts b <> [] -> positive (exts b) ->
  forall m j fuel, Z.of_nat j + Z.of_nat m = prod (exts b) -> (m < fuel)%nat ->
  s_walk dbg W fuel (mk_sit a (exts b) (nth_pos (exts b) j)) (mk_sit a (exts b) (it_end (exts b))) = Some (Ok (map (cell_at p b) (rows (exts b) j m))).
Proof.
  intros Ha E0 P. induction m as [|m IH]; intros j fuel B F; (destruct fuel as [|fuel]; [lia|]); unfold s_walk in *; cbn [walk]; unfold s_eq at 1; rewrite assert_same; cbn [s_current].
  - replace j with (Z.to_nat (prod (exts b))) by lia. rewrite nth_pos_end by exact P. rewrite (proj2 (idx_eq_spec _ _) eq_refl). reflexivity.
  - destruct (C13_decrement (exts b) E0 P) as (_ & D & _). destruct (D j ltac:(lia)) as [N _]. change (Nat.iter j (it_incr (exts b)) (it_begin (exts b))) with (nth_pos (exts b) j) in N.
    destruct (idx_eq (nth_pos (exts b) j) (it_end (exts b))) eqn:E; [apply idx_eq_spec in E; contradiction|].
    unfold s_deref at 1. cbn [s_view s_current]. rewrite Ha. unfold cell. cbn [vdata vbounds]. cbv beta. change (s_incr (mk_sit a (exts b) (nth_pos (exts b) j))) with (mk_sit a (exts b) (nth_pos (exts b) (S j))). rewrite IH by lia. cbn [option_map bind]. rewrite rows_S. cbn [map]. rewrite nth_pos_spec by (exact P || lia). reflexivity.
Qed.
Lemma s_rwalk_rows dbg W a p b : W a = Some (mk_view (Some p) b) -> exts b <> [] -> positive (exts b) ->
  forall n fuel, Z.of_nat n <= prod (exts b) -> (n < fuel)%nat ->
  s_rwalk dbg W fuel (mk_sit a (exts b) (nth_pos (exts b) n)) (mk_sit a (exts b) (it_begin (exts b))) = Some (Ok (rev (map (cell_at p b) (rows (exts b) 0 n)))).
Proof.
  intros Ha E0 P. induction n as [|n IH]; intros fuel B F; (destruct fuel as [|fuel]; [lia|]); unfold s_rwalk in *; cbn [rwalk]; unfold s_eq at 1; rewrite assert_same; cbn [s_current].
  - change (nth_pos (exts b) 0) with (it_begin (exts b)). rewrite (proj2 (idx_eq_spec _ _) eq_refl). reflexivity.
  - destruct (idx_eq (nth_pos (exts b) (S n)) (it_begin (exts b))) eqn:E; [apply idx_eq_spec in E; apply nth_pos_begin_only in E; (assumption || lia)|].
    unfold s_decr at 1. cbn [s_view s_bounds s_current]. rewrite it_decr_pos by (assumption || lia). cbn [bind]. unfold s_deref at 1. cbn [s_view s_current]. rewrite Ha. unfold cell. cbn [vdata vbounds].
    rewrite IH by lia. cbn [option_map bind]. rewrite rows_snoc, map_app, rev_app_distr. cbn [map rev app Nat.add]. rewrite nth_pos_spec by (exact P || lia). reflexivity.
Qed.

(** ** iterating over a strided view meets the element of every index once, in row-major order; backwards in the opposite order *)
Theorem C167_strided dbg W a p b : W a = Some (mk_view (Some p) b) -> exts b <> [] -> positive (exts b) ->
  exists L, StronglySorted lex_lt L /\ (forall idx, In idx L <-> in_box (exts b) idx) /\ Z.of_nat (length L) = prod (exts b)
    /\ forall fuel, (Z.to_nat (prod (exts b)) < fuel)%nat ->
       s_all dbg fuel W a = Some (Ok (map (fun idx => p + linearize b idx) L)) /\ s_rall dbg fuel W a = Some (Ok (rev (map (fun idx => p + linearize b idx) L))).
Proof.
  intros Ha E0 P. pose proof (prod_pos _ P) as Pp. exists (rows (exts b) 0 (Z.to_nat (prod (exts b)))). split; [apply rows_sorted; [exact P|lia]|]. split.
  - intros idx. rewrite rows_in by (auto; lia). split; [tauto|]. intros I. split; [exact I|]. pose proof (lin_bound _ idx I). lia.
  - split; [rewrite rows_length; lia|]. intros fuel F. unfold s_all, s_rall, s_begin, s_end. rewrite Ha. cbn [bounds_of vbounds]. split.
    + apply (s_walk_rows dbg W a p b Ha E0 P (Z.to_nat (prod (exts b))) 0); lia.
    + unfold bounds_of. cbn [vbounds]. rewrite <- (nth_pos_end _ P). apply (s_rwalk_rows dbg W a p b Ha E0 P); lia.
Qed.
Print Assumptions C167_strided.
(** random access: sums and differences of iterators and subscripts agree with stepping *)
Theorem C167_random dbg W v a p b : v = mk_view (Some p) b -> W a = Some v -> exts b <> [] -> positive (exts b) -> exists i0, s_begin W a = Ok i0 /\
  let pos n := Nat.iter n s_incr i0 in
  s_end W a = Ok (pos (Z.to_nat (prod (exts b)))) /\
  (forall i j, Z.of_nat i <= prod (exts b) -> Z.of_nat j < prod (exts b) ->
     s_plus dbg (pos i) (Z.of_nat j - Z.of_nat i) = Ok (pos j) /\ s_minus dbg (pos i) (Z.of_nat i - Z.of_nat j) = Ok (pos j) /\ s_at dbg W (pos i) (Z.of_nat j - Z.of_nat i) = s_deref W (pos j)) /\
  (forall i j, Z.of_nat i <= prod (exts b) -> Z.of_nat j <= prod (exts b) -> s_diff dbg (pos i) (pos j) = Ok (Z.of_nat i - Z.of_nat j)) /\
  (forall i j, Z.of_nat i <= prod (exts b) -> Z.of_nat j <= prod (exts b) -> s_eq dbg (pos i) (pos j) = Ok (i =? j)%nat).
Proof.
  intros -> Ha E0 P. unfold s_begin, s_end. rewrite Ha. cbn [bounds_of vbounds]. unfold bounds_of. cbn [vbounds]. eexists. split; [reflexivity|]. destruct (C15_random_access_partial dbg (exts b) E0 P) as [R1 R2]. pose proof (prod_pos _ P) as Pp. repeat split.
  - rewrite iter_incr. change (Nat.iter ?n (it_incr (exts b)) (it_begin (exts b))) with (nth_pos (exts b) n). rewrite nth_pos_end by exact P. reflexivity.
  - rewrite !iter_incr. unfold s_plus. cbn [s_bounds s_current s_view]. rewrite (R1 i j) by assumption. reflexivity.
  - rewrite !iter_incr. unfold s_minus, s_plus. cbn [s_bounds s_current s_view]. replace (- (Z.of_nat i - Z.of_nat j)) with (Z.of_nat j - Z.of_nat i) by lia. rewrite (R1 i j) by assumption. reflexivity.
  - rewrite !iter_incr. unfold s_at, s_deref. cbn [s_bounds s_current s_view]. rewrite (R1 i j) by assumption. reflexivity.
  - intros i j Hi Hj. rewrite !iter_incr. unfold s_diff. rewrite assert_same. cbn [s_bounds s_current]. rewrite (R2 i j) by assumption. reflexivity.
  - intros i j Hi Hj. rewrite !iter_incr. unfold s_eq. rewrite assert_same. cbn [s_current]. specialize (R2 i j Hi Hj). f_equal. destruct (Nat.eqb_spec i j) as [->|N]; [apply idx_eq_spec; reflexivity|].
    destruct (idx_eq _ _) eqn:E; [|reflexivity]. apply idx_eq_spec in E. rewrite E in R2. unfold it_diff in R2. lia.
Qed.
Print Assumptions C167_random.
Definition one (v : view) : store := fun a => match a with 0%nat => Some v | _ => None end.
Example C167_strided_example : let v := mk_view (Some 10) (mk_bounds [2;2] [5;1]) in exts (vbounds v) <> [] /\ positive (exts (vbounds v))
  /\ s_all true 9 (one v) 0 = Some (Ok [10;11;15;16]) /\ s_rall true 9 (one v) 0 = Some (Ok [16;15;11;10]).
Proof. cbn. split; [discriminate|]. split; [repeat constructor|]. split; reflexivity. Qed.

(** ** the order of strided iterators is not the order of positions, in any view of two dimensions *)
Theorem C167_order_refuted dbg W a p s n m : W a = Some (mk_view (Some p) (mk_bounds [n; m] s)) -> 2 <= n -> 2 <= m ->
  exists i0, s_begin W a = Ok i0 /\ let i := s_incr i0 in let j := Nat.iter (Z.to_nat m) s_incr i0 in
    s_diff dbg j i = Ok (m - 1) /\ s_lt dbg j i = Ok true /\ s_lt dbg i j = Ok true /\ s_le dbg i j = Ok false /\ s_ge dbg j i = Ok false.
Proof.
  intros Ha Hn Hm. assert (P : positive [n; m]) by (repeat constructor; lia). destruct (C167_random dbg W _ a p (mk_bounds [n; m] s) eq_refl Ha ltac:(discriminate) P) as (i0 & B & _ & _ & D & _). exists i0. split; [exact B|]. cbn zeta.
  assert (Pm : prod [n; m] = n * m) by (cbn [prod fold_right]; lia). assert (Lm : m + 1 <= n * m) by nia. cbn [exts] in D. rewrite Pm in D. specialize (D (Z.to_nat m) 1%nat ltac:(lia) ltac:(lia)). cbn [Nat.iter nat_rect] in D. split; [rewrite D; f_equal; lia|].
  unfold s_begin in B. rewrite Ha in B. cbn [bounds_of vbounds exts] in B. injection B as <-. rewrite iter_incr. change (Nat.iter ?k (it_incr [n; m]) (it_begin [n; m])) with (nth_pos [n; m] k). rewrite nth_pos_spec by (exact P || (rewrite Pm; lia)). rewrite Z2Nat.id by lia.
  assert (U : unrank [n; m] m = [1; 0]). { cbn [unrank prod fold_right]. rewrite !Z.mul_1_r, Z.div_1_r. rewrite Z.div_same, Z.mod_same by lia. reflexivity. }
  rewrite U. assert (I1 : s_incr (mk_sit a [n; m] (it_begin [n; m])) = mk_sit a [n; m] [0; 1]).
  { unfold s_incr. cbn [s_view s_bounds s_current]. change (it_incr [n; m] (it_begin [n; m])) with (nth_pos [n; m] 1). rewrite nth_pos_spec by (exact P || (rewrite Pm; lia)). cbn [unrank prod fold_right]. rewrite !Z.mul_1_r, Z.div_1_r. change (Z.of_nat 1) with 1. rewrite Z.div_small, Z.mod_small by lia. reflexivity. }
  rewrite I1. unfold s_le, s_ge, s_gt, s_lt. rewrite !assert_same. repeat split.
Qed.
Print Assumptions C167_order_refuted.
Theorem C167_order_rank_one dbg W a p s n : W a = Some (mk_view (Some p) (mk_bounds [n] s)) -> 0 < n -> exists i0, s_begin W a = Ok i0 /\
  forall i j, Z.of_nat i <= n -> Z.of_nat j <= n -> let x := Nat.iter i s_incr i0 in let y := Nat.iter j s_incr i0 in
    s_lt dbg x y = Ok (i <? j)%nat /\ s_le dbg x y = Ok (i <=? j)%nat /\ s_gt dbg x y = Ok (j <? i)%nat /\ s_ge dbg x y = Ok (j <=? i)%nat.
Proof.
  intros Ha Hn. unfold s_begin. rewrite Ha. cbn [bounds_of vbounds exts]. eexists. split; [reflexivity|]. intros i j Hi Hj. cbv zeta. rewrite !iter_incr. unfold s_ge, s_gt, s_le, s_lt. rewrite !assert_same. cbn [s_current bind].
  assert (P : positive [n]) by (repeat constructor; lia). assert (K : forall k, Z.of_nat k <= n -> nth_pos [n] k = [Z.of_nat k]).
  { intros k Hk. destruct (Z.eq_dec (Z.of_nat k) n) as [E|N]; [replace k with (Z.to_nat (prod [n])) by (cbn [prod fold_right]; lia); rewrite nth_pos_end by exact P; unfold it_end; f_equal; cbn [prod fold_right]; lia|].
    rewrite nth_pos_spec by (exact P || (cbn [prod fold_right]; lia)). cbn [unrank prod fold_right]. rewrite Z.div_1_r. reflexivity. }
  change (Nat.iter ?k (it_incr [n]) (it_begin [n])) with (nth_pos [n] k). rewrite !K by assumption. cbn [idx_lt]. destruct (Z.ltb_spec (Z.of_nat i) (Z.of_nat j)), (Z.ltb_spec (Z.of_nat j) (Z.of_nat i)), (Nat.ltb_spec i j), (Nat.ltb_spec j i), (Nat.leb_spec i j), (Nat.leb_spec j i); try lia; repeat split; reflexivity.
Qed.
Print Assumptions C167_order_rank_one.
Example C167_order_example : let v := mk_view (Some 0) (mk_bounds [2;3] [3;1]) in one v 0%nat = Some v /\ 2 <= 2 <= 3. Proof. cbn. split; [reflexivity|lia]. Qed.

(** ** contiguous views: pointers *)
Lemma c_same dbg a p q {A} (k : outcome A) : assert_then dbg (Nat.eqb (c_view (mk_cit a p)) (c_view (mk_cit a q))) k = k.
Proof. cbn [c_view]. rewrite Nat.eqb_refl. destruct dbg; reflexivity. Qed.
Lemma c_walk_seq dbg a : forall m p fuel, (m < fuel)%nat -> c_walk dbg fuel (mk_cit a (Some p)) (mk_cit a (Some (p + Z.of_nat m))) = Some (Ok (map (fun k => p + Z.of_nat k) (seq 0 m))).
Proof.
  induction m as [|m IH]; intros p fuel F; (destruct fuel as [|fuel]; [lia|]); unfold c_walk in *; cbn [walk]; unfold c_eq at 1; rewrite c_same; cbn [c_ptr same_data].
  - replace (p =? p + Z.of_nat 0) with true by (symmetry; apply Z.eqb_eq; lia). reflexivity.
  - replace (p =? p + Z.of_nat (S m)) with false by (symmetry; apply Z.eqb_neq; lia). cbn [c_deref c_ptr]. unfold c_incr at 1, c_plus at 1. cbn [c_ptr padd bind c_view]. replace (p + Z.of_nat (S m)) with (p + 1 + Z.of_nat m) by lia. rewrite IH by lia. cbn [option_map bind]. do 2 f_equal. cbn [seq map]. f_equal; [lia|]. rewrite <- seq_shift, map_map. apply map_ext. intros k. lia.
Qed.
Lemma c_rwalk_seq dbg a p : forall m fuel, (m < fuel)%nat -> c_rwalk dbg fuel (mk_cit a (Some (p + Z.of_nat m))) (mk_cit a (Some p)) = Some (Ok (rev (map (fun k => p + Z.of_nat k) (seq 0 m)))).
Proof.
  induction m as [|m IH]; intros fuel F; (destruct fuel as [|fuel]; [lia|]); unfold c_rwalk in *; cbn [rwalk]; unfold c_eq at 1; rewrite c_same; cbn [c_ptr same_data].
  - replace (p + Z.of_nat 0 =? p) with true by (symmetry; apply Z.eqb_eq; lia). reflexivity.
  - replace (p + Z.of_nat (S m) =? p) with false by (symmetry; apply Z.eqb_neq; lia). unfold c_decr at 1, c_plus at 1. cbn [c_ptr padd bind c_view c_deref]. replace (p + Z.of_nat (S m) + -1) with (p + Z.of_nat m) by lia. rewrite IH by lia. cbn [option_map bind]. rewrite seq_S, map_app, rev_app_distr. reflexivity.
Qed.
Theorem C167_contiguous dbg W a v p : W a = Some v -> vdata v = Some p -> 0 <= vsize v -> 
  (forall fuel, (Z.to_nat (vsize v) < fuel)%nat -> c_all dbg fuel W a = Some (Ok (map (fun k => p + Z.of_nat k) (seq 0 (Z.to_nat (vsize v))))) /\ c_rall dbg fuel W a = Some (Ok (rev (map (fun k => p + Z.of_nat k) (seq 0 (Z.to_nat (vsize v)))))))
  /\ exists i0, c_begin W a = Ok i0 /\ c_plus i0 (vsize v) = c_end W a /\ forall i j, exists x y, c_plus i0 i = Ok x /\ c_plus i0 j = Ok y /\ c_plus x (j - i) = Ok y /\ c_minus x (i - j) = Ok y /\ c_at x (j - i) = c_deref y
     /\ c_diff dbg x y = Ok (i - j) /\ c_eq dbg x y = Ok (i =? j) /\ c_lt dbg x y = Ok (i <? j).
Proof.
  intros Ha Hd Hs. split.
  - intros fuel F. unfold c_all, c_rall, c_begin, c_end. rewrite Ha, Hd. cbn [padd bind]. set (m := Z.to_nat (vsize v)) in *. replace (vsize v) with (Z.of_nat m) by (unfold m; lia). split; [apply c_walk_seq; exact F|apply c_rwalk_seq; exact F].
  - unfold c_begin, c_end. rewrite Ha, Hd. eexists. split; [reflexivity|]. split; [reflexivity|]. intros i j. unfold c_plus at 1 2. cbn [c_ptr padd bind c_view]. eexists. eexists. split; [reflexivity|]. split; [reflexivity|]. unfold c_minus, c_at, c_plus. cbn [c_ptr padd bind c_view c_deref]. replace (p + i + (j - i)) with (p + j) by lia. replace (p + i + - (i - j)) with (p + j) by lia. repeat split.
    + unfold c_diff. rewrite c_same. cbn [c_ptr psub]. f_equal. lia.
    + unfold c_eq. rewrite c_same. cbn [c_ptr same_data]. f_equal. destruct (Z.eqb_spec (p + i) (p + j)), (Z.eqb_spec i j); try reflexivity; lia.
    + unfold c_lt. rewrite c_same. cbn [c_ptr plt]. f_equal. destruct (Z.ltb_spec (p + i) (p + j)), (Z.ltb_spec i j); try reflexivity; lia.
Qed.
Print Assumptions C167_contiguous.
Lemma contiguous_cells p e : e <> [] -> positive e -> map (cell_at p (contiguous e)) (rows e 0 (Z.to_nat (prod e))) = map (fun k => p + Z.of_nat k) (seq 0 (Z.to_nat (prod e))).
Proof.
  intros E0 P. unfold rows. rewrite map_map. apply map_ext_in. intros k Hk. apply in_seq in Hk. unfold cell_at. pose proof (unrank_in e (Z.of_nat k) P ltac:(lia)) as I. rewrite linearize_lin by (assumption || exact (in_box_length _ _ I)). rewrite lin_unrank by (assumption || lia). reflexivity.
Qed.
(** both kinds of iterators meet the same elements of a contiguous view *)
Theorem C167_same dbg W a p e fuel : W a = Some (mk_view (Some p) (contiguous e)) -> e <> [] -> positive e -> (Z.to_nat (prod e) < fuel)%nat -> c_all dbg fuel W a = s_all dbg fuel W a /\ c_rall dbg fuel W a = s_rall dbg fuel W a.
Proof.
  intros Ha E0 P F. pose proof (prod_pos _ P) as Pp. assert (S : vsize (mk_view (Some p) (contiguous e)) = prod e) by (unfold vsize; rewrite bsize_prod; reflexivity).
  destruct (C167_contiguous dbg W a _ p Ha eq_refl ltac:(lia)) as [C _]. rewrite S in C. destruct (C fuel F) as [-> ->]. rewrite <- (contiguous_cells p e E0 P). unfold s_all, s_rall, s_begin, s_end. rewrite Ha. cbn [bounds_of vbounds]. unfold bounds_of. cbn [vbounds exts contiguous]. split; symmetry.
  - apply (s_walk_rows dbg W a p (contiguous e) Ha E0 P (Z.to_nat (prod e)) 0); cbn [exts contiguous]; lia.
  - rewrite <- (nth_pos_end e P). apply (s_rwalk_rows dbg W a p (contiguous e) Ha E0 P); cbn [exts contiguous]; lia.
Qed.
Print Assumptions C167_same.
Example C167_contiguous_example : let v := mk_view (Some 3) (contiguous [2;2]) in c_all true 9 (one v) 0 = Some (Ok [3;4;5;6]) /\ c_rall true 9 (one v) 0 = Some (Ok [6;5;4;3]).
Proof. split; reflexivity. Qed.

(** ** iterators and the objects they come from *)
(** a strided iterator is useless once its view is gone (a slice or section that was a temporary); a contiguous one is not *)
Theorem C167_lifetime_refuted p b : exts b <> [] -> positive (exts b) -> let W := one (mk_view (Some p) b) in let gone : store := fun _ => None in
  (exists i, s_begin W 0 = Ok i /\ (exists x, s_deref W i = Ok x) /\ s_deref gone i = UB) /\ exists i, c_begin W 0 = Ok i /\ c_deref i = Ok p.
Proof. intros E0 P W gone. split; eexists; (split; [reflexivity|]); [split; [eexists; reflexivity|reflexivity]|reflexivity]. Qed.
Print Assumptions C167_lifetime_refuted.
(** iterators of two copies of the same view must not be compared *)
Theorem C167_copies_refuted (v : view) : let W : store := fun _ => Some v in
  (exists i j, s_begin W 0 = Ok i /\ s_begin W 1 = Ok j /\ s_eq true i j = AssertFail /\ s_eq false i j = Ok true)
  /\ exists i j, c_begin W 0 = Ok i /\ c_begin W 1 = Ok j /\ c_eq true i j = AssertFail /\ c_eq false i j = Ok true.
Proof.
  intros W. split; eexists; eexists; (split; [reflexivity|]); (split; [reflexivity|]); (split; [reflexivity|]); cbn.
  - unfold s_eq. cbn. f_equal. apply idx_eq_spec. reflexivity.
  - unfold c_eq. cbn. f_equal. destruct (vdata v); [apply Z.eqb_refl|reflexivity].
Qed.
Print Assumptions C167_copies_refuted.

(** ** constant iterators of a static view: as many elements as the view has dimensions *)
Theorem C167_static_const dbg W a p e fuel : W a = Some (static_const (Some p) e) -> (length e < fuel)%nat ->
  c_all dbg fuel W a = Some (Ok (map (fun k => p + Z.of_nat k) (seq 0 (length e)))).
Proof.
  intros Ha F. assert (S : vsize (static_const (Some p) e) = Z.of_nat (length e)) by (unfold vsize; rewrite bsize_prod; unfold static_const, static_view; cbn [vbounds exts contiguous prod fold_right]; unfold rank; lia).
  destruct (C167_contiguous dbg W a _ p Ha eq_refl ltac:(lia)) as [C _]. rewrite S, Nat2Z.id in C. apply C. exact F.
Qed.
Print Assumptions C167_static_const.
Theorem C167_static_const_refuted dbg p : let all v := c_all dbg 9 (one v) 0 in
  all (static_view (Some p) [2;3]) = Some (Ok (map (fun k => p + Z.of_nat k) (seq 0 6))) /\ all (static_const (Some p) [2;3]) = Some (Ok (map (fun k => p + Z.of_nat k) (seq 0 2)))
  /\ all (static_view (Some p) [1;1]) = Some (Ok (map (fun k => p + Z.of_nat k) (seq 0 1))) /\ all (static_const (Some p) [1;1]) = Some (Ok (map (fun k => p + Z.of_nat k) (seq 0 2))).
Proof.
  intros all. assert (D : forall e, e <> [] -> positive e -> prod e < 9 -> all (static_view (Some p) e) = Some (Ok (map (fun k => p + Z.of_nat k) (seq 0 (Z.to_nat (prod e)))))).
  { intros e E0 P L. unfold all. assert (S : vsize (static_view (Some p) e) = prod e) by (unfold vsize; rewrite bsize_prod; reflexivity). pose proof (prod_pos e P). destruct (C167_contiguous dbg (one (static_view (Some p) e)) 0 _ p eq_refl eq_refl ltac:(lia)) as [C _]. rewrite S in C. apply C. lia. }
  assert (P1 : positive [2;3]) by (constructor; [lia|]; constructor; [lia|]; constructor). assert (P2 : positive [1;1]) by (constructor; [lia|]; constructor; [lia|]; constructor).
  split; [rewrite (D [2;3] ltac:(discriminate) P1) by (cbn; lia); reflexivity|]. split; [exact (C167_static_const dbg (one (static_const (Some p) [2;3])) 0 p [2;3] 9 eq_refl ltac:(cbn; lia))|]. split; [rewrite (D [1;1] ltac:(discriminate) P2) by (cbn; lia); reflexivity|exact (C167_static_const dbg (one (static_const (Some p) [1;1])) 0 p [1;1] 9 eq_refl ltac:(cbn; lia))].
Qed.
Print Assumptions C167_static_const_refuted.

(** ** flattening *)
Theorem C167_flatten dbg W a p e fuel : e <> [] -> positive e -> (Z.to_nat (prod e) < fuel)%nat -> let v := mk_view (Some p) (contiguous e) in W a = Some v ->
  c_all dbg fuel (one (flatten v)) 0 = c_all dbg fuel W a /\ s_all dbg fuel (one (flatten v)) 0 = s_all dbg fuel W a /\ vsize (flatten v) = vsize v.
Proof.
  intros E0 P F v Ha. pose proof (prod_pos _ P) as Pp. assert (S : vsize v = prod e) by (unfold vsize; rewrite bsize_prod; reflexivity). assert (S2 : vsize (flatten v) = prod e) by (unfold vsize at 1; rewrite bsize_prod; unfold flatten; cbn [vbounds exts contiguous prod fold_right]; lia).
  assert (C : c_all dbg fuel (one (flatten v)) 0 = c_all dbg fuel W a).
  { destruct (C167_contiguous dbg (one (flatten v)) 0 _ p eq_refl eq_refl ltac:(lia)) as [C1 _]. destruct (C167_contiguous dbg W a v p Ha eq_refl ltac:(lia)) as [C2 _]. rewrite S2 in C1. rewrite S in C2. destruct (C1 fuel F) as [-> _], (C2 fuel F) as [-> _]. reflexivity. }
  split; [exact C|]. split; [|congruence]. destruct (C167_same dbg W a p e fuel Ha E0 P F) as [<- _]. assert (P2 : positive [vsize v]) by (repeat constructor; lia). assert (F2 : (Z.to_nat (prod [vsize v]) < fuel)%nat) by (cbn [prod fold_right]; rewrite Z.mul_1_r, S; exact F).
  destruct (C167_same dbg (one (flatten v)) 0 p [vsize v] fuel eq_refl ltac:(discriminate) P2 F2) as [<- _]. exact C.
Qed.
Print Assumptions C167_flatten.
(** of a section: not its elements *)
Theorem C167_flatten_refuted dbg p : exists w, section2 dbg (mk_view (Some p) (contiguous [3;3])) [0;1] [2;2] = Ok w
  /\ s_all dbg 9 (one w) 0 = Some (Ok [p + 1; p + 2; p + 4; p + 5]) /\ s_all dbg 9 (one (flatten w)) 0 = Some (Ok [p + 1; p + 2; p + 3; p + 4]).
Proof.
  eexists. split; [destruct dbg; reflexivity|]. split.
  - set (b := mk_bounds [2;2] [3;1]). pose proof (s_walk_rows dbg (one (mk_view (Some (p + 1)) b)) 0 (p + 1) b eq_refl ltac:(discriminate) ltac:(repeat constructor) 4 0 9 eq_refl ltac:(lia)) as H.
    refine (eq_trans H _). cbn. unfold cell_at. rewrite <- !Z.add_assoc. reflexivity.
  - pose proof (s_walk_rows dbg (one (mk_view (Some (p + 1)) (contiguous [4]))) 0 (p + 1) (contiguous [4]) eq_refl ltac:(discriminate) ltac:(repeat constructor) 4 0 9 eq_refl ltac:(lia)) as H.
    refine (eq_trans H _). cbn. unfold cell_at. rewrite <- !Z.add_assoc. reflexivity.
Qed.
Print Assumptions C167_flatten_refuted.

(** ** default and cleared views *)
Theorem C167_default dbg r fuel : (0 < r)%nat -> (0 < fuel)%nat -> vsize (default_view r) = 0 /\ s_all dbg fuel (one (default_view r)) 0 = Some (Ok []) /\ c_all dbg fuel (one (default_view r)) 0 = Some (Ok []).
Proof.
  intros R F. assert (S : vsize (default_view r) = 0) by (unfold vsize; rewrite bsize_prod; unfold default_view; cbn [vbounds exts]; destruct r; [lia|reflexivity]). split; [exact S|]. destruct fuel as [|fuel]; [lia|]. split.
  - unfold s_all, s_begin, s_end. cbn [one]. unfold s_walk. cbn [walk]. unfold s_eq at 1. rewrite assert_same. cbn [s_current]. unfold bounds_of, default_view, it_begin, it_end. cbn [vbounds exts]. unfold rank. rewrite repeat_length. rewrite (proj2 (idx_eq_spec _ _) eq_refl). reflexivity.
  - unfold c_all, c_begin, c_end. cbn [one]. rewrite S. cbn [default_view vdata padd Z.eqb bind]. unfold c_walk. cbn [walk]. unfold c_eq at 1. rewrite c_same. reflexivity.
Qed.
Print Assumptions C167_default.
Theorem C167_default_static_refuted dbg e fuel : e <> [] -> positive e -> vsize (static_default e) = prod e /\ 0 < prod e /\ c_end (one (static_default e)) 0 = UB /\ c_all dbg fuel (one (static_default e)) 0 = Some UB.
Proof.
  intros E0 P. pose proof (prod_pos e P) as Pp. assert (S : vsize (static_default e) = prod e) by (unfold vsize; rewrite bsize_prod; reflexivity). assert (E : c_end (one (static_default e)) 0 = UB).
  { unfold c_end. cbn [one]. rewrite S. cbn [static_default static_view vdata padd]. destruct (Z.eqb_spec (prod e) 0); [lia|reflexivity]. }
  split; [exact S|]. split; [exact Pp|]. split; [exact E|]. unfold c_all. rewrite E. reflexivity.
Qed.
Print Assumptions C167_default_static_refuted.
Example C167_default_example : (0 < 2)%nat /\ [2;3] <> [] /\ positive [2;3]. Proof. split; [lia|]. split; [discriminate|repeat constructor]. Qed.

(** ** conversions keep every element *)
Theorem C167_convert p e idx : e <> [] -> length idx = length e ->
  cell (static_to_array (Some p) e) idx = static_cell (Some p) e idx /\ cell (to_strided (static_view (Some p) e)) idx = static_cell (Some p) e idx
  /\ (forall v, cell (to_strided v) idx = cell v idx /\ vsize (to_strided v) = vsize v) /\ vsize (static_to_array (Some p) e) = prod e.
Proof.
  intros E0 L. assert (A : linearize (contiguous e) idx = static_linearize (contiguous e) idx).
  { rewrite static_linearize_dot by (cbn [exts strs contiguous]; rewrite ?make_strides_length; auto). rewrite linearize_dot by (cbn [exts strs contiguous]; rewrite ?make_strides_length; auto). reflexivity. }
  unfold static_to_array, static_cell, to_strided, static_view, cell. cbn [vdata vbounds]. split; [rewrite A; reflexivity|]. split; [cbn [exts strs contiguous]; fold (contiguous e); rewrite A; reflexivity|]. split; [intros [d [x s]]; split; reflexivity|]. unfold vsize. rewrite bsize_prod. reflexivity.
Qed.
Print Assumptions C167_convert.
Example C167_convert_example : static_cell (Some 7) [2;3] [1;2] = Ok 12 /\ cell (static_to_array (Some 7) [2;3]) [1;2] = Ok 12. Proof. split; reflexivity. Qed.

(** ** comparisons: for a strict total order of the elements, views are ordered by their elements *)
Theorem C167_compare (T : Type) (lt : T -> T -> bool) : (forall x, lt x x = false) -> (forall x y z, lt x y = true -> lt y z = true -> lt x z = true) -> (forall x y, lt x y = false -> lt y x = false -> x = y) ->
  forall a b c : list T, v_lt lt a a = false /\ (v_lt lt a b = true -> v_lt lt b c = true -> v_lt lt a c = true)
    /\ (v_lt lt a b = true \/ a = b \/ v_lt lt b a = true) /\ (v_le lt a b = true <-> v_lt lt a b = true \/ a = b) /\ v_gt lt a b = v_lt lt b a /\ v_ge lt a b = v_le lt b a
    /\ (forall k x y u w, a = k ++ x :: u -> b = k ++ y :: w -> lt x y = true -> v_lt lt a b = true) /\ (forall x u, b = a ++ x :: u -> v_lt lt a b = true).
Proof.
  intros Irr Tr Tot. assert (Asym : forall x y, lt x y = true -> lt y x = false) by (intros x y H; destruct (lt y x) eqn:E; [specialize (Tr x y x H E); rewrite Irr in Tr; discriminate|reflexivity]).
  unfold v_ge, v_gt, v_le, v_lt. assert (I : forall a, lex lt a a = false) by (induction a as [|x a IH]; [reflexivity|]; cbn; rewrite Irr; exact IH).
  assert (Tri : forall a b, lex lt a b = true \/ a = b \/ lex lt b a = true).
  { induction a as [|x a IH]; intros [|y b]; cbn; auto. destruct (lt x y) eqn:E; auto. destruct (lt y x) eqn:E2; auto. rewrite (Tot x y E E2). destruct (IH b) as [H | [-> | H]]; auto. }
  assert (TrL : forall a b c, lex lt a b = true -> lex lt b c = true -> lex lt a c = true).
  { induction a as [|x a IH]; intros [|y b] [|z c]; cbn; try discriminate; auto. destruct (lt x y) eqn:E1; intros H1.
    - destruct (lt y z) eqn:E2; intros H2; [rewrite (Tr _ _ _ E1 E2); reflexivity|]. destruct (lt z y) eqn:E3; [discriminate|]. rewrite <- (Tot y z E2 E3), E1. reflexivity.
    - destruct (lt y x) eqn:E2; [discriminate|]. rewrite (Tot x y E1 E2). destruct (lt y z) eqn:E3; [reflexivity|]. destruct (lt z y); [discriminate|]. intros H2. exact (IH b c H1 H2). }
  intros a b c. split; [apply I|]. split; [apply TrL|]. split; [apply Tri|]. split.
  - split; [intros H; destruct (Tri a b) as [H1|[H1|H1]]; auto; rewrite H1 in H; discriminate|]. intros [H | ->]; [destruct (lex lt b a) eqn:E; [pose proof (TrL _ _ _ H E) as X; rewrite I in X; discriminate|reflexivity]|rewrite I; reflexivity].
  - split; [reflexivity|]. split; [reflexivity|]. split.
    + intros k x y u w -> -> H. induction k as [|z k IH]; cbn; [rewrite H; reflexivity|rewrite Irr; exact IH].
    + intros x u ->. induction a as [|z k IH]; cbn; [reflexivity|rewrite Irr; exact IH].
Qed.
Print Assumptions C167_compare.
Example C167_compare_example : v_lt Z.ltb [1;2] [1;3] = true /\ v_lt Z.ltb [1;2] [1;2;0] = true /\ v_le Z.ltb [2] [1;9] = false. Proof. repeat split. Qed.
