(** Property theorems for math/array.h, math/multi_array.h, utils/dimensioned_array.h (C28, C29, C77). *)
From Coq Require Import List Arith ZArith Reals Bool Lia.
From Verif Require Import Outcome ListExtra BoundsModel BoundsProofs MathArrayModel MathArrayProofs.
Import ListNotations.
Close Scope R_scope.
Local Open Scope nat_scope.

(** [r] is the component-wise result: same length as [a], component i is [f i] *)
Definition componentwise {T} (d : T) (a r : list T) (f : nat -> T) : Prop :=
  length r = length a /\ forall i, i < length a -> nth i r d = f i.
Lemma componentwise_map {T} (d : T) a r f g : r = map g (seq 0 (length a)) ->
  (forall i, i < length a -> g i = f i) -> componentwise d a r f.
Proof.
  intros -> H. split; [rewrite map_length, seq_length; reflexivity|].
  intros i Hi. rewrite map_seq_nth by exact Hi. apply H. exact Hi.
Qed.

(** C28. math::array / multi_array: a OP= b, b another array or a itself *)
Theorem C28_array_op_assign : forall (T : Type) (d : T) (op : T -> T -> T) (a b : list T),
  length b = length a ->
  componentwise d a (op_assign_array d op a (Other b)) (fun i => op (nth i a d) (nth i b d)) /\
  componentwise d a (op_assign_array d op a Self) (fun i => op (nth i a d) (nth i a d)).
Proof. intros. split; eapply componentwise_map; try apply op_assign_array_spec; reflexivity. Qed.
Print Assumptions C28_array_op_assign.
Example C28_array_op_assign_case :
  op_assign_array 0%Z Z.sub [5;7;9]%Z (Other [1;2;3]%Z) = [4;5;6]%Z /\
  op_assign_array 0%Z Z.sub [5;7;9]%Z Self = [0;0;0]%Z.
Proof. split; reflexivity. Qed.

(** a OP= s (+=, -=, *=): correct for a scalar that is not an element of a ... *)
Theorem C28_array_scalar_partial : forall (T : Type) (d : T) (op : T -> T -> T) (a : list T) (s : T),
  componentwise d a (op_assign_scalar d op a (Val s)) (fun i => op (nth i a d) s).
Proof. intros. eapply componentwise_map; [apply op_assign_scalar_val|reflexivity]. Qed.
Print Assumptions C28_array_scalar_partial.
(** ... and for the last element; exactly: components after k use the already updated value *)
Theorem C28_array_scalar_alias_exact : forall (T : Type) (d : T) (op : T -> T -> T) (a : list T) k,
  k < length a ->
  componentwise d a (op_assign_scalar d op a (Elem k))
    (fun i => if i <=? k then op (nth i a d) (nth k a d)
              else op (nth i a d) (op (nth k a d) (nth k a d))).
Proof.
  intros. eapply componentwise_map; [apply op_assign_scalar_elem; assumption|].
  intros i Hi. cbn beta. destruct (i <=? k); reflexivity.
Qed.
Print Assumptions C28_array_scalar_alias_exact.
Theorem C28_array_scalar_last : forall (T : Type) (d : T) (op : T -> T -> T) (a : list T),
  a <> [] ->
  componentwise d a (op_assign_scalar d op a (Elem (length a - 1)))
    (fun i => op (nth i a d) (nth (length a - 1) a d)).
Proof.
  intros T d op a H. assert (0 < length a) by (destruct a; [congruence|simpl; lia]).
  destruct (C28_array_scalar_alias_exact T d op a (length a - 1)) as [L N]; [lia|].
  split; [exact L|]. intros i Hi. rewrite N by exact Hi.
  rewrite (proj2 (Nat.leb_le i (length a - 1))) by lia. reflexivity.
Qed.
Print Assumptions C28_array_scalar_last.
(** a *= a[0], a += a[0], a -= a[0] all go wrong *)
Theorem C28_array_scalar_alias_refuted :
  (exists (a : list Z) k, k < length a /\
     ~ componentwise 0%Z a (op_assign_scalar 0%Z Z.mul a (Elem k)) (fun i => (nth i a 0 * nth k a 0)%Z)) /\
  (exists (a : list Z) k, k < length a /\
     ~ componentwise 0%Z a (op_assign_scalar 0%Z Z.add a (Elem k)) (fun i => (nth i a 0 + nth k a 0)%Z)) /\
  (exists (a : list Z) k, k < length a /\
     ~ componentwise 0%Z a (op_assign_scalar 0%Z Z.sub a (Elem k)) (fun i => (nth i a 0 - nth k a 0)%Z)).
Proof.
  split; [|split]; exists [3;4]%Z, 0; (split; [simpl; lia|]);
    intros [_ N]; specialize (N 1); cbn in N; specialize (N ltac:(lia)); discriminate.
Qed.
Print Assumptions C28_array_scalar_alias_refuted.

(** a /= s: the reciprocal is formed once, so aliasing is harmless; correct whenever
    x * (1/s) = x / s in the element type, e.g. in a field *)
Theorem C28_array_div_scalar_partial : forall (T : Type) (d one : T) (div mul : T -> T -> T) (a : list T) (s : sc_arg T),
  (forall x, mul x (div one (sc_read d a s)) = div x (sc_read d a s)) ->
  componentwise d a (div_assign_scalar d one div mul a s) (fun i => div (nth i a d) (sc_read d a s)) /\
  forall tmp, length tmp = length a ->
  componentwise d a (free_div_scalar d one div mul a (sc_read d a s) tmp) (fun i => div (nth i a d) (sc_read d a s)).
Proof.
  intros T d one div mul a s H. split; [|intros tmp E]; eapply componentwise_map.
  - apply div_assign_scalar_spec.
  - intros i Hi. apply H.
  - unfold free_div_scalar.
    rewrite (const_body_spec d (fun i => mul (nth i a d) (div one (sc_read d a s)))), E. reflexivity.
  - intros i Hi. apply H.
Qed.
Print Assumptions C28_array_div_scalar_partial.
(** the hypothesis holds over the reals for every s (and for the integers with s = 1 or -1) *)
Example C28_array_div_scalar_case :
  (forall x s : R, (x * (1 / s) = x / s)%R) /\ div_assign_scalar 0%Z 1%Z Z.quot Z.mul [-1;-4]%Z (Elem 0) = [1;4]%Z.
Proof. split; [intros x s; unfold Rdiv; ring|reflexivity]. Qed.
(** for an integral element type every |s| > 1 gives zeros *)
Theorem C28_array_div_integral_refuted :
  (forall (a : list Z) (s : Z), (1 < Z.abs s)%Z ->
     div_assign_scalar 0%Z 1%Z Z.quot Z.mul a (Val s) = repeat 0%Z (length a)) /\
  ~ (forall (a : list Z) s, s <> 0%Z ->
     componentwise 0%Z a (div_assign_scalar 0%Z 1%Z Z.quot Z.mul a (Val s)) (fun i => Z.quot (nth i a 0%Z) s)).
Proof.
  split.
  - intros a s Hs. rewrite div_assign_scalar_spec. cbn [sc_read].
    assert (E : Z.quot 1 s = 0%Z).
    { destruct (Z.abs_eq_or_opp s) as [K|K].
      - apply Z.quot_small. lia.
      - replace s with (- (- s))%Z by lia. rewrite Z.quot_opp_r by lia. rewrite Z.quot_small by lia. reflexivity. }
    rewrite E. generalize (length a). intros n.
    assert (G : forall k, map (fun i => (nth i a 0 * 0)%Z) (seq k n) = repeat 0%Z n).
    { induction n as [|n IH]; intros k; simpl; [reflexivity|]. rewrite IH, Z.mul_0_r. reflexivity. }
    apply G.
  - intros H. destruct (H [8]%Z 2%Z) as [_ N]; [discriminate|]. specialize (N 0). cbn in N.
    specialize (N ltac:(lia)). discriminate.
Qed.
Print Assumptions C28_array_div_integral_refuted.

(** free operators of array and multi_array, tmp arbitrary, operands arbitrary (aliasing included) *)
Theorem C28_array_free : forall (T : Type) (d : T) (op : T -> T -> T) (a b tmp : list T) (s : T) (neg : T -> T),
  length b = length a -> length tmp = length a ->
  componentwise d a (free_array d op a b tmp) (fun i => op (nth i a d) (nth i b d)) /\
  componentwise d a (free_scalar_right d op a s tmp) (fun i => op (nth i a d) s) /\
  componentwise d a (free_scalar_left d op s a tmp) (fun i => op s (nth i a d)) /\
  componentwise d a (neg_array d neg a tmp) (fun i => neg (nth i a d)).
Proof.
  intros T d op a b tmp s neg E1 E2.
  repeat split; try (intros; unfold free_array, free_scalar_right, free_scalar_left, neg_array).
  all: try (rewrite <- E2; unfold free_array, free_scalar_right, free_scalar_left, neg_array;
            rewrite (const_body_spec d), map_length, seq_length; reflexivity).
  all: rewrite (const_body_spec d), map_seq_nth by lia; reflexivity.
Qed.
Print Assumptions C28_array_free.
Example C28_array_free_case : free_array 0%Z Z.sub [5;7]%Z [1;2]%Z [99;99]%Z = [4;5]%Z /\
  free_scalar_left 0%Z Z.sub 10%Z [1;2]%Z [99;99]%Z = [9;8]%Z.
Proof. split; reflexivity. Qed.

(** fill / assignment of a scalar, which may be one of the elements *)
Theorem C28_fill : forall (T : Type) (d : T) (a : list T) (s : sc_arg T),
  (forall k, s = Elem k -> k < length a) ->
  componentwise d a (fill d a s) (fun _ => sc_read d a s).
Proof.
  intros T d a s H. rewrite fill_spec by exact H. split; [apply repeat_length|].
  intros i Hi. apply (repeat_spec (length a)). apply nth_In. rewrite repeat_length. exact Hi.
Qed.
Print Assumptions C28_fill.
Example C28_fill_case : fill 0%Z [5;7;9]%Z (Elem 1) = [7;7;7]%Z.
Proof. reflexivity. Qed.

(** dimensioned_array: correct for a different right-hand side and for every scalar ... *)
Theorem C28_dimensioned_partial : forall (T : Type) (d : T) (op : T -> T -> T) (a b : list T) (s : sc_arg T),
  length b = length a ->
  componentwise d a (dim_op_assign d op a (Other b)) (fun i => op (nth i a d) (nth i b d)) /\
  componentwise d a (dim_op_assign_scalar d op a s) (fun i => op (nth i a d) (sc_read d a s)) /\
  componentwise d a (dim_free d op a b) (fun i => op (nth i a d) (nth i b d)) /\
  componentwise d a (dim_free d op a a) (fun i => op (nth i a d) (nth i a d)).
Proof.
  intros T d op a b s E.
  split; [eapply componentwise_map; [apply dim_op_assign_other|reflexivity]|].
  split; [eapply componentwise_map; [apply dim_op_assign_scalar_spec|reflexivity]|].
  split; (eapply componentwise_map; [apply dim_op_assign_other|reflexivity]).
Qed.
Print Assumptions C28_dimensioned_partial.
Example C28_dimensioned_case :
  dim_op_assign_scalar 0%Z Z.mul [3;4]%Z (Elem 0) = [9;12]%Z /\ dim_free 0%Z Z.add [3;4]%Z [3;4]%Z = [6;8]%Z.
Proof. split; reflexivity. Qed.
(** ... but op= with itself does nothing at all *)
Theorem C28_dimensioned_self_refuted : forall (T : Type) (d : T) (op : T -> T -> T) (a : list T) i,
  i < length a -> op (nth i a d) (nth i a d) <> nth i a d ->
  dim_op_assign d op a Self = a /\
  ~ componentwise d a (dim_op_assign d op a Self) (fun i => op (nth i a d) (nth i a d)).
Proof. intros T d op a i Hi Hne. split; [reflexivity|]. intros [_ N]. apply Hne. symmetry. apply N. exact Hi. Qed.
Print Assumptions C28_dimensioned_self_refuted.
Example C28_dimensioned_self_case : (3 + 3)%Z <> 3%Z /\ dim_op_assign 0%Z Z.add [3;4]%Z Self = [3;4]%Z.
Proof. split; [discriminate|reflexivity]. Qed.

(** * C78. math::array as a container: access, swap, assign, comparison *)
Theorem C78_access : forall (T : Type) (a : list T) i v,
  (arr_at a i = Ok v <-> nth_error a i = Some v) /\
  (arr_at a i = Throw <-> length a <= i) /\
  (forall dbg, nth_error a i = Some v -> arr_index dbg a i = Ok v) /\
  (length a <= i -> arr_index true a i = AssertFail /\ arr_index false a i = UB).
Proof.
  intros T a i v. unfold arr_at, arr_index, assert_then.
  destruct (Nat.leb_spec (length a) i) as [G|G], (Nat.ltb_spec i (length a)); try lia.
  - rewrite (proj2 (nth_error_None a i)) by exact G.
    split; [split; discriminate|]. split; [split; auto|]. split; [discriminate|auto].
  - destruct (nth_error a i) as [w|] eqn:E.
    + split; [split; congruence|]. split; [split; [discriminate|lia]|].
      split; [intros [] K; cbn; congruence|lia].
    + apply nth_error_None in E. lia.
Qed.
Print Assumptions C78_access.
Example C78_access_case : arr_at [5;6] 1 = Ok 6 /\ arr_at [5;6] 2 = Throw.
Proof. split; reflexivity. Qed.
Theorem C78_swap : forall (T : Type) (d : T) (a b : list T), length a = length b ->
  swap_arrays d a b = (b, a).
Proof.
  intros T d a b E. unfold swap_arrays.
  pose proof (swap_loop_spec d (length a) a b (le_n _) E) as H.
  destruct (swap_loop d (length a) a b) as [a' b']. destruct H as [-> ->].
  assert (F1 : firstn (length a) b = b) by (rewrite E; apply firstn_all).
  assert (F2 : skipn (length a) b = []) by (rewrite E; apply skipn_all).
  rewrite F1, F2, firstn_all, skipn_all, !app_nil_r. reflexivity.
Qed.
Print Assumptions C78_swap.
Example C78_swap_case : swap_arrays 0 [1;2;3] [4;5;6] = ([4;5;6],[1;2;3]).
Proof. reflexivity. Qed.
(** assign(range): exact; only the initializer-list form checks the length, in debug builds *)
Theorem C78_assign : forall (T : Type) (a src : list T),
  (length src = length a -> assign_range a src = Ok src /\ forall dbg, assign_list dbg a src = Ok src) /\
  (length src < length a -> assign_range a src = Ok (src ++ skipn (length src) a) /\
      assign_list true a src = AssertFail) /\
  (length a < length src -> assign_range a src = UB /\ assign_list true a src = AssertFail /\
      assign_list false a src = UB).
Proof.
  intros T a src. unfold assign_list, assign_range, assert_then.
  repeat split; intros;
  repeat match goal with
  | |- context [?x <=? ?y] => destruct (Nat.leb_spec x y); try lia
  | |- context [?x =? ?y] => destruct (Nat.eqb_spec x y); try lia
  end; try reflexivity.
  - rewrite H, skipn_all, app_nil_r. reflexivity.
  - destruct dbg; cbn; rewrite H, skipn_all, app_nil_r; reflexivity.
Qed.
Print Assumptions C78_assign.
Example C78_assign_case : assign_range [1;2;3] [7;8] = Ok [7;8;3] /\ assign_list true [1;2;3] [7;8;9] = Ok [7;8;9].
Proof. split; reflexivity. Qed.
(** ==: all components equal; <: lexicographic, a strict total order when the component order is one *)
Theorem C78_compare : forall (T : Type) (neqb ltb : T -> T -> bool) (lt : T -> T -> Prop),
  (forall x y, neqb x y = true <-> x <> y) -> (forall x y, ltb x y = true <-> lt x y) ->
  (forall x, ~ lt x x) -> (forall x y z, lt x y -> lt y z -> lt x z) ->
  (forall x y, lt x y \/ x = y \/ lt y x) ->
  forall a b, length a = length b ->
  (arr_eq neqb a b = true <-> a = b) /\
  (arr_lt ltb a b = true <->
     exists p x y t u, a = p ++ x :: t /\ b = p ++ y :: u /\ lt x y) /\
  (arr_lt ltb a b = true \/ a = b \/ arr_lt ltb b a = true) /\
  ~ (arr_lt ltb a b = true /\ arr_lt ltb b a = true).
Proof.
  intros T neqb ltb lt Hne Hlt Irr Tr Tot a.
  assert (Asym : forall x y, lt x y -> ~ lt y x) by (intros x y P Q; apply (Irr x); eauto).
  induction a as [|x a IH]; intros [|y b] L; try discriminate.
  - split; [split; reflexivity|]. split; [|split; [right; left; reflexivity|intros [H _]; discriminate H]].
    split; [discriminate|]. intros (p & u & v & t & w & H & _). destruct p; discriminate.
  - injection L as L. destruct (IH b L) as (I1 & I2 & I3 & I4). cbn [arr_eq arr_lt].
    split; [|split; [|split]].
    + destruct (neqb x y) eqn:E; [apply Hne in E; split; [discriminate|intros K; injection K; congruence]|].
      assert (x = y) as <- by (destruct (Tot x y) as [K|[K|K]]; [|exact K|]; exfalso;
        assert (N : x <> y) by (intros ->; eapply Irr; exact K); apply Hne in N; congruence).
      rewrite I1. split; [intros ->; reflexivity|intros K; injection K; auto].
    + destruct (ltb x y) eqn:E1.
      * split; [intros _|reflexivity]. exists [], x, y, a, b. repeat split. apply Hlt. exact E1.
      * destruct (ltb y x) eqn:E2.
        -- split; [discriminate|]. intros (p & u & v & t & w & H1 & H2 & H3).
           destruct p as [|q p]; injection H1; injection H2; intros; subst.
           ++ apply Hlt in H3. congruence.
           ++ apply Hlt in E2. exfalso. eapply Irr; exact E2.
        -- assert (x = y) as <- by (destruct (Tot x y) as [K|[K|K]]; [apply Hlt in K; congruence|exact K|apply Hlt in K; congruence]).
           rewrite I2. split.
           ++ intros (p & u & v & t & w & -> & -> & H3). exists (x :: p), u, v, t, w. auto.
           ++ intros (p & u & v & t & w & H1 & H2 & H3). destruct p as [|q p]; injection H1; injection H2; intros; subst.
              ** exfalso. eapply Irr; exact H3.
              ** exists p, u, v, t, w. auto.
    + destruct (Tot x y) as [K|[<-|K]].
      * apply Hlt in K. rewrite K. auto.
      * destruct (ltb x x) eqn:E; [left; reflexivity|].
        destruct I3 as [I3|[->|I3]]; auto.
      * apply Hlt in K. rewrite K. auto.
    + intros [H1 H2]. destruct (ltb x y) eqn:E1, (ltb y x) eqn:E2; try discriminate.
      * apply Hlt in E1, E2. exact (Asym _ _ E1 E2).
      * apply I4. auto.
Qed.
Print Assumptions C78_compare.
Example C78_compare_case : arr_lt Z.ltb [1;5;2]%Z [1;5;3]%Z = true /\ arr_lt Z.ltb [1;5;3]%Z [1;5;2]%Z = false.
Proof. split; reflexivity. Qed.

(** * C29. multi_array *)
Local Open Scope Z_scope.
Theorem C29_bijection : forall dims, positive dims ->
  (forall ids, in_box dims ids -> 0 <= ma_element dims ids < prod dims) /\
  (forall i j, in_box dims i -> in_box dims j -> ma_element dims i = ma_element dims j -> i = j) /\
  (forall k, 0 <= k < prod dims -> exists ids, in_box dims ids /\ ma_element dims ids = k).
Proof.
  intros dims P.
  assert (L : forall ids, in_box dims ids -> ma_element dims ids = lin dims ids)
    by (intros; apply ma_element_lin, in_box_length; assumption).
  split; [intros ids I; rewrite L by exact I; apply lin_bound; exact I|]. split.
  - intros i j Hi Hj. rewrite !L by assumption. apply lin_inj; assumption.
  - intros k Hk. exists (unrank dims k). pose proof (unrank_in dims k P Hk) as U.
    split; [exact U|]. rewrite L by exact U. apply lin_unrank; assumption.
Qed.
Print Assumptions C29_bijection.
Example C29_bijection_case : positive [2;3;4] /\ in_box [2;3;4] [1;2;3] /\ ma_element [2;3;4] [1;2;3] = 23.
Proof. split; [repeat constructor|]. split; [repeat constructor; discriminate|reflexivity]. Qed.

(** access: at() throws iff some index is out of range, operator() asserts; in range both give the
    cell, inside the storage *)
Theorem C29_access : forall (T : Type) dims (st : list T) ids,
  Z.of_nat (length st) = prod dims -> length ids = length dims -> Forall (fun i => 0 <= i) ids ->
  (ma_at dims st ids = Throw <-> ~ in_box dims ids) /\
  (~ in_box dims ids -> ma_call true dims st ids = AssertFail) /\
  (in_box dims ids -> exists k, ma_at dims st ids = Ok k /\
     (forall dbg, ma_call dbg dims st ids = Ok k) /\ (k < length st)%nat).
Proof.
  intros T dims st ids E L P. unfold ma_at, ma_call, ma_cell.
  assert (K : in_box dims ids -> (0 <=? ma_element dims ids) && (ma_element dims ids <? Z.of_nat (length st)) = true
              /\ (Z.to_nat (ma_element dims ids) < length st)%nat).
  { intros I. rewrite ma_element_lin by exact L. pose proof (lin_bound _ _ I).
    rewrite (proj2 (Z.leb_le _ _)), (proj2 (Z.ltb_lt _ _)) by lia. split; [reflexivity|lia]. }
  destruct (check_ranges_spec dims ids L P) as [[C B]|[C B]]; rewrite C;
  destruct (assert_ranges_spec dims ids L P) as [[A B']|(A & A' & B')]; try tauto; cbn [bind].
  - destruct (K B) as [K1 K2]. rewrite K1. split; [split; [discriminate|tauto]|]. split; [tauto|].
    intros _. exists (Z.to_nat (ma_element dims ids)). split; [reflexivity|]. split; [|exact K2].
    intros dbg. rewrite A. cbn [bind]. rewrite ?K1. reflexivity.
  - rewrite A. cbn [bind]. repeat split; auto; tauto.
Qed.
Print Assumptions C29_access.
Example C29_access_case : ma_at [2;3] [10;11;12;20;21;22] [1;2] = Ok 5%nat /\
  ma_at [2;3] [10;11;12;20;21;22] [0;3] = Throw /\ ma_call false [2;3] [10;11;12;20;21;22] [0;3] = Ok 3%nat.
Proof. repeat split; reflexivity. Qed.

(** writing through one index changes that element only *)
Theorem C29_write_frame : forall (T : Type) (d : T) dims (st : list T) i j ki kj v,
  Z.of_nat (length st) = prod dims -> in_box dims i -> in_box dims j ->
  ma_call false dims st i = Ok ki -> ma_call false dims st j = Ok kj ->
  nth kj (upd st ki v) d = if list_eq_dec Z.eq_dec i j then v else nth kj st d.
Proof.
  intros T d dims st i j ki kj v E Hi Hj Ci Cj.
  assert (Ln : forall x, in_box dims x -> length x = length dims) by (intros; apply in_box_length; assumption).
  assert (Ps : forall x, in_box dims x -> Forall (fun i => 0 <= i) x)
    by (clear; intros x Hx; induction Hx; constructor; solve [lia|assumption]).
  assert (G : forall x k, in_box dims x -> ma_call false dims st x = Ok k -> Z.of_nat k = lin dims x /\ (k < length st)%nat).
  { intros x k Hx C. unfold ma_call in C.
    destruct (assert_ranges_spec dims x (Ln x Hx) (Ps x Hx)) as [[A _]|(_ & A & _)]; rewrite A in C;
    cbn [bind] in C; unfold ma_cell in C; rewrite ma_element_lin in C by (apply Ln; exact Hx);
    pose proof (lin_bound _ _ Hx);
    rewrite (proj2 (Z.leb_le _ _)), (proj2 (Z.ltb_lt _ _)) in C by lia; cbn [andb] in C; injection C as <-; lia. }
  destruct (G i ki Hi Ci) as [G1 G2], (G j kj Hj Cj) as [G3 G4].
  rewrite upd_nth, (proj2 (Nat.ltb_lt ki _)) by exact G2. rewrite andb_true_r.
  destruct (list_eq_dec Z.eq_dec i j) as [->|N].
  - assert (kj = ki) as -> by lia. rewrite Nat.eqb_refl. reflexivity.
  - destruct (Nat.eqb_spec kj ki) as [->|]; [|reflexivity].
    exfalso. apply N. apply (lin_inj dims); congruence.
Qed.
Print Assumptions C29_write_frame.
Example C29_write_frame_case : ma_call false [2;3] [1;2;3;4;5;6] [1;0] = Ok 3%nat /\
  upd [1;2;3;4;5;6] 3 9 = [1;2;3;9;5;6].
Proof. split; reflexivity. Qed.

(** C77. col_major_ordering: right for a palindromic shape (e.g. a square), wrong otherwise *)
Theorem C77_col_major_partial : forall dims, positive dims -> rev dims = dims ->
  (forall ids, in_box dims ids -> 0 <= col_element dims ids < prod dims) /\
  (forall i j, in_box dims i -> in_box dims j -> col_element dims i = col_element dims j -> i = j) /\
  (forall k, 0 <= k < prod dims -> exists ids, in_box dims ids /\ col_element dims ids = k) /\
  (forall ids, in_box dims ids -> col_element dims ids = ma_element dims (rev ids)).
Proof.
  intros dims P R.
  assert (L : forall ids, in_box dims ids -> col_element dims ids = lin dims (rev ids))
    by (intros; apply col_element_lin, in_box_length; assumption).
  assert (B : forall ids, in_box dims ids -> in_box dims (rev ids))
    by (intros ids I; rewrite <- R; apply in_box_rev; exact I).
  split; [intros ids I; rewrite L by exact I; apply lin_bound, B, I|]. split; [|split].
  - intros i j Hi Hj. rewrite !L by assumption. intros E. apply lin_inj in E; auto.
    rewrite <- (rev_involutive i), E. apply rev_involutive.
  - intros k Hk. exists (rev (unrank dims k)). pose proof (unrank_in dims k P Hk) as U.
    split; [apply B, U|]. rewrite L by apply B, U. rewrite rev_involutive. apply lin_unrank; assumption.
  - intros ids I. rewrite L by exact I. symmetry. apply ma_element_lin. apply in_box_length, B, I.
Qed.
Print Assumptions C77_col_major_partial.
Example C77_col_major_case : positive [3;3] /\ rev [3;3] = [3;3] /\ col_element [3;3] [1;2] = 7.
Proof. split; [repeat constructor|]. split; reflexivity. Qed.
Theorem C77_col_major_refuted : 
  (in_box [2;3] [1;2] /\ col_element [2;3] [1;2] = 7 /\ prod [2;3] = 6) /\
  (in_box [3;2] [2;0] /\ in_box [3;2] [0;1] /\ col_element [3;2] [2;0] = col_element [3;2] [0;1]).
Proof. repeat split; repeat constructor; discriminate. Qed.
Print Assumptions C77_col_major_refuted.
(** rank 2, exactly: a bijection iff the matrix is square or has a single column *)
Theorem C77_col_major_rank2 : forall m n, 0 < m -> 0 < n ->
  ((forall i j, in_box [m;n] [i;j] -> 0 <= col_element [m;n] [i;j] < m * n) /\
   (forall i j i' j', in_box [m;n] [i;j] -> in_box [m;n] [i';j'] ->
      col_element [m;n] [i;j] = col_element [m;n] [i';j'] -> i = i' /\ j = j')) <-> (m = n \/ n = 1).
Proof.
  intros m n Hm Hn.
  assert (L : forall i j, col_element [m;n] [i;j] = i + n * j)
    by (intros i j; rewrite col_element_lin by reflexivity; cbn; lia).
  assert (B : forall i j, 0 <= i < m -> 0 <= j < n -> in_box [m;n] [i;j]) by (intros; repeat constructor; lia).
  assert (U : forall i j, in_box [m;n] [i;j] -> 0 <= i < m /\ 0 <= j < n)
    by (intros i j H; inversion H as [|? ? ? ? H1 H2]; subst; inversion H2; subst; auto).
  split.
  - intros [H1 H2]. destruct (Z.eq_dec n 1); [auto|]. left.
    destruct (Z.lt_trichotomy m n) as [K|[K|K]]; [|exact K|].
    + specialize (H1 (m-1) (n-1) ltac:(apply B; lia)). rewrite L in H1. nia.
    + exfalso. destruct (H2 n 0 0 1) as [E _]; [apply B; lia|apply B; lia|rewrite !L; lia|lia].
  - intros [->| ->]; split.
    + intros i j H. apply U in H. rewrite L. nia.
    + intros i j i' j' H H'. apply U in H, H'. rewrite !L. intros E.
      destruct (Z.lt_trichotomy j j') as [K|[->|K]]; [|lia|].
      * assert (n * (j + 1) <= n * j') by (apply Z.mul_le_mono_nonneg_l; lia). lia.
      * assert (n * (j' + 1) <= n * j) by (apply Z.mul_le_mono_nonneg_l; lia). lia.
    + intros i j H. apply U in H. rewrite L. nia.
    + intros i j i' j' H H'. apply U in H, H'. rewrite !L. lia.
Qed.
Print Assumptions C77_col_major_rank2.
