(** Lemmas about MathArrayModel. *)
From Coq Require Import List Arith ZArith Bool Lia.
From Verif Require Import Outcome ListExtra BoundsModel BoundsProofs MathArrayModel.
Import ListNotations.

Section Loop.
Context {T : Type} (d : T).

Lemma upd_length (l : list T) i v : length (upd l i v) = length l.
Proof. revert i; induction l as [|x l IH]; intros [|i]; simpl; auto. Qed.
Lemma upd_nth (l : list T) i v j : nth j (upd l i v) d =
  if (j =? i) && (i <? length l) then v else nth j l d.
Proof.
  revert i j; induction l as [|x l IH]; intros [|i] [|j]; simpl; auto.
  - rewrite andb_false_r. reflexivity.
  - rewrite IH. reflexivity.
Qed.

(** state of a component-by-component loop after k iterations *)
Definition mid (F : nat -> T) (st0 : list T) (k : nat) (st : list T) : Prop :=
  length st = length st0 /\ forall i, i < length st0 -> nth i st d = if i <? k then F i else nth i st0 d.

Lemma for_each_spec (F : nat -> T) (body : list T -> nat -> T) (st0 : list T) :
  (forall k st, k < length st0 -> mid F st0 k st -> body st k = F k) ->
  for_each_elem body st0 = map F (seq 0 (length st0)).
Proof.
  intros H. unfold for_each_elem.
  assert (G : forall n k st, k + n = length st0 -> mid F st0 k st ->
            mid F st0 (k + n) (fold_left (fun st i => upd st i (body st i)) (seq k n) st)).
  { induction n as [|n IH]; intros k st E M; [rewrite Nat.add_0_r; exact M|].
    cbn [seq fold_left]. replace (k + S n) with (S k + n) by lia. apply IH; [lia|].
    destruct M as [Ml Mn]. split; [rewrite upd_length; exact Ml|].
    intros i Hi. rewrite upd_nth, Ml. rewrite (H k st) by (try lia; split; auto).
    destruct (Nat.eqb_spec i k) as [->|N].
    - rewrite (proj2 (Nat.ltb_lt k (length st0))) by lia.
      rewrite (proj2 (Nat.ltb_lt k (S k))) by lia. reflexivity.
    - cbn [andb]. rewrite Mn by exact Hi. 
      destruct (Nat.ltb_spec i k), (Nat.ltb_spec i (S k)); try reflexivity; lia. }
  destruct (G (length st0) 0 st0 eq_refl) as [L N].
  { split; [reflexivity|]. intros i _. reflexivity. }
  apply (list_eq_nth _ _ d); rewrite L; [rewrite map_length, seq_length; reflexivity|].
  intros i Hi. rewrite N by exact Hi. rewrite (proj2 (Nat.ltb_lt i _)) by lia.
  rewrite (nth_indep _ d (F 0)) by (rewrite map_length, seq_length; exact Hi).
  rewrite map_nth, seq_nth by exact Hi. reflexivity.
Qed.
Lemma map_seq_nth (F : nat -> T) n i : i < n -> nth i (map F (seq 0 n)) d = F i.
Proof.
  intros Hi. rewrite (nth_indep _ d (F 0)) by (rewrite map_length, seq_length; exact Hi).
  rewrite map_nth, seq_nth by exact Hi. reflexivity.
Qed.

Variable op : T -> T -> T.
Lemma op_assign_array_spec st b :
  op_assign_array d op st b = map (fun i => op (nth i st d) (arr_read d st b i)) (seq 0 (length st)).
Proof.
  apply for_each_spec. intros k st' Hk [L N]. rewrite N by exact Hk.
  rewrite (proj2 (Nat.ltb_ge k k)) by lia. destruct b; cbn [arr_read]; [reflexivity|].
  rewrite N by exact Hk. rewrite (proj2 (Nat.ltb_ge k k)) by lia. reflexivity.
Qed.
Lemma op_assign_scalar_val st v :
  op_assign_scalar d op st (Val v) = map (fun i => op (nth i st d) v) (seq 0 (length st)).
Proof.
  apply for_each_spec. intros k st' Hk [L N]. rewrite N by exact Hk.
  rewrite (proj2 (Nat.ltb_ge k k)) by lia. reflexivity.
Qed.
Lemma op_assign_scalar_elem st m : m < length st ->
  op_assign_scalar d op st (Elem m) =
  map (fun i => op (nth i st d) (if i <=? m then nth m st d else op (nth m st d) (nth m st d)))
      (seq 0 (length st)).
Proof.
  intros Hm. apply for_each_spec. intros k st' Hk [L N]. cbn [sc_read]. rewrite !N by assumption.
  rewrite (proj2 (Nat.ltb_ge k k)) by lia. rewrite Nat.leb_refl.
  destruct (Nat.ltb_spec m k), (Nat.leb_spec k m); try lia; reflexivity.
Qed.
Lemma div_assign_scalar_spec one div mul st s :
  div_assign_scalar d one div mul st s =
  map (fun i => mul (nth i st d) (div one (sc_read d st s))) (seq 0 (length st)).
Proof.
  apply for_each_spec. intros k st' Hk [L N]. rewrite N by exact Hk.
  rewrite (proj2 (Nat.ltb_ge k k)) by lia. reflexivity.
Qed.
Lemma const_body_spec (F : nat -> T) tmp :
  for_each_elem (fun _ i => F i) tmp = map F (seq 0 (length tmp)).
Proof. apply for_each_spec. reflexivity. Qed.
Lemma fill_spec st s : (forall k, s = Elem k -> k < length st) ->
  fill d st s = repeat (sc_read d st s) (length st).
Proof.
  intros Hs. unfold fill.
  rewrite (for_each_spec (fun _ => sc_read d st s)).
  - generalize (sc_read d st s). intros v. generalize (length st). intros n.
    assert (G : forall k, map (fun _ : nat => v) (seq k n) = repeat v n)
      by (induction n as [|n IH]; intros k; simpl; [reflexivity|rewrite IH; reflexivity]).
    apply G.
  - intros k st' Hk [L N]. destruct s as [v|m]; [reflexivity|]. cbn [sc_read].
    rewrite N by (apply Hs; reflexivity). destruct (m <? k); reflexivity.
Qed.
Lemma dim_op_assign_other st l :
  dim_op_assign d op st (Other l) = map (fun i => op (nth i st d) (nth i l d)) (seq 0 (length st)).
Proof.
  apply for_each_spec. intros k st' Hk [L N]. rewrite N by exact Hk.
  rewrite (proj2 (Nat.ltb_ge k k)) by lia. reflexivity.
Qed.
Lemma dim_op_assign_scalar_spec st s :
  dim_op_assign_scalar d op st s = map (fun i => op (nth i st d) (sc_read d st s)) (seq 0 (length st)).
Proof.
  apply for_each_spec. intros k st' Hk [L N]. rewrite N by exact Hk.
  rewrite (proj2 (Nat.ltb_ge k k)) by lia. reflexivity.
Qed.

Lemma swap_loop_spec n (a b : list T) : n <= length a -> length a = length b ->
  let (a', b') := swap_loop d n a b in
  a' = firstn n b ++ skipn n a /\ b' = firstn n a ++ skipn n b.
Proof.
  intros Hn E. induction n as [|n IH]; [split; reflexivity|]. cbn [swap_loop].
  specialize (IH ltac:(lia)). destruct (swap_loop d n a b) as [a' b']. destruct IH as [-> ->].
  assert (S1 : forall (x y : list T), n < length x -> length x = length y ->
     upd (firstn n y ++ skipn n x) n (nth n y d) = firstn (S n) y ++ skipn (S n) x).
  { intros x y Hx Hy. apply (list_eq_nth _ _ d).
    - rewrite upd_length, !app_length, !firstn_length, !skipn_length. lia.
    - intros i Hi. rewrite upd_length, app_length, firstn_length, skipn_length in Hi.
      rewrite upd_nth, app_length, firstn_length, skipn_length.
      rewrite (proj2 (Nat.ltb_lt n _)) by lia. rewrite andb_true_r.
      destruct (Nat.eqb_spec i n) as [->|Ni].
      + rewrite app_nth1 by (rewrite firstn_length; lia). rewrite nth_firstn by lia. reflexivity.
      + destruct (Nat.lt_ge_cases i n).
        * rewrite !app_nth1 by (rewrite firstn_length; lia). rewrite !nth_firstn by lia. reflexivity.
        * rewrite !app_nth2 by (rewrite firstn_length; lia). rewrite !firstn_length, !nth_skipn. f_equal. lia. }
  assert (G1 : nth n (firstn n a ++ skipn n b) d = nth n b d).
  { rewrite app_nth2 by (rewrite firstn_length; lia). rewrite firstn_length, nth_skipn. f_equal. lia. }
  assert (G2 : nth n (firstn n b ++ skipn n a) d = nth n a d).
  { rewrite app_nth2 by (rewrite firstn_length; lia). rewrite firstn_length, nth_skipn. f_equal. lia. }
  rewrite G1, G2, !S1 by lia. split; reflexivity.
Qed.
End Loop.

(** * index checks *)
Local Open Scope Z_scope.
Lemma check_ranges_spec dims ids : length ids = length dims -> Forall (fun i => 0 <= i) ids ->
  (check_ranges dims ids = Ok tt /\ in_box dims ids) \/ (check_ranges dims ids = Throw /\ ~ in_box dims ids).
Proof.
  revert ids; induction dims as [|n dims IH]; intros [|i ids] L P; try discriminate.
  - left. split; [reflexivity|constructor].
  - inversion P; subst. cbn [check_ranges]. rewrite Z.geb_leb. destruct (Z.leb_spec n i).
    + right. split; [reflexivity|]. intros B. inversion B; subst. lia.
    + destruct (IH ids) as [[E B]|[E B]]; [simpl in L; lia|assumption| |]; rewrite E.
      * left. split; [reflexivity|constructor; [lia|exact B]].
      * right. split; [reflexivity|]. intros B'. inversion B'; subst. auto.
Qed.
Lemma assert_ranges_spec dims ids : length ids = length dims -> Forall (fun i => 0 <= i) ids ->
  (forall dbg, assert_ranges dbg dims ids = Ok tt) /\ in_box dims ids
  \/ assert_ranges true dims ids = AssertFail /\ assert_ranges false dims ids = Ok tt /\ ~ in_box dims ids.
Proof.
  revert ids; induction dims as [|n dims IH]; intros [|i ids] L P; try discriminate.
  - left. split; [reflexivity|constructor].
  - inversion P; subst. cbn [assert_ranges]. unfold assert_then. cbn [andb].
    destruct (IH ids) as [[E B]|(E1 & E2 & B)]; [simpl in L; lia|assumption| |];
    destruct (Z.ltb_spec i n); cbn [negb].
    + left. split; [intros []; apply E|constructor; [lia|exact B]].
    + right. split; [reflexivity|]. split; [apply E|]. intros B'. inversion B'; subst. lia.
    + right. split; [exact E1|]. split; [exact E2|]. intros B'. inversion B'; subst. auto.
    + right. split; [reflexivity|]. split; [exact E2|]. intros B'. inversion B'; subst. auto.
Qed.
Lemma ma_element_lin dims ids : length ids = length dims -> ma_element dims ids = lin dims ids.
Proof.
  intros H. unfold ma_element. rewrite static_linearize_dot; cbn [contiguous exts strs]; auto using make_strides_length.
  apply dot_strides. exact H.
Qed.

(** * column-major strides as coded *)
Lemma col_strides_length dims : length (col_strides dims) = length dims.
Proof. unfold col_strides. rewrite map_length, seq_length. reflexivity. Qed.

Lemma stride_rec_skip l i : (i < length l)%nat ->
  stride_rec (skipn i l) (length l - i - 1) = get (make_strides l) i.
Proof.
  intros H. unfold make_strides, get, rank. 
  rewrite (nth_indep _ 0 ((fun i => stride_rec (skipn i l) (length l - i - 1)) 0%nat)) by (rewrite map_length, seq_length; exact H).
  rewrite (map_nth (fun i => stride_rec (skipn i l) (length l - i - 1))), seq_nth by exact H. reflexivity.
Qed.
Lemma col_strides_rev dims : col_strides dims = rev (make_strides dims).
Proof.
  apply (list_eq_nth _ _ 0).
  - rewrite rev_length, col_strides_length, make_strides_length. reflexivity.
  - intros i Hi. rewrite col_strides_length in Hi. rewrite rev_nth by (rewrite make_strides_length; exact Hi).
    rewrite make_strides_length. unfold col_strides.
    rewrite (nth_indep _ 0 ((fun i => stride_rec (skipn (length dims - i - 1) dims) i) 0%nat)) by (rewrite map_length, seq_length; exact Hi).
    rewrite (map_nth (fun i => stride_rec (skipn (length dims - i - 1) dims) i)), seq_nth by exact Hi. cbn [Nat.add].
    change (nth (length dims - S i) (make_strides dims) 0) with (get (make_strides dims) (length dims - S i)).
    rewrite <- stride_rec_skip by lia. f_equal; [f_equal; lia|lia].
Qed.
Lemma dot_app a b c e : length a = length c -> dot (a ++ b) (c ++ e) = dot a c + dot b e.
Proof. revert c; induction a as [|x a IH]; intros [|y c] H; try discriminate; simpl; [reflexivity|]. rewrite IH by (simpl in H; lia). lia. Qed.
Lemma dot_rev a b : length a = length b -> dot (rev a) (rev b) = dot a b.
Proof.
  revert b; induction a as [|x a IH]; intros [|y b] H; try discriminate; [reflexivity|].
  cbn [rev]. rewrite dot_app by (rewrite !rev_length; simpl in H; lia). rewrite IH by (simpl in H; lia). simpl. lia.
Qed.
Lemma col_element_lin dims ids : length ids = length dims -> col_element dims ids = lin dims (rev ids).
Proof.
  intros H. unfold col_element. rewrite static_linearize_dot; cbn [exts strs]; [|exact H|apply col_strides_length].
  rewrite col_strides_rev. rewrite <- (rev_involutive ids) at 1.
  rewrite dot_rev by (rewrite rev_length, make_strides_length; exact H).
  apply dot_strides. rewrite rev_length. exact H.
Qed.
Lemma in_box_app a b c e : in_box a b -> in_box c e -> in_box (a ++ c) (b ++ e).
Proof. intros H1 H2. apply Forall2_app; assumption. Qed.
Lemma in_box_rev e i : in_box e i -> in_box (rev e) (rev i).
Proof. induction 1; simpl; [constructor|]. apply in_box_app; [assumption|]. repeat constructor; apply H. Qed.
