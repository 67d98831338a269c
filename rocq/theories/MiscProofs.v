From Coq Require Import List Arith ZArith Bool Lia Sorting.Sorted Sorting.Permutation.
From Verif Require Import Outcome ListExtra MiscModel.
Import ListNotations.

(** * zip *)
Section Zip.
Context {T : Type}.
(** length of the shortest container (of a non-empty list of containers) *)
Fixpoint shortest (cs : list (list T)) : nat :=
  match cs with
  | [] => 0
  | [c] => length c
  | c :: cs' => Nat.min (length c) (shortest cs')
  end.
Lemma shortest_le (cs : list (list T)) c : In c cs -> shortest cs <= length c.
Proof.
  induction cs as [|a cs IH]; intros H; [contradiction|].
  destruct cs as [|b cs].
  - destruct H as [->|[]]. simpl. lia.
  - destruct H as [->|H]; cbn [shortest] in *; [lia|]. specialize (IH H). lia.
Qed.
Lemma shortest_attained (cs : list (list T)) : cs <> [] -> exists c, In c cs /\ shortest cs = length c.
Proof.
  induction cs as [|a cs IH]; intros H; [congruence|].
  destruct cs as [|b cs]; [exists a; simpl; auto|].
  destruct IH as (c & Hc & E); [discriminate|].
  destruct (Nat.le_gt_cases (length a) (shortest (b :: cs))).
  - exists a. split; [left; reflexivity|]. cbn [shortest] in *. lia.
  - exists c. split; [right; exact Hc|]. cbn [shortest] in *. lia.
Qed.

Lemma neq_spec (cs : list (list T)) k : cs <> [] -> k <= shortest cs ->
  not_equal_tuples (map (fun _ => k) cs) (map (@length T) cs) = (k <? shortest cs).
Proof.
  induction cs as [|a cs IH]; intros H Hk; [congruence|].
  destruct cs as [|b cs].
  - simpl in *. destruct (Nat.eqb_spec k (length a)), (Nat.ltb_spec k (length a)); simpl; auto; lia.
  - change (negb (k =? length a) && not_equal_tuples (map (fun _ => k) (b :: cs)) (map (@length T) (b :: cs))
            = (k <? Nat.min (length a) (shortest (b :: cs)))).
    cbn [shortest] in Hk. change (match cs with [] => length b | _ :: _ => Nat.min (length b) (shortest cs) end)
      with (shortest (b :: cs)) in Hk.
    rewrite IH by (try discriminate; lia).
    destruct (Nat.eqb_spec k (length a)), (Nat.ltb_spec k (shortest (b :: cs))),
      (Nat.ltb_spec k (Nat.min (length a) (shortest (b :: cs)))); simpl; auto; lia.
Qed.

Lemma deref_all_spec (cs : list (list T)) k : (forall c, In c cs -> k < length c) ->
  exists row, deref_all cs (map (fun _ => k) cs) = Ok row /\
              map Some row = map (fun c => nth_error c k) cs.
Proof.
  induction cs as [|c cs IH]; intros H; simpl.
  - exists []. auto.
  - destruct (nth_error c k) as [v|] eqn:E.
    + destruct IH as (row & -> & Er); [intros; apply H; right; auto|].
      exists (v :: row). simpl. rewrite Er. auto.
    + apply nth_error_None in E. specialize (H c (or_introl eq_refl)). lia.
Qed.

Lemma zip_loop_spec (cs : list (list T)) : cs <> [] -> forall n k fuel,
  n = shortest cs - k -> k <= shortest cs -> n < fuel ->
  exists rows, zip_loop fuel cs (map (fun _ => k) cs) (map (@length T) cs) = Some (Ok rows) /\
    map (map Some) rows = map (fun i => map (fun c => nth_error c i) cs) (seq k n).
Proof.
  intros Hcs. induction n as [|n IH]; intros k fuel Hn Hk Hf;
    (destruct fuel as [|fuel]; [lia|]); cbn [zip_loop]; rewrite neq_spec by auto.
  - destruct (Nat.ltb_spec k (shortest cs)); [lia|]. exists []. auto.
  - destruct (Nat.ltb_spec k (shortest cs)); [|lia].
    destruct (deref_all_spec cs k) as (row & -> & Er).
    { intros c Hc. pose proof (shortest_le cs c Hc). lia. }
    unfold incr_all. rewrite map_map.
    destruct (IH (S k) fuel) as (rows & -> & Ers); [lia|lia|lia|].
    exists (row :: rows). split; [reflexivity|]. simpl. rewrite Er, Ers. reflexivity.
Qed.
End Zip.

Lemma zip_check_accepts sizes : 2 <= length sizes ->
  (zip_check true sizes = Ok tt <-> forall i j, 1 <= i < length sizes -> 1 <= j < length sizes ->
     nth i sizes 0 = nth j sizes 0).
Proof.
  intros H. destruct sizes as [|a [|b rest]]; simpl in H; try lia.
  unfold zip_check, assert_then. simpl.
  assert (E : forallb (fun s => b =? s) rest = true <-> forall i, i < length rest -> nth i rest 0 = b).
  { rewrite forallb_forall. split.
    - intros F i Hi. specialize (F (nth i rest 0) (nth_In _ _ Hi)). apply Nat.eqb_eq in F. auto.
    - intros F x Hx. destruct (In_nth _ _ 0 Hx) as (i & Hi & <-). apply Nat.eqb_eq.
      symmetry. apply F. exact Hi. }
  destruct (forallb (fun s => b =? s) rest) eqn:F; cbn [negb].
  - split; [|reflexivity]. intros _ i j Hi Hj.
    assert (G : forall i, 1 <= i < S (S (length rest)) -> nth i (a :: b :: rest) 0 = b).
    { intros k Hk. destruct k as [|[|k]]; simpl; [lia|reflexivity|]. apply E; [reflexivity|lia]. }
    change (nth i (a :: b :: rest) 0 = nth j (a :: b :: rest) 0). rewrite !G by lia. reflexivity.
  - split; [discriminate|]. intros G. exfalso.
    assert (K : false = true); [|discriminate]. apply E. intros i Hi.
    apply (G (S (S i)) 1); lia.
Qed.

(** * filter_iterator *)
Section Filter.
Context {T : Type}.
Variable pred : T -> bool.
Lemma first_match_le xs q x : nth_error xs q = Some x -> pred x = true -> first_match pred xs <= q.
Proof.
  revert q; induction xs as [|a xs IH]; intros q; simpl; [lia|].
  destruct q; simpl.
  - intros E; injection E as <-. intros ->. lia.
  - intros E P. destruct (pred a); [lia|]. specialize (IH q E P). lia.
Qed.
Lemma first_match_spec xs : 
  (forall i x, i < first_match pred xs -> nth_error xs i = Some x -> pred x = false) /\
  (first_match pred xs < length xs -> exists x, nth_error xs (first_match pred xs) = Some x /\ pred x = true) /\
  first_match pred xs <= length xs.
Proof.
  induction xs as [|a xs (H1 & H2 & H3)]; simpl.
  - split; [intros; lia|]. split; [lia|lia].
  - destruct (pred a) eqn:P.
    + split; [intros; lia|]. split; [|lia]. intros _. exists a. auto.
    + split; [|split; [|lia]].
      * intros i x Hi E. destruct i; simpl in E; [congruence|]. apply (H1 i); [lia|exact E].
      * intros Hl. apply H2. lia.
Qed.
Lemma nth_error_skipn {A} (l : list A) k i : nth_error (skipn k l) i = nth_error l (k + i).
Proof.
  revert l; induction k as [|k IH]; intros l; [reflexivity|].
  destruct l as [|x l]; simpl; [destruct i; reflexivity|apply IH].
Qed.
Lemma fi_incr_spec xs p : p <= length xs ->
  (forall i x, p <= i < fi_incr pred xs p -> nth_error xs i = Some x -> pred x = false) /\
  (fi_incr pred xs p < length xs ->
     exists x, nth_error xs (fi_incr pred xs p) = Some x /\ pred x = true) /\
  p <= fi_incr pred xs p <= length xs.
Proof.
  intros Hp. unfold fi_incr. destruct (first_match_spec (skipn p xs)) as (H1 & H2 & H3).
  rewrite skipn_length in *. split; [|split; [|lia]].
  - intros i x Hi E. apply (H1 (i - p) x); [lia|]. rewrite nth_error_skipn.
    replace (p + (i - p)) with i by lia. exact E.
  - intros Hl. destruct H2 as (x & E & P); [lia|]. exists x. rewrite nth_error_skipn in E. auto.
Qed.
Lemma fi_stuck xs p x : nth_error xs p = Some x -> pred x = true -> fi_incr pred xs p = p.
Proof.
  intros E P. unfold fi_incr.
  assert (first_match pred (skipn p xs) <= 0); [|lia].
  apply first_match_le with (x := x); [|exact P]. rewrite nth_error_skipn, Nat.add_0_r. exact E.
Qed.
Lemma fi_never_ends xs q x : nth_error xs q = Some x -> pred x = true ->
  forall fuel p, p <= q -> fi_loop pred fuel xs p = None.
Proof.
  intros E P. induction fuel as [|fuel IH]; intros p Hp; [reflexivity|]. cbn [fi_loop].
  assert (Hq : q < length xs) by (apply nth_error_Some; congruence).
  destruct (nth_error xs p) as [y|] eqn:Ey; [|apply nth_error_None in Ey; lia].
  rewrite IH; [reflexivity|]. unfold fi_incr.
  assert (first_match pred (skipn p xs) <= q - p); [|lia].
  apply first_match_le with (x := x); [|exact P]. rewrite nth_error_skipn.
  replace (p + (q - p)) with q by lia. exact E.
Qed.
Lemma fi_no_match xs x t : xs = x :: t -> (forall y, In y xs -> pred y = false) ->
  forall fuel, 2 <= fuel -> fi_loop pred fuel xs (fi_begin) = Some [x].
Proof.
  intros -> H fuel Hf. destruct fuel as [|[|fuel]]; try lia.
  assert (G : forall l, (forall y, In y l -> pred y = false) -> first_match pred l = length l).
  { induction l as [|a l IHl]; intros Hl; simpl; [reflexivity|].
    rewrite (Hl a) by (left; reflexivity). rewrite IHl; [reflexivity|]. intros; apply Hl; right; auto. }
  cbn [fi_loop]. unfold fi_begin at 1. cbn [nth_error].
  assert (E : fi_incr pred (x :: t) fi_begin = length (x :: t)) by (unfold fi_incr, fi_begin; simpl skipn; rewrite G by exact H; reflexivity).
  rewrite E. cbn [length nth_error].
  assert (N : nth_error t (length t) = None) by (apply nth_error_None; lia). rewrite N. reflexivity.
Qed.
End Filter.

(** * algorithm.h *)
Section Unique.
Context {T : Type}.
Variable eqb : T -> T -> bool.
Hypothesis eqb_spec : forall x y, eqb x y = true <-> x = y.

Lemma unique_from_in last l v : In v (unique_from eqb last l) -> In v l.
Proof.
  revert last; induction l as [|y l IH]; intros last; simpl; [auto|].
  destruct (eqb last y); simpl; intros H; [right; eapply IH; eauto|].
  destruct H as [->|H]; [auto|right; eapply IH; eauto].
Qed.
Lemma unique_from_keeps last l v : In v l -> v = last \/ In v (unique_from eqb last l).
Proof.
  revert last; induction l as [|y l IH]; intros last; simpl; [tauto|].
  destruct (eqb last y) eqn:E.
  - apply eqb_spec in E. subst y. intros [->|H]; [auto|]. apply IH. exact H.
  - intros [->|H]; [right; left; reflexivity|]. destruct (IH y H) as [->|H']; right; simpl; auto.
Qed.
(** without sortedness: adjacent elements of the result differ and no value is lost *)
Lemma unique_adjacent l : forall last,
  (forall v, In v (last :: unique_from eqb last l) <-> In v (last :: l)) /\
  forall i a b, nth_error (last :: unique_from eqb last l) i = Some a ->
    nth_error (last :: unique_from eqb last l) (S i) = Some b -> a <> b.
Proof.
  intros last. split.
  - intros v. simpl. split.
    + intros [->|H]; [auto|right; eapply unique_from_in; eauto].
    + intros [->|H]; [auto|]. destruct (unique_from_keeps last l v H) as [->|H']; auto.
  - revert last. induction l as [|y l IH]; intros last i a b.
    + simpl. destruct i as [|[|i]]; simpl; discriminate.
    + cbn [unique_from]. destruct (eqb last y) eqn:E; [apply IH|].
      destruct i as [|i].
      * simpl. intros Ea Eb. injection Ea as <-. injection Eb as <-. intros <-.
        rewrite (proj2 (eqb_spec last last) eq_refl) in E. discriminate.
      * cbn [nth_error]. apply (IH y i).
Qed.
End Unique.

Section Algorithm.
Context {T : Type}.
Variable ltb : T -> T -> bool.
Variable eq_dec : forall x y : T, {x = y} + {x <> y}.
Hypothesis irrefl : forall x, ltb x x = false.
Hypothesis trans : forall x y z, ltb x y = true -> ltb y z = true -> ltb x z = true.
Hypothesis total : forall x y, ltb x y = false -> ltb y x = false -> x = y.

Definition ordered : list T -> Prop := StronglySorted (fun a b => ltb b a = false).
Local Notation count := (count_occ eq_dec).

Lemma asym x y : ltb x y = true -> ltb y x = false.
Proof. intros H. destruct (ltb y x) eqn:E; [|reflexivity]. rewrite <- (irrefl x). symmetry. eapply trans; eauto. Qed.
Lemma le_trans x y z : ltb y x = false -> ltb z y = false -> ltb z x = false.
Proof.
  intros H1 H2. destruct (ltb z x) eqn:E; [|reflexivity]. exfalso.
  destruct (ltb x y) eqn:E1.
  - rewrite (trans z x y E E1) in H2. discriminate.
  - assert (x = y) by (apply total; auto). subst. congruence.
Qed.

Lemma insert_perm x l : Permutation (insert_sorted ltb x l) (x :: l).
Proof.
  induction l as [|y l IH]; simpl; [apply Permutation_refl|].
  destruct (ltb y x); [|apply Permutation_refl].
  rewrite IH. apply perm_swap.
Qed.
Lemma insert_ordered x l : ordered l -> ordered (insert_sorted ltb x l).
Proof.
  induction l as [|y l IH]; intros H; simpl.
  - constructor; [constructor|constructor].
  - inversion H as [|? ? Hs Hf]; subst. destruct (ltb y x) eqn:E.
    + constructor; [apply IH; exact Hs|].
      rewrite Forall_forall in *. intros z Hz.
      apply (Permutation_in z (insert_perm x l)) in Hz. destruct Hz as [<-|Hz].
      * apply asym. exact E.
      * apply Hf. exact Hz.
    + constructor; [exact H|]. constructor; [exact E|].
      rewrite Forall_forall in *. intros z Hz. apply (le_trans x y z); [exact E|].
      apply Hf. exact Hz.
Qed.
Lemma sort_perm l : Permutation (std_sort ltb l) l.
Proof.
  induction l as [|x l IH]; simpl; [apply Permutation_refl|].
  rewrite insert_perm. apply perm_skip. exact IH.
Qed.
Lemma sort_ordered l : ordered (std_sort ltb l).
Proof. induction l as [|x l IH]; simpl; [constructor|apply insert_ordered; exact IH]. Qed.

Lemma inter_step a b : set_intersection ltb a b =
  match a, b with
  | x :: a', y :: b' =>
      if ltb x y then set_intersection ltb a' b
      else if ltb y x then set_intersection ltb a b'
      else x :: set_intersection ltb a' b'
  | _, _ => []
  end.
Proof. destruct a; destruct b; reflexivity. Qed.

Lemma count_zero x l : (forall y, In y l -> ltb x y = true) -> count l x = 0.
Proof.
  intros H. apply count_occ_not_In. intros K. specialize (H x K). rewrite irrefl in H. discriminate.
Qed.
Lemma ordered_inv x l : ordered (x :: l) -> ordered l /\ forall y, In y l -> ltb y x = false.
Proof. intros H. inversion H as [|? ? Hs Hf]; subst. rewrite Forall_forall in Hf. auto. Qed.
Lemma lt_le_trans x y z : ltb x y = true -> ltb z y = false -> ltb x z = true.
Proof.
  intros H1 H2. destruct (ltb x z) eqn:E; [reflexivity|].
  assert (K : ltb y z = true -> ltb x z = true) by (intros; eapply trans; eauto).
  destruct (ltb y z) eqn:E2; [rewrite K in E by reflexivity; discriminate|].
  assert (y = z) by (apply total; auto). subst. congruence.
Qed.

Lemma inter_count : forall n a b v, length a + length b <= n -> ordered a -> ordered b ->
  count (set_intersection ltb a b) v = Nat.min (count a v) (count b v).
Proof.
  induction n as [|n IH]; intros a b v Hn Ha Hb.
  - destruct a; [|simpl in Hn; lia]. rewrite inter_step. reflexivity.
  - rewrite inter_step. destruct a as [|x a]; [reflexivity|].
    destruct b as [|y b]; [simpl; destruct (eq_dec x v); lia|].
    simpl in Hn. destruct (ordered_inv _ _ Ha) as [Ha' Hax]. destruct (ordered_inv _ _ Hb) as [Hb' Hby].
    destruct (ltb x y) eqn:E1; [|destruct (ltb y x) eqn:E2].
    + rewrite IH by (auto; simpl; lia).
      cbn [count_occ]. destruct (eq_dec x v) as [->|]; [|reflexivity].
      assert (Z0 : count (y :: b) v = 0).
      { apply count_zero. intros z [<-|Hz]; [exact E1|]. apply (lt_le_trans v y z E1 (Hby z Hz)). }
      cbn [count_occ] in Z0. rewrite Z0. lia.
    + rewrite IH by (auto; simpl; lia).
      cbn [count_occ]. destruct (eq_dec y v) as [->|]; [|reflexivity].
      assert (Z0 : count (x :: a) v = 0).
      { apply count_zero. intros z [<-|Hz]; [exact E2|]. apply (lt_le_trans v x z E2 (Hax z Hz)). }
      cbn [count_occ] in Z0. rewrite Z0. lia.
    + assert (x = y) by (apply total; auto). subst y.
      cbn [count_occ]. rewrite IH by (auto; lia). destruct (eq_dec x v); lia.
Qed.

Lemma inter_in : forall n a b v, length a + length b <= n -> In v (set_intersection ltb a b) -> In v a.
Proof.
  induction n as [|n IH]; intros a b v Hn.
  - destruct a; [|simpl in Hn; lia]. simpl. destruct b; auto.
  - rewrite inter_step. destruct a as [|x a]; [contradiction|]. destruct b as [|y b]; [contradiction|].
    simpl in Hn. destruct (ltb x y); [|destruct (ltb y x)]; intros H.
    + right. apply (IH a (y :: b)); [simpl; lia|exact H].
    + apply (IH (x :: a) b); [simpl; lia|exact H].
    + destruct H as [<-|H]; [left; reflexivity|]. right. apply (IH a b); [lia|exact H].
Qed.
Lemma inter_ordered : forall n a b, length a + length b <= n -> ordered a -> ordered b ->
  ordered (set_intersection ltb a b).
Proof.
  induction n as [|n IH]; intros a b Hn Ha Hb.
  - destruct a; [|simpl in Hn; lia]. simpl. destruct b; constructor.
  - rewrite inter_step. destruct a as [|x a]; [constructor|]. destruct b as [|y b]; [constructor|].
    simpl in Hn. destruct (ordered_inv _ _ Ha) as [Ha' Hax]. destruct (ordered_inv _ _ Hb) as [Hb' Hby].
    destruct (ltb x y); [|destruct (ltb y x)].
    + apply IH; auto; simpl; lia.
    + apply IH; auto; simpl; lia.
    + constructor; [apply IH; auto; lia|]. rewrite Forall_forall. intros z Hz.
      apply inter_in with (n := n) in Hz; [|lia]. apply Hax. exact Hz.
Qed.

Lemma intersection_spec a b :
  ordered (unsorted_set_intersection ltb a b) /\
  forall v, count (unsorted_set_intersection ltb a b) v = Nat.min (count a v) (count b v).
Proof.
  unfold unsorted_set_intersection. split.
  - eapply inter_ordered; [apply le_n|apply sort_ordered|apply sort_ordered].
  - intros v. rewrite (inter_count _ (std_sort ltb a) (std_sort ltb b) v (le_n _));
      try apply sort_ordered.
    rewrite (proj1 (Permutation_count_occ eq_dec _ _) (sort_perm a)).
    rewrite (proj1 (Permutation_count_occ eq_dec _ _) (sort_perm b)). reflexivity.
Qed.

Variable eqb : T -> T -> bool.
Hypothesis eqb_spec : forall x y, eqb x y = true <-> x = y.

Lemma unique_ordered l : forall last, (forall y, In y l -> ltb y last = false) -> ordered l ->
  NoDup (unique_from eqb last l) /\ ~ In last (unique_from eqb last l).
Proof.
  induction l as [|y l IH]; intros last Hl Ho; simpl; [split; [constructor|auto]|].
  destruct (ordered_inv _ _ Ho) as [Ho' Hy].
  destruct (eqb last y) eqn:E.
  - apply eqb_spec in E. subst y. apply IH; auto. 
  - destruct (IH y Hy Ho') as [ND NI]. split; [constructor; assumption|].
    intros [->|H]; [rewrite (proj2 (eqb_spec last last) eq_refl) in E; discriminate|].
    apply unique_from_in in H.
    assert (last = y).
    { apply total; [apply (Hy last H)|apply Hl; left; reflexivity]. }
    subst y. rewrite (proj2 (eqb_spec last last) eq_refl) in E. discriminate.
Qed.
Lemma remove_duplicates_sorted l : ordered l ->
  NoDup (remove_duplicates eqb l) /\ forall v, In v (remove_duplicates eqb l) <-> In v l.
Proof.
  intros Ho. destruct l as [|x l]; simpl; [split; [constructor|tauto]|].
  destruct (ordered_inv _ _ Ho) as [Ho' Hx].
  destruct (unique_ordered l x Hx Ho') as [ND NI].
  split; [constructor; assumption|]. intros v. split.
  - intros [->|H]; [auto|right; eapply unique_from_in; eauto].
  - intros [->|H]; [auto|]. destruct (unique_from_keeps eqb eqb_spec x l v H) as [->|H']; auto.
Qed.
End Algorithm.

(** * time *)
Lemma dhms_spec t d h m s : (0 <= t)%Z -> dhms t = (d, h, m, s) ->
  (86400 * d + 3600 * h + 60 * m + s = t /\ 0 <= d /\ 0 <= h < 24 /\ 0 <= m < 60 /\ 0 <= s < 60)%Z.
Proof.
  intros Ht E. unfold dhms in E. injection E as <- <- <- <-.
  assert (H1 := Z.quot_rem t 86400 ltac:(lia)).
  assert (B1 := Z.rem_bound_pos t 86400 Ht ltac:(lia)).
  assert (Q1 : (0 <= Z.quot t 86400)%Z) by (apply Z.quot_pos; lia).
  set (r1 := Z.rem t 86400) in *.
  assert (H2 := Z.quot_rem r1 3600 ltac:(lia)).
  assert (B2 := Z.rem_bound_pos r1 3600 ltac:(lia) ltac:(lia)).
  assert (Q2 : (0 <= Z.quot r1 3600)%Z) by (apply Z.quot_pos; lia).
  set (r2 := Z.rem r1 3600) in *.
  assert (H3 := Z.quot_rem r2 60 ltac:(lia)).
  assert (B3 := Z.rem_bound_pos r2 60 ltac:(lia) ltac:(lia)).
  assert (Q3 : (0 <= Z.quot r2 60)%Z) by (apply Z.quot_pos; lia).
  rewrite Z.quot_1_r. lia.
Qed.
Lemma dhms_unique d h m s d' h' m' s' :
  (86400 * d + 3600 * h + 60 * m + s = 86400 * d' + 3600 * h' + 60 * m' + s' ->
   0 <= h < 24 -> 0 <= m < 60 -> 0 <= s < 60 -> 0 <= h' < 24 -> 0 <= m' < 60 -> 0 <= s' < 60 ->
   d = d' /\ h = h' /\ m = m' /\ s = s')%Z.
Proof. lia. Qed.
Lemma dhms_negative t d h m s : (t <= 0)%Z -> dhms t = (d, h, m, s) ->
  dhms (- t) = (- d, - h, - m, - s)%Z.
Proof.
  intros Ht E. unfold dhms in *. injection E as <- <- <- <-.
  rewrite !Z.quot_1_r.
  rewrite Z.quot_opp_l, Z.rem_opp_l by lia.
  rewrite Z.quot_opp_l, Z.rem_opp_l by lia.
  rewrite Z.quot_opp_l, Z.rem_opp_l by lia.
  reflexivity.
Qed.

(** * strings *)
Lemma c_prefix_nonul s : ~ In 0%Z s -> c_prefix s = s.
Proof.
  induction s as [|c s IH]; simpl; intros H; [reflexivity|].
  destruct (Z.eqb_spec c 0); [exfalso; apply H; auto|]. rewrite IH by tauto. reflexivity.
Qed.
Lemma c_prefix_no0 s : ~ In 0%Z (c_prefix s).
Proof.
  induction s as [|c s IH]; simpl; [tauto|].
  destruct (Z.eqb_spec c 0); simpl; [tauto|]. intros [->|H]; [congruence|tauto].
Qed.
Lemma read_c_spec c r : ~ In 0%Z c -> read_c (map Some c ++ Some 0%Z :: r) = Ok c.
Proof.
  induction c as [|x c IH]; simpl; intros H; [reflexivity|].
  destruct (Z.eqb_spec x 0); [exfalso; apply H; auto|]. rewrite IH by tauto. reflexivity.
Qed.
Lemma trivial_string_fits N s : length (c_prefix s) < N ->
  exists b, to_trivial_string N s = Ok b /\ length b = N /\ ts_str b = Ok (c_prefix s).
Proof.
  intros H. unfold to_trivial_string.
  destruct (Nat.leb_spec (length (c_prefix s) + 1) N); [|lia].
  eexists. split; [reflexivity|]. split.
  - rewrite app_length, map_length. cbn [length]. rewrite repeat_length. lia.
  - apply read_c_spec. apply c_prefix_no0.
Qed.
Lemma trivial_string_overflow N s : N <= length (c_prefix s) -> to_trivial_string N s = UB.
Proof.
  intros H. unfold to_trivial_string.
  destruct (Nat.leb_spec (length (c_prefix s) + 1) N); [lia|reflexivity].
Qed.

(** * loops *)
Section Loops.
Context {St : Type}.
Variable f : nat -> St -> St.
Lemma visit_ws_seq n s : visit_ws f n s = fold_left (fun s i => f i s) (seq 0 (S n)) s.
Proof.
  induction n as [|n IH]; [reflexivity|].
  rewrite seq_S, fold_left_app. simpl visit_ws. rewrite IH. reflexivity.
Qed.
End Loops.
Lemma gens_seq N l : gens N l = seq 0 N ++ l.
Proof.
  revert l; induction N as [|N IH]; intros l; [reflexivity|].
  cbn [gens]. rewrite IH, seq_S, <- app_assoc. reflexivity.
Qed.
Lemma tuple_zip_combine {A B} (da : A) (db : B) t1 t2 : length t1 = length t2 ->
  tuple_zip da db t1 t2 = combine t1 t2.
Proof.
  intros H. unfold tuple_zip. rewrite gens_seq, app_nil_r.
  apply list_eq_nth with (d := (da, db)).
  - rewrite map_length, seq_length, combine_length. lia.
  - intros i Hi. rewrite map_length, seq_length in Hi.
    rewrite combine_nth by exact H.
    rewrite (nth_indep _ _ ((fun i => (nth i t1 da, nth i t2 db)) 0)) by (rewrite map_length, seq_length; lia).
    rewrite (map_nth (fun i => (nth i t1 da, nth i t2 db))). rewrite seq_nth by lia. reflexivity.
Qed.
Lemma list_set_length {A} (l : list A) i v : length (list_set l i v) = length l.
Proof. revert i; induction l; destruct i; simpl; auto. Qed.
Lemma list_set_nth {A} (l : list A) i v j d : i < length l ->
  nth j (list_set l i v) d = if j =? i then v else nth j l d.
Proof.
  revert i j; induction l as [|x l IH]; intros i j H; simpl in H; [lia|].
  destruct i, j; simpl; try reflexivity. apply IH. lia.
Qed.

(** a left-to-right loop that sets component i to g i of the original operands *)
Lemma set_loop {A} (g : nat -> A) (d : A) : forall n t, n <= length t ->
  let r := fold_left (fun t i => list_set t i (g i)) (seq 0 n) t in
  length r = length t /\ forall j, nth j r d = if j <? n then g j else nth j t d.
Proof.
  induction n as [|n IH]; intros t H; [simpl; auto|].
  rewrite seq_S, fold_left_app. cbn zeta. destruct (IH t) as [L N]; [lia|]. cbn [fold_left].
  split; [rewrite list_set_length; exact L|].
  intros j. rewrite list_set_nth by (rewrite L; simpl; lia). rewrite N. simpl.
  destruct (Nat.eqb_spec j n) as [->|].
  - destruct (Nat.ltb_spec n (S n)); [reflexivity|lia].
  - destruct (Nat.ltb_spec j n), (Nat.ltb_spec j (S n)); try reflexivity; lia.
Qed.

Fixpoint map2 {A} (op : A -> A -> A) (a b : list A) : list A :=
  match a, b with x :: a', y :: b' => op x y :: map2 op a' b' | _, _ => [] end.
Lemma map2_length {A} (op : A -> A -> A) a b : length (map2 op a b) = Nat.min (length a) (length b).
Proof. revert b; induction a; destruct b; simpl; auto. Qed.
Lemma map2_nth {A} (op : A -> A -> A) a b i d : i < length a -> i < length b ->
  nth i (map2 op a b) d = op (nth i a d) (nth i b d).
Proof.
  revert b i; induction a as [|x a IH]; intros [|y b] i; simpl; try lia.
  destruct i; intros; [reflexivity|]. apply IH; lia.
Qed.

Lemma tuple_binop_spec {A} (d : A) op lhs rhs tmp :
  lhs <> [] -> length rhs = length lhs -> length tmp = length lhs ->
  tuple_binop d op lhs rhs tmp = map2 op lhs rhs.
Proof.
  intros Hl Hr Ht. unfold tuple_binop, tuple_visit. rewrite visit_ws_seq.
  assert (H0 : 0 < length lhs) by (destruct lhs; [congruence|simpl; lia]).
  replace (S (length lhs - 1)) with (length lhs) by lia.
  destruct (set_loop (fun i => op (nth i lhs d) (nth i rhs d)) d (length lhs) tmp) as [L N]; [lia|].
  apply list_eq_nth with (d := d).
  - rewrite L, map2_length. lia.
  - intros i Hi. rewrite L in Hi. rewrite N. destruct (Nat.ltb_spec i (length lhs)); [|lia].
    rewrite map2_nth by lia. reflexivity.
Qed.

Lemma tuple_scalar_eq_spec {A} (d : A) op v lhs :
  tuple_scalar_eq d op (inl v) lhs = map (fun x => op x v) lhs.
Proof.
  unfold tuple_scalar_eq, tuple_for_each, expand_calls, index_sequence.
  assert (G : forall n, n <= length lhs ->
    let r := fold_left (fun t i => list_set t i (op (nth i t d) v)) (seq 0 n) lhs in
    length r = length lhs /\ forall j, nth j r d = if j <? n then op (nth j lhs d) v else nth j lhs d).
  { induction n as [|n IH]; intros H; [simpl; auto|].
    rewrite seq_S, fold_left_app. cbn zeta. destruct IH as [L N]; [lia|]. cbn [fold_left].
    split; [rewrite list_set_length; exact L|].
    intros j. rewrite list_set_nth by (rewrite L; simpl; lia). rewrite !N. simpl.
    destruct (Nat.eqb_spec j n) as [->|].
    - destruct (Nat.ltb_spec n n); [lia|]. destruct (Nat.ltb_spec n (S n)); [reflexivity|lia].
    - destruct (Nat.ltb_spec j n), (Nat.ltb_spec j (S n)); try reflexivity; lia. }
  destruct (G (length lhs) (le_n _)) as [L N].
  apply list_eq_nth with (d := d).
  - rewrite L, map_length. reflexivity.
  - intros i Hi. rewrite L in Hi. rewrite N. destruct (Nat.ltb_spec i (length lhs)); [|lia].
    rewrite (nth_indep (map (fun x => op x v) lhs) d (op d v)) by (rewrite map_length; lia).
    rewrite (map_nth (fun x => op x v)). reflexivity.
Qed.

Lemma fill_apply_repeat {A} N (v : A) vs : 1 <= N -> fill_apply N v vs = repeat v N ++ vs.
Proof.
  revert vs. induction N as [|N IH]; intros vs H; [lia|].
  destruct N as [|N]; [reflexivity|].
  change (fill_apply (S (S N)) v vs) with (fill_apply (S N) v (v :: vs)).
  rewrite IH by lia. change (repeat v (S (S N))) with (v :: repeat v (S N)).
  rewrite (repeat_cons (S N) v), <- app_assoc. reflexivity.
Qed.
