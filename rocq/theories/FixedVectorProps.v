(** Property theorems for ristra/utils/fixed_vector.h (C01-C06, C75). *)
From Coq Require Import List Arith ZArith Bool Lia.
From Verif Require Import Outcome ListExtra FixedVectorModel FixedVectorProofs.
Import ListNotations.

(** C01. Every history from the empty vector shows the sequence of the specification; refused
    operations fail the assertion (no write happens). [Memmove]: T trivially copyable. *)
Theorem C01_bounded_list : forall (T : Type) (N : nat) (os : list (op T)),
  Forall (no_wrap N) os ->
  match spec_run N [] os with
  | SOk l => exists s, run true Memmove (fv_empty N) os = Ok s /\ shows N s l
  | SReject => run true Memmove (fv_empty N) os = AssertFail
  | SUndefined => True
  end.
Proof.
  exact (fun T N os H =>
    match spec_run N [] os as r return
      (match r with
       | SOk q' => exists s', run true Memmove (fv_empty N) os = Ok s' /\ rep N s' q'
       | SReject => run true Memmove (fv_empty N) os = AssertFail
       | SUndefined => True end ->
       match r with
       | SOk l => exists s, run true Memmove (fv_empty N) os = Ok s /\ shows N s l
       | SReject => run true Memmove (fv_empty N) os = AssertFail
       | SUndefined => True end) with
    | SOk l => fun h => match h with ex_intro _ s (conj a b) =>
                 ex_intro _ s (conj a (proj2 (shows_rep N s l) b)) end
    | SReject => fun h => h
    | SUndefined => fun h => h
    end (run_refines N os (fv_empty N) [] (empty_rep N) H)).
Qed.
Print Assumptions C01_bounded_list.

Example C01_case :
  Forall (no_wrap 4) [OPush 1; OPush 2; OInsert 1 7; OEraseRange 0 1; OInsertFill 1 2 9]
  /\ spec_run 4 [] [OPush 1; OPush 2; OInsert 1 7; OEraseRange 0 1; OInsertFill 1 2 9]
     = SOk [7; 9; 9; 2]
  /\ spec_run 4 [] [OAssignFill 4 0; OPush 1] = SReject.
Proof.
  split; [|split; vm_compute; reflexivity].
  repeat (apply Forall_cons; [first [exact I | vm_compute; reflexivity]|]). apply Forall_nil.
Qed.

(** In a release build (asserts compiled out) accepted histories behave identically. *)
Theorem C01_release : forall (T : Type) (N : nat) (os : list (op T)) (l : list T),
  Forall (no_wrap N) os -> spec_run N [] os = SOk l ->
  exists s, run false Memmove (fv_empty N) os = Ok s /\ shows N s l.
Proof.
  exact (fun T N os l H E =>
    match run_release N os (fv_empty N) [] l (empty_rep N) H E with
    | ex_intro _ s (conj a b) => ex_intro _ s (conj a (proj2 (shows_rep N s l) b)) end).
Qed.
Print Assumptions C01_release.

(** Without the no-wrap hypothesis the claim fails: insert(end(), 2^64-1, x) on a vector of size 1
    passes the assert (size()+count wraps to 0) and then writes outside the storage. *)
Theorem C01_wrap_refuted : exists (s : fv nat) (count : Z),
  shows 2 s [5] /\ (0 <= count < two64)%Z /\
  insert_fill true Memmove s 1 count (AVal 7) = UB.
Proof.
  exists (mkfv [Some 5; None] 1), (two64 - 1)%Z.
  split; [|split]; [repeat split; simpl; lia| | vm_compute; reflexivity].
  vm_compute. split; [discriminate|reflexivity].
Qed.
Print Assumptions C01_wrap_refuted.

(** C02. *)
Theorem C02_at : forall (T : Type) (N : nat) (s : fv T) (l : list T) (i : nat),
  shows N s l ->
  at_ s i = match nth_error l i with Some v => Ok (Some v) | None => Throw end.
Proof. exact (fun T N s l i H => at_spec N s l i (proj1 (shows_rep N s l) H)). Qed.
Print Assumptions C02_at.

Example C02_case : shows 3 (mkfv [Some 4; Some 5; Some 6] 2) [4; 5]
  /\ at_ (mkfv [Some 4; Some 5; Some 6] 2) 2 = Throw
  /\ at_ (mkfv [Some 4; Some 5; Some 6] 2) 1 = Ok (Some 5).
Proof. repeat split; simpl; lia. Qed.

(** [], front(), back() are the first and last elements; a copy shows the same sequence; swap
    exchanges the sequences. *)
Theorem C01_access_copy_swap : forall (T : Type) (N : nat) (s t : fv T) (l m : list T),
  shows N s l -> shows N t m ->
  (forall i v, nth_error l i = Some v -> index s i = Ok (Some v)) /\
  (forall v r, l = v :: r -> front s = Ok (Some v)) /\
  (forall v r, l = r ++ [v] -> back s = Ok (Some v)) /\
  shows N (copy_ctor s) l /\
  shows N (fst (swap s t)) m /\ shows N (snd (swap s t)) l.
Proof.
  intros T N s t l m Hs Ht.
  assert (IX : forall i v, nth_error l i = Some v -> index s i = Ok (Some v)).
  { intros i v E. pose proof (C02_at T N s l i Hs) as A. rewrite E in A. unfold at_ in A.
    destruct (len s <=? i); [discriminate|exact A]. }
  split; [exact IX|]. split; [intros v r ->; apply IX; reflexivity|].
  destruct Hs as (Hcap & Hlen & Hc). pose proof (f_equal (@length _) Hc) as HL.
  unfold contents in HL. rewrite firstn_length, map_length in HL. unfold capacity in *.
  split.
  { intros v r ->. unfold back. rewrite app_length in HL. cbn [length] in HL.
    destruct (Nat.eqb_spec (len s) 0) as [Z|_]; [lia|]. apply IX.
    rewrite nth_error_app2 by lia. replace (len s - 1 - length r) with 0 by lia. reflexivity. }
  split.
  { unfold copy_ctor, shows, contents, capacity. cbn [store len]. unfold contents in Hc.
    rewrite Hc, app_length, map_length, repeat_length.
    rewrite firstn_app, firstn_all2 by (rewrite map_length; lia). rewrite map_length.
    replace (len s - length l) with 0 by lia. cbn [firstn]. rewrite app_nil_r. repeat split; lia. }
  split; [destruct t; exact Ht|]. destruct s; repeat split; assumption.
Qed.
Print Assumptions C01_access_copy_swap.

(** C03. Element-by-element front-to-back copying destroys the suffix. *)
Theorem C03_insert_refuted : exists (s s' : fv nat) (p v : nat) (l l' : list nat),
  shows 4 s l /\ p <= length l /\ length l < 4 /\
  insert1 true ElementLoop s p (AVal v) = Ok (s', p) /\ shows 4 s' l' /\
  l' <> seq_insert l p [v].
Proof.
  exists (mkfv [Some 1; Some 2; Some 3; None] 3), (mkfv [Some 9; Some 1; Some 1; Some 1] 4),
    0, 9, [1; 2; 3], [9; 1; 1; 1].
  repeat split; simpl; try lia. discriminate.
Qed.
Print Assumptions C03_insert_refuted.

(** The exact result: the suffix becomes copies of its first element. *)
Theorem C03_insert_smears : forall (T : Type) dbg N (s : fv T) (l : list T) p v w,
  shows N s l -> p < length l -> length l < N -> nth_error l p = Some w ->
  exists s', insert1 dbg ElementLoop s p (AVal v) = Ok (s', p) /\
             shows N s' (firstn p l ++ [v] ++ repeat w (length l - p)).
Proof.
  exact (fun T dbg N s l p v w H a b c =>
    match insert1_smear dbg N s l p v w (proj1 (shows_rep N s l) H) a b c with
    | ex_intro _ s' (conj e r) => ex_intro _ s' (conj e (proj2 (shows_rep N s' _) r)) end).
Qed.
Print Assumptions C03_insert_smears.

(** Read against the standard's wording, every insertion before the last element is undefined. *)
Theorem C03_insert_strict_ub : forall (T : Type) dbg N (s : fv T) (l : list T) p v,
  shows N s l -> S p < length l -> length l < N ->
  insert1 dbg Strict s p (AVal v) = UB.
Proof.
  exact (fun T dbg N s l p v H => insert1_strict_ub dbg N s l p v (proj1 (shows_rep N s l) H)).
Qed.
Print Assumptions C03_insert_strict_ub.

(** What holds for every element type and every library: positions size()-1 and size().
    Missing: positions before size()-1 (refuted above). *)
Theorem C03_insert_partial : forall (T : Type) dbg m N (s : fv T) (l : list T) p v,
  shows N s l -> p <= length l -> length l <= S p -> length l < N ->
  exists s', insert1 dbg m s p (AVal v) = Ok (s', p) /\ shows N s' (seq_insert l p [v]).
Proof.
  intros T dbg m N s l p v H a b c.
  destruct (insert1_gen dbg m N s l p (AVal v) v (proj1 (shows_rep N s l) H) a c) as (s' & E & R).
  - right. lia.
  - exact I.
  - reflexivity.
  - exists s'. split; [exact E|]. apply shows_rep. exact R.
Qed.
Print Assumptions C03_insert_partial.

Example C03_case : shows 5 (mkfv [Some 1; Some 2; Some 3; None; None] 3) [1; 2; 3]
  /\ insert1 true ElementLoop (mkfv [Some 1; Some 2; Some 3; None; None] 3) 2 (AVal 9)
     = Ok (mkfv [Some 1; Some 2; Some 9; Some 3; None] 4, 2).
Proof. repeat split; simpl; lia. Qed.

(** For trivially copyable T every position works and the returned iterator is right. *)
Theorem C03_insert_trivial : forall (T : Type) dbg N (s : fv T) (l : list T) p v,
  shows N s l -> p <= length l -> length l < N ->
  exists s', insert1 dbg Memmove s p (AVal v) = Ok (s', p) /\ shows N s' (seq_insert l p [v]).
Proof.
  intros T dbg N s l p v H a c.
  destruct (insert1_gen dbg Memmove N s l p (AVal v) v (proj1 (shows_rep N s l) H) a c) as (s' & E & R).
  - left. reflexivity.
  - exact I.
  - reflexivity.
  - exists s'. split; [exact E|]. apply shows_rep. exact R.
Qed.
Print Assumptions C03_insert_trivial.

(** C04. [1] == [1;2] is true; [1;2] == [1] reads an indeterminate cell or stale data. *)
Theorem C04_eq_refuted : exists (a b : fv nat) (la lb : list nat),
  shows 2 a la /\ shows 2 b lb /\ la <> lb /\ fv_eq Nat.eqb a b = Ok true.
Proof.
  exists (mkfv [Some 1; None] 1), (mkfv [Some 1; Some 2] 2), [1], [1; 2].
  repeat split; simpl; try lia; try discriminate.
Qed.
Print Assumptions C04_eq_refuted.

Theorem C04_eq_asymmetric_refuted : exists (a b : fv nat) (la lb : list nat),
  shows 2 a la /\ shows 2 b lb /\ fv_eq Nat.eqb a b = Ok true /\ fv_eq Nat.eqb b a = UB.
Proof.
  exists (mkfv [Some 1; None] 1), (mkfv [Some 1; Some 2] 2), [1], [1; 2].
  repeat split; simpl; lia.
Qed.
Print Assumptions C04_eq_asymmetric_refuted.

(** lhs == rhs tests whether lhs is a prefix of rhs (lhs not longer than rhs). *)
Theorem C04_eq_prefix : forall (T : Type) (eqb : T -> T -> bool) N (a b : fv T) la lb,
  (forall x y, eqb x y = true <-> x = y) ->
  shows N a la -> shows N b lb -> length la <= length lb ->
  exists r, fv_eq eqb a b = Ok r /\ (r = true <-> firstn (length la) lb = la).
Proof.
  exact (fun T eqb N a b la lb He Ha Hb =>
    fv_eq_prefix eqb N a b la lb He (proj1 (shows_rep N a la) Ha) (proj1 (shows_rep N b lb) Hb)).
Qed.
Print Assumptions C04_eq_prefix.

(** Missing: different sizes (refuted above). *)
Theorem C04_eq_partial : forall (T : Type) (eqb : T -> T -> bool) N (a b : fv T) la lb,
  (forall x y, eqb x y = true <-> x = y) ->
  shows N a la -> shows N b lb -> length la = length lb ->
  exists r, fv_eq eqb a b = Ok r /\ (r = true <-> la = lb).
Proof.
  intros T eqb N a b la lb He Ha Hb Hl.
  destruct (C04_eq_prefix T eqb N a b la lb He Ha Hb) as (r & E & H); [lia|].
  exists r. split; [exact E|]. rewrite H, Hl, firstn_all. split; congruence.
Qed.
Print Assumptions C04_eq_partial.

Example C04_case : (forall x y, Nat.eqb x y = true <-> x = y)
  /\ shows 3 (mkfv [Some 1; Some 2; None] 2) [1; 2] /\ shows 3 (mkfv [Some 1; Some 3; Some 0] 2) [1; 3].
Proof. split; [exact Nat.eqb_eq|]. repeat split; simpl; lia. Qed.

(** C05. v.insert(pos, count, v[k]) (T trivially copyable): the value inserted is v[k] only when
    k < pos+count; otherwise it is v[k-count]. *)
Theorem C05_insert_alias : forall (T : Type) dbg N (s : fv T) (l : list T) p c k v,
  shows N s l -> p <= length l -> length l + c <= N -> (Z.of_nat N < two64)%Z ->
  k < length l -> 0 < c ->
  nth_error l (if k <? p + c then k else k - c) = Some v ->
  exists s', insert_fill dbg Memmove s p (Z.of_nat c) (ARef k) = Ok (s', p) /\
             shows N s' (seq_insert l p (repeat v c)).
Proof.
  intros T dbg N s l p c k v H Hp Hc Hw Hk Hc0 Hv.
  destruct (insert_gen dbg Memmove N s l p c (ARef k) v (proj1 (shows_rep N s l) H) Hp Hc)
    as (s' & E & R).
  - lia.
  - left; reflexivity.
  - exact Hk.
  - right. simpl. destruct (k <? p + c); exact Hv.
  - exists s'. split; [exact E|]. apply shows_rep. exact R.
Qed.
Print Assumptions C05_insert_alias.

Theorem C05_insert_alias_refuted : exists (s s' : fv nat) (l l' : list nat) (p k v : nat),
  shows 4 s l /\ nth_error l k = Some v /\
  insert1 true Memmove s p (ARef k) = Ok (s', p) /\ shows 4 s' l' /\ l' <> seq_insert l p [v].
Proof.
  exists (mkfv [Some 1; Some 2; Some 3; None] 3), (mkfv [Some 1; Some 1; Some 2; Some 3] 4),
    [1; 2; 3], [1; 1; 2; 3], 0, 1, 2.
  repeat split; simpl; try lia. discriminate.
Qed.
Print Assumptions C05_insert_alias_refuted.

(** Missing: k > pos (refuted above). *)
Theorem C05_insert_alias_partial : forall (T : Type) dbg N (s : fv T) (l : list T) p k v,
  shows N s l -> p <= length l -> length l < N -> k <= p -> nth_error l k = Some v ->
  exists s', insert1 dbg Memmove s p (ARef k) = Ok (s', p) /\ shows N s' (seq_insert l p [v]).
Proof.
  intros T dbg N s l p k v H Hp Hc Hk Hv.
  assert (Hkl : k < length l) by (apply nth_error_Some; congruence).
  destruct (insert1_gen dbg Memmove N s l p (ARef k) v (proj1 (shows_rep N s l) H) Hp Hc)
    as (s' & E & R).
  - left; reflexivity.
  - exact Hkl.
  - simpl. destruct (Nat.ltb_spec k (p + 1)); [exact Hv|lia].
  - exists s'. split; [exact E|]. apply shows_rep. exact R.
Qed.
Print Assumptions C05_insert_alias_partial.

Example C05_case : shows 5 (mkfv [Some 1; Some 2; Some 3; None; None] 3) [1; 2; 3]
  /\ nth_error [1; 2; 3] 0 = Some 1.
Proof. repeat split; simpl; lia. Qed.

(** C06. erase(i,i) returns begin() instead of i. *)
Theorem C06_erase_empty_range_refuted : exists (s : fv nat) (l : list nat) (i : nat),
  shows 3 s l /\ i <= length l /\ i <> 0 /\ erase_range true Memmove s i i = Ok (s, 0).
Proof.
  exists (mkfv [Some 1; Some 2; Some 3] 3), [1; 2; 3], 2.
  repeat split; simpl; lia.
Qed.
Print Assumptions C06_erase_empty_range_refuted.

(** Non-empty ranges: contents and returned position, for every library implementation.
    Missing: the returned position of an empty range (refuted above). *)
Theorem C06_erase_range_partial : forall (T : Type) dbg m N (s : fv T) (l : list T) f e,
  shows N s l -> f < e -> e <= length l ->
  exists s', erase_range dbg m s f e = Ok (s', f) /\ shows N s' (seq_erase l f e) /\
             nth_error (seq_erase l f e) f = nth_error l e.
Proof.
  intros T dbg m N s l f e H Hf He.
  destruct (erase_range_gen dbg m N s l f e (proj1 (shows_rep N s l) H) Hf He) as (s' & E & R).
  exists s'. split; [exact E|]. split; [apply shows_rep; exact R|].
  unfold seq_erase. rewrite nth_error_app2 by (rewrite firstn_length; lia).
  rewrite firstn_length. replace (f - Nat.min f (length l)) with 0 by lia.
  rewrite <- (firstn_skipn e l) at 2. rewrite nth_error_app2 by (rewrite firstn_length; lia).
  rewrite firstn_length. replace (e - Nat.min e (length l)) with 0 by lia. reflexivity.
Qed.
Print Assumptions C06_erase_range_partial.

Theorem C06_erase_one : forall (T : Type) dbg m N (s : fv T) (l : list T) p,
  shows N s l -> p < length l ->
  exists s', erase1 dbg m s p = Ok (s', p) /\ shows N s' (seq_erase l p (S p)).
Proof.
  exact (fun T dbg m N s l p H Hp =>
    match erase1_gen dbg m N s l p (proj1 (shows_rep N s l) H) Hp with
    | ex_intro _ s' (conj e r) => ex_intro _ s' (conj e (proj2 (shows_rep N s' _) r)) end).
Qed.
Print Assumptions C06_erase_one.

Example C06_case : shows 5 (mkfv [Some 1; Some 2; Some 3; Some 4; None] 4) [1; 2; 3; 4]
  /\ seq_erase [1; 2; 3; 4] 1 3 = [1; 4].
Proof. repeat split; simpl; lia. Qed.

(** C75. resize(n) does not value-initialise: shrinking and growing again resurrects the old
    elements, and growing a fresh vector exposes indeterminate cells. *)
Theorem C75_resize_resurrects : forall (T : Type) N (s : fv T) (l : list T) c,
  shows N s l -> c <= length l ->
  exists s1 s2, resize true s c = Ok s1 /\ shows N s1 (firstn c l) /\
                resize true s1 (length l) = Ok s2 /\ shows N s2 l.
Proof. exact (fun T N s l c H => resize_shrink_grow N s l c (proj1 (shows_rep N s l) H)). Qed.
Print Assumptions C75_resize_resurrects.

Theorem C75_resize_value_init_refuted : exists (s1 s2 : fv nat),
  resize true (fv_empty 2) 1 = Ok s1 /\ contents s1 = [None] /\
  shows 2 s2 [8] /\ exists s3, resize true (mkfv (store s2) 0) 1 = Ok s3 /\ contents s3 = [Some 8].
Proof.
  exists (mkfv [None; None] 1), (mkfv [Some 8; None] 1).
  repeat split; simpl; try lia. eexists; split; reflexivity.
Qed.
Print Assumptions C75_resize_value_init_refuted.
