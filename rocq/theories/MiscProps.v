(** Property theorems for zip, filter_iterator, algorithm.h, time_utils.h, trivial_string,
    const_string and the tuple loops (C22-C27, C74). *)
From Coq Require Import List Arith ZArith Bool Lia Sorting.Sorted.
From Verif Require Import Outcome ListExtra MiscModel MiscProofs.
Import ListNotations.

(** C22. Any positive number of containers: the rows visited are exactly
    (c1[i],..,ck[i]), i = 0 .. m-1, m the length of the shortest container, in this order; every
    read is inside its container (the outcome is [Ok], and each entry is the i-th element). *)
Theorem C22_zip_lockstep : forall (T : Type) (cs : list (list T)) (m : nat),
  (forall c, In c cs -> m <= length c) -> (exists c, In c cs /\ m = length c) ->
  forall fuel, m < fuel ->
  exists rows, zip_iterate fuel cs = Some (Ok rows) /\
    map (map Some) rows = map (fun i => map (fun c => nth_error c i) cs) (seq 0 m).
Proof.
  intros T cs m Hle (c & Hc & Em) fuel Hf.
  assert (Hcs : cs <> []) by (destruct cs; [contradiction|discriminate]).
  assert (E : m = shortest cs).
  { pose proof (shortest_le cs c Hc). destruct (shortest_attained cs Hcs) as (c' & Hc' & E').
    specialize (Hle c' Hc'). lia. }
  apply zip_loop_spec; [exact Hcs|lia|lia|lia].
Qed.
Print Assumptions C22_zip_lockstep.

Example C22_case : let cs := [[1;2;3];[4;5];[6;7;8;9]] in
  (forall c, In c cs -> 2 <= length c) /\ (exists c, In c cs /\ 2 = length c) /\
  zip_iterate 3 cs = Some (Ok [[1;4;6];[2;5;7]]).
Proof.
  cbn zeta. split; [|split].
  - simpl. intros c [<-|[<-|[<-|[]]]]; simpl; lia.
  - exists [4;5]. simpl. auto.
  - reflexivity.
Qed.

(** C23. The size check never looks at the first container. *)
Theorem C23_zip_size_refuted :
  (exists sizes, zip_check true sizes = Ok tt /\ nth 0 sizes 0 <> nth 1 sizes 0 /\ length sizes = 2) /\
  (exists sizes, zip_check true sizes = Ok tt /\ nth 0 sizes 0 <> nth 1 sizes 0 /\ length sizes = 3) /\
  (forall n dbg, zip_check dbg [n] = UB).
Proof.
  split; [exists [3;7]; repeat split; discriminate|].
  split; [exists [1;5;5]; repeat split; discriminate|]. reflexivity.
Qed.
Print Assumptions C23_zip_size_refuted.

(** What the check does: with k >= 2 containers it passes iff containers 2..k agree in size. So
    containers of equal sizes always pass; the converse holds only up to the first container. *)
Theorem C23_zip_size_partial : forall sizes, 2 <= length sizes ->
  (zip_check true sizes = Ok tt <->
     forall i j, 1 <= i < length sizes -> 1 <= j < length sizes -> nth i sizes 0 = nth j sizes 0).
Proof. exact zip_check_accepts. Qed.
Print Assumptions C23_zip_size_partial.

Example C23_case : 2 <= length [4;4;4] /\ zip_check true [4;4;4] = Ok tt /\
  zip_check true [4;4;5] = AssertFail.
Proof. repeat split; simpl; lia. Qed.

(** C24. If at least one element matches, the traversal never ends: for every number of steps the
    loop is still running. If none matches, the first (non-matching) element is visited. *)
Theorem C24_filter_iterator_refuted : forall (T : Type) (pred : T -> bool) (xs : list T),
  ((exists x, In x xs /\ pred x = true) -> forall fuel, fi_loop pred fuel xs fi_begin = None) /\
  ((forall x, In x xs -> pred x = false) -> forall x t, xs = x :: t ->
     forall fuel, 2 <= fuel -> fi_loop pred fuel xs fi_begin = Some [x]).
Proof.
  intros T pred xs. split.
  - intros (x & Hx & P) fuel. destruct (In_nth_error _ _ Hx) as (q & E).
    apply (fi_never_ends pred xs q x E P). apply Nat.le_0_l.
  - intros H x t E fuel Hf. apply (fi_no_match pred xs x t E H fuel Hf).
Qed.
Print Assumptions C24_filter_iterator_refuted.

(** What one increment does: it moves to the first matching position at or after the current one
    (hence does not move when the current element matches). *)
Theorem C24_increment_partial : forall (T : Type) (pred : T -> bool) (xs : list T) (p : nat),
  p <= length xs ->
  let q := fi_incr pred xs p in
  p <= q <= length xs /\
  (forall i x, p <= i < q -> nth_error xs i = Some x -> pred x = false) /\
  (q < length xs -> exists x, nth_error xs q = Some x /\ pred x = true).
Proof.
  intros T pred xs p Hp. destruct (fi_incr_spec pred xs p Hp) as (A & B & C). cbn zeta. auto.
Qed.
Print Assumptions C24_increment_partial.

Example C24_case : (exists x, In x [1;2;3;4] /\ Nat.even x = true) /\
  fi_incr Nat.even [1;2;3;4] 0 = 1 /\ fi_incr Nat.even [1;2;3;4] 1 = 1.
Proof. split; [exists 2; simpl; auto|]. split; reflexivity. Qed.

(** C25. For every total order. *)
Theorem C25_set_intersection : forall (T : Type) (ltb : T -> T -> bool)
  (eq_dec : forall x y : T, {x = y} + {x <> y}),
  (forall x, ltb x x = false) ->
  (forall x y z, ltb x y = true -> ltb y z = true -> ltb x z = true) ->
  (forall x y, ltb x y = false -> ltb y x = false -> x = y) ->
  forall a b : list T,
  StronglySorted (fun x y => ltb y x = false) (unsorted_set_intersection ltb a b) /\
  forall v, count_occ eq_dec (unsorted_set_intersection ltb a b) v =
            Nat.min (count_occ eq_dec a v) (count_occ eq_dec b v).
Proof. exact (fun T ltb ed i t o a b => intersection_spec ltb ed i t o a b). Qed.
Print Assumptions C25_set_intersection.

Example C25_case :
  (forall x, (x <? x) = false) /\
  (forall x y z, (x <? y) = true -> (y <? z) = true -> (x <? z) = true) /\
  (forall x y, (x <? y) = false -> (y <? x) = false -> x = y) /\
  unsorted_set_intersection Nat.ltb [3;1;2;3;3] [5;3;1;3;1] = [1;3;3].
Proof.
  split; [apply Nat.ltb_irrefl|]. split; [|split; [|reflexivity]].
  - intros x y z. rewrite !Nat.ltb_lt. lia.
  - intros x y. rewrite !Nat.ltb_ge. lia.
Qed.

(** remove_duplicates on unsorted input keeps duplicates. *)
Theorem C25_remove_duplicates_refuted :
  exists l : list nat, ~ NoDup (remove_duplicates Nat.eqb l).
Proof.
  exists [1;2;1]. cbn. intros H. inversion H as [|? ? K _]; subst. apply K. simpl. auto.
Qed.
Print Assumptions C25_remove_duplicates_refuted.

(** Sorted input (the documented use): each distinct value exactly once. Missing: unsorted input. *)
Theorem C25_remove_duplicates_partial : forall (T : Type) (ltb eqb : T -> T -> bool),
  (forall x, ltb x x = false) ->
  (forall x y, ltb x y = false -> ltb y x = false -> x = y) ->
  (forall x y, eqb x y = true <-> x = y) ->
  forall l : list T, StronglySorted (fun x y => ltb y x = false) l ->
  NoDup (remove_duplicates eqb l) /\ forall v, In v (remove_duplicates eqb l) <-> In v l.
Proof. exact (fun T ltb eqb i o e l => remove_duplicates_sorted ltb i o eqb e l). Qed.
Print Assumptions C25_remove_duplicates_partial.

(** Any input: no value is lost and neighbours in the result differ. *)
Theorem C25_remove_adjacent : forall (T : Type) (eqb : T -> T -> bool),
  (forall x y, eqb x y = true <-> x = y) -> forall l : list T,
  (forall v, In v (remove_duplicates eqb l) <-> In v l) /\
  forall i a b, nth_error (remove_duplicates eqb l) i = Some a ->
    nth_error (remove_duplicates eqb l) (S i) = Some b -> a <> b.
Proof.
  intros T eqb He l. destruct l as [|x l]; [|apply (unique_adjacent eqb He l x)].
  simpl. split; [tauto|]. intros [|i]; discriminate.
Qed.
Print Assumptions C25_remove_adjacent.

Example C25_case_rd : StronglySorted (fun x y => (y <? x) = false) [1;1;2;2;2;5] /\
  remove_duplicates Nat.eqb [1;1;2;2;2;5] = [1;2;5].
Proof. split; [repeat (constructor; [|repeat constructor]); constructor|reflexivity]. Qed.

(** C26. *)
Theorem C26_dhms : forall t : Z, (0 <= t)%Z -> exists d h m s, dhms t = (d, h, m, s) /\
  (86400 * d + 3600 * h + 60 * m + s = t /\ 0 <= d /\ 0 <= h < 24 /\ 0 <= m < 60 /\ 0 <= s < 60)%Z /\
  (forall d' h' m' s', 86400 * d' + 3600 * h' + 60 * m' + s' = t -> 0 <= h' < 24 -> 0 <= m' < 60 ->
     0 <= s' < 60 -> (d', h', m', s') = (d, h, m, s))%Z.
Proof.
  intros t Ht. destruct (dhms t) as [[[d h] m] s] eqn:E. exists d, h, m, s. split; [reflexivity|].
  pose proof (dhms_spec t d h m s Ht E) as S. split; [exact S|].
  intros d' h' m' s' Es H1 H2 H3.
  destruct (dhms_unique d' h' m' s' d h m s) as (-> & -> & -> & ->); try lia. reflexivity.
Qed.
Print Assumptions C26_dhms.
(** Negative durations: the decomposition of the absolute value with all signs changed. *)
Theorem C26_dhms_negative : forall t d h m s : Z, (t <= 0)%Z -> dhms t = (d, h, m, s) ->
  dhms (- t) = (- d, - h, - m, - s)%Z.
Proof. exact dhms_negative. Qed.
Print Assumptions C26_dhms_negative.
Example C26_case : (0 <= 200000)%Z /\ dhms 200000 = (2, 7, 33, 20)%Z /\ (-90061 <= 0)%Z /\
  dhms (-90061) = (-1, -1, -1, -1)%Z.
Proof. repeat split; vm_compute; congruence. Qed.

(** C27. *)
Theorem C27_round_trip : forall (N : nat) (s : list Z), ~ In 0%Z s -> length s < N ->
  exists b, to_trivial_string N s = Ok b /\ length b = N /\ ts_str b = Ok s.
Proof.
  intros N s H0 HN. pose proof (c_prefix_nonul s H0) as E.
  destruct (trivial_string_fits N s) as (b & E1 & E2 & E3); [rewrite E; exact HN|].
  exists b. rewrite E in E3. auto.
Qed.
Print Assumptions C27_round_trip.
Example C27_case : ~ In 0%Z [104;105]%Z /\ length [104;105]%Z < 8.
Proof. split; [simpl; intros [H|[H|[]]]; discriminate|simpl; lia]. Qed.

(** str() is defined exactly when a NUL comes before the end and before any byte never written, and then gives what precedes it *)
Theorem C27_str : forall (b : buffer),
  (forall s, ts_str b = Ok s <-> ~ In 0%Z s /\ exists r, b = map Some s ++ Some 0%Z :: r) /\
  ((forall s r, ~ In 0%Z s -> b <> map Some s ++ Some 0%Z :: r) <-> ts_str b = UB).
Proof.
  assert (S : forall b s, ts_str b = Ok s -> ~ In 0%Z s /\ exists r, b = map Some s ++ Some 0%Z :: r).
  { unfold ts_str. induction b as [|[c|] b IH]; intros s H; cbn [read_c] in H; try discriminate H.
    destruct (Z.eqb_spec c 0) as [->|N]; [injection H as <-; split; [intros []|exists b; reflexivity]|].
    destruct (read_c b) as [t| | |]; try discriminate H. cbn in H. injection H as <-. destruct (IH t eq_refl) as (H0 & r & ->).
    split; [intros [E|E]; [congruence|exact (H0 E)]|exists r; reflexivity]. }
  assert (U : forall b, ts_str b = UB \/ exists s, ts_str b = Ok s).
  { unfold ts_str. induction b as [|[c|] b IH]; cbn [read_c]; [left; reflexivity| |left; reflexivity].
    destruct (Z.eqb c 0); [right; exists []; reflexivity|]. destruct IH as [->|[t ->]]; [left; reflexivity|right; exists (c :: t); reflexivity]. }
  intros b. split.
  - intros s. split; [apply S|]. intros (H0 & r & ->). apply read_c_spec. exact H0.
  - split.
    + intros H. destruct (U b) as [E|[s E]]; [exact E|]. destruct (S b s E) as (H0 & r & Eb). destruct (H s r H0 Eb).
    + intros E s r H0 ->. unfold ts_str in E. rewrite (read_c_spec s r H0) in E. discriminate E.
Qed.
Print Assumptions C27_str.
Example C27_str_case : ts_str [Some 104; Some 105; Some 0; None]%Z = Ok [104; 105]%Z /\ ts_str [Some 104; None; Some 0]%Z = UB /\ ts_str [Some 104]%Z = UB.
Proof. repeat split. Qed.

(** Strings that do not fit are not rejected: every string with at least N characters (no NUL)
    overflows the buffer; and operator[] accepts n = N. *)
Theorem C27_overflow_refuted :
  (forall (N : nat) (s : list Z), ~ In 0%Z s -> N <= length s -> to_trivial_string N s = UB) /\
  (forall dbg (b : buffer), ts_index dbg b (length b) = UB).
Proof.
  split.
  - intros N s H0 HN. apply trivial_string_overflow. rewrite (c_prefix_nonul s H0). exact HN.
  - intros dbg b. unfold ts_index, assert_then.
    rewrite (proj2 (Nat.leb_le _ _) (le_n _)). cbn [negb]. rewrite andb_false_r.
    rewrite (proj2 (nth_error_None b (length b)) (le_n _)). reflexivity.
Qed.
Print Assumptions C27_overflow_refuted.

(** const_string: reads inside the text give the character, everything else throws. *)
Theorem C27_const_string : forall (text : list Z) (n : nat),
  (n < length text -> cs_index (text ++ [0%Z]) n = Ok (nth n text 0%Z)) /\
  (length text <= n -> cs_index (text ++ [0%Z]) n = Throw).
Proof.
  intros text n. unfold cs_index, cs_size. rewrite app_length. cbn [length].
  replace (length text + 1 - 1) with (length text) by lia. split; intros H.
  - destruct (Nat.ltb_spec n (length text)); [|lia]. rewrite nth_error_app1 by exact H.
    rewrite (nth_error_nth' text 0%Z H). reflexivity.
  - destruct (Nat.ltb_spec n (length text)); [lia|reflexivity].
Qed.
Print Assumptions C27_const_string.
Example C27_case_cs : cs_index ([104;105] ++ [0])%Z 1 = Ok 105%Z /\ cs_index ([104;105] ++ [0])%Z 2 = Throw.
Proof. split; reflexivity. Qed.

(** C74. Effects are state transformers; the trace of visited components is 0,1,..,N-1. *)
Theorem C74_visit_order : forall (St : Type) (f : nat -> St -> St) (N : nat) (s : St),
  static_for f N s = fold_left (fun s i => f i s) (seq 0 N) s /\
  tuple_for_each f N s = fold_left (fun s i => f i s) (seq 0 N) s /\
  (1 <= N -> tuple_visit f N s = fold_left (fun s i => f i s) (seq 0 N) s).
Proof.
  intros. split; [reflexivity|]. split; [reflexivity|]. intros H. unfold tuple_visit.
  rewrite visit_ws_seq. replace (S (N - 1)) with N by lia. reflexivity.
Qed.
Print Assumptions C74_visit_order.
(** observed through a trace: each component exactly once, in increasing order *)
Theorem C74_visit_trace : forall N, 1 <= N ->
  static_for (fun i tr => tr ++ [i]) N [] = seq 0 N /\
  tuple_for_each (fun i tr => tr ++ [i]) N [] = seq 0 N /\
  tuple_visit (fun i tr => tr ++ [i]) N [] = seq 0 N.
Proof.
  intros N H. destruct (C74_visit_order _ (fun i tr => tr ++ [i]) N []) as (A & B & C).
  assert (E : forall l acc, fold_left (fun (s : list nat) i => s ++ [i]) l acc = acc ++ l).
  { induction l as [|x l IH]; intros acc; simpl; [symmetry; apply app_nil_r|].
    rewrite IH, <- app_assoc. reflexivity. }
  rewrite A, B, (C H), E. auto.
Qed.
Print Assumptions C74_visit_trace.
Theorem C74_tuple_binop : forall (A : Type) (d : A) (op : A -> A -> A) (lhs rhs tmp : list A),
  lhs <> [] -> length rhs = length lhs -> length tmp = length lhs ->
  length (tuple_binop d op lhs rhs tmp) = length lhs /\
  forall i, i < length lhs -> nth i (tuple_binop d op lhs rhs tmp) d = op (nth i lhs d) (nth i rhs d).
Proof.
  intros A d op lhs rhs tmp H1 H2 H3. rewrite (tuple_binop_spec d op lhs rhs tmp H1 H2 H3). split.
  - rewrite map2_length. lia.
  - intros i Hi. apply map2_nth; lia.
Qed.
Print Assumptions C74_tuple_binop.
(** tuple op= scalar, scalar not inside the tuple *)
Theorem C74_tuple_scalar_partial : forall (A : Type) (d : A) (op : A -> A -> A) (v : A) (lhs : list A),
  tuple_scalar_eq d op (inl v) lhs = map (fun x => op x v) lhs.
Proof. exact @tuple_scalar_eq_spec. Qed.
Print Assumptions C74_tuple_scalar_partial.
(** the scalar is passed by reference: t *= t[0] multiplies by the updated t[0] *)
Theorem C74_tuple_scalar_alias_refuted : exists (lhs : list Z) k,
  k < length lhs /\
  tuple_scalar_eq 0%Z Z.mul (inr k) lhs <> map (fun x => (x * nth k lhs 0)%Z) lhs.
Proof. exists [2;3]%Z, 0. split; [simpl; lia|vm_compute; discriminate]. Qed.
Print Assumptions C74_tuple_scalar_alias_refuted.
Theorem C74_tuple_zip : forall (A B : Type) (da : A) (db : B) t1 t2, length t1 = length t2 ->
  tuple_zip da db t1 t2 = combine t1 t2.
Proof. exact @tuple_zip_combine. Qed.
Print Assumptions C74_tuple_zip.
Theorem C74_fill : forall (A : Type) (N : nat) (v : A), 1 <= N -> fill_apply N v [] = repeat v N.
Proof. intros A N v H. rewrite (fill_apply_repeat N v [] H). apply app_nil_r. Qed.
Print Assumptions C74_fill.
(** the product modulo 2^64: negative factors and large products wrap around *)
Theorem C74_multiply : forall args : list Z, multiply args = (fold_right Z.mul 1 args mod 2 ^ 64)%Z.
Proof. induction args as [|a r IH]; [reflexivity|]. cbn [multiply fold_right]. rewrite IH. apply Z.mul_mod_idemp_r. discriminate. Qed.
Corollary C74_multiply_sizes : forall args : list Z, (0 <= fold_right Z.mul 1 args < 2 ^ 64)%Z -> multiply args = fold_right Z.mul 1%Z args.
Proof. intros args H. rewrite C74_multiply. apply Z.mod_small. exact H. Qed.
Example C74_multiply_ex : multiply [-2; 3]%Z = (2 ^ 64 - 6)%Z /\ multiply [4; 5; 6]%Z = 120%Z.
Proof. split; reflexivity. Qed.
Print Assumptions C74_multiply_sizes.
Print Assumptions C74_multiply.
Example C74_case : [2;3]%Z <> [] /\ tuple_binop 0%Z Z.sub [2;3]%Z [7;5]%Z [9;9]%Z = [-5;-2]%Z /\
  tuple_zip 0 0%Z [1;2] [3;4]%Z = [(1,3%Z);(2,4%Z)] /\ fill_apply 3 7 [] = [7;7;7].
Proof. split; [discriminate|]. repeat split. Qed.
