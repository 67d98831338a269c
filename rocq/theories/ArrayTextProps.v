(** Property theorems for indices, construction and output of math arrays (C153, C154, C155). *)
From Coq Require Import String Ascii List Arith ZArith Bool Lia.
From Verif Require Import Outcome BoundsModel BoundsProofs MathArrayModel MathArrayProofs ArrayTextModel.
Import ListNotations.
Local Open Scope Z_scope.

Definition index_value (i : Z) : Prop := - 2 ^ 63 <= i < 2 ^ 64.
Lemma size_t_small i n : index_value i -> n < 2 ^ 63 -> (size_t_of i < n <-> 0 <= i < n).
Proof.
  unfold index_value, size_t_of. intros I N. destruct (Z.neg_nonneg_cases i) as [P|P].
  - rewrite <- (Z_mod_plus_full i 1 (2 ^ 64)), Z.mod_small by lia. lia.
  - rewrite Z.mod_small by lia. lia.
Qed.
Lemma check_any dims : forall ids, length ids = length dims -> Forall index_value ids -> Forall (fun n => n < 2 ^ 63) dims ->
  (check_ranges_any dims ids = Ok tt /\ in_box dims ids) \/ (check_ranges_any dims ids = Throw /\ ~ in_box dims ids).
Proof.
  induction dims as [|n dims IH]; intros [|i ids] L F D; try discriminate; [left; split; [reflexivity|constructor]|].
  inversion F as [|? ? Fi Fr]; subst. inversion D as [|? ? Dn Dr]; subst. injection L as L. cbn [check_ranges_any].
  pose proof (size_t_small i n Fi Dn) as S. rewrite Z.geb_leb. destruct (Z.leb_spec n (size_t_of i)) as [H|H].
  - right. split; [reflexivity|]. intros B. inversion B as [|? ? ? ? Bi Br]; subst. lia.
  - destruct (IH ids L Fr Dr) as [[-> B]|[-> B]]; [left|right]; split; try reflexivity; [constructor; [lia|exact B]|].
    intros C. inversion C as [|? ? ? ? Ci Cr]; subst. tauto.
Qed.
Lemma assert_any dims : forall ids, length ids = length dims -> Forall index_value ids -> Forall (fun n => n < 2 ^ 63) dims ->
  (in_box dims ids /\ forall dbg, assert_ranges_any dbg dims ids = Ok tt) \/ (~ in_box dims ids /\ assert_ranges_any true dims ids = AssertFail).
Proof.
  induction dims as [|n dims IH]; intros [|i ids] L F D; try discriminate; [left; split; [constructor|reflexivity]|].
  inversion F as [|? ? Fi Fr]; subst. inversion D as [|? ? Dn Dr]; subst. injection L as L. cbn [assert_ranges_any].
  pose proof (size_t_small i n Fi Dn) as S. destruct (Z.ltb_spec (size_t_of i) n) as [H|H].
  - destruct (IH ids L Fr Dr) as [[B A]|[B A]]; [left|right]; split.
    + constructor; [lia|exact B].
    + intros dbg. unfold assert_then. destruct dbg; apply A.
    + intros C. inversion C; subst. tauto.
    + unfold assert_then. cbn. exact A.
  - right. split; [|reflexivity]. intros B. inversion B as [|? ? ? ? Bi Br]; subst. lia.
Qed.
Lemma fold_size_t (f : nat -> Z) (g : nat -> Z) l : forall a, (size_t_of (fold_left (fun o i => o + f i * g i) l a)) =
  fold_left (fun ind i => size_t_of (ind + size_t_of (size_t_of (f i) * g i))) l (size_t_of a).
Proof.
  induction l as [|i l IH]; intros a; [reflexivity|]. cbn [fold_left]. rewrite IH. f_equal. unfold size_t_of.
  rewrite Zmult_mod_idemp_l, <- Zplus_mod. reflexivity.
Qed.
Lemma element_any_spec dims ids : element_any dims ids = size_t_of (ma_element dims ids).
Proof. unfold element_any, ma_element, static_linearize. change (rank (exts (contiguous dims))) with (rank dims). rewrite fold_size_t. reflexivity. Qed.

(** * C153. An index of any integer type is accepted by at() exactly if its value is in range, by operator() in a debug
    build too, and then both refer to the element of these indices *)
Theorem C153_indices : forall (T : Type) dims (st : list T) ids,
  Z.of_nat (length st) = prod dims -> prod dims < 2 ^ 63 -> length ids = length dims ->
  Forall index_value ids -> Forall (fun n => n < 2 ^ 63) dims ->
  (~ in_box dims ids -> at_any dims st ids = Throw /\ call_any true dims st ids = AssertFail) /\
  (in_box dims ids -> exists k, (k < length st)%nat /\ Z.of_nat k = lin dims ids /\ at_any dims st ids = Ok k /\
     (forall dbg, call_any dbg dims st ids = Ok k) /\ brackets_any dims st ids = Ok k).
Proof.
  intros T dims st ids E P L F D. unfold at_any, call_any, brackets_any. split; intros B.
  - destruct (check_any dims ids L F D) as [[_ C]|[-> _]]; [tauto|]. destruct (assert_any dims ids L F D) as [[C _]|[_ ->]]; [tauto|]. split; reflexivity.
  - destruct (check_any dims ids L F D) as [[-> _]|[_ C]]; [|tauto]. destruct (assert_any dims ids L F D) as [[_ A]|[C _]]; [|tauto].
    pose proof (lin_bound dims ids B) as Bd.
    assert (K : ma_cell st (element_any dims ids) = Ok (Z.to_nat (lin dims ids))).
    { rewrite element_any_spec, ma_element_lin by exact L. unfold size_t_of. rewrite Z.mod_small by lia. unfold ma_cell.
      rewrite (proj2 (Z.leb_le _ _)), (proj2 (Z.ltb_lt _ _)) by lia. reflexivity. }
    exists (Z.to_nat (lin dims ids)). split; [lia|]. split; [lia|]. cbn [bind]. rewrite K. split; [reflexivity|]. split; [|reflexivity].
    intros dbg. rewrite A. cbn [bind]. reflexivity.
Qed.
Print Assumptions C153_indices.
(** REFUTED otherwise: a matrix element may be asked for under a negative or too large column without any complaint, in a
    release build by operator() and in every build by operator[] with an index list *)
Theorem C153_unchecked_refuted : exists (dims : list Z) (st : list Z) ids other,
  Z.of_nat (length st) = prod dims /\ Forall index_value ids /\ length ids = length dims /\ ~ in_box dims ids /\ in_box dims other /\
  call_any false dims st ids = call_any false dims st other /\
  brackets_any dims st ids = brackets_any dims st other /\ (exists k, brackets_any dims st other = Ok k).
Proof.
  exists [2; 3], [1; 2; 3; 4; 5; 6], [1; -1], [0; 2]. split; [reflexivity|]. split; [repeat constructor; unfold index_value; lia|].
  split; [reflexivity|]. split; [intros B; inversion B as [|? ? ? ? B1 B2]; subst; inversion B2; subst; lia|].
  split; [repeat constructor; lia|]. split; [reflexivity|]. split; [reflexivity|]. exists 2%nat. reflexivity.
Qed.
Print Assumptions C153_unchecked_refuted.
(** the exact cell of an unchecked access *)
Theorem C153_unchecked_exact : forall (T : Type) dims (st : list T) ids, length ids = length dims ->
  brackets_any dims st ids = (let k := (lin dims ids) mod 2 ^ 64 in if k <? Z.of_nat (length st) then Ok (Z.to_nat k) else UB).
Proof.
  intros T dims st ids L. unfold brackets_any, ma_cell. rewrite element_any_spec, ma_element_lin by exact L. unfold size_t_of.
  rewrite (proj2 (Z.leb_le _ _)) by (apply Z.mod_pos_bound; lia). reflexivity.
Qed.
Print Assumptions C153_unchecked_exact.
Example C153_ex : at_any [2; 3] [10; 11; 12; 20; 21; 22] [-1; 2] = Throw /\ call_any true [2; 3] [10; 11; 12; 20; 21; 22] [0; 3] = AssertFail /\
  at_any [2; 3] [10; 11; 12; 20; 21; 22] [1; 2] = Ok 5%nat /\ call_any false [2; 3] [10; 11; 12; 20; 21; 22] [1; -1] = Ok 2%nat.
Proof. repeat split; reflexivity. Qed.

(** * C154. Construction from a list: in a debug build every element is defined as given, or the program stops *)
Local Open Scope nat_scope.
Lemma filled_spec {T} n (v : T) : filled n v = repeat (Some v) n.
Proof.
  unfold filled. rewrite (const_body_spec None (fun _ => Some v)), repeat_length. generalize 0. induction n as [|n IH]; intros k; [reflexivity|].
  cbn [seq map repeat]. rewrite IH. reflexivity.
Qed.
Lemma map_repeat {A B} (f : A -> B) x n : map f (repeat x n) = repeat (f x) n.
Proof. induction n as [|n IH]; [reflexivity|]. cbn. rewrite IH. reflexivity. Qed.
Definition defines {T} (st : list (option T)) (l : list T) : Prop := st = map Some l.
Theorem C154_list : forall (T : Type) n (l : list T), 1 <= n ->
  (length l = n -> forall dbg, exists st, ma_of_list dbg n l = Ok st /\ defines st l) /\
  (forall v, l = [v] -> forall dbg, exists st, ma_of_list dbg n l = Ok st /\ defines st (repeat v n)) /\
  (length l <> n -> length l <> 1 -> ma_of_list true n l = AssertFail).
Proof.
  intros T n l N. unfold defines. split; [|split].
  - intros E dbg. unfold ma_of_list. destruct l as [|v [|w l]]; [cbn in E; lia| |].
    + cbn in E. subst n. eexists. split; [reflexivity|]. rewrite filled_spec. reflexivity.
    + unfold assigned, assert_then. rewrite (proj2 (Nat.eqb_eq _ _) E), (proj2 (Nat.leb_le _ _)), E, Nat.sub_diag by lia. cbn [repeat].
      rewrite app_nil_r. eexists. destruct dbg; (split; [reflexivity|reflexivity]).
  - intros v -> dbg. cbn [ma_of_list]. eexists. split; [reflexivity|]. rewrite filled_spec, map_repeat. reflexivity.
  - intros D O. unfold ma_of_list. destruct l as [|v [|w l]]; try (cbn in O; lia); unfold assigned, assert_then; rewrite (proj2 (Nat.eqb_neq _ _) D); reflexivity.
Qed.
Print Assumptions C154_list.
(** REFUTED in a release build: a short list leaves elements undefined, a long one writes past the end *)
Theorem C154_release : forall (T : Type) n (l : list T), length l <> 1 ->
  (length l < n -> exists st, ma_of_list false n l = Ok st /\ nth_error st (length l) = Some None) /\
  (n < length l -> ma_of_list false n l = UB).
Proof.
  intros T n l O. unfold ma_of_list. split; intros H.
  - exists (map Some l ++ repeat None (n - length l)). split.
    + destruct l as [|v [|w l]]; try (cbn in O; lia); unfold assigned, assert_then; rewrite (proj2 (Nat.leb_le _ _)) by lia; destruct (length _ =? n); reflexivity.
    + rewrite nth_error_app2 by (rewrite map_length; lia). rewrite map_length, Nat.sub_diag. destruct (n - length l) eqn:E; [lia|]. reflexivity.
  - destruct l as [|v [|w l]]; try (cbn in O; lia); unfold assigned, assert_then; rewrite (proj2 (Nat.leb_gt _ _)) by lia; reflexivity.
Qed.
Print Assumptions C154_release.
Theorem C154_release_refuted : exists n (l : list Z), 1 <= n /\ ma_of_list false n l = UB /\
  exists m (k : list Z) st, ma_of_list false m k = Ok st /\ In None st.
Proof. exists 4, [1; 2; 3; 4; 5]%Z. split; [lia|]. split; [reflexivity|]. exists 4, [1; 2]%Z, [Some 1; Some 2; None; None]%Z. split; [reflexivity|]. cbn. tauto. Qed.
Print Assumptions C154_release_refuted.
(** the constructors of array: one value for all elements or one argument for each *)
Theorem C154_array : forall (T : Type) n (l : list T) (v : T),
  defines (filled n v) (repeat v n) /\
  (forall st, arr_of_args n l = Some st -> length l = n /\ defines st l) /\ (2 <= n -> length l = n -> arr_of_args n l = Some (map Some l)).
Proof.
  intros T n l v. unfold defines, arr_of_args. split; [rewrite filled_spec, map_repeat; reflexivity|]. split.
  - intros st. destruct (Nat.eqb_spec (length l) n) as [E|E]; cbn [andb]; [|discriminate]. destruct (2 <=? length l); [|discriminate].
    intros H. injection H as <-. split; [exact E|reflexivity].
  - intros N E. rewrite (proj2 (Nat.eqb_eq _ _) E), (proj2 (Nat.leb_le _ _)) by lia. reflexivity.
Qed.
Print Assumptions C154_array.
(** comparison with a value asks for all elements *)
Theorem C154_equal_value : forall (T : Type) (neqb : T -> T -> bool) (a : list T) v, (forall x y, neqb x y = false <-> x = y) ->
  (arr_eq_value neqb a v = true <-> Forall (fun x => x = v) a).
Proof.
  intros T neqb a v S. induction a as [|x a IH]; [split; [constructor|reflexivity]|]. cbn [arr_eq_value]. pose proof (S x v) as Sx. destruct (neqb x v).
  - split; [discriminate|]. intros H. inversion H as [|? ? H1 H2]; subst. discriminate (proj2 Sx eq_refl).
  - rewrite IH. split; intros H; [constructor; [apply Sx; reflexivity|exact H]|inversion H; assumption].
Qed.
Print Assumptions C154_equal_value.
Example C154_ex : ma_of_list true 4 [1; 2; 3; 4]%Z = Ok [Some 1; Some 2; Some 3; Some 4]%Z /\ ma_of_list true 4 [7]%Z = Ok [Some 7; Some 7; Some 7; Some 7]%Z /\
  ma_of_list true 4 [1; 2]%Z = AssertFail /\ arr_of_args 2 [1; 2]%Z = Some [Some 1; Some 2]%Z /\ arr_eq_value (fun x y => negb (Z.eqb x y)) [3; 3; 4]%Z 3%Z = false.
Proof. repeat split. Qed.

(** * C155. The words of the text of an array are its elements; the lines of the text of a matrix are its columns *)
Fixpoint split (c : ascii) (s : string) : list string :=
  match s with
  | EmptyString => [EmptyString]
  | String d r => if Ascii.eqb d c then EmptyString :: split c r
                  else match split c r with w :: ws => String d w :: ws | [] => [] end
  end.
Fixpoint free (c : ascii) (s : string) : bool := match s with EmptyString => true | String d r => negb (Ascii.eqb d c) && free c r end.
Local Open Scope string_scope.
Definition space : ascii := " "%char.
Lemma append_assoc (a b c : string) : (a ++ b) ++ c = a ++ (b ++ c). Proof. induction a as [|x a IH]; [reflexivity|]. cbn. rewrite IH. reflexivity. Qed.
Lemma append_nil (a : string) : a ++ "" = a. Proof. induction a as [|x a IH]; [reflexivity|]. cbn. rewrite IH. reflexivity. Qed.
Lemma split_app c w t : free c w = true -> split c (w ++ String c t) = w :: split c t.
Proof.
  induction w as [|d w IH]; cbn [append free split]; intros F; [rewrite Ascii.eqb_refl; reflexivity|].
  apply andb_prop in F. destruct F as [F1 F2]. apply negb_true_iff in F1. rewrite F1, IH by exact F2. reflexivity.
Qed.
Lemma split_word c w : free c w = true -> split c w = [w].
Proof.
  induction w as [|d w IH]; cbn [free split]; intros F; [reflexivity|].
  apply andb_prop in F. destruct F as [F1 F2]. apply negb_true_iff in F1. rewrite F1, IH by exact F2. reflexivity.
Qed.
Lemma free_app c a b : free c (a ++ b) = free c a && free c b.
Proof. induction a as [|d a IH]; [reflexivity|]. cbn. rewrite IH. apply andb_assoc. Qed.
Section Texts.
Context {T : Type}.
Variable show : T -> string.
Hypothesis words : forall x, free space (show x) = true.
Lemma split_spaced w l t : free space w = true -> split space (w ++ spaced show l ++ String space t) = w :: map show l ++ split space t.
Proof.
  revert w. induction l as [|x l IH]; intros w W; cbn [spaced map List.app]; [apply split_app; exact W|].
  change (" " ++ show x ++ spaced show l) with (String space (show x ++ spaced show l)).
  change (String space (show x ++ spaced show l) ++ String space t) with (String space ((show x ++ spaced show l) ++ String space t)).
  rewrite split_app by exact W. rewrite append_assoc. f_equal. rewrite IH by apply words. reflexivity.
Qed.
Lemma free_spaced l : (forall x, free newline (show x) = true) -> free newline (spaced show l) = true.
Proof. intros F. induction l as [|x l IH]; [reflexivity|]. cbn [spaced]. rewrite !free_app, F, IH. reflexivity. Qed.
End Texts.
Theorem C155_array : forall (T : Type) (show : T -> string), (forall x, free space (show x) = true) ->
  forall l, split space (arr_out show l) = "(" :: map show l ++ [")"].
Proof. intros T show W l. unfold arr_out. change " )" with (String space ")"). rewrite (split_spaced show W) by reflexivity. reflexivity. Qed.
Print Assumptions C155_array.
Theorem C155_tuple : forall (T : Type) (show : T -> string), (forall x, free space (show x) = true) ->
  forall l, split space (tuple_out show l) = "{" :: flat_map (fun x => ["["; show x; "]"]) l ++ ["}"].
Proof.
  intros T show W l. unfold tuple_out.
  assert (G : forall w, free space w = true -> split space (w ++ fold_right (fun x r => " [ " ++ show x ++ " ]" ++ r) "" l ++ " }") = w :: flat_map (fun x => ["["; show x; "]"]) l ++ ["}"]).
  { induction l as [|x l IH]; intros w Hw; cbn [fold_right flat_map].
    - change ("" ++ " }") with (String space "}"). rewrite split_app by exact Hw. reflexivity.
    - set (r := fold_right _ _ _). change ((" [ " ++ show x ++ " ]" ++ r) ++ " }") with (String space ("[" ++ String space ((show x ++ " ]" ++ r) ++ " }"))).
      rewrite split_app by exact Hw. rewrite split_app by reflexivity. rewrite append_assoc.
      change ((" ]" ++ r) ++ " }") with (String space (("]" ++ r) ++ " }")). rewrite split_app by apply W. rewrite append_assoc. rewrite IH by reflexivity. reflexivity. }
  apply G. reflexivity.
Qed.
Print Assumptions C155_tuple.
(** the k-th line of a matrix consists of the k-th column *)
Theorem C155_matrix : forall (T : Type) (show : T -> string), (forall x, free space (show x) = true) -> (forall x, free newline (show x) = true) ->
  forall D1 D2 (a : nat -> nat -> T),
  exists lines, split newline (ma_out show D1 D2 a) = (lines ++ [""])%list /\ List.length lines = D2 /\
  forall j, (j < D2)%nat -> split space (nth j lines "") = "[" :: map (fun i => show (a i j)) (seq 0 D1) ++ ["]"].
Proof.
  intros T show W N D1 D2 a.
  set (line := fun j => "[" ++ spaced show (map (fun i => a i j) (seq 0 D1)) ++ " ]").
  assert (FL : forall j, free newline (line j) = true) by (intros j; unfold line; rewrite !free_app, (free_spaced show) by exact N; reflexivity).
  exists (map line (seq 0 D2)). split; [|split].
  - unfold ma_out.
    assert (G : forall l os, fold_left (fun os j => os ++ "[" ++ spaced show (map (fun i => a i j) (seq 0 D1)) ++ " ]" ++ String newline "") l os = os ++ fold_right (fun j r => line j ++ String newline r) "" l).
    { induction l as [|j l IH]; intros os; cbn [fold_left fold_right]; [rewrite append_nil; reflexivity|]. rewrite IH. unfold line. rewrite !append_assoc. reflexivity. }
    rewrite G. cbn [append]. clear G. induction (seq 0 D2) as [|j l IH]; [reflexivity|]. cbn [fold_right map List.app]. rewrite split_app by apply FL. rewrite IH. reflexivity.
  - rewrite map_length, seq_length. reflexivity.
  - intros j Hj. rewrite (nth_indep _ "" (line 0%nat)) by (rewrite map_length, seq_length; exact Hj). rewrite map_nth, seq_nth by exact Hj. unfold line. cbn [Nat.add].
    change " ]" with (String space "]"). rewrite (split_spaced show W) by reflexivity. rewrite map_map. reflexivity.
Qed.
Print Assumptions C155_matrix.
(** REFUTED: the lines are not the rows, so the text of a matrix shows its transpose *)
Definition digit (n : nat) : string := match n with 1 => "1" | 2 => "2" | 3 => "3" | 4 => "4" | _ => "0" end.
Definition rows_1234 (i j : nat) : nat := match i, j with 0, 0 => 1 | 0, _ => 2 | _, 0 => 3 | _, _ => 4 end.
Theorem C155_rows_refuted : exists (a : nat -> nat -> nat), split space (nth 0 (split newline (ma_out digit 2 2 a)) "") <> "[" :: map (fun j => digit (a 0%nat j)) (seq 0 2) ++ ["]"].
Proof. exists rows_1234. vm_compute. discriminate. Qed.
Print Assumptions C155_rows_refuted.
Example C155_ex : ma_out digit 2 2 rows_1234 = "[ 1 3 ]" ++ String newline ("[ 2 4 ]" ++ String newline "") /\
  arr_out digit [1; 2; 3]%nat = "( 1 2 3 )" /\ tuple_out digit [1; 2]%nat = "{ [ 1 ] [ 2 ] }" /\ split space "( 1 2 )" = ["("; "1"; "2"; ")"].
Proof. repeat split. Qed.
