(** Property theorems for ristra/utils/array_view.h (C12-C21, C76). *)
From Coq Require Import List Arith ZArith Bool Lia Sorting.Sorted.
From Verif Require Import Outcome ListExtra BoundsModel BoundsProofs.
Import ListNotations.
Local Open Scope Z_scope.

(** C12. size() is the volume; contains() is membership in the box; linearization maps the box
    one-to-one onto 0..size()-1, preserving row-major order. Same for the static bounds. *)
Theorem C12_linearize_bijection : forall e, e <> [] -> nonneg e ->
  let b := contiguous e in
  bsize b = prod e /\
  (forall idx, length idx = length e -> (contains b idx = true <-> in_box e idx)) /\
  (forall idx, in_box e idx -> 0 <= linearize b idx < bsize b) /\
  (forall i j, in_box e i -> in_box e j -> linearize b i = linearize b j -> i = j) /\
  (forall n, 0 <= n < bsize b -> exists idx, in_box e idx /\ linearize b idx = n) /\
  (forall i j, in_box e i -> in_box e j -> (lex_lt i j <-> linearize b i < linearize b j)) /\
  (forall idx, length idx = length e -> static_linearize b idx = linearize b idx).
Proof.
  intros e H0 Hn b. assert (Hb : bsize b = prod e) by apply bsize_prod. rewrite Hb.
  assert (L : forall idx, in_box e idx -> linearize b idx = lin e idx)
    by (intros idx I; apply linearize_lin; [exact H0|apply in_box_length; exact I]).
  split; [reflexivity|]. split; [intros idx Hl; apply (contains_spec b idx); exact Hl|].
  split; [intros idx I; rewrite L by exact I; apply lin_bound; exact I|].
  split; [intros i j Hi Hj; rewrite !L by assumption; apply lin_inj; assumption|].
  split.
  - intros n Hp. assert (P : positive e).
    { clear -Hn Hp. assert (K : 0 < prod e) by lia. clear Hp. induction Hn as [|m e Hm Hn IH]; [constructor|].
      rewrite prod_cons in K. pose proof (prod_nonneg e Hn). constructor; [nia|apply IH; nia]. }
    exists (unrank e n). rewrite L by (apply unrank_in; assumption).
    split; [apply unrank_in; assumption|apply lin_unrank; assumption].
  - split; [intros i j Hi Hj; rewrite !L by assumption; apply lex_lin; assumption|].
    intros idx Hl. rewrite static_linearize_dot, linearize_dot; auto; apply make_strides_length.
Qed.
Print Assumptions C12_linearize_bijection.
Example C12_case : [3;1;2] <> [] /\ nonneg [3;1;2] /\ in_box [3;1;2] [2;0;1] /\
  linearize (contiguous [3;1;2]) [2;0;1] = 5 /\ bsize (contiguous [3;1;2]) = 6.
Proof. split; [discriminate|]. split; [repeat constructor; discriminate|]. split; [repeat constructor; discriminate|]. split; reflexivity. Qed.

(** C13. Forward iteration: exactly the indices of the box, each once, in row-major order. *)
Theorem C13_iteration : forall e, e <> [] -> positive e ->
  exists L, (forall fuel, (Z.to_nat (prod e) < fuel)%nat -> it_visit fuel e = Some L) /\
    StronglySorted lex_lt L /\ (forall idx, In idx L <-> in_box e idx) /\
    Z.of_nat (length L) = prod e.
Proof.
  intros e H0 P. exists (rows e 0 (Z.to_nat (prod e))). pose proof (prod_pos e P) as Pp.
  assert (Hz : ~ all_zero e).
  { intros Z0. destruct e as [|n e]; [congruence|]. inversion Z0; inversion P; subst. lia. }
  split; [|split; [|split]].
  - intros fuel Hf. rewrite it_visit_rows; rewrite ?ones_id by exact P; auto.
  - apply rows_sorted; [exact P|lia].
  - intros idx. rewrite rows_in by (auto; lia). split; [tauto|]. intros I. split; [exact I|].
    pose proof (lin_bound e idx I). lia.
  - rewrite rows_length. lia.
Qed.
Print Assumptions C13_iteration.

(** the step count: end() is reached by exactly size() increments, and -- undoes ++ everywhere *)
Theorem C13_decrement : forall e, e <> [] -> positive e ->
  Nat.iter (Z.to_nat (prod e)) (it_incr e) (it_begin e) = it_end e /\
  (forall n, Z.of_nat n < prod e ->
     Nat.iter n (it_incr e) (it_begin e) <> it_end e /\
     it_decr e (it_incr e (Nat.iter n (it_incr e) (it_begin e))) = Ok (Nat.iter n (it_incr e) (it_begin e))) /\
  it_decr e (it_begin e) = Throw.
Proof.
  intros e H0 P. split; [apply (nth_pos_end e P)|]. split; [|apply it_decr_begin; assumption].
  intros n Hn. split; [|apply (it_decr_pos e n H0 P Hn)].
  intros E. assert (G := it_linearize_pos e n H0 P ltac:(lia)). unfold nth_pos in G. rewrite E in G.
  rewrite it_linearize_end in G. lia.
Qed.
Print Assumptions C13_decrement.

(** reverse iterators visit the same indices in the opposite order *)
Theorem C13_reverse : forall e, e <> [] -> positive e -> forall fuel, (Z.to_nat (prod e) < fuel)%nat ->
  exists L, it_visit fuel e = Some L /\ it_rvisit fuel e = Some (Ok (rev L)).
Proof.
  intros e H0 P fuel Hf. exists (rows e 0 (Z.to_nat (prod e))).
  assert (Hz : ~ all_zero e).
  { intros Z0. destruct e as [|n e]; [congruence|]. inversion Z0; inversion P; subst. lia. }
  split; [rewrite it_visit_rows; rewrite ?ones_id by exact P; auto|].
  unfold it_rvisit. rewrite <- (nth_pos_end e P). pose proof (prod_pos e P).
  apply it_rloop_rows; auto; lia.
Qed.
Print Assumptions C13_reverse.
Example C13_case : [2;3] <> [] /\ positive [2;3] /\
  it_visit 7 [2;3] = Some [[0;0];[0;1];[0;2];[1;0];[1;1];[1;2]].
Proof. split; [discriminate|]. split; [repeat constructor|reflexivity]. Qed.

(** C14. A zero extent does not make the iteration empty. *)
Theorem C14_empty_refuted : exists e, bsize (contiguous e) = 0 /\ it_begin e <> it_end e /\
  it_visit 10 e = Some [[0;0];[1;0]].
Proof. exists [2;0]. repeat split. discriminate. Qed.
Print Assumptions C14_empty_refuted.

(** Exact behaviour: unless all extents are zero, the box with every zero extent replaced by one
    is visited. (Only when all extents are zero is nothing visited.) *)
Theorem C14_empty_partial : forall e, nonneg e ->
  (Forall (fun n => n = 0) e -> forall fuel, (0 < fuel)%nat -> it_visit fuel e = Some []) /\
  (~ Forall (fun n => n = 0) e ->
     exists L, (forall fuel, (length L < fuel)%nat -> it_visit fuel e = Some L) /\ L <> [] /\
       forall idx, In idx L <-> in_box (map (Z.max 1) e) idx).
Proof.
  intros e Hn. split.
  - intros Z0 fuel Hf. unfold it_visit.
    assert (E : it_begin e = e).
    { clear -Z0. unfold it_begin, rank. induction Z0; [reflexivity|]. cbn [length repeat]. rewrite IHZ0. congruence. }
    rewrite E. apply it_loop_end. exact Hf.
  - intros Hz. exists (rows (ones e) 0 (Z.to_nat (prod (ones e)))).
    pose proof (ones_positive e) as P. pose proof (prod_pos _ P) as Pp. rewrite rows_length.
    split; [intros fuel Hf; apply it_visit_rows; assumption|]. split.
    + destruct (Z.to_nat (prod (ones e))) eqn:E; [lia|]. discriminate.
    + intros idx. rewrite rows_in by (auto; lia). change (map (Z.max 1) e) with (ones e).
      split; [tauto|]. intros I. split; [exact I|]. pose proof (lin_bound _ idx I). lia.
Qed.
Print Assumptions C14_empty_partial.
Example C14_case : nonneg [0;3] /\ ~ Forall (fun n => n = 0) [0;3] /\ it_visit 9 [0;3] = Some [[0;0];[0;1];[0;2]].
Proof.
  split; [repeat constructor; discriminate|]. split; [|reflexivity].
  intros H. inversion H as [|? ? _ K]; subst. inversion K; subst. discriminate.
Qed.

(** C15. begin() + size() is not end() for any rank >= 2 and any positive extents (and the assert in
    operator+= does not object). *)
Theorem C15_begin_plus_size_refuted : forall n m r, positive (n :: m :: r) ->
  let e := n :: m :: r in
  exists it, it_plus true e (it_begin e) (bsize (contiguous e)) = Ok it /\ it <> it_end e.
Proof.
  intros n m r P e. exists (n :: repeat 0 (length (m :: r))). rewrite bsize_prod.
  pose proof (it_plus_size true n (m :: r) 0 P ltac:(pose proof (prod_pos _ P); lia)) as E.
  rewrite Z.sub_0_r in E. split; [exact E|]. unfold it_end, e. cbn [length repeat]. intros K.
  injection K as K _. inversion P as [|? ? _ P']; subst. inversion P'; subst. lia.
Qed.
Print Assumptions C15_begin_plus_size_refuted.

(** Everything else agrees with stepping: from any position (including end()) to any position before
    end(), forwards or backwards; and the difference of two iterators is the number of steps, end()
    included. Missing: landing on end() (refuted above; true for rank 1, below). *)
Theorem C15_random_access_partial : forall dbg e, e <> [] -> positive e ->
  let pos n := Nat.iter n (it_incr e) (it_begin e) in
  (forall a b, Z.of_nat a <= prod e -> Z.of_nat b < prod e ->
     it_plus dbg e (pos a) (Z.of_nat b - Z.of_nat a) = Ok (pos b)) /\
  (forall a b, Z.of_nat a <= prod e -> Z.of_nat b <= prod e ->
     it_diff e (pos a) (pos b) = Z.of_nat a - Z.of_nat b).
Proof.
  intros dbg e H0 P pos. split.
  - intros a b Ha Hb. apply (it_plus_pos dbg e a b H0 P Ha Hb).
  - intros a b Ha Hb. unfold it_diff. change pos with (nth_pos e).
    rewrite (it_linearize_pos e a H0 P Ha), (it_linearize_pos e b H0 P Hb). reflexivity.
Qed.
Print Assumptions C15_random_access_partial.
Theorem C15_rank_one : forall dbg n a, 0 < n -> Z.of_nat a <= n ->
  it_plus dbg [n] (Nat.iter a (it_incr [n]) (it_begin [n])) (n - Z.of_nat a) = Ok (it_end [n]).
Proof.
  intros dbg n a Hn Ha. assert (P : positive [n]) by (repeat constructor; exact Hn).
  pose proof (it_plus_size dbg n [] a P) as E. unfold nth_pos in E. cbn [prod fold_right] in E.
  rewrite Z.mul_1_r in E. apply E. exact Ha.
Qed.
Print Assumptions C15_rank_one.
Example C15_case : positive [2;3] /\ it_plus true [2;3] [0;1] 3 = Ok [1;1] /\
  it_plus true [2;3] [0;0] 6 = Ok [2;0] /\ it_plus true [2;3] [2;3] (-2) = Ok [1;1].
Proof. split; [repeat constructor|]. repeat split. Qed.

(** C16. v[i1][i2]..[ik] indexed by [rest] is the cell v(i1,..,ik,rest), for strided views with any
    strides and for contiguous views; in-range accesses stay in the storage of a contiguous view. *)
Theorem C16_slicing_strided : forall (is rest : list Z) p b, rest <> [] ->
  length (is ++ rest) = length (exts b) -> length (strs b) = length (exts b) ->
  cell (fold_left strided_sub is (mk_view (Some p) b)) rest = cell (mk_view (Some p) b) (is ++ rest).
Proof.
  induction is as [|i is IH]; intros rest p b Hr H1 H2; [reflexivity|].
  destruct b as [e s]. cbn [exts strs] in *. destruct e as [|n e]; [discriminate|]. destruct s as [|t s]; [discriminate|].
  cbn [app length] in *.
  cbn [fold_left]. unfold strided_sub at 2. cbn [vdata vbounds strs exts option_map].
  unfold strided_slice. cbn [exts strs]. rewrite !shift_left_cons.
  change (get (t :: s) 0) with t. rewrite IH; cbn [exts strs]; try (assumption || lia).
  unfold cell. cbn [vdata vbounds]. f_equal.
  assert (e <> []) by (intros ->; rewrite app_length in H1; destruct rest; [congruence|simpl in H1; lia]).
  rewrite !linearize_dot; cbn [exts strs length]; try (assumption || lia || discriminate).
  cbn [dot]. lia.
Qed.
Print Assumptions C16_slicing_strided.
(** at() of a view throws exactly for indices outside the bounds and otherwise is operator[];
    at() of an index throws exactly for positions >= rank *)
Theorem C16_at : forall (v : view) (idx : list Z), length idx = length (exts (vbounds v)) ->
  (in_box (exts (vbounds v)) idx -> vat v idx = cell v idx) /\
  (~ in_box (exts (vbounds v)) idx -> vat v idx = Throw) /\
  (forall k, idx_at idx k = match nth_error idx k with Some x => Ok x | None => Throw end).
Proof.
  intros v idx L. pose proof (contains_spec (vbounds v) idx L) as C. unfold vat.
  split; [intros H; apply C in H; rewrite H; reflexivity|].
  split; [intros H; destruct (contains (vbounds v) idx); [exfalso; apply H, C; reflexivity|reflexivity]|].
  intros k. unfold idx_at, get, rank. destruct (Nat.ltb_spec k (length idx)) as [H|H].
  - rewrite (nth_error_nth' idx 0 H). reflexivity.
  - apply nth_error_None in H. rewrite H. reflexivity.
Qed.
Print Assumptions C16_at.
Example C16_at_case : in_box [2;3] [1;2] /\ ~ in_box [2;3] [1;3].
Proof. split; [repeat constructor; lia|]. intros H. inversion H as [|? ? ? ? _ H']; subst. inversion H'; lia. Qed.
Theorem C16_slicing_contiguous : forall (is rest : list Z) p e, rest <> [] -> in_box e (is ++ rest) ->
  let v := mk_view (Some p) (contiguous e) in
  exists c, cell (fold_left contiguous_sub is v) rest = Ok c /\ cell v (is ++ rest) = Ok c /\
            p <= c < p + vsize v.
Proof.
  intros is rest p e Hr I v. exists (p + lin e (is ++ rest)).
  assert (He : e <> []).
  { intros ->. inversion I. destruct is; [destruct rest; [congruence|discriminate]|discriminate]. }
  assert (Ec : cell v (is ++ rest) = Ok (p + lin e (is ++ rest))).
  { unfold cell, v. cbn [vdata vbounds]. rewrite linearize_lin; auto. apply in_box_length. exact I. }
  split; [|split; [exact Ec|unfold v, vsize; cbn [vbounds]; rewrite bsize_prod; cbn [exts contiguous];
           pose proof (lin_bound _ _ I); lia]].
  rewrite <- Ec. unfold v. clear v Ec He. revert p e I. induction is as [|i is IH]; intros p e I; [reflexivity|].
  inversion I as [|n ? e' ? Hi I']; subst. cbn [fold_left].
  unfold contiguous_sub at 2. unfold contiguous_slice. cbn [vdata vbounds strs exts option_map contiguous].
  rewrite shift_left_cons, make_strides_cons. change (get (prod e' :: make_strides e') 0) with (prod e').
  change (mk_bounds e' (make_strides e')) with (contiguous e'). rewrite IH by exact I'.
  unfold cell. cbn [vdata vbounds]. f_equal.
  assert (e' <> []) by (intros ->; inversion I'; destruct is; [destruct rest; [congruence|discriminate]|discriminate]).
  pose proof (in_box_length _ _ I'). rewrite !linearize_lin; cbn [app length]; try (assumption || congruence || discriminate).
  cbn [lin app]. lia.
Qed.
Print Assumptions C16_slicing_contiguous.
Theorem C16_slice_checked : forall v i,
  (i < get (exts (vbounds v)) 0 ->
     strided_slice_at v i = Ok (strided_sub v i) /\ contiguous_slice_at v i = Ok (contiguous_sub v i)) /\
  (get (exts (vbounds v)) 0 <= i -> strided_slice_at v i = Throw /\ contiguous_slice_at v i = Throw).
Proof.
  intros v i. unfold strided_slice_at, contiguous_slice_at. rewrite Z.geb_leb.
  destruct (Z.leb_spec (get (exts (vbounds v)) 0) i); split; intros; try lia; auto.
Qed.
Print Assumptions C16_slice_checked.
Example C16_case : in_box [2;3;4] ([1] ++ [2;3]) /\ 
  cell (contiguous_sub (mk_view (Some 100) (contiguous [2;3;4])) 1) [2;3] = Ok 123.
Proof. split; [repeat constructor; discriminate|reflexivity]. Qed.

(** C17. A section accepted by its asserts addresses the translated cells; all of them are valid
    indices of the parent. *)
Theorem C17_section : forall v w origin bnds,
  exts (vbounds v) <> [] -> length origin = length (exts (vbounds v)) ->
  length bnds = length (exts (vbounds v)) -> length (strs (vbounds v)) = length (exts (vbounds v)) ->
  section2 true v origin bnds = Ok w ->
  exts (vbounds w) = bnds /\
  forall idx, in_box bnds idx ->
    cell w idx = cell v (idx_add origin idx) /\ in_box (exts (vbounds v)) (idx_add origin idx).
Proof.
  intros v w o bd H0 Ho Hb Hs E. unfold section2, assert_then in E. cbn [andb] in E.
  destruct (contains (vbounds v) o) eqn:C; [|discriminate]. cbn [negb] in E.
  destruct (idx_le (idx_add o bd) (exts (vbounds v))) eqn:Le; [|discriminate]. cbn [negb] in E.
  apply contains_spec in C; [|exact Ho].
  apply idx_le_spec in Le; [|rewrite idx_add_length by congruence; exact Ho].
  unfold cell at 1 in E. destruct v as [[p|] b]; [|discriminate]. cbn [vdata vbounds bind] in *.
  injection E as <-. cbn [vbounds exts]. split; [reflexivity|]. intros idx I.
  pose proof (in_box_length _ _ I) as Li. split.
  - unfold cell. cbn [vdata vbounds]. f_equal.
    assert (bd <> []) by (destruct bd; [destruct (exts b); [congruence|discriminate]|discriminate]).
    rewrite !linearize_dot; cbn [exts strs]; try (assumption || congruence).
    + rewrite dot_add by congruence. lia.
    + rewrite idx_add_length by congruence. exact Ho.
  - clear -C Le I. revert o bd idx C Le I. generalize (exts b) as e. induction e as [|n e IH]; intros o bd idx C Le I.
    + inversion C; subst. constructor.
    + inversion C as [|? x ? o' Hx Co]; subst. destruct bd as [|m bd]; [inversion Le|].
      cbn [idx_add] in Le. inversion Le; subst. inversion I; subst. cbn [idx_add].
      constructor; [lia|]. eapply IH; eauto.
Qed.
Print Assumptions C17_section.

(** The asserts accept exactly the sub-boxes (componentwise). *)
Theorem C17_section_accepts : forall p b origin bnds,
  length origin = length (exts b) -> length bnds = length (exts b) ->
  ((exists w, section2 true (mk_view (Some p) b) origin bnds = Ok w) <->
   in_box (exts b) origin /\ Forall2 Z.le (idx_add origin bnds) (exts b)).
Proof.
  intros p b o bd Ho Hb. unfold section2, assert_then, cell. cbn [andb vbounds vdata bind].
  rewrite <- (contains_spec b o Ho).
  rewrite <- (idx_le_spec (idx_add o bd) (exts b)) by (rewrite idx_add_length; congruence).
  destruct (contains b o), (idx_le (idx_add o bd) (exts b)); cbn [negb];
    (split; [intros (w & E); try discriminate; auto|intros [A B]; try discriminate; eauto]).
Qed.
Print Assumptions C17_section_accepts.

(** Sections of sections: origins add up. *)
Theorem C17_section_compose : forall v w u o1 b1 o2 b2,
  exts (vbounds v) <> [] -> length (strs (vbounds v)) = length (exts (vbounds v)) ->
  length o1 = length (exts (vbounds v)) -> length b1 = length (exts (vbounds v)) ->
  length o2 = length (exts (vbounds v)) -> length b2 = length (exts (vbounds v)) ->
  section2 true v o1 b1 = Ok w -> section2 true w o2 b2 = Ok u ->
  section2 true v (idx_add o1 o2) b2 = Ok u.
Proof.
  intros v w u o1 b1 o2 b2 H0 Hs L1 L2 L3 L4 E1 E2.
  destruct v as [[p|] b]; [|unfold section2, assert_then, cell in E1; simpl in E1;
    destruct (contains b o1), (idx_le (idx_add o1 b1) (exts b)); discriminate].
  cbn [vbounds] in *.
  destruct (proj1 (C17_section_accepts p b o1 b1 L1 L2) (ex_intro _ w E1)) as [I1 F1].
  destruct (C17_section (mk_view (Some p) b) w o1 b1 H0 L1 L2 Hs E1) as [Ew Cw].
  assert (Hw : w = mk_view (Some (p + linearize b o1)) (mk_bounds b1 (strs b))).
  { unfold section2, assert_then, cell in E1. cbn [andb vbounds vdata bind] in E1.
    destruct (negb (contains b o1)); [discriminate|].
    destruct (negb (idx_le (idx_add o1 b1) (exts b))); [discriminate|]. injection E1 as <-. reflexivity. }
  subst w. cbn [vbounds exts] in *.
  destruct (proj1 (C17_section_accepts _ (mk_bounds b1 (strs b)) o2 b2 ltac:(cbn [exts]; congruence) ltac:(cbn [exts]; congruence)) (ex_intro _ u E2)) as [I2 F2].
  cbn [exts] in *. destruct (Cw o2 I2) as [Cc Ci].
  assert (F : Forall2 Z.le (idx_add (idx_add o1 o2) b2) (exts b)).
  { rewrite idx_add_assoc. clear -F1 F2 L1 L2 L3 L4. revert o1 b1 o2 b2 F1 F2 L1 L2 L3 L4.
    generalize (exts b) as e. induction e as [|n e IH]; intros [|x o1] [|y b1] [|z o2] [|t b2] F1 F2 L1 L2 L3 L4;
      try discriminate; [constructor|]. cbn [idx_add] in *. inversion F1; inversion F2; subst.
    constructor; [lia|]. eapply IH; eauto. }
  assert (La : length (idx_add o1 o2) = length (exts b)) by (rewrite idx_add_length; congruence).
  unfold section2, assert_then. cbn [andb vbounds].
  rewrite (proj2 (contains_spec b _ La) Ci).
  assert (Lb : length (idx_add (idx_add o1 o2) b2) = length (exts b)) by (rewrite idx_add_length; congruence).
  rewrite (proj2 (idx_le_spec _ (exts b) Lb) F). cbn [negb].
  rewrite <- Cc. unfold section2, assert_then in E2. cbn [andb vbounds] in E2.
  destruct (negb (contains (mk_bounds b1 (strs b)) o2)); [discriminate|].
  cbn [exts] in E2. destruct (negb (idx_le (idx_add o2 b2) b1)); [discriminate|]. exact E2.
Qed.
Print Assumptions C17_section_compose.
(** section(origin): the rest of the box from origin on *)
Theorem C17_section_origin : forall p b origin, exts b <> [] -> length (strs b) = length (exts b) ->
  in_box (exts b) origin ->
  exists w, section1 true (mk_view (Some p) b) origin = Ok w /\
    forall idx, in_box (exts (vbounds w)) idx ->
      cell w idx = cell (mk_view (Some p) b) (idx_add origin idx) /\ in_box (exts b) (idx_add origin idx).
Proof.
  intros p b o H0 Hs I. pose proof (in_box_length _ _ I) as Lo. unfold section1, assert_then. cbn [andb vbounds].
  rewrite (proj2 (contains_spec b o Lo) I). cbn [negb bind cell vdata vbounds].
  eexists. split; [reflexivity|]. cbn [vbounds exts]. intros idx J.
  assert (Lb : length (idx_sub (exts b) o) = length (exts b)).
  { clear -I. induction I; [reflexivity|]. cbn [idx_sub length]. congruence. }
  pose proof (in_box_length _ _ J) as Li. split.
  - unfold cell. cbn [vdata vbounds]. f_equal. assert (idx_sub (exts b) o <> []) by (destruct (idx_sub (exts b) o); [destruct (exts b); [congruence|discriminate]|discriminate]).
    rewrite !linearize_dot; cbn [exts strs]; try (assumption || congruence).
    + rewrite dot_add by congruence. lia.
    + rewrite idx_add_length by congruence. exact Lo.
  - clear -I J. revert idx J. induction I as [|n x e o Hx I IH]; intros idx J; [constructor|].
    cbn [idx_sub] in J. inversion J; subst. cbn [idx_add]. constructor; [lia|]. apply IH. assumption.
Qed.
Print Assumptions C17_section_origin.
Example C17_case : exists w, section2 true (mk_view (Some 0) (contiguous [4;5])) [1;2] [2;3] = Ok w /\
  cell w [1;1] = Ok 13.
Proof. eexists. split; reflexivity. Qed.

(** C18. empty() is inverted: a view with elements is "empty", a null view is not. *)
Theorem C18_empty_refuted :
  (exists v, vsize v = 5 /\ vempty v = true) /\ (exists v, vsize v = 0 /\ vempty v = false).
Proof.
  split; [exists (mk_view (Some 0) (contiguous [5])); split; reflexivity|].
  exists (mk_view None (contiguous [0])). split; reflexivity.
Qed.
Print Assumptions C18_empty_refuted.
(** It tells whether the data pointer is set, whatever the size. *)
Theorem C18_empty_exact : forall v, vempty v = true <-> exists p, vdata v = Some p.
Proof.
  intros [[p|] b]; cbn; split; intros H; try reflexivity; try discriminate; [eauto|].
  destruct H. discriminate.
Qed.
Print Assumptions C18_empty_exact.

(** C19. Strided views on the same storage with the same size compare equal whatever they show. *)
Theorem C19_view_equality_refuted : exists (mem : Z -> Z) v w ev ew,
  strided_elements mem 10 v = Some (Ok ev) /\ strided_elements mem 10 w = Some (Ok ew) /\
  ev <> ew /\ view_eq Z.eqb v w ev ew = true.
Proof.
  exists (fun k => k), (mk_view (Some 0) (mk_bounds [2] [1])), (mk_view (Some 0) (mk_bounds [2] [2])), [0;1], [0;2].
  repeat split. discriminate.
Qed.
Print Assumptions C19_view_equality_refuted.

Lemma equal_prefix_eq {T} (eqb : T -> T -> bool) : (forall x y, eqb x y = true <-> x = y) ->
  forall a b, length a = length b -> (equal_prefix eqb a b = true <-> a = b).
Proof.
  intros He. induction a as [|x a IH]; intros [|y b] H; try discriminate; cbn [equal_prefix].
  - split; reflexivity.
  - rewrite andb_true_iff, He, IH by (simpl in H; lia).
    split; [intros [-> ->]; reflexivity|intros K; injection K; auto].
Qed.

(** Contiguous views (array_view, static_array_view): equality is equality of the element
    sequences, shapes being ignored. *)
Theorem C19_contiguous : forall (T : Type) (mem : Z -> T) eqb, (forall x y, eqb x y = true <-> x = y) ->
  forall v w ev ew, 0 <= vsize v -> 0 <= vsize w ->
  contiguous_elements mem v = Ok ev -> contiguous_elements mem w = Ok ew ->
  (view_eq eqb v w ev ew = true <-> ev = ew).
Proof.
  intros T mem eqb He v w ev ew Sv Sw Ev Ew.
  assert (L : forall v ev, 0 <= vsize v -> contiguous_elements mem v = Ok ev -> Z.of_nat (length ev) = vsize v).
  { clear. intros v ev S E. unfold contiguous_elements in E. destruct (vdata v).
    - injection E as <-. rewrite map_length, seq_length. lia.
    - destruct (Z.eqb_spec (vsize v) 0); [|discriminate]. injection E as <-. simpl. lia. }
  pose proof (L _ _ Sv Ev) as Lv. pose proof (L _ _ Sw Ew) as Lw.
  unfold view_eq. rewrite andb_true_iff, orb_true_iff, Z.eqb_eq. split.
  - intros [Es [D|D]].
    + unfold contiguous_elements in *. rewrite Es in Ev.
      destruct (vdata v) as [p|], (vdata w) as [q|]; cbn [same_data] in D; try discriminate.
      * apply Z.eqb_eq in D. subst q. congruence.
      * congruence.
    + apply (equal_prefix_eq eqb He) in D; [exact D|lia].
  - intros ->. split; [lia|]. right. apply (equal_prefix_eq eqb He); reflexivity.
Qed.
Print Assumptions C19_contiguous.
(** Strided views: true when the data pointers differ. Missing: views sharing their first element
    (refuted above). *)
Theorem C19_strided_partial : forall (T : Type) eqb, (forall x y : T, eqb x y = true <-> x = y) ->
  forall v w (ev ew : list T), Z.of_nat (length ev) = vsize v -> Z.of_nat (length ew) = vsize w ->
  vdata v <> vdata w -> (view_eq eqb v w ev ew = true <-> ev = ew).
Proof.
  intros T eqb He v w ev ew Lv Lw D. unfold view_eq.
  assert (E : same_data (vdata v) (vdata w) = false).
  { destruct (vdata v) as [p|], (vdata w) as [q|]; cbn; try congruence. apply Z.eqb_neq. congruence. }
  rewrite E, andb_true_iff, Z.eqb_eq. cbn [orb]. split.
  - intros [Es D']. apply (equal_prefix_eq eqb He) in D'; [exact D'|lia].
  - intros ->. split; [lia|]. apply (equal_prefix_eq eqb He); reflexivity.
Qed.
Print Assumptions C19_strided_partial.
(** The pointer walk of a contiguous view reads the same cells as index iteration. *)
Theorem C19_contiguous_iteration : forall (T : Type) (mem : Z -> T) p e, e <> [] -> positive e ->
  let v := mk_view (Some p) (contiguous e) in
  forall fuel, (Z.to_nat (prod e) < fuel)%nat ->
  strided_elements mem fuel v = Some (contiguous_elements mem v).
Proof.
  intros T mem p e H0 P v fuel Hf. unfold strided_elements, v. cbn [vbounds exts contiguous].
  assert (Hz : ~ all_zero e).
  { intros Z0. destruct e as [|n e]; [congruence|]. inversion Z0; inversion P; subst. lia. }
  rewrite it_visit_rows; rewrite ?ones_id by exact P; auto. f_equal.
  unfold contiguous_elements, vsize. cbn [vdata vbounds]. rewrite bsize_prod. cbn [exts contiguous].
  change (mk_bounds e (make_strides e)) with (contiguous e). unfold rows. assert (B : Z.of_nat 0 + Z.of_nat (Z.to_nat (prod e)) <= prod e) by (pose proof (prod_pos e P); lia).
  revert B. generalize (Z.to_nat (prod e)) as n, 0%nat as j. induction n as [|n IH]; intros j B; [reflexivity|].
  cbn [seq map fold_right]. rewrite IH by lia. unfold cell at 1. cbn [vdata vbounds bind].
  assert (I : in_box e (unrank e (Z.of_nat j))) by (apply unrank_in; auto; lia).
  rewrite linearize_lin by (auto using in_box_length). rewrite lin_unrank by (auto; lia). reflexivity.
Qed.
Print Assumptions C19_contiguous_iteration.
Example C19_case : contiguous_elements (fun k => k) (mk_view (Some 3) (contiguous [2;2])) = Ok [3;4;5;6] /\
  strided_elements (fun k => k) 5 (mk_view (Some 3) (contiguous [2;2])) = Some (Ok [3;4;5;6]).
Proof. split; reflexivity. Qed.

(** C20. operator< holds in both directions. *)
Theorem C20_index_order_refuted : exists a b : index, length a = length b /\
  idx_lt a b = true /\ idx_lt b a = true.
Proof. exists [0;1], [1;0]. repeat split. Qed.
Print Assumptions C20_index_order_refuted.
(** What the operators mean, in every rank: < is "some component is smaller"; <= and >= are
    componentwise (so the section checks are right), and == is equality. *)
Theorem C20_index_order_partial : forall a b : index, length a = length b ->
  (idx_lt a b = true <-> exists i, (i < length a)%nat /\ nth i a 0 < nth i b 0) /\
  (idx_le a b = true <-> Forall2 Z.le a b) /\ (idx_ge a b = true <-> Forall2 Z.le b a) /\
  (idx_eq a b = true <-> a = b).
Proof.
  intros a b H. split; [apply idx_lt_spec; exact H|]. split; [apply idx_le_spec; exact H|].
  split; [rewrite idx_ge_le; apply idx_le_spec; auto|apply idx_eq_spec].
Qed.
Print Assumptions C20_index_order_partial.
Example C20_case : length [0;1] = length [1;0] /\ idx_le [0;1] [1;0] = false /\ idx_le [0;0] [1;0] = true.
Proof. repeat split. Qed.

(** C21. contiguous_bounds(c-array) uses the extents as strides. *)
Theorem C21_c_array_refuted : exists e idx, in_box e idx /\
  linearize (contiguous_of_c_array e) idx <> linearize (contiguous e) idx /\
  bsize (contiguous_of_c_array e) <= linearize (contiguous_of_c_array e) idx.
Proof. exists [2;3], [1;2]. split; [repeat constructor; discriminate|]. split; [discriminate|]. vm_compute. discriminate. Qed.
Print Assumptions C21_c_array_refuted.
(** It is right only when every extent is 1. strided_bounds(c-array) is right always. *)
Theorem C21_c_array_partial : forall e, 
  (contiguous_of_c_array e = contiguous e <-> Forall (fun n => n = 1) e) /\
  strided_of_c_array e = contiguous e.
Proof.
  intros e. split; [|reflexivity]. unfold contiguous_of_c_array, contiguous.
  assert (G : e = make_strides e <-> Forall (fun n => n = 1) e).
  { induction e as [|n e IH]; [split; [constructor|reflexivity]|]. rewrite make_strides_cons. split.
    - intros E. injection E as E1 E2. apply IH in E2. constructor; [|exact E2]. rewrite E1.
      clear -E2. induction E2; [reflexivity|]. rewrite prod_cons. lia.
    - intros F. inversion F as [|? ? -> F']; subst. f_equal; [|apply IH; exact F'].
      clear -F'. induction F'; [reflexivity|]. rewrite prod_cons. lia. }
  rewrite <- G. split; [intros E; injection E; auto|intros E; rewrite <- E; reflexivity].
Qed.
Print Assumptions C21_c_array_partial.

(** C76. A strided view built on a container is accepted when the number of elements fits, although
    its strides reach further. *)
Theorem C76_strided_container_refuted : exists n b v idx c,
  view_of_container true n b = Ok v /\ in_box (exts b) idx /\ cell v idx = Ok c /\ n <= c.
Proof.
  exists 2, (mk_bounds [2] [5]), (mk_view (Some 0) (mk_bounds [2] [5])), [1], 5.
  split; [reflexivity|]. split; [repeat constructor; discriminate|]. split; [reflexivity|discriminate].
Qed.
Print Assumptions C76_strided_container_refuted.
(** total_size() is the right bound: all accesses lie below it, and it is attained. So a contiguous
    view accepted by the assert is safe. *)
Theorem C76_total_size_partial : forall b, exts b <> [] -> positive (exts b) ->
  length (strs b) = length (exts b) -> nonneg (strs b) ->
  (forall idx, in_box (exts b) idx -> 0 <= linearize b idx < btotal_size b) /\
  (exists idx, in_box (exts b) idx /\ linearize b idx = btotal_size b - 1).
Proof.
  intros [e s] H0 P L N. cbn [exts strs] in *.
  assert (T : btotal_size (mk_bounds e s) = 1 + dot (map (fun n => n - 1) e) s).
  { unfold btotal_size, rank. cbn [exts strs].
    assert (G : forall a, fold_left (fun r i => r + (get e i - 1) * get s i) (seq 0 (length e)) a
                = a + dot (map (fun n => n - 1) e) s); [|apply G].
    clear -L. revert s L. induction e as [|n e IH]; intros [|t s] L a; try discriminate; [simpl; lia|].
    cbn [length seq fold_left map dot]. rewrite fold_seq_shift.
    change (get (n :: e) 0) with n. change (get (t :: s) 0) with t.
    transitivity (a + (n - 1) * t + dot (map (fun n => n - 1) e) s); [|lia].
    rewrite <- IH by (simpl in L; lia). reflexivity. }
  rewrite T. split.
  - intros idx I. rewrite linearize_dot by (cbn [exts strs]; auto using in_box_length). cbn [strs].
    clear -I N L. revert s L N. induction I as [|n i e idx Hi I IH]; intros [|t s] L N; try discriminate; [simpl; lia|].
    inversion N as [|? ? Ht N']; subst. cbn [map dot]. specialize (IH s ltac:(simpl in L; lia) N'). nia.
  - exists (map (fun n => n - 1) e). split; [apply lasts_in; exact P|].
    rewrite linearize_dot by (cbn [exts strs]; auto; rewrite map_length; reflexivity). cbn [strs]. lia.
Qed.
Print Assumptions C76_total_size_partial.
Theorem C76_contiguous_container : forall n e v, e <> [] -> nonneg e ->
  view_of_container true n (contiguous e) = Ok v ->
  forall idx, in_box e idx -> exists c, cell v idx = Ok c /\ 0 <= c < n.
Proof.
  intros n e v H0 N E idx I. unfold view_of_container, assert_then in E. cbn [andb] in E.
  rewrite Z.geb_leb in E. destruct (Z.leb_spec (bsize (contiguous e)) n); [|discriminate].
  injection E as <-. exists (0 + linearize (contiguous e) idx). split; [reflexivity|].
  destruct (C12_linearize_bijection e H0 N) as (_ & _ & B & _). specialize (B idx I). lia.
Qed.
Print Assumptions C76_contiguous_container.
Example C76_case : exists v, view_of_container true 6 (contiguous [2;3]) = Ok v /\ cell v [1;2] = Ok 5.
Proof. eexists. split; reflexivity. Qed.
