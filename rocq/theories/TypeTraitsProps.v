(** Property C165: type traits and the overloads they select (ristra/utils/type_traits.h, type_traits_impl.h,
    ristra/utils/array_view.h, ristra/math/general.h).  Every statement is for every environment of classes X. *)
From Coq Require Import String List Bool Arith Lia.
From Verif Require Import TypeTraitsModel.
Import ListNotations.
Local Open Scope nat_scope.
Local Open Scope list_scope.

Lemma eqt_spec a b : eqt a b = true <-> a = b.
Proof. unfold eqt. destruct (ty_eq a b); split; congruence. Qed.
Lemma and_spec l : and_ l = forallb (fun b => b) l.
Proof. induction l as [|[] l IH]; cbn; auto. Qed.

(** ** are_type_t: all decayed types are the decayed target *)
Theorem C165_are_type target ts : are_type_t target ts = true <-> (forall t, In t ts -> decay t = decay target).
Proof.
  unfold are_type_t. rewrite and_spec, forallb_forall. split.
  - intros H t Ht. apply eqt_spec, H, in_map_iff. exists t. split; [reflexivity|exact Ht].
  - intros H b Hb. apply in_map_iff in Hb. destruct Hb as (t & <- & Ht). apply eqt_spec, H, Ht.
Qed.
Print Assumptions C165_are_type.
(** references and cv-qualifiers do not matter *)
Theorem C165_decay : (forall t, is_reference t = false -> decay (LRef t) = decay t /\ decay (RRef t) = decay t) /\ (forall c v t, wf (Cv c v t) = true -> decay (Cv c v t) = decay t)
  /\ (forall t, wf t = true -> decay (decay t) = decay t).
Proof.
  split; [|split].
  - intros t H. destruct t; try discriminate H; split; reflexivity.
  - intros c v t H. destruct t; try reflexivity; cbn in H; rewrite ?andb_false_r in H; discriminate H.
  - intros t H. destruct t; try reflexivity.
    + destruct t; try reflexivity; try (cbn in H; rewrite ?andb_false_r, ?andb_true_r in H; discriminate H). destruct t; try reflexivity; cbn in H; rewrite ?andb_false_r in H; try discriminate H.
    + destruct t; try reflexivity; try (cbn in H; rewrite ?andb_false_r, ?andb_true_r in H; discriminate H). destruct t; try reflexivity; cbn in H; rewrite ?andb_false_r in H; try discriminate H.
    + destruct t; try reflexivity; cbn in H; rewrite ?andb_false_r in H; discriminate H.
Qed.
Print Assumptions C165_decay.
Example C165_are_type_example : are_type_t (Flt 1) [LRef (Flt 1); Cv true false (Flt 1); RRef (Flt 1); LRef (Cv true true (Flt 1))] = true
  /\ are_type_t (LRef (Arr (Some 3) (Int 2))) [Ptr (Int 2)] = true /\ are_type_t (Flt 1) [Flt 1; Flt 0] = false /\ are_type_t (Flt 1) [] = true.
Proof. repeat split. Qed.

(** ** are_integral where it is used: arguments passed by value *)
Lemma are_integral_all ts : are_integral ts = true <-> (forall t, In t ts -> exists k, remove_cv t = Int k).
Proof.
  induction ts as [|t ts IH]; cbn [are_integral In]; [split; [intros _ t []|reflexivity]|]. rewrite andb_true_iff, IH. unfold is_integral. split.
  - intros [H A] u [<-|Hu]; [destruct (remove_cv t); try discriminate; eexists; reflexivity|exact (A u Hu)].
  - intros H. split; [destruct (H t (or_introl eq_refl)) as [k ->]; reflexivity|intros u Hu; apply H; right; exact Hu].
Qed.
Theorem C165_integral ts : are_integral ts = true <-> (forall t, In t ts -> exists k, t = Int k \/ exists c v, t = Cv c v (Int k)).
Proof.
  rewrite are_integral_all. split; intros H t Ht; destruct (H t Ht) as [k E]; exists k.
  - destruct t; cbn in E; try discriminate; [left; exact E|right; subst; eexists; eexists; reflexivity].
  - destruct E as [-> |(c & v & ->)]; reflexivity.
Qed.
Print Assumptions C165_integral.
(** an index takes exactly as many arguments as its rank, each of integer type, however they are passed *)
Theorem C165_index r args : (forall e, In e args -> wfe e = true) ->
  (index_enabled r args = true <-> length args = r /\ forall e, In e args -> exists k, remove_cv (e_type e) = Int k).
Proof.
  intros W. unfold index_enabled. rewrite andb_true_iff, Nat.eqb_eq, are_integral_all. apply and_iff_compat_l. split; intros H.
  - intros e He. destruct (H (deduce_value e)) as [k E]; [apply in_map, He|]. exists k. revert E. specialize (W e He). unfold deduce_value, decay, wfe in *. destruct (e_type e); cbn in *; rewrite ?andb_false_r in W; try discriminate W; try discriminate; auto. destruct t; cbn in *; rewrite ?andb_false_r in W; try discriminate W; try discriminate; auto.
  - intros t Ht. apply in_map_iff in Ht. destruct Ht as (e & <- & He). destruct (H e He) as [k E]. exists k. revert E. unfold deduce_value, decay. destruct (e_type e); cbn in *; try discriminate; auto. intros ->. reflexivity.
Qed.
Print Assumptions C165_index.
Example C165_index_example : index_enabled 2 [mk_expr (Int 1) Lvalue; mk_expr (Cv true false (Int 2)) Lvalue] = true /\ index_enabled 2 [mk_expr (Int 1) Lvalue; mk_expr (Flt 1) Prvalue] = false
  /\ are_integral [LRef (Int 1)] = false.
Proof. repeat split. Qed.

(** ** is_iterator *)
(** for types deduced by value, as in average(first, last), the trait is right: pointers to objects or functions and classes
    with the five nested types *)
Theorem C165_iterator X t : wf t = true -> let U := decay t in
  (is_iterator X U = Some true <-> (exists v, U = Ptr v /\ is_void v = false) \/ (class_type U = true /\ forall s, In s iterator_names -> x_nested X U s = true))
  /\ (is_iterator X U = None <-> U = Void \/ exists v, U = Ptr v /\ is_void v = true).
Proof.
  intros W U. assert (P : (exists v, U = Ptr v) \/ (U = Void) \/ (class_type U = true /\ remove_cv U = U /\ is_void U = false /\ declval U = Some (mk_expr U Xvalue)) \/ (class_type U = false /\ is_iterator X U = Some false /\ U <> Void /\ forall v, U <> Ptr v)).
  { unfold U, decay. destruct t; cbn [remove_reference remove_cv]; try (right; right; right; repeat split; congruence); try (right; left; reflexivity); try (left; eexists; reflexivity); try (right; right; left; repeat split; reflexivity);
    destruct t; cbn [remove_reference remove_cv]; try (right; right; right; repeat split; congruence); try (right; left; reflexivity); try (left; eexists; reflexivity); try (right; right; left; repeat split; reflexivity); cbn in W; rewrite ?andb_false_r, ?andb_true_r in W; try discriminate W;
    destruct t; cbn [remove_reference remove_cv]; try (right; right; right; repeat split; congruence); try (right; left; reflexivity); try (left; eexists; reflexivity); try (right; right; left; repeat split; reflexivity); cbn in W; rewrite ?andb_false_r, ?andb_true_r in W; try discriminate W. }
  destruct P as [(v & E)|[E|[(C & R & V & D)|(C & F & V & N)]]].
  - rewrite E. unfold is_iterator. cbn. destruct (is_void v) eqn:V; split; split; try discriminate; try reflexivity.
    + intros [(w & [= <-] & B)|[B _]]; congruence.
    + intros _. right. exists v. auto.
    + intros _. left. exists v. auto.
    + intros [B|(w & [= <-] & B)]; congruence.
  - rewrite E. cbn. split; split; try discriminate; auto. intros [(w & B & _)|[B _]]; discriminate.
  - unfold is_iterator. rewrite D. assert (T : has_iterator_traits X (deduce_forward (mk_expr U Xvalue)) = Some (forallb (nested X U) iterator_names)) by (cbn; destruct U; try discriminate C; reflexivity). rewrite T. split; split.
    + intros B0. assert (B : forallb (nested X U) iterator_names = true) by (destruct (forallb (nested X U) iterator_names); [reflexivity|discriminate B0]). right. split; [exact C|]. intros s Hs. rewrite forallb_forall in B. specialize (B s Hs). unfold nested in B. rewrite C, R in B. exact B.
    + intros [(v & B & _)|[_ B]]; [rewrite B in C; discriminate C|]. f_equal. apply forallb_forall. intros s Hs. unfold nested. rewrite C, R. exact (B s Hs).
    + discriminate.
    + intros [B|(v & B & _)]; rewrite B in C; discriminate C.
  - rewrite F. split; split; try discriminate.
    + intros [(v & B & _)|[B _]]; [exfalso; exact (N v B)|congruence].
    + intros [B|(v & B & _)]; [contradiction|exfalso; exact (N v B)].
Qed.
Print Assumptions C165_iterator.
(** as a trait on its own: a reference to an iterator and a const pointer are no iterators *)
Theorem C165_iterator_refuted X t : is_iterator X (LRef t) = Some false /\ (forall c v, is_iterator X (Cv c v (Ptr t)) = Some false) /\ is_iterator X (Ptr (Int 1)) = Some true.
Proof. repeat split. Qed.
Print Assumptions C165_iterator_refuted.

(** ** is_callable *)
Theorem C165_callable X t : is_class X t = true -> x_final X (remove_cv t) = false -> is_callable X t = Some (x_call_name X (remove_cv t)).
Proof. intros C F. unfold is_callable, detail_is_callable. rewrite C, F. reflexivity. Qed.
Print Assumptions C165_callable.
(** callable things it denies, and classes that cannot be asked *)
Definition calls : cxx := {| x_union := fun t => eqt t (Class 1); x_final := fun t => eqt t (Class 2); x_nested := fun _ _ => false; x_method := fun _ _ _ _ _ => false;
  x_call_name := fun _ => true; x_call := fun _ _ => true; x_subscript := fun _ _ => false; x_output := fun _ => false; x_name := fun _ => EmptyString |}.
Theorem C165_callable_refuted :
  (forall X k, is_callable X (Ptr (Fun k)) = Some false /\ is_callable X (Fun k) = Some false) /\ (forall X t, is_callable X (LRef t) = Some false)
  /\ (forall X t, x_union X (remove_cv t) = true -> is_callable X t = Some false)
  /\ (forall X t, is_class X t = true -> x_final X (remove_cv t) = true -> is_callable X t = None)
  /\ (forall t, In t [Ptr (Fun 0); Fun 0; LRef (Class 0); Class 1] -> has_call_operator calls t [Int 0] = true /\ is_callable calls t = Some false)
  /\ has_call_operator calls (Class 2) [] = true /\ is_callable calls (Class 2) = None.
Proof.
  split; [intros; split; reflexivity|]. split; [reflexivity|]. split; [intros X t H; unfold is_callable, is_class; rewrite H, andb_false_r; reflexivity|].
  split; [intros X t H F; unfold is_callable, detail_is_callable; rewrite H, F; reflexivity|]. split; [|split; reflexivity].
  intros t [<-|[<-|[<-|[<-|[]]]]]; split; reflexivity.
Qed.
Print Assumptions C165_callable_refuted.
Example C165_callable_example : is_callable calls (Cv true false (Class 0)) = Some true. Proof. reflexivity. Qed.

(** ** containers *)
Theorem C165_container X t : is_reference t = false -> is_void t = false ->
  (is_container X t = true <-> class_type t = true
     /\ (forall s, In s ["value_type"; "size_type"; "allocator_type"; "iterator"; "const_iterator"]%string -> x_nested X (remove_cv t) s = true)
     /\ (forall s, In s ["size"; "begin"; "end"; "cbegin"; "cend"; "data"]%string -> x_method X (remove_cv t) (fst (cv_of t)) (snd (cv_of t)) false s = true)).
Proof.
  intros R V. unfold is_container. rewrite andb_true_iff, !forallb_forall. split.
  - intros [A B]. assert (C : class_type t = true) by (specialize (A "value_type"%string (or_introl eq_refl)); unfold nested in A; apply andb_true_iff in A; tauto). split; [exact C|]. split.
    + intros s Hs. specialize (A s Hs). unfold nested in A. apply andb_true_iff in A. tauto.
    + intros s Hs. specialize (B s Hs). assert (D : declval t = Some (mk_expr t Xvalue)) by (destruct t; try discriminate R; try discriminate V; try discriminate C; try reflexivity; destruct t; try discriminate C; reflexivity). rewrite D in B. unfold method in B. cbn [e_type lvalue e_cat] in B. apply andb_true_iff in B. tauto.
  - intros (C & A & B). assert (D : declval t = Some (mk_expr t Xvalue)) by (destruct t; try discriminate R; try discriminate V; try discriminate C; try reflexivity; destruct t; try discriminate C; reflexivity). split; intros s Hs.
    + unfold nested. rewrite C. exact (A s Hs).
    + rewrite D. unfold method. cbn [e_type lvalue e_cat]. rewrite C. exact (B s Hs).
Qed.
Print Assumptions C165_container.
(** a container without data(), like std::list, is denied, and so is every reference to a container; the minimal trait
    accepts references *)
Definition stl : cxx := {| x_union := fun _ => false; x_final := fun _ => false;
  x_nested := fun t s => true; x_method := fun t c v l s => negb (eqt t (Class 1) && String.eqb s "data"); (* 0: vector, 1: list *)
  x_call_name := fun _ => false; x_call := fun _ _ => false; x_subscript := fun t _ => eqt (e_type t) (Class 0); x_output := fun _ => false; x_name := fun _ => EmptyString |}.
Theorem C165_container_refuted :
  (forall X t, (forall c v, x_method X (remove_cv t) c v false "data" = false) -> is_reference t = false -> is_container X t = false) /\ is_container stl (Class 1) = false
  /\ (forall X t, is_container X (LRef t) = false)
  /\ is_container stl (Class 0) = true /\ is_minimal_container stl (LRef (Class 0)) = true /\ is_minimal_container stl (Class 1) = false.
Proof.
  split; [|repeat split].
  intros X t H R. unfold is_container. apply andb_false_iff. right. cbn [forallb].
  assert (D : method X (declval t) "data" = false).
  { unfold method. destruct t; try discriminate R; cbn [declval]; try reflexivity; try (cbn; rewrite H; reflexivity). destruct (is_void (Cv c v t)); [reflexivity|]. cbn [e_type remove_cv lvalue e_cat] in *. rewrite H. apply andb_false_r. }
  rewrite D, !andb_false_r. reflexivity.
Qed.
Print Assumptions C165_container_refuted.
(** views of a container: without ref-qualified members an enabled constructor compiles and the others are not usable *)
Theorem C165_view X e : wfe e = true -> lvalue e = true -> (forall t c v s, x_method X t c v true s = x_method X t c v false s) -> view_enabled X e = view_compiles X e.
Proof.
  intros W L H. unfold view_enabled, view_compiles, is_minimal_container, method. rewrite L. unfold wfe in W.
  destruct (e_type e) eqn:E; cbn in *; rewrite ?andb_false_r in W; try discriminate W; try reflexivity; try (rewrite !H; apply andb_comm).
  unfold is_void. cbn [remove_cv] in *. destruct t; cbn in *; rewrite ?andb_false_r in W; try discriminate W; try reflexivity; rewrite !H; apply andb_comm.
Qed.
Print Assumptions C165_view.
Example C165_view_example : wfe (mk_expr (Cv true false (Class 0)) Lvalue) = true /\ view_enabled stl (mk_expr (Cv true false (Class 0)) Lvalue) = true. Proof. split; reflexivity. Qed.
(** with them the constructor can be enabled and not compile, or be missing *)
Definition rvalues_only : cxx := {| x_union := fun _ => false; x_final := fun _ => false; x_nested := fun _ _ => true; x_method := fun t c v l s => if eqt t (Class 0) then negb l else l;
  x_call_name := fun _ => false; x_call := fun _ _ => false; x_subscript := fun t _ => false; x_output := fun _ => false; x_name := fun _ => EmptyString |}.
Theorem C165_view_refuted :
  view_enabled rvalues_only (mk_expr (Class 0) Lvalue) = true /\ view_compiles rvalues_only (mk_expr (Class 0) Lvalue) = false
  /\ view_enabled rvalues_only (mk_expr (Class 1) Lvalue) = false /\ view_compiles rvalues_only (mk_expr (Class 1) Lvalue) = true.
Proof. repeat split. Qed.
Print Assumptions C165_view_refuted.

(** ** has_subscript_operator *)
Theorem C165_subscript X t i a b : declval t = Some a -> declval i = Some b ->
  (class_type (e_type a) = true \/ class_type (e_type b) = true -> has_subscript_operator X t i = x_subscript X a b)
  /\ (class_type (e_type a) = false -> class_type (e_type b) = false -> has_subscript_operator X t i = has_subscript_operator X i t).
Proof.
  intros A B. unfold has_subscript_operator, subscript. rewrite A, B. split.
  - intros [-> | ->]; rewrite ?orb_true_r; reflexivity.
  - intros -> ->. cbn [orb]. destruct (index_operand (e_type a)), (index_operand (e_type b)), (pointer_operand (e_type a)), (pointer_operand (e_type b)); reflexivity.
Qed.
Print Assumptions C165_subscript.
(** an integer "has a subscript operator" for pointers: 0[p] *)
Theorem C165_subscript_refuted X : has_subscript_operator X (Int 1) (Ptr (Int 1)) = true /\ has_subscript_operator X (Ptr (Int 1)) (Int 1) = true
  /\ has_subscript_operator X (Ptr Void) (Int 1) = false /\ has_subscript_operator X (LRef (Arr (Some 3) (Int 1))) (Enum false 0) = true /\ has_subscript_operator X (Arr (Some 3) (Int 1)) (Enum true 0) = false.
Proof. repeat split. Qed.
Print Assumptions C165_subscript_refuted.

(** ** extract_extents cannot be used for any type *)
Theorem C165_extents_refuted : (forall t, extract_extents t = None)
  /\ (let t := Arr (Some 2) (Arr (Some 3) (Int 1)) in rank t = 2 /\ extent t 0 = 2 /\ extent t 1 = 3 /\ extract_extents_helper t = Some (mk_expr (Ptr (Cv true false size_t)) Prvalue)).
Proof. split; [intros t; unfold extract_extents, extract_extents_helper; destruct (rank t); reflexivity|repeat split]. Qed.
Print Assumptions C165_extents_refuted.

(** ** special_decay *)
Theorem C165_special_decay : (forall t, special_decay (RefWrap t) = LRef t) /\ (forall t, (forall u, t <> RefWrap u) -> special_decay t = decay t).
Proof. split; [reflexivity|]. intros t H. destruct t; try reflexivity. exfalso. exact (H t eq_refl). Qed.
Print Assumptions C165_special_decay.
(** a const wrapper or a reference to a wrapper stays a wrapper *)
Theorem C165_special_decay_refuted t : special_decay (Cv true false (RefWrap t)) = RefWrap t /\ special_decay (LRef (RefWrap t)) = RefWrap t /\ special_decay (RRef (RefWrap t)) = RefWrap t.
Proof. repeat split. Qed.
Print Assumptions C165_special_decay_refuted.

(** ** type_as_string *)
Theorem C165_name X : (forall a b, x_name X a = x_name X b -> a = b) -> forall t u, type_as_string X t = type_as_string X u <-> remove_cv (remove_reference t) = remove_cv (remove_reference u).
Proof. intros I t u. unfold type_as_string. split; [apply I|intros ->; reflexivity]. Qed.
Print Assumptions C165_name.
Theorem C165_name_refuted X t : is_reference t = false -> type_as_string X (LRef t) = type_as_string X t /\ type_as_string X (RRef t) = type_as_string X t /\ forall c v, type_as_string X (LRef (Cv c v t)) = type_as_string X (Cv c v t).
Proof. intros H. destruct t; try discriminate H; repeat split. Qed.
Print Assumptions C165_name_refuted.

(** ** average(a, b) *)
Lemma decay_forward a : wfe a = true -> decay (deduce_forward a) = deduce_value a.
Proof.
  intros W. unfold deduce_forward, deduce_value. destruct (lvalue a); [|reflexivity]. unfold wfe in W. destruct (e_type a); cbn in W; rewrite ?andb_false_r in W; try discriminate W; reflexivity.
Qed.
Lemma binds_refl t : binds t t = true.
Proof. unfold binds. destruct (split_cv t) as [[c v] u]. assert (E : eqt u u = true) by (apply eqt_spec; reflexivity). rewrite E. destruct c, v; reflexivity. Qed.
Lemma forward_ref a : wfe a = true -> remove_reference (deduce_forward a) = e_type a.
Proof. intros W. unfold deduce_forward. destruct (lvalue a); [reflexivity|]. unfold wfe in W. destruct (e_type a); cbn in W; rewrite ?andb_false_r in W; try discriminate W; reflexivity. Qed.
(** iterators: the overload for a range; different decayed types: rejected *)
Theorem C165_average_range X a b : deduce_value a = deduce_value b -> is_iterator X (deduce_value a) = Some true -> average_two X a b = Range.
Proof. intros E I. unfold average_two. rewrite E in *. assert (Q : eqt (deduce_value b) (deduce_value b) = true) by (apply eqt_spec; reflexivity). rewrite Q, I. reflexivity. Qed.
Print Assumptions C165_average_range.
Theorem C165_average_different X a b : wfe a = true -> wfe b = true -> deduce_value a <> deduce_value b -> average_two X a b = Ill.
Proof.
  intros Wa Wb N. unfold average_two. destruct (eqt (deduce_value a) (deduce_value b)) eqn:E; [apply eqt_spec in E; contradiction|].
  destruct (are_type_t (deduce_forward a) [deduce_forward b]) eqn:A; [|reflexivity]. rewrite C165_are_type in A. specialize (A _ (or_introl eq_refl)). rewrite !decay_forward in A by assumption. congruence.
Qed.
Print Assumptions C165_average_different.
(** values of one type: the second argument must not be more cv-qualified than the first, and is an rvalue exactly if the first is *)
Lemma split_object t : wf t = true -> is_reference t = false -> object t = true -> split_cv t = (cv_of t, remove_cv t).
Proof. intros W R O. destruct t; try discriminate R; try discriminate O; reflexivity. Qed.
Lemma value_object e : wfe e = true -> object (e_type e) = true -> deduce_value e = remove_cv (e_type e).
Proof. intros W O. unfold wfe, deduce_value, decay in *. destruct (e_type e); cbn in *; rewrite ?andb_false_r in W; try discriminate; try reflexivity; destruct t; cbn in *; rewrite ?andb_false_r in W; try discriminate; reflexivity. Qed.
Theorem C165_average_values X a b : wfe a = true -> wfe b = true -> object (e_type a) = true -> object (e_type b) = true -> deduce_value a = deduce_value b -> is_iterator X (deduce_value a) = Some false ->
  average_two X a b = if implb (fst (cv_of (e_type b))) (fst (cv_of (e_type a))) && implb (snd (cv_of (e_type b))) (snd (cv_of (e_type a)))
    then let c := if lvalue a then Lvalue else Xvalue in Values (mk_expr (e_type a) c) (mk_expr (e_type a) c) else Ill.
Proof.
  intros Wa Wb Oa Ob E I. unfold average_two. rewrite E in I |- *. assert (Q : eqt (deduce_value b) (deduce_value b) = true) by (apply eqt_spec; reflexivity). rewrite Q, I.
  assert (A : are_type_t (deduce_forward a) [deduce_forward b] = true) by (apply C165_are_type; intros t [<-|[]]; rewrite !decay_forward by assumption; congruence). rewrite A.
  unfold forward_as. cbn [e_type]. rewrite forward_ref by exact Wa. rewrite binds_refl.
  assert (B : binds (e_type b) (e_type a) = implb (fst (cv_of (e_type b))) (fst (cv_of (e_type a))) && implb (snd (cv_of (e_type b))) (snd (cv_of (e_type a)))).
  { unfold binds. assert (Sa : wf (e_type a) = true /\ is_reference (e_type a) = false) by (unfold wfe in Wa; rewrite !andb_true_iff, !negb_true_iff in Wa; tauto). assert (Sb : wf (e_type b) = true /\ is_reference (e_type b) = false) by (unfold wfe in Wb; rewrite !andb_true_iff, !negb_true_iff in Wb; tauto).
    rewrite !split_object by tauto. rewrite <- (value_object b Wb Ob), <- (value_object a Wa Oa), E, Q. destruct (cv_of (e_type b)), (cv_of (e_type a)). reflexivity. }
  rewrite B. destruct (implb _ _ && implb _ _); [|reflexivity]. unfold deduce_forward. destruct (lvalue a) eqn:L; [reflexivity|]. unfold wfe in Wa. destruct (e_type a); cbn in Wa; rewrite ?andb_false_r in Wa; try discriminate Wa; reflexivity.
Qed.
Print Assumptions C165_average_values.
(** so two variables of the same type cannot be averaged if only the second is const, and a variable is treated as an rvalue if
    the first argument is a temporary *)
Theorem C165_average_refuted X k : let x := mk_expr (Flt k) Lvalue in let y := mk_expr (Cv true false (Flt k)) Lvalue in
  are_type_t (deduce_forward x) [deduce_forward y] = true /\ average_two X x y = Ill /\ average_two X y x <> Ill
  /\ forall n, is_iterator X (Class n) = Some false -> average_two X (mk_expr (Class n) Prvalue) (mk_expr (Class n) Lvalue) = Values (mk_expr (Class n) Xvalue) (mk_expr (Class n) Xvalue).
Proof.
  cbv zeta. split; [apply C165_are_type; intros t [<-|[]]; reflexivity|]. split; [rewrite C165_average_values by reflexivity; reflexivity|].
  split; [rewrite C165_average_values by reflexivity; discriminate|].
  intros n I. rewrite C165_average_values by (try reflexivity; exact I). reflexivity.
Qed.
Print Assumptions C165_average_refuted.
Example C165_average_example : average_two stl (mk_expr (Ptr (Flt 1)) Lvalue) (mk_expr (Arr (Some 3) (Flt 1)) Lvalue) = Range
  /\ average_two stl (mk_expr (Flt 1) Lvalue) (mk_expr (Flt 1) Prvalue) = Values (mk_expr (Flt 1) Lvalue) (mk_expr (Flt 1) Lvalue)
  /\ average_two stl (mk_expr (Flt 1) Lvalue) (mk_expr (Int 1) Prvalue) = Ill.
Proof. repeat split. Qed.
(** ** what declval stands for, and the trait for output: a reference to T for T&, a temporary for T and T&&; void has none *)
Local Ltac no_lvalue := solve [split; [reflexivity|split; [reflexivity|split; [discriminate|intros [(u & E) | (k' & [E | E])]; discriminate]]] | reflexivity].
Theorem C165_category t : wf t = true ->
  match declval t with
  | None => is_void t = true
  | Some e => is_void t = false /\ e_type e = remove_reference t /\ (lvalue e = true <-> (exists u, t = LRef u) \/ exists k, t = Fun k \/ t = RRef (Fun k))
  end.
Proof.
  intros W. destruct t as [| | | | | | | |t|t|t|c v t|n t]; cbn; try no_lvalue.
  - split; [reflexivity|]. split; [reflexivity|]. split; [intros _; right; exists k; left; reflexivity|reflexivity].
  - split; [reflexivity|]. split; [reflexivity|]. split; [intros _; left; exists t; reflexivity|reflexivity].
  - destruct t as [| | | | |k| | | | | | |]; cbn; try no_lvalue. split; [reflexivity|]. split; [reflexivity|]. split; [intros _; right; exists k; right; reflexivity|reflexivity].
  - unfold is_void. cbn [remove_cv]. destruct t as [| | | | |k| | | | | | |]; cbn; try no_lvalue.
Qed.
Print Assumptions C165_category.
Theorem C165_output X t : is_ostream_writeable X t = true <-> exists e, declval t = Some e /\ x_output X e = true.
Proof. unfold is_ostream_writeable. destruct (declval t) as [e|]; split; [intros H; exists e; auto|intros (e' & [= <-] & H); exact H|discriminate|intros (e & E & _); discriminate]. Qed.
Print Assumptions C165_output.
Example C165_output_example (X : cxx) : declval (LRef (Class 3)) = Some (mk_expr (Class 3) Lvalue) /\ declval (RRef (Class 3)) = Some (mk_expr (Class 3) Xvalue) /\ is_ostream_writeable X Void = false.
Proof. repeat split. Qed.
