(** C111-C115: embedded Python (ristra/embedded/embed_python.h). *)
From Coq Require Import String List ZArith Bool Arith Lia.
From Verif Require Import PythonModel.
Import ListNotations.
Open Scope Z_scope.

Section Props.
Variable Flt : Type.
Notation world := (world Flt). Notation env := (env Flt). Notation arg := (arg Flt).
Implicit Types (w : world) (e : env).
(** the program owns what it owned before / one more reference to r *)
Definition same w w' : Prop := forall i, held _ w' i = held _ w i.
Definition one_more w w' (r : nat) : Prop := forall i, held _ w' i = held _ w i + (if Nat.eqb i r then 1 else 0).
(** nothing is owned of objects that do not exist *)
Definition sane w : Prop := forall i, (List.length (objs _ w) <= i)%nat -> held _ w i = 0.

Ltac split_all := repeat match goal with
  | H : (_, _) = (_, _) |- _ => apply pair_equal_spec in H; destruct H
  | H : Ok _ = Ok _ |- _ => injection H; clear H; intro H
  | H : Throw _ = Throw _ |- _ => injection H; clear H; intro H
  | H : Ok _ = _ |- _ => discriminate H | H : Throw _ = _ |- _ => discriminate H
  | H : UB = _ |- _ => discriminate H end.
Ltac ledger := intro j; cbn; unfold bump; cbn;
  repeat match goal with |- context [Nat.eqb ?a ?b] => destruct (Nat.eqb_spec a b) end; subst; try lia.

Lemma alloc_cases e v w : 
  (exists w', alloc _ e v w = (w', Ok None) /\ same w w' /\ err _ w' = true /\ objs _ w' = objs _ w /\ calls _ w' = calls _ w
     /\ private _ w' = private _ w)
  \/ exists w', alloc _ e v w = (w', Ok (Some (List.length (objs _ w)))) /\ one_more w w' (List.length (objs _ w)) /\ err _ w' = err _ w
     /\ objs _ w' = objs _ w ++ [v] /\ calls _ w' = calls _ w /\ private _ w' = private _ w.
Proof.
  unfold alloc. cbn. destruct (e_alloc _ e _); [right|left]; eexists; (split; [reflexivity|]); cbn; repeat split; ledger.
Qed.
Lemma new_ref_cases r w :
  (exists w', new_ref _ r w = (w', Ok None) /\ same w w' /\ err _ w' = true /\ objs _ w' = objs _ w /\ calls _ w' = calls _ w)
  \/ exists w' i, new_ref _ r w = (w', Ok (Some i)) /\ one_more w w' i /\ err _ w' = err _ w /\ calls _ w' = calls _ w
     /\ (exists t, objs _ w' = objs _ w ++ t).
Proof.
  unfold new_ref. destruct r as [[i|v]|].
  - right. do 2 eexists. split; [reflexivity|]. split; [ledger|]. do 2 (split; [reflexivity|]). exists []. cbn. now rewrite app_nil_r.
  - right. do 2 eexists. split; [reflexivity|]. split; [ledger|]. do 2 (split; [reflexivity|]). now exists [v].
  - left. eexists. split; [reflexivity|]. cbn. repeat split.
Qed.
Lemma decode_cases e s w :
  (exists w', decode _ e s w = (w', Ok None) /\ same w w' /\ err _ w' = true /\ objs _ w' = objs _ w /\ calls _ w' = calls _ w
     /\ private _ w' = private _ w)
  \/ exists w', decode _ e s w = (w', Ok (Some (List.length (objs _ w)))) /\ one_more w w' (List.length (objs _ w)) /\ err _ w' = err _ w
     /\ objs _ w' = objs _ w ++ [VStr _ s] /\ calls _ w' = calls _ w /\ private _ w' = private _ w.
Proof.
  unfold decode. destruct (e_decode _ e s); [apply alloc_cases|]. left. eexists. split; [reflexivity|]. cbn. repeat split.
Qed.
Lemma fail_spec {A} s w : exists w', fail Flt (A := A) s w = (w', Throw s) /\ same w w' /\ err _ w' = false
  /\ objs _ w' = objs _ w /\ calls _ w' = calls _ w
  /\ printed _ w' = (printed _ w + (if err _ w then 1 else 0))%nat.
Proof.
  unfold fail, mbind, python_check, throw. cbn. eexists. split; [reflexivity|]. destruct (err _ w) eqn:E; cbn; repeat split; try assumption; lia.
Qed.
Lemma bind_eq {A B} (m : M Flt A) (k : A -> M Flt B) w w1 a : m w = (w1, Ok a) -> mbind _ m k w = k a w1.
Proof. unfold mbind. now intros ->. Qed.
Lemma bind_throw {A B} (m : M Flt A) (k : A -> M Flt B) w w1 s : m w = (w1, Throw s) -> mbind _ m k w = (w1, Throw s).
Proof. unfold mbind. now intros ->. Qed.
Ltac step E := lazymatch type of E with _ ?w = _ =>
  match goal with |- context [mbind Flt ?m ?k w] => rewrite (bind_eq m k w _ _ E) end end.
Lemma decref_spec i w : exists w', decref Flt i w = (w', Ok tt) /\ err _ w' = err _ w /\ calls _ w' = calls _ w /\ objs _ w' = objs _ w
  /\ held _ w' = bump (held _ w) i (-1).
Proof. eexists. split; [reflexivity|]. cbn. repeat split. Qed.

(** ** C111 references *)
(** what python_import leaves: the module, if there is one; but the name if there is not *)
Theorem C111_import : forall e w name, exists w',
  (exists m, python_import _ e name w = (w', Ok m) /\ one_more w w' m /\ err _ w' = err _ w)
  \/ (python_import _ e name w = (w', Throw "Cannot decode module name") /\ same w w' /\ err _ w' = false)
  \/ (python_import _ e name w = (w', Throw "Cannot import module") /\ one_more w w' (List.length (objs _ w)) /\ err _ w' = false).
Proof.
  intros e w name. unfold python_import.
  destruct (decode_cases e name w) as [(w1 & E1 & S1 & X1 & _)|(w1 & E1 & S1 & X1 & _)]; step E1.
  - destruct (@fail_spec nat "Cannot decode module name" w1) as (w2 & E2 & S2 & X2 & _). exists w2. right; left.
    rewrite E2. split; [reflexivity|]. split; [intro j; rewrite S2; apply S1|exact X2].
  - destruct (new_ref_cases (e_import _ e w1 name) w1) as [(w2 & E2 & S2 & X2 & _)|(w2 & m & E2 & S2 & X2 & _)];
      step E2.
    + destruct (@fail_spec nat "Cannot import module" w2) as (w3 & E3 & S3 & X3 & _). exists w3. right; right.
      rewrite E3. split; [reflexivity|]. split; [intro j; rewrite S3, S2; apply S1|exact X3].
    + destruct (decref_spec (List.length (objs _ w)) w2) as (w3 & E3 & X3 & _ & _ & H3). step E3.
      exists w3. left. exists m. split; [reflexivity|]. split; [|congruence].
      intro j. rewrite H3. unfold bump. specialize (S1 j). specialize (S2 j).
      destruct (Nat.eqb_spec j (List.length (objs _ w))); lia.
Qed.
Theorem C111_get_attribute : forall e w m a, exists w',
  (exists i, python_get_attribute _ e m a w = (w', Ok i) /\ one_more w w' i /\ err _ w' = err _ w)
  \/ (python_get_attribute _ e m a w = (w', Throw "Cannot get attribute") /\ same w w' /\ err _ w' = false).
Proof.
  intros e w m a. unfold python_get_attribute.
  destruct (new_ref_cases (e_attr _ e w m a) w) as [(w2 & E2 & S2 & X2 & _)|(w2 & i & E2 & S2 & X2 & _)]; step E2.
  - destruct (@fail_spec nat "Cannot get attribute" w2) as (w3 & E3 & S3 & X3 & _). exists w3. right. rewrite E3.
    split; [reflexivity|]. split; [intro j; rewrite S3; apply S2|exact X3].
  - exists w2. left. exists i. repeat split; assumption.
Qed.
Lemma get_value_cases e a w :
  (exists w', python_get_value _ e a w = (w', Throw "Cannot set argument.") /\ same w w' /\ err _ w' = false
     /\ objs _ w' = objs _ w /\ calls _ w' = calls _ w)
  \/ exists w', python_get_value _ e a w = (w', Ok (List.length (objs _ w))) /\ one_more w w' (List.length (objs _ w)) /\ err _ w' = err _ w
     /\ objs _ w' = objs _ w ++ [value_of _ a] /\ calls _ w' = calls _ w /\ private _ w' = private _ w.
Proof.
  unfold python_get_value. destruct (alloc_cases e (value_of _ a) w) as [(w1 & E1 & S1 & X1 & O1 & C1 & _)|(w1 & E1 & R)];
    step E1.
  - left. destruct (@fail_spec nat "Cannot set argument." w1) as (w2 & E2 & S2 & X2 & O2 & C2 & _). exists w2. rewrite E2.
    split; [reflexivity|]. split; [intro j; rewrite S2; apply S1|]. repeat split; congruence.
  - right. exists w1. split; [reflexivity|exact R].
Qed.
Theorem C111_get_value : forall e a w, exists w',
  (python_get_value _ e a w = (w', Ok (List.length (objs _ w))) /\ one_more w w' (List.length (objs _ w)) /\ err _ w' = err _ w
     /\ obj _ w' (List.length (objs _ w)) = Some (value_of _ a))
  \/ (python_get_value _ e a w = (w', Throw "Cannot set argument.") /\ same w w' /\ err _ w' = false).
Proof.
  intros e a w. destruct (get_value_cases e a w) as [(w' & E & S & X & _)|(w' & E & S & X & O & _)]; exists w'; [right|left].
  - repeat split; assumption.
  - split; [exact E|]. split; [exact S|]. split; [exact X|]. unfold obj. rewrite O, nth_error_app2, Nat.sub_diag; [reflexivity|lia].
Qed.

Lemma update_length {A} (l : list A) i a : List.length (update l i a) = List.length l.
Proof. revert i; induction l; destruct i; cbn; congruence. Qed.
Lemma update_same {A} (l : list A) i a : (i < List.length l)%nat -> nth_error (update l i a) i = Some a.
Proof. revert i; induction l; destruct i; cbn; intro; try lia; [reflexivity|]. apply IHl. lia. Qed.
Lemma update_other {A} (l : list A) i j a : j <> i -> nth_error (update l i a) j = nth_error l j.
Proof. revert i j; induction l; destruct i, j; cbn; intro; try congruence; try reflexivity. apply IHl. congruence. Qed.
Lemma update_mid {A} (p : list A) x q a : update (p ++ x :: q) (List.length p) a = p ++ a :: q.
Proof. induction p; cbn; congruence. Qed.

(** one argument: stored in its place, or nothing is kept *)
Lemma set_element_cases e t a w pre post : sane w ->
  obj _ w t = Some (VTuple _ (pre ++ None :: post)) -> private _ w t = true -> held _ w t = 1 ->
  (exists w', python_set_tuple_element _ e t (List.length pre) a w = (w', Throw "Cannot set argument.") /\ same w w' /\ err _ w' = false
     /\ calls _ w' = calls _ w)
  \/ exists w' id, python_set_tuple_element _ e t (List.length pre) a w = (w', Ok tt) /\ same w w' /\ err _ w' = err _ w /\ calls _ w' = calls _ w
     /\ private _ w' = private _ w /\ sane w' /\ obj _ w' t = Some (VTuple _ (pre ++ Some id :: post))
     /\ obj _ w' id = Some (value_of _ a) /\ id <> t /\ (forall j, (j < List.length (objs _ w))%nat -> j <> t -> obj _ w' j = obj _ w j)
     /\ (List.length (objs _ w) <= List.length (objs _ w'))%nat /\ (id < List.length (objs _ w'))%nat.
Proof.
  intros W T P H. unfold python_set_tuple_element.
  assert (L : (t < List.length (objs _ w))%nat) by (apply nth_error_Some; unfold obj in T; congruence).
  assert (E0 : tuple_size Flt t w = (w, Ok (List.length (pre ++ None :: post)))) by (unfold tuple_size; now rewrite T).
  step E0. rewrite app_length. cbn [List.length].
  destruct (Nat.leb_spec (List.length pre + S (List.length post)) (List.length pre)) as [X|_]; [lia|].
  destruct (get_value_cases e a w) as [(w1 & E1 & S1 & X1 & O1 & C1)|(w1 & E1 & S1 & X1 & O1 & C1 & P1)].
  - left. exists w1. rewrite (bind_throw _ _ _ _ _ E1). repeat split; assumption.
  - right. step E1. set (id := List.length (objs _ w)) in *.
    set (w2 := with_held _ w1 (bump (held _ w1) id (-1))).
    set (w3 := set_objs _ w2 (update (objs _ w2) t (VTuple _ (pre ++ Some id :: post)))).
    assert (T1 : obj _ w2 t = Some (VTuple _ (pre ++ None :: post))).
    { unfold obj, w2. cbn. rewrite O1, nth_error_app1 by exact L. exact T. }
    assert (N : id <> t) by (unfold id; lia).
    assert (E2 : tuple_set Flt t (List.length pre) id w1 = (w3, Ok true)).
    { unfold tuple_set. fold w2. rewrite T1. unfold w2 at 1 2. cbn [private with_held held]. rewrite P1, P.
      unfold bump. rewrite (proj2 (Nat.eqb_neq t id)) by congruence. rewrite S1, (proj2 (Nat.eqb_neq t id)) by congruence. rewrite H. cbn [Z.add Z.eqb andb Pos.eqb].
      rewrite app_length. cbn [List.length]. destruct (Nat.ltb_spec (List.length pre) (List.length pre + S (List.length post))); [|lia].
      rewrite update_mid. reflexivity. }
    step E2. exists w3, id. cbn [negb].
    assert (Len : List.length (objs _ w3) = S id).
    { unfold w3. cbn. rewrite update_length. unfold w2. cbn. rewrite O1, app_length. cbn. unfold id. lia. }
    split; [reflexivity|]. split.
    { intro j. unfold w3, w2. cbn. unfold bump. specialize (S1 j). destruct (Nat.eqb_spec j id); lia. }
    split; [exact X1|]. split; [exact C1|]. split; [exact P1|]. split.
    { intros j Hj. rewrite Len in Hj. unfold w3, w2. cbn. unfold bump. specialize (S1 j).
      destruct (Nat.eqb_spec j id); [lia|]. rewrite W in S1; [lia|unfold id in Hj; lia]. }
    split. { unfold obj, w3. cbn. apply update_same. rewrite O1, app_length. cbn. lia. }
    split. { unfold obj, w3. cbn. rewrite update_other by exact N. rewrite O1, nth_error_app2 by (unfold id; lia).
      unfold id. rewrite Nat.sub_diag. reflexivity. }
    split; [exact N|]. split.
    { intros j Hj Nj. unfold obj, w3. cbn. rewrite update_other by exact Nj. rewrite O1, nth_error_app1 by exact Hj. reflexivity. }
    rewrite Len. unfold id. lia.
Qed.
Lemma build_from_cases e t rest : forall a w pre, sane w ->
  obj _ w t = Some (VTuple _ (pre ++ repeat None (S (List.length rest)))) -> private _ w t = true -> held _ w t = 1 ->
  (exists w', build_from _ e t (List.length pre) a rest w = (w', Throw "Cannot set argument.") /\ same w w' /\ err _ w' = false
     /\ calls _ w' = calls _ w)
  \/ exists w' ids, build_from _ e t (List.length pre) a rest w = (w', Ok tt) /\ same w w' /\ err _ w' = err _ w /\ calls _ w' = calls _ w
     /\ obj _ w' t = Some (VTuple _ (pre ++ map Some ids)) /\ map (obj _ w') ids = map (fun x => Some (value_of _ x)) (a :: rest)
     /\ (forall j, (j < List.length (objs _ w))%nat -> j <> t -> obj _ w' j = obj _ w j)
     /\ (List.length (objs _ w) <= List.length (objs _ w'))%nat /\ sane w'.
Proof.
  induction rest as [|b rest IH]; intros a w pre W T P H.
  - destruct (set_element_cases e t a w pre [] W T P H) as [(w1 & E1 & R)|(w1 & id & E1 & S1 & X1 & C1 & P1 & W1 & T1 & V1 & N1 & F1 & L1 & _)];
      cbn [build_from].
    + left. exists w1. rewrite (bind_throw _ _ _ _ _ E1). split; [reflexivity|exact R].
    + right. step E1. exists w1, [id]. cbn [map]. rewrite V1. repeat split; assumption.
  - destruct (set_element_cases e t a w pre (repeat None (S (List.length rest))) W T P H)
      as [(w1 & E1 & R)|(w1 & id & E1 & S1 & X1 & C1 & P1 & W1 & T1 & V1 & N1 & F1 & L1 & I1)]; cbn [build_from].
    + left. exists w1. rewrite (bind_throw _ _ _ _ _ E1). split; [reflexivity|exact R].
    + step E1.
      replace (S (List.length pre)) with (List.length (pre ++ [Some id])) by (rewrite app_length; cbn; lia).
      destruct (IH b w1 (pre ++ [Some id]) W1) as [(w2 & E2 & S2 & X2 & C2)|(w2 & ids & E2 & S2 & X2 & C2 & T2 & V2 & F2 & L2 & W2)].
      * rewrite <- app_assoc. exact T1.
      * rewrite P1. exact P.
      * rewrite S1. exact H.
      * left. exists w2. split; [exact E2|]. split; [intro j; rewrite S2; apply S1|]. split; congruence.
      * right. exists w2, (id :: ids). split; [exact E2|]. split; [intro j; rewrite S2; apply S1|]. split; [congruence|]. split; [congruence|].
        split; [rewrite T2, <- app_assoc; reflexivity|]. split.
        { cbn [map]. f_equal; [rewrite F2 by assumption; exact V1|exact V2]. }
        split; [|split; [lia|exact W2]]. intros j Hj Nj. rewrite F2 by (lia || assumption). apply F1; assumption.
Qed.
(** python_build_args: a tuple with the arguments in order; if an argument cannot be made, the tuple stays behind *)
Definition tuple_holds w (t : nat) (l : list arg) : Prop :=
  exists ids, obj _ w t = Some (VTuple _ (map Some ids)) /\ map (obj _ w) ids = map (fun x => Some (value_of _ x)) l.
Theorem C111_build_args : forall e a rest w, sane w -> let t := List.length (objs _ w) in exists w',
  (python_build_args _ e a rest w = (w', Ok t) /\ one_more w w' t /\ err _ w' = err _ w /\ calls _ w' = calls _ w
     /\ tuple_holds w' t (a :: rest) /\ sane w')
  \/ (python_build_args _ e a rest w = (w', Throw "Cannot initialize arguments.") /\ same w w' /\ err _ w' = false /\ calls _ w' = calls _ w)
  \/ (python_build_args _ e a rest w = (w', Throw "Cannot set argument.") /\ one_more w w' t /\ err _ w' = false /\ calls _ w' = calls _ w).
Proof.
  intros e a rest w W t. unfold python_build_args.
  destruct (alloc_cases e (VTuple _ (repeat None (S (List.length rest)))) w) as [(w1 & E1 & S1 & X1 & O1 & C1 & P1)|(w1 & E1 & S1 & X1 & O1 & C1 & P1)].
  - assert (E : tuple_new _ e (S (List.length rest)) w = (w1, Ok None)) by (unfold tuple_new; step E1; reflexivity).
    step E. destruct (@fail_spec nat "Cannot initialize arguments." w1) as (w2 & E2 & S2 & X2 & _ & C2 & _).
    exists w2. right; left. rewrite E2. split; [reflexivity|]. split; [intro j; rewrite S2; apply S1|]. split; [exact X2|congruence].
  - fold t in E1, S1. set (w2 := hide _ w1 t true).
    assert (E : tuple_new _ e (S (List.length rest)) w = (w2, Ok (Some t))) by (unfold tuple_new; step E1; reflexivity).
    step E.
    assert (Ho : objs _ w2 = objs _ w ++ [VTuple _ (repeat None (S (List.length rest)))]) by exact O1.
    assert (Hh : forall j, held _ w2 j = held _ w j + (if Nat.eqb j t then 1 else 0)) by exact S1.
    destruct (build_from_cases e t rest a w2 []) as [(w3 & E3 & S3 & X3 & C3)|(w3 & ids & E3 & S3 & X3 & C3 & T3 & V3 & F3 & L3 & W3)].
    + intros j Hj. rewrite Ho, app_length in Hj. cbn [List.length] in Hj. rewrite Hh. destruct (Nat.eqb_spec j t); [unfold t in *; lia|]. rewrite W; lia.
    + unfold obj. rewrite Ho. unfold t. rewrite nth_error_app2, Nat.sub_diag by lia. reflexivity.
    + unfold w2. cbn. now rewrite Nat.eqb_refl.
    + rewrite Hh, Nat.eqb_refl, W by (unfold t; lia). reflexivity.
    + exists w3. right; right. rewrite (bind_throw _ _ _ _ _ E3). split; [reflexivity|]. split; [intro j; rewrite S3; apply Hh|]. split; [exact X3|].
      rewrite C3. exact C1.
    + exists w3. left. step E3. split; [reflexivity|]. split; [intro j; rewrite S3; apply Hh|].
      split; [rewrite X3; exact X1|]. split; [rewrite C3; exact C1|]. split; [|exact W3]. exists ids. split; assumption.
Qed.
(** python_call_function *)
Theorem C111_call : forall e f a rest w, sane w -> let t := List.length (objs _ w) in exists w',
  (exists v, python_call_function _ e f a rest w = (w', Ok v) /\ one_more w w' v /\ err _ w' = err _ w
     /\ calls _ w' = (f, map (fun x => Some (value_of _ x)) (a :: rest)) :: calls _ w)
  \/ (python_call_function _ e f a rest w = (w', Throw "Function is not callable.") /\ same w w' /\ err _ w' = false /\ calls _ w' = calls _ w)
  \/ (python_call_function _ e f a rest w = (w', Throw "Cannot initialize arguments.") /\ same w w' /\ err _ w' = false /\ calls _ w' = calls _ w)
  \/ (python_call_function _ e f a rest w = (w', Throw "Cannot set argument.") /\ one_more w w' t /\ err _ w' = false /\ calls _ w' = calls _ w)
  \/ (python_call_function _ e f a rest w = (w', Throw "Problem calling function.") /\ one_more w w' t /\ err _ w' = false
     /\ calls _ w' = (f, map (fun x => Some (value_of _ x)) (a :: rest)) :: calls _ w).
Proof.
  intros e f a rest w W t. unfold python_call_function. destruct (e_callable _ e f); cbn [negb].
  2: { destruct (@fail_spec nat "Function is not callable." w) as (w2 & E2 & S2 & X2 & _ & C2 & _). exists w2. right; left. repeat split; assumption. }
  destruct (C111_build_args e a rest w W) as (w1 & [(E1 & S1 & X1 & C1 & T1 & W1)|[(E1 & R)|(E1 & R)]]).
  2: { exists w1. right; right; left. rewrite (bind_throw _ _ _ _ _ E1). split; [reflexivity|exact R]. }
  2: { exists w1. do 3 right; left. rewrite (bind_throw _ _ _ _ _ E1). split; [reflexivity|exact R]. }
  step E1. fold t in E1, S1, T1 |- *.
  assert (A : args_of _ w1 t = map (fun x => Some (value_of _ x)) (a :: rest)).
  { destruct T1 as (ids & T1 & V1). unfold args_of. rewrite T1, map_map. exact V1. }
  set (w1' := hide Flt (mk_world Flt (objs _ w1) (held _ w1) (private _ w1) (err _ w1) (printed _ w1) (tick _ w1) ((f, args_of _ w1 t) :: calls _ w1)) t false).
  assert (S1' : one_more w w1' t) by exact S1.
  destruct (new_ref_cases (e_call _ e w1' f (args_of _ w1 t)) w1') as [(w2 & E2 & S2 & X2 & _ & C2)|(w2 & v & E2 & S2 & X2 & C2 & _)].
  - assert (E : call_object _ e f t w1 = (w2, Ok None)) by exact E2. step E.
    destruct (@fail_spec nat "Problem calling function." w2) as (w3 & E3 & S3 & X3 & _ & C3 & _). exists w3. do 4 right.
    rewrite E3. split; [reflexivity|]. split; [intro j; rewrite S3, S2; apply S1'|]. split; [exact X3|]. rewrite C3, C2. cbn. rewrite A, C1. reflexivity.
  - assert (E : call_object _ e f t w1 = (w2, Ok (Some v))) by exact E2. step E.
    destruct (decref_spec t w2) as (w3 & E3 & X3 & C3 & _ & H3). step E3. exists w3. left. exists v.
    split; [reflexivity|]. split.
    { intro j. rewrite H3. unfold bump. specialize (S1' j). specialize (S2 j). destruct (Nat.eqb_spec j t); lia. }
    split; [rewrite X3, X2; exact X1|]. rewrite C3, C2. cbn. rewrite A, C1. reflexivity.
Qed.

(** ** C112 who has to release what *)
Lemma insert_cases e l p w :
  (exists w', list_insert0 _ e l p w = (w', Ok false) /\ same w w')
  \/ exists w' items, obj _ w l = Some (VList _ items) /\ list_insert0 _ e l p w = (w', Ok true) /\ same w w' /\ err _ w' = err _ w
     /\ objs _ w' = update (objs _ w) l (VList _ (p :: items)).
Proof.
  unfold list_insert0. destruct (obj _ w l) as [[| | | |items|]|] eqn:T; try (left; eexists; split; [reflexivity|intro; reflexivity]).
  cbn. destruct (e_alloc _ e _); [right|left; eexists; split; [reflexivity|intro; reflexivity]].
  eexists. exists items. split; [reflexivity|]. split; [reflexivity|]. repeat split.
Qed.
Lemma sys_set_cases e l w : exists w' b, sys_set_object _ e l w = (w', Ok b) /\ same w w' /\ objs _ w' = objs _ w
  /\ (b = true -> err _ w' = err _ w).
Proof.
  unfold sys_set_object. cbn. destruct (e_alloc _ e _).
  - eexists. exists true. split; [reflexivity|]. repeat split.
  - eexists. exists false. split; [reflexivity|]. repeat split. discriminate.
Qed.
Theorem C112_add_to_path : forall e path w, exists w',
  (exists l items p, python_add_to_path _ e path w = (w', Ok l) /\ e_syspath _ e = Some l /\ same w w' /\ err _ w' = err _ w
     /\ ((l < List.length (objs _ w))%nat -> obj _ w l = Some (VList _ items) /\ obj _ w' l = Some (VList _ (p :: items)) /\ obj _ w' p = Some (VStr _ path)))
  \/ (python_add_to_path _ e path w = (w', Throw "Cannot get system path.") /\ e_syspath _ e = None /\ same w w' /\ err _ w' = false)
  \/ (python_add_to_path _ e path w = (w', Throw "Cannot decode path") /\ same w w' /\ err _ w' = false)
  \/ ((python_add_to_path _ e path w = (w', Throw "Cannot insert path") \/ python_add_to_path _ e path w = (w', Throw "Cannot set new path."))
     /\ one_more w w' (List.length (objs _ w)) /\ err _ w' = false).
Proof.
  intros e path w. unfold python_add_to_path. destruct (e_syspath _ e) as [l|].
  2: { destruct (@fail_spec nat "Cannot get system path." w) as (w2 & E2 & S2 & X2 & _). exists w2. right; left. repeat split; assumption. }
  destruct (decode_cases e path w) as [(w1 & E1 & S1 & X1 & _)|(w1 & E1 & S1 & X1 & O1 & _)]; step E1.
  { destruct (@fail_spec nat "Cannot decode path" w1) as (w2 & E2 & S2 & X2 & _). exists w2. right; right; left. rewrite E2.
    split; [reflexivity|]. split; [intro j; rewrite S2; apply S1|exact X2]. }
  set (p := List.length (objs _ w)) in *.
  destruct (insert_cases e l p w1) as [(w2 & E2 & S2)|(w2 & items & T2 & E2 & S2 & X2 & O2)]; step E2; cbn [negb].
  { destruct (@fail_spec nat "Cannot insert path" w2) as (w3 & E3 & S3 & X3 & _). exists w3. do 3 right. split; [left; exact E3|].
    split; [intro j; rewrite S3, S2; apply S1|exact X3]. }
  destruct (sys_set_cases e l w2) as (w3 & [|] & E3 & S3 & O3 & X3); step E3; cbn [negb].
  - destruct (decref_spec p w3) as (w4 & E4 & X4 & _ & O4 & H4). step E4. exists w4. left. exists l, items, p.
    split; [reflexivity|]. split; [reflexivity|]. split.
    { intro j. rewrite H4. unfold bump. rewrite S3, S2. specialize (S1 j). destruct (Nat.eqb_spec j p); lia. }
    split; [rewrite X4, X3, X2 by reflexivity; exact X1|]. intro L. unfold obj in *. rewrite O4, O3, O2. split.
    { rewrite O1, nth_error_app1 in T2 by exact L. exact T2. }
    split; [apply update_same; rewrite O1, app_length; fold p in L |- *; lia|].
    rewrite update_other by (fold p in L; lia). rewrite O1, nth_error_app2 by (fold p; lia). fold p. rewrite Nat.sub_diag. reflexivity.
  - destruct (@fail_spec nat "Cannot set new path." w3) as (w4 & E4 & S4 & X4 & _). exists w4. do 3 right. split; [right; exact E4|].
    split; [intro j; rewrite S4, S3, S2; apply S1|exact X4].
Qed.
(** an element of a tuple; anything that is not a tuple is read as one *)
Theorem C112_tuple_element : forall t i w,
  match obj _ w t with
  | Some (VTuple _ items) => match nth_error items i with
      | Some (Some x) => python_get_tuple_element Flt t i w = (w, Ok x)
      | Some None => exists w', python_get_tuple_element Flt t i w = (w', Throw "Problem getting item.") /\ same w w' /\ err _ w' = false
      | None => exists w', python_get_tuple_element Flt t i w = (w', Throw "Index out of range") /\ same w w' /\ err _ w' = false
      end
  | _ => python_get_tuple_element Flt t i w = (w, UB)
  end.
Proof.
  intros t i w. unfold python_get_tuple_element, tuple_size, mbind, tuple_get.
  destruct (obj _ w t) as [[| | |items| |]|] eqn:T; try reflexivity.
  destruct (nth_error items i) as [[x|]|] eqn:N.
  - assert (L : (i < List.length items)%nat) by (apply nth_error_Some; congruence).
    destruct (Nat.leb_spec (List.length items) i); [lia|]. rewrite T, (nth_error_nth _ _ None N). reflexivity.
  - assert (L : (i < List.length items)%nat) by (apply nth_error_Some; congruence).
    destruct (Nat.leb_spec (List.length items) i); [lia|]. rewrite T, (nth_error_nth _ _ None N).
    destruct (@fail_spec nat "Problem getting item." w) as (w2 & E2 & S2 & X2 & _). exists w2. repeat split; assumption.
  - apply nth_error_None in N. destruct (Nat.leb_spec (List.length items) i); [|lia].
    destruct (@fail_spec nat "Index out of range" w) as (w2 & E2 & S2 & X2 & _). exists w2. repeat split; assumption.
Qed.
(** what python_add_to_path and python_get_tuple_element return is borrowed: releasing it, as the test does with the
    path, gives up a reference that the program does not own *)
Theorem C112_borrowed_refuted : forall e path w w' l w'', python_add_to_path _ e path w = (w', Ok l) ->
  python_free Flt l w' = (w'', Ok tt) -> held _ w'' l = held _ w l - 1.
Proof.
  intros e path w w' l w'' E F. injection F as <-. cbn. unfold bump. rewrite Nat.eqb_refl.
  destruct (C112_add_to_path e path w) as (v & [(l' & it & p & E' & _ & S & _)|[(E' & _)|[(E' & _)|([E'|E'] & _)]]]); rewrite E in E'; try discriminate.
  injection E' as -> ->. rewrite S. lia.
Qed.
Theorem C112_element_borrowed_refuted : forall t i w w' x w'', python_get_tuple_element Flt t i w = (w', Ok x) ->
  python_free Flt x w' = (w'', Ok tt) -> held _ w'' x = held _ w x - 1.
Proof.
  intros t i w w' x w'' E F. injection F as <-. cbn. unfold bump. rewrite Nat.eqb_refl.
  pose proof (C112_tuple_element t i w) as H. destruct (obj _ w t) as [[| | |items| |]|]; try congruence.
  destruct (nth_error items i) as [[y|]|].
  - rewrite H in E. injection E as <- <-. lia.
  - destruct H as (v & H & _). congruence.
  - destruct H as (v & H & _). congruence.
Qed.
(** the others return a reference of the program's own, which it can release *)
Theorem C112_owned : forall e w w' i, 
  ((exists name, python_import _ e name w = (w', Ok i)) \/ (exists m a, python_get_attribute _ e m a w = (w', Ok i))
   \/ (exists a, python_get_value _ e a w = (w', Ok i))
   \/ (sane w /\ exists f a rest, python_call_function _ e f a rest w = (w', Ok i))) ->
  forall w'', python_free Flt i w' = (w'', Ok tt) -> same w w''.
Proof.
  intros e w w' i H w'' F. assert (one_more w w' i) as S.
  { destruct H as [[name E]|[(m & a & E)|[[a E]|(W & f & a & rest & E)]]].
    - destruct (C111_import e w name) as (v & [(x & E' & S & _)|[(E' & _)|(E' & _)]]); rewrite E in E'; try discriminate. injection E' as -> ->. exact S.
    - destruct (C111_get_attribute e w m a) as (v & [(x & E' & S & _)|(E' & _)]); rewrite E in E'; try discriminate. injection E' as -> ->. exact S.
    - destruct (C111_get_value e a w) as (v & [(E' & S & _)|(E' & _)]); rewrite E in E'; try discriminate. injection E' as -> ->. exact S.
    - destruct (C111_call e f a rest w W) as (v & [(x & E' & S & _)|[(E' & _)|[(E' & _)|[(E' & _)|(E' & _)]]]]); rewrite E in E'; try discriminate.
      injection E' as -> ->. exact S. }
  injection F as <-. intro j. cbn. unfold bump. specialize (S j). destruct (Nat.eqb_spec j i); lia.
Qed.

(** ** C113 values and arguments *)
Theorem C113_arguments : forall e f a rest w w' v, sane w -> python_call_function _ e f a rest w = (w', Ok v) ->
  calls _ w' = (f, map (fun x => Some (value_of _ x)) (a :: rest)) :: calls _ w.
Proof.
  intros e f a rest w w' v W E. destruct (C111_call e f a rest w W) as (u & [(x & E' & _ & _ & C)|[(E' & _)|[(E' & _)|[(E' & _)|(E' & _)]]]]); rewrite E in E'; try discriminate.
  injection E' as -> ->. exact C.
Qed.
Theorem C113_round_trip : forall e m1 w z f w' i, - 2 ^ 63 <= z < 2 ^ 63 ->
  (python_get_value _ e (ALong _ z) w = (w', Ok i) -> python_as_long _ e i w' = (w', Ok z))
  /\ (python_get_value _ e (AInt _ z) w = (w', Ok i) -> python_as_long _ e i w' = (w', Ok z))
  /\ (python_get_value _ e (ADouble _ f) w = (w', Ok i) -> python_as_double _ e m1 i w' = (w', Ok f)).
Proof.
  intros e m1 w z f w' i Hz.
  assert (L : in_long z = true) by (unfold in_long; rewrite andb_true_iff, Z.leb_le, Z.ltb_lt; exact Hz).
  split; [|split]; intro E;
    match type of E with python_get_value _ _ ?a _ = _ => destruct (C111_get_value e a w) as (v & [(E' & _ & _ & V)|(E' & _)]) end;
    rewrite E in E'; try discriminate; injection E' as -> ->; cbn in V.
  - unfold python_as_long. rewrite V, L. reflexivity.
  - unfold python_as_long. rewrite V, L. reflexivity.
  - unfold python_as_double. rewrite V. reflexivity.
Qed.

(** ** C114 errors *)
(** every exception comes with the error printed and cleared; success does not touch the indicator *)
Definition reports {A} (m : M Flt A) w : Prop := forall w' r, m w = (w', r) ->
  match r with Ok _ => err _ w' = err _ w | Throw _ => err _ w' = false | UB => False end.
Theorem C114_reported : forall e w,
  (forall name, reports (python_import _ e name) w) /\ (forall path, reports (python_add_to_path _ e path) w)
  /\ (forall m a, reports (python_get_attribute _ e m a) w) /\ (forall a, reports (python_get_value _ e a) w)
  /\ (sane w -> (forall a rest, reports (python_build_args _ e a rest) w)
      /\ forall f a rest, reports (python_call_function _ e f a rest) w).
Proof.
  intros e w. split; [|split; [|split; [|split; [|intro W; split]]]].
  - intros name w' r E. destruct (C111_import e w name) as (v & [(x & E' & _ & X)|[(E' & _ & X)|(E' & _ & X)]]); rewrite E in E'; injection E' as -> ->; exact X.
  - intros p w' r E. destruct (C112_add_to_path e p w) as (v & [(l' & it & q & E' & _ & _ & X & _)|[(E' & _ & _ & X)|[(E' & _ & X)|([E'|E'] & _ & X)]]]);
      rewrite E in E'; injection E' as -> ->; exact X.
  - intros m a w' r E. destruct (C111_get_attribute e w m a) as (v & [(x & E' & _ & X)|(E' & _ & X)]); rewrite E in E'; injection E' as -> ->; exact X.
  - intros a w' r E. destruct (C111_get_value e a w) as (v & [(E' & _ & X & _)|(E' & _ & X)]); rewrite E in E'; injection E' as -> ->; exact X.
  - intros a rest w' r E. destruct (C111_build_args e a rest w W) as (v & [(E' & _ & X & _)|[(E' & _ & X & _)|(E' & _ & X & _)]]); rewrite E in E'; injection E' as -> ->; exact X.
  - intros f a rest w' r E. destruct (C111_call e f a rest w W) as (v & [(x & E' & _ & X & _)|[(E' & _ & X & _)|[(E' & _ & X & _)|[(E' & _ & X & _)|(E' & _ & X & _)]]]]);
      rewrite E in E'; injection E' as -> ->; exact X.
Qed.
(** setting an item of a tuple that others may know fails with an exception, changes no tuple and leaks nothing *)
Theorem C114_shared_tuple : forall e t i a w items,
  obj _ w t = Some (VTuple _ items) -> private _ w t = false ->
  exists w' s, python_set_tuple_element _ e t i a w = (w', Throw s) /\ same w w' /\ err _ w' = false /\
    (forall j, (j < List.length (objs _ w))%nat -> obj _ w' j = obj _ w j).
Proof.
  intros e t i a w items T P. unfold python_set_tuple_element.
  assert (L : (t < List.length (objs _ w))%nat) by (apply nth_error_Some; unfold obj in T; congruence).
  assert (E0 : tuple_size Flt t w = (w, Ok (List.length items))) by (unfold tuple_size; now rewrite T).
  step E0. destruct (List.length items <=? i)%nat.
  - destruct (@fail_spec unit "Index out of range" w) as (w1 & E1 & S1 & X1 & O1 & _). exists w1. eexists. split; [exact E1|].
    split; [exact S1|]. split; [exact X1|]. intros j _. unfold obj. now rewrite O1.
  - destruct (get_value_cases e a w) as [(w1 & E1 & S1 & X1 & O1 & C1)|(w1 & E1 & S1 & X1 & O1 & C1 & P1)].
    + exists w1. eexists. rewrite (bind_throw _ _ _ _ _ E1). split; [reflexivity|]. split; [exact S1|]. split; [exact X1|].
      intros j _. unfold obj. now rewrite O1.
    + step E1. set (id := List.length (objs _ w)) in *.
      set (w2 := set_err _ (with_held _ w1 (bump (held _ w1) id (-1))) true).
      assert (E2 : tuple_set Flt t i id w1 = (w2, Ok false)).
      { unfold tuple_set. replace (obj Flt (with_held Flt w1 (bump (held Flt w1) id (-1))) t) with (Some (VTuple Flt items)).
        - cbn [private with_held]. rewrite P1, P. reflexivity.
        - unfold obj. cbn. rewrite O1, nth_error_app1 by exact L. symmetry. exact T. }
      step E2. cbn [negb].
      destruct (@fail_spec unit "Problem setting item." w2) as (w3 & E3 & S3 & X3 & O3 & _). exists w3. eexists. split; [exact E3|].
      split; [|split; [exact X3|]].
      * intro j. rewrite S3. unfold w2. cbn. unfold bump. specialize (S1 j). destruct (Nat.eqb_spec j id); lia.
      * intros j Hj. unfold obj. rewrite O3. unfold w2. cbn. rewrite O1, nth_error_app1 by exact Hj. reflexivity.
Qed.
(** but a value that cannot be converted gives -1 and leaves the error pending; a failing script is not reported *)
Theorem C114_as_long_refuted : forall e w i v, obj _ w i = Some v ->
  (match v with VLong _ z => in_long z = false | _ => e_as_long _ e v = None end) ->
  exists w', python_as_long _ e i w = (w', Ok (-1)) /\ err _ w' = true.
Proof.
  intros e w i v O H. unfold python_as_long. rewrite O. destruct v; rewrite H; eexists; (split; [reflexivity|reflexivity]).
Qed.
Theorem C114_as_double_refuted : forall e m1 w i v, obj _ w i = Some v ->
  (match v with VFloat _ _ => False | _ => e_as_double _ e v = None end) ->
  exists w', python_as_double _ e m1 i w = (w', Ok m1) /\ err _ w' = true.
Proof.
  intros e m1 w i v O H. unfold python_as_double. rewrite O. destruct v; try contradiction; rewrite H; eexists; (split; [reflexivity|reflexivity]).
Qed.
Theorem C114_run_string_refuted : forall e w s, exists w', python_run_string _ e s w = (w', Ok tt) /\ err _ w' = err _ w.
Proof. intros e w s. unfold python_run_string. eexists. split; [reflexivity|]. destruct (e_run _ e s); reflexivity. Qed.
End Props.

(** ** C115 the program name *)
(** the name is there when the interpreter made a copy; otherwise it reads memory that is gone *)
Theorem C115_copied : forall name old, get_program_name (fst (python_set_program_name true true name old)) = Ok name.
Proof. reflexivity. Qed.
Theorem C115_dangling_refuted : forall name old, snd (python_set_program_name false true name old) = Ok tt
  /\ get_program_name (fst (python_set_program_name false true name old)) = UB.
Proof. split; reflexivity. Qed.
Theorem C115_undecodable : forall copies name old, python_set_program_name copies false name old = (old, Throw "Cannot decode program").
Proof. reflexivity. Qed.
Example C115_ex : python_set_program_name false true "sim" Default = (Gone, Ok tt). Proof. reflexivity. Qed.

(** ** an interpreter: object 0 is sys.path, 1 a module with the function 2, which adds two ints *)
Definition env0 : env Z := {|
  e_alloc := fun _ => true; e_decode := fun _ => true;
  e_import := fun _ s => if String.eqb s "python_test" then Some (inl 1%nat) else None;
  e_attr := fun _ m a => if String.eqb a "add" then Some (inl 2%nat) else None;
  e_callable := fun f => Nat.eqb f 2;
  e_call := fun _ f l => match l with [Some (VLong _ x); Some (VLong _ y)] => Some (inr (VLong _ (x + y))) | _ => None end;
  e_syspath := Some 0%nat; e_as_long := fun _ => None; e_as_double := fun _ => None; e_run := fun _ => true |}.
Definition w0 : world Z := mk_world Z [VList Z []; VOther Z 1; VOther Z 2] (fun _ => 0) (fun _ => false) false 0 0 [].
Lemma w0_sane : sane Z w0. Proof. intros i _. reflexivity. Qed.
(** the test: everything works, and in the end one reference too many has been released *)
Definition test : M Z Z :=
  mbind _ (python_add_to_path _ env0 ".") (fun path => mbind _ (python_import _ env0 "python_test") (fun m =>
  mbind _ (python_get_attribute _ env0 m "add") (fun f => mbind _ (python_call_function _ env0 f (AInt _ 1) [AInt _ 2]) (fun r =>
  mbind _ (python_as_long _ env0 r) (fun v => mbind _ (python_free _ r) (fun _ => mbind _ (python_free _ m) (fun _ =>
  mbind _ (python_free _ path) (fun _ => ret _ v)))))))).
Example C112_ex : let (w', r) := test w0 in r = Ok 3 /\ held _ w' 0%nat = -1 /\ held _ w' 1%nat = 0
  /\ held _ w' 2%nat = 1 (* py_func is never freed *) /\ calls _ w' = [(2%nat, [Some (VLong _ 1); Some (VLong _ 2)])].
Proof. vm_compute. repeat split. Qed.
Lemma leak (p : world Z * result nat) s : (let (w', r) := p in r = Throw s /\ held _ w' 3%nat = 1) ->
  exists w', p = (w', Throw s) /\ ~ same Z w0 w'.
Proof. destruct p as [w' r]. intros [-> H]. exists w'. split; [reflexivity|]. intro S. rewrite S in H. discriminate. Qed.
Theorem C111_import_leak_refuted : exists w', python_import Z env0 "nosuch" w0 = (w', Throw "Cannot import module") /\ ~ same Z w0 w'.
Proof. apply leak. vm_compute. split; reflexivity. Qed.
Theorem C111_call_leak_refuted : exists w', python_call_function Z env0 2 (ADouble Z 1) [] w0 = (w', Throw "Problem calling function.")
  /\ ~ same Z w0 w'.
Proof. apply leak. vm_compute. split; reflexivity. Qed.
Example C111_ex : let (w', r) := python_call_function Z env0 2 (ALong Z 20) [AInt Z 22] w0 in
  r = Ok 6%nat /\ obj _ w' 6 = Some (VLong Z 42) /\ map (held _ w') (seq 0 7) = [0; 0; 0; 0; 0; 0; 1].
Proof. vm_compute. repeat split. Qed.
Example C114_ex : exists w', python_as_long Z env0 0 w0 = (w', Ok (-1)) /\ err _ w' = true.
Proof. apply (C114_as_long_refuted Z env0 w0 0 (VList Z [])); reflexivity. Qed.
Example C114_shared_ex : let w := mk_world Z [VTuple Z [None]] (fun _ => 0) (fun _ => false) false 0 0 [] in
  exists w', python_set_tuple_element Z env0 0 0 (ALong Z 1) w = (w', Throw "Problem setting item.").
Proof. vm_compute. eexists. reflexivity. Qed.
Print Assumptions C111_import.
Print Assumptions C111_get_attribute.
Print Assumptions C111_get_value.
Print Assumptions C111_build_args.
Print Assumptions C111_call.
Print Assumptions C112_add_to_path.
Print Assumptions C112_tuple_element.
Print Assumptions C112_borrowed_refuted.
Print Assumptions C112_element_borrowed_refuted.
Print Assumptions C112_owned.
Print Assumptions C113_arguments.
Print Assumptions C113_round_trip.
Print Assumptions C114_reported.
Print Assumptions C114_shared_tuple.
Print Assumptions C114_as_long_refuted.
Print Assumptions C114_as_double_refuted.
Print Assumptions C114_run_string_refuted.
Print Assumptions C115_copied.
Print Assumptions C115_dangling_refuted.
Print Assumptions C115_undecodable.
Print Assumptions C111_import_leak_refuted.
Print Assumptions C111_call_leak_refuted.
