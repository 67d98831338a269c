(** Properties C72, C95, C96: design by contract and error macros. *)
From Coq Require Import String Ascii List Bool ZArith Lia.
From Verif Require Import Outcome DbcModel.
Import ListNotations.
Open Scope string_scope.

(** ** C72 *)
Section C72.
Context {S T : Type} (O : tops T).
(** uses whose arguments are plain values, with the condition each one states *)
Definition values (u : @use S T) (c : bool) : Prop :=
  match u with
  | UInsist b _ | URequire b _ | UCheck b _ | UEnsure b _ => b = pure c
  | UEqual x y _ _ => exists a b, x = pure a /\ y = pure b /\ c = t_eq O a b
  | UNotEqual x y _ _ => exists a b, x = pure a /\ y = pure b /\ c = t_ne O a b
  | UInOpenRange x l h _ => exists a b d, x = pure a /\ l = pure b /\ h = pure d /\ c = (t_gt O a b && t_lt O a d)%bool
  | UGreaterThan x y _ => exists a b, x = pure a /\ y = pure b /\ c = t_gt O a b
  | UGreaterEqual x y _ => exists a b, x = pure a /\ y = pure b /\ c = t_ge O a b
  | ULessThan x y _ => exists a b, x = pure a /\ y = pure b /\ c = t_lt O a b
  | UOneOf x f _ => exists a g, x = pure a /\ f = pure g /\ c = negb (Nat.eqb (g a) 0)
  end.
(** messages of the plain assertions are values too *)
Definition plain_msg (u : @use S T) : Prop :=
  match u with UInsist _ m | URequire _ m | UCheck _ m | UEnsure _ m => exists s, m = pure s | _ => True end.
(** the text handed to the action *)
Definition says (u : @use S T) (msg : string) : Prop :=
  match u with
  | UInsist _ m | URequire _ m | UCheck _ m | UEnsure _ m => m = pure msg
  | UEqual _ _ nx ny => msg = nx ++ " != " ++ ny
  | UNotEqual _ _ nx ny => msg = nx ++ " expected != " ++ ny
  | UInOpenRange x l h nx => exists a b d, x = pure a /\ l = pure b /\ h = pure d
      /\ msg = nx ++ " (" ++ t_show O a ++ ") was not in range (" ++ t_show O b ++ "," ++ t_show O d ++ ")"
  | UGreaterThan x y nx => exists a b, x = pure a /\ y = pure b /\ msg = nx ++ " (" ++ t_show O a ++ ") <= " ++ t_show O b
  | UGreaterEqual x y nx => exists a b, x = pure a /\ y = pure b /\ msg = nx ++ " (" ++ t_show O a ++ ") < " ++ t_show O b
  | ULessThan x y nx => exists a b, x = pure a /\ y = pure b /\ msg = nx ++ " (" ++ t_show O a ++ ") >= " ++ t_show O b
  | UOneOf _ _ nx => msg = nx ++ " not in set"
  end.
Lemma eval_pure {A} (a : A) (w : world S) : eval (pure a) w = (w, Ok a).
Proof. destruct w. reflexivity. Qed.
Lemma cbind_pure {A B} (a : A) (k : A -> cmd S B) (w : world S) : cbind (eval (pure a)) k w = k a w.
Proof. unfold cbind. rewrite eval_pure. reflexivity. Qed.
Lemma use2_pure {A B} (x : A) (y : B) f (w : world S) : use2 (pure x) (pure y) f w = f x y w.
Proof. unfold use2. rewrite !cbind_pure. reflexivity. Qed.
Lemma some_ext (m m' : cmd S bool) w : m w = m' w -> some m w = some m' w.
Proof. unfold some, cbind. intros ->. reflexivity. Qed.
(** enabled: a check whose condition holds does nothing and is true *)
Theorem C72_passes : forall a p u (w : world S), values u true -> plain_msg u -> expand_on O a p u w = (w, Ok (Some true)).
Proof.
  intros a p u w V P. destruct u; simpl in V, P; unfold expand_on, insist.
  1-4: destruct P as [s ->]; subst; erewrite some_ext by apply use2_pure; reflexivity.
  1-2, 4-6: destruct V as (x0 & y0 & -> & -> & V); erewrite some_ext by apply use2_pure;
     unfold equal_func, not_equal_func, greater_than_func, greater_equal_func, less_than_func; rewrite <- V; reflexivity.
  - destruct V as (x0 & b0 & d0 & -> & -> & -> & V).
    rewrite (some_ext _ (in_open_range_func O a p x0 b0 d0 nx)) by (rewrite cbind_pure, use2_pure; reflexivity).
    unfold in_open_range_func. rewrite <- V. reflexivity.
  - destruct V as (x0 & g & -> & -> & V). erewrite some_ext by apply use2_pure. unfold one_of_func.
    replace (Nat.ltb 0 (g x0)) with true; [reflexivity|]. destruct (g x0); [discriminate V|reflexivity].
Qed.
(** enabled: a violated check performs the action once, with the location of the use; its value, if the action returns, is false *)
Theorem C72_fires : forall a p u (w : world S), values u false -> plain_msg u ->
  exists msg, says u msg /\ expand_on O a p u w = cbind (a msg p) (fun _ => cret (Some false)) w.
Proof.
  intros a p u w V P. assert (A : forall msg w, some (cbind (assertf false msg p a) (fun _ => cret false)) w = cbind (a msg p) (fun _ => cret (Some false)) w).
  { intros msg w0. unfold some, assertf, cbind. simpl. destruct (a msg p w0) as [w1 [[]| | |]]; reflexivity. }
  destruct u; simpl in V, P; unfold expand_on, insist.
  1-4: destruct P as [s ->]; subst; exists s; (split; [reflexivity|]); erewrite some_ext by apply use2_pure; rewrite <- A; unfold some, assertf, cbind; simpl;
    destruct (a s p w) as [w1 [[]| | |]]; reflexivity.
  1-2, 4-6: destruct V as (x0 & y0 & -> & -> & V); erewrite some_ext by apply use2_pure;
     unfold equal_func, not_equal_func, greater_than_func, greater_equal_func, less_than_func; rewrite <- V; eexists; (split; [|apply A]); simpl; eauto 8.
  - destruct V as (x0 & b0 & d0 & -> & -> & -> & V).
    rewrite (some_ext _ (in_open_range_func O a p x0 b0 d0 nx)) by (rewrite cbind_pure, use2_pure; reflexivity).
    unfold in_open_range_func. rewrite <- V. eexists. split; [|apply A]. simpl. do 3 eexists. repeat split; reflexivity.
  - destruct V as (x0 & g & -> & -> & V). erewrite some_ext by apply use2_pure. unfold one_of_func.
    replace (Nat.ltb 0 (g x0)) with false; [eexists; split; [|apply A]; reflexivity|]. destruct (g x0); [reflexivity|discriminate V].
Qed.
(** the three actions *)
Theorem C72_throw : forall p u (w : world S), values u false -> plain_msg u ->
  exists msg, says u msg /\ expand_on O throw_exception p u w = (mk_world (user w) (stream w) (build_message msg p), Throw).
Proof. intros p u w V P. destruct (C72_fires throw_exception p u w V P) as (msg & M & E). exists msg. split; [exact M|exact E]. Qed.
Theorem C72_notify : forall p u (w : world S), values u false -> plain_msg u ->
  exists msg, says u msg /\ expand_on O notify p u w = (mk_world (user w) (stream w ++ build_message msg p) (what w), Ok (Some false)).
Proof. intros p u w V P. destruct (C72_fires notify p u w V P) as (msg & M & E). exists msg. split; [exact M|exact E]. Qed.
Theorem C72_nothing : forall p u (w : world S), values u false -> plain_msg u ->
  expand_on O do_nothing p u w = (w, Ok (Some false)).
Proof. intros p u w V P. destruct (C72_fires do_nothing p u w V P) as (msg & _ & E). exact E. Qed.
(** passes iff the condition holds, for any action that does not itself produce the value true *)
Theorem C72_value : forall a p u c (w : world S) w' b, values u c -> plain_msg u -> expand_on O a p u w = (w', Ok b) -> b = Some c.
Proof.
  intros a p u [|] w w' b V P E.
  - rewrite (C72_passes a p u w V P) in E. congruence.
  - destruct (C72_fires a p u w V P) as (msg & _ & F). rewrite F in E. unfold cbind in E. destruct (a msg p w) as [w1 [[]| | |]]; try discriminate. injection E. congruence.
Qed.
(** disabled: Require, Check and Ensure vanish; the comparisons give their condition; nothing happens *)
Theorem C72_off_partial : forall a p u c (w : world S), values u c -> plain_msg u -> (forall x f n, u <> UOneOf x f n) -> (forall b m, u <> UInsist b m) ->
  expand_off O a p u w = (w, Ok (match u with URequire _ _ | UCheck _ _ | UEnsure _ _ => None | _ => Some c end)).
Proof.
  intros a p u c w V P N1 N2. destruct u; simpl in V, P; unfold expand_off; try reflexivity.
  - exfalso. exact (N2 _ _ eq_refl).
  - destruct V as (x0 & y0 & -> & -> & ->). erewrite some_ext by apply use2_pure. reflexivity.
  - destruct V as (x0 & y0 & -> & -> & ->). erewrite some_ext by apply use2_pure. reflexivity.
  - destruct V as (x0 & b0 & d0 & -> & -> & -> & ->).
    rewrite (some_ext _ (cret (t_gt O x0 b0 && t_lt O x0 d0)%bool)); [reflexivity|].
    unfold cbind at 1. rewrite use2_pure. unfold cret at 1. destruct (t_gt O x0 b0); [rewrite use2_pure|]; reflexivity.
  - destruct V as (x0 & y0 & -> & -> & ->). erewrite some_ext by apply use2_pure. reflexivity.
  - destruct V as (x0 & y0 & -> & -> & ->). erewrite some_ext by apply use2_pure. reflexivity.
  - destruct V as (x0 & y0 & -> & -> & ->). erewrite some_ext by apply use2_pure. reflexivity.
  - exfalso. exact (N1 _ _ _ eq_refl).
Qed.
(** disabled: OneOf is true whatever the set *)
Theorem C72_one_of_refuted : forall a p x f n (w : world S), expand_off O a p (UOneOf x f n) w = (w, Ok (Some true)).
Proof. reflexivity. Qed.
(** Insist does not depend on RISTRA_REQUIRE_ON *)
Theorem C72_insist : forall a p b m (w : world S), expand_off O a p (UInsist b m) w = expand_on O a p (UInsist b m) w.
Proof. reflexivity. Qed.
End C72.
Print Assumptions C72_passes.
Print Assumptions C72_fires.
Print Assumptions C72_throw.
Print Assumptions C72_notify.
Print Assumptions C72_nothing.
Print Assumptions C72_value.
Print Assumptions C72_off_partial.
Print Assumptions C72_one_of_refuted.
Print Assumptions C72_insist.
Definition zops : tops Z := mk_tops Z Z.eqb (fun a b => negb (Z.eqb a b)) Z.gtb Z.geb Z.ltb dec.
Definition w0 : world nat := mk_world 0 "" "".
Definition s1 : site := mk_site "a.cc" "main" 12.
Example C72_example : let u := UInOpenRange (S := nat) (pure 5%Z) (pure 1%Z) (pure 4%Z) "x" in values zops u false
  /\ expand_on zops throw_exception s1 u w0 = (mk_world 0 "" ("a.cc:12:main assertion 'x (5) was not in range (1,4)' failed." ++ nl), Throw)
  /\ expand_off zops throw_exception s1 u w0 = (w0, Ok (Some false)).
Proof. split; [exists 5%Z, 1%Z, 4%Z; repeat split; reflexivity|]. split; reflexivity. Qed.
Example C72_one_of_witness : let u := UOneOf (S := nat) (pure 5%Z) (pure (fun z => if Z.eqb z 1 then 1 else 0)) "x" in
  values zops u false /\ expand_off zops throw_exception s1 u w0 = (w0, Ok (Some true)).
Proof. split; [|reflexivity]. eexists. eexists. repeat split; reflexivity. Qed.
(** when the configured action is not to throw, a failed Insist lets execution continue *)
Theorem C72_insist_continues_refuted : forall (S T : Type) (O : tops T) p m (w : world S),
  snd (expand_on O do_nothing p (UInsist (pure false) (pure m)) w) = Ok (Some false)
  /\ snd (expand_on O notify p (UInsist (pure false) (pure m)) w) = Ok (Some false).
Proof.
  intros. split.
  - rewrite (C72_nothing O p (UInsist (pure false) (pure m)) w); [reflexivity|reflexivity|simpl; eauto].
  - destruct (C72_notify O p (UInsist (pure false) (pure m)) w) as (x & _ & E); [reflexivity|simpl; eauto|]. rewrite E. reflexivity.
Qed.
Print Assumptions C72_insist_continues_refuted.

(** ** C95: arguments with effects: the value depends on whether checks are enabled *)
(** every argument of an enabled check is evaluated exactly once *)
Theorem C95_on_once : forall (S T : Type) (O : tops T) a p (x y : ex S T) nx ny (w : world S),
  expand_on O a p (UEqual x y nx ny) w =
    some (equal_func O a p (snd (x (user w))) (snd (y (fst (x (user w))))) nx ny) (mk_world (fst (y (fst (x (user w))))) (stream w) (what w)).
Proof. intros. unfold expand_on, some, use2, cbind, eval. destruct (x (user w)) as [s u]. simpl. destruct (y s) as [s' v]. reflexivity. Qed.
Print Assumptions C95_on_once.
Theorem C95_on_once_range : forall (S T : Type) (O : tops T) a p (x l h : ex S T) nx (w : world S),
  let '(s1, u) := x (user w) in let '(s2, v) := l s1 in let '(s3, t) := h s2 in
  expand_on O a p (UInOpenRange x l h nx) w = some (in_open_range_func O a p u v t nx) (mk_world s3 (stream w) (what w)).
Proof.
  intros. unfold expand_on, some, use2, cbind, eval. destruct (x (user w)) as [s1 u]. simpl. destruct (l s1) as [s2 v]. simpl.
  destruct (h s2) as [s3 t]. reflexivity.
Qed.
Print Assumptions C95_on_once_range.
(** disabled InOpenRange evaluates its first argument twice: x++ in range (0,2) from 1 *)
Definition incr : ex Z Z := fun s => ((s + 1)%Z, s).
Theorem C95_in_open_range_refuted : exists (w : world Z),
  (let '(w1, o1) := expand_on zops throw_exception s1 (UInOpenRange incr (pure 0%Z) (pure 2%Z) "x++") w in user w1 = 2%Z /\ o1 = Ok (Some true))
  /\ (let '(w2, o2) := expand_off zops throw_exception s1 (UInOpenRange incr (pure 0%Z) (pure 2%Z) "x++") w in user w2 = 3%Z /\ o2 = Ok (Some false)).
Proof. exists (mk_world 1%Z "" ""). split; split; reflexivity. Qed.
Print Assumptions C95_in_open_range_refuted.
(** disabled Require, Check, Ensure do not evaluate their condition; the comparisons do *)
Theorem C95_require_refuted : exists (w : world Z) (c : ex Z bool), 
  user (fst (expand_on zops throw_exception s1 (URequire c (pure "m")) w)) <> user (fst (expand_off zops throw_exception s1 (URequire c (pure "m")) w)).
Proof. exists (mk_world 1%Z "" ""), (fun s => ((s + 1)%Z, true)). simpl. discriminate. Qed.
Print Assumptions C95_require_refuted.
(** with arguments that have no effects, enabling the checks changes no value and no state as long as the conditions hold *)
Theorem C95_pure_partial : forall (S T : Type) (O : tops T) a p u (w : world S), values O u true -> plain_msg u ->
  fst (expand_on O a p u w) = fst (expand_off O a p u w)
  /\ (forall b, snd (expand_off O a p u w) = Ok (Some b) -> snd (expand_on O a p u w) = Ok (Some b)).
Proof.
  intros S T O a p u w V P. rewrite (C72_passes O a p u w V P). simpl.
  destruct u; try (match goal with |- context [UInsist ?c ?m] => rewrite C72_insist, (C72_passes O a p (UInsist c m) w V P) end; simpl; split; [reflexivity|congruence]);
    try (simpl; split; [reflexivity|congruence]);
    (rewrite (C72_off_partial O a p _ true w V P) by discriminate; simpl; split; [reflexivity|congruence]).
Qed.
Print Assumptions C95_pure_partial.

(** ** C96: error macros *)
Theorem C96_raise : forall (S A : Type) p e (w : world S),
  snd (raise_error (A := A) true p e w) = Throw /\ snd (raise_error (A := A) false p e w) = AssertFail
  /\ (forall en, exists rest, stream (fst (raise_error (A := A) en p e w)) = stream w ++ here p ++ rest).
Proof.
  intros S A p e w. split; [reflexivity|]. split; [reflexivity|].
  assert (Q : forall en, stream (fst (raise_error (A := A) en p e w)) = stream w ++ match e with EFile _ => here p ++ nl | ERuntime m | ELogic m | EImplemented m => here p ++ nl ++ m ++ nl end)
    by (intros []; reflexivity).
  intros en. rewrite Q. destruct e; eexists; reflexivity.
Qed.
Print Assumptions C96_raise.
(** the texts printed and carried *)
Theorem C96_text : forall (S A : Type) p (w : world S), let out e := stream (fst (raise_error (A := A) true p e w)) in let txt e := what (fst (raise_error (A := A) true p e w)) in
  (forall m, out (ERuntime m) = stream w ++ here p ++ nl ++ m ++ nl /\ txt (ERuntime m) = "general runtime error")
  /\ (forall m, out (ELogic m) = stream w ++ here p ++ nl ++ m ++ nl /\ txt (ELogic m) = "error in internal logic")
  /\ (forall m, out (EImplemented m) = stream w ++ here p ++ nl ++ m ++ nl /\ txt (EImplemented m) = "error, not implemented")
  /\ (forall f, out (EFile f) = stream w ++ here p ++ nl /\ txt (EFile f) = "error accessing file: " ++ f)
  /\ here p = file p ++ " :: " ++ func p ++ " :: L" ++ dec (line p).
Proof. intros. repeat split; reflexivity. Qed.
Print Assumptions C96_text.
(** the message of a runtime error is printed but is not in the exception *)
Theorem C96_what_refuted : forall (S A : Type) p m1 m2 (w : world S),
  what (fst (raise_error (A := A) true p (ERuntime m1) w)) = what (fst (raise_error (A := A) true p (ERuntime m2) w)).
Proof. reflexivity. Qed.
Print Assumptions C96_what_refuted.
(** assert_true used as a statement of its own *)
Theorem C96_assert_true_partial : forall notc thr fuel rest, (forall l, rest <> TElse :: l) ->
  exists s, parse (S (S fuel)) (assert_true notc thr ++ rest) = Some (s, rest) /\ forall v, exec v s = if v notc then [thr] else [].
Proof.
  intros notc thr fuel rest H. simpl. destruct rest as [|[c| |x] l]; try (eexists; split; [reflexivity|]; intros v; reflexivity).
  exfalso. exact (H l eq_refl).
Qed.
Print Assumptions C96_assert_true_partial.
(** in "if (a) assert_true(b, m); else t;" the else belongs to the macro's own if: t runs exactly when a and b hold *)
Theorem C96_dangling_refuted : forall a notb thr t fuel, exists s,
  parse (S (S (S fuel))) ([TIf a] ++ assert_true notb thr ++ [TElse; TStmt t]) = Some (s, [])
  /\ forall v, exec v s = if v a then (if v notb then [thr] else [t]) else [].
Proof. intros. eexists. split; [reflexivity|]. intros v. reflexivity. Qed.
Print Assumptions C96_dangling_refuted.
(** what was meant *)
Example C96_meant : forall a notb thr t, let meant := SIf a (SIf notb (SDo thr) None) (Some (SDo t)) in
  exists v, exec v meant = [t] /\ forall s, parse 3 ([TIf a] ++ assert_true notb thr ++ [TElse; TStmt t]) = Some (s, []) -> exec v s = [].
Proof. intros. exists (fun _ => false). split; [reflexivity|]. intros s E. injection E as <-. reflexivity. Qed.
(** the location is at the front of every message *)
Theorem C96_message : forall c1 c2 p1 p2, build_message c1 p1 = build_message c2 p2 ->
  file p1 = file p2 -> line p1 = line p2 -> func p1 = func p2 -> c1 = c2.
Proof.
  intros c1 c2 p1 p2 E F L G. unfold build_message in E. rewrite F, L, G in E.
  assert (A : forall s t u : string, s ++ t = s ++ u -> t = u) by (induction s; simpl; intros t u H; [exact H|injection H as H; apply IHs, H]).
  repeat apply A in E.
  assert (Ln : forall s t : string, String.length (s ++ t) = String.length s + String.length t) by (induction s; intros; simpl; [reflexivity|rewrite IHs; reflexivity]).
  assert (B : forall s t u : string, s ++ u = t ++ u -> s = t).
  { induction s as [|x s IH]; intros [|y t] u H; simpl in H; try reflexivity.
    - apply (f_equal String.length) in H. simpl in H. rewrite Ln in H. lia.
    - apply (f_equal String.length) in H. simpl in H. rewrite Ln in H. lia.
    - injection H as -> H. f_equal. exact (IH _ _ H). }
  exact (B _ _ _ E).
Qed.
Print Assumptions C96_message.
(** a check followed by a semicolon is fine in a list of statements, but "if (a) Require(c, m); else t;" is not C++ *)
Theorem C96_check_alone_partial : forall call empty fuel, parse_all (S (S (S fuel))) (check_use call empty) = Some [SDo call; SDo empty].
Proof. reflexivity. Qed.
Print Assumptions C96_check_alone_partial.
Theorem C96_semicolon_refuted : forall a call empty t fuel, parse_all fuel ([TIf a] ++ check_use call empty ++ [TElse; TStmt t]) = None.
Proof. intros. destruct fuel as [|[|[|[|n]]]]; reflexivity. Qed.
Print Assumptions C96_semicolon_refuted.
(** the same with a single statement is *)
Example C96_semicolon_meant : parse_all 4 ([TIf 0] ++ [TStmt 1] ++ [TElse; TStmt 2]) = Some [SIf 0 (SDo 1) (Some (SDo 2))].
Proof. reflexivity. Qed.
(** HERE and HERE_STR put file and function in different orders *)
Theorem C96_here_order_refuted : exists p m, here_func p m <> "HERE " ++ here_str_func p m ++ nl.
Proof. exists s1, "x". discriminate. Qed.
Print Assumptions C96_here_order_refuted.
