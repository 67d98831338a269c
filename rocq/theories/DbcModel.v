(** Design by contract: ristra/assertions/dbc.h, dbc_impl.h, dbc_impl.cc, errors.h, here.h.
    - A world is the program's own state S, the text written to *p_str (std::cerr) and the message of the last exception.
    - Macro arguments are expressions with effects on S, evaluated as often as the macro text mentions them; the order of
      evaluation of function arguments, unspecified in C++, is left to right here.
    - Comparison operators, printing of values and set membership are those of the argument type: parameters.
    - dbc_action is one variable here; the code has one per translation unit (anonymous namespace, 79-88).
    - AssertFail also stands for std::abort. *)
From Coq Require Import String Ascii List Bool ZArith DecimalString.
From Verif Require Import Outcome.
Import ListNotations.
Open Scope string_scope.

Record world (S : Type) := mk_world { user : S; stream : string; what : string }.
Arguments mk_world {S}.
Arguments user {S}.
Arguments stream {S}.
Arguments what {S}.
Definition cmd (S A : Type) := world S -> world S * outcome A.
Definition cret {S A} (a : A) : cmd S A := fun w => (w, Ok a).
Definition cbind {S A B} (m : cmd S A) (k : A -> cmd S B) : cmd S B := fun w =>
  match m w with (w', Ok a) => k a w' | (w', Throw) => (w', Throw) | (w', AssertFail) => (w', AssertFail) | (w', UB) => (w', UB) end.
(* an argument expression *)
Definition ex (S A : Type) := S -> S * A.
Definition eval {S A} (e : ex S A) : cmd S A := fun w => let '(s, a) := e (user w) in (mk_world s (stream w) (what w), Ok a).
Definition pure {S A} (a : A) : ex S A := fun s => (s, a).
(* __FILE__, __FUNCTION__, __LINE__ *)
Record site := mk_site { file : string; func : string; line : Z }.
Definition dec (z : Z) : string := NilZero.string_of_int (Z.to_int z).
Definition nl : string := String (Ascii.ascii_of_nat 10) EmptyString.
(* dbc_impl.cc 18-25 build_message *)
Definition build_message (c : string) (p : site) : string :=
  file p ++ ":" ++ dec (line p) ++ ":" ++ func p ++ " assertion '" ++ c ++ "' failed." ++ nl.

(** ** actions (dbc.h 57-88): a function of the message and the location *)
Definition action (S : Type) := string -> site -> cmd S unit.
Definition throw_exception {S} : action S := fun c p w => (mk_world (user w) (stream w) (build_message c p), Throw).
Definition notify {S} : action S := fun c p w => (mk_world (user w) (stream w ++ build_message c p) (what w), Ok tt).
Definition do_nothing {S} : action S := fun _ _ => cret tt.
(* 79-88 *)
Definition default_action {S} (dbc_throw dbc_notify : bool) : action S :=
  if dbc_throw then throw_exception else if dbc_notify then notify else do_nothing.
(* dbc_impl.cc 27-34 assertf; dbc_impl.h 42-51 assertf_l *)
Definition assertf {S} (c : bool) (msg : string) (p : site) (a : action S) : cmd S bool :=
  if negb c then cbind (a msg p) (fun _ => cret c) else cret c.
Definition assertf_l {S} (c : bool) (gen : unit -> string) (p : site) (a : action S) : cmd S bool :=
  if negb c then cbind (a (gen tt) p) (fun _ => cret c) else cret c.

(** ** what the argument type provides *)
Record tops (T : Type) := mk_tops { t_eq : T -> T -> bool; t_ne : T -> T -> bool; t_gt : T -> T -> bool; t_ge : T -> T -> bool;
  t_lt : T -> T -> bool; t_show : T -> string }.
Arguments t_eq {T}.
Arguments t_ne {T}.
Arguments t_gt {T}.
Arguments t_ge {T}.
Arguments t_lt {T}.
Arguments t_show {T}.
Section Checks.
Context {S T : Type} (O : tops T) (a : action S) (p : site).
(* 90-106, 108-124, 126-142, 144-181 *)
Definition equal_func (x y : T) (nx ny : string) : cmd S bool :=
  let c := t_eq O x y in cbind (assertf_l c (fun _ => nx ++ " != " ++ ny) p a) (fun _ => cret c).
Definition not_equal_func (x y : T) (nx ny : string) : cmd S bool :=
  let c := t_ne O x y in cbind (assertf_l c (fun _ => nx ++ " expected != " ++ ny) p a) (fun _ => cret c).
Definition in_open_range_func (x mn mx : T) (nx : string) : cmd S bool :=
  let c := t_gt O x mn && t_lt O x mx in
  cbind (assertf_l c (fun _ => nx ++ " (" ++ t_show O x ++ ") was not in range (" ++ t_show O mn ++ "," ++ t_show O mx ++ ")") p a) (fun _ => cret c).
Definition greater_than_func (x mn : T) (nx : string) : cmd S bool :=
  let c := t_gt O x mn in cbind (assertf_l c (fun _ => nx ++ " (" ++ t_show O x ++ ") <= " ++ t_show O mn) p a) (fun _ => cret c).
Definition greater_equal_func (x mn : T) (nx : string) : cmd S bool :=
  let c := t_ge O x mn in cbind (assertf_l c (fun _ => nx ++ " (" ++ t_show O x ++ ") < " ++ t_show O mn) p a) (fun _ => cret c).
Definition less_than_func (x mx : T) (nx : string) : cmd S bool :=
  let c := t_lt O x mx in cbind (assertf_l c (fun _ => nx ++ " (" ++ t_show O x ++ ") >= " ++ t_show O mx) p a) (fun _ => cret c).
(* 183-195; [count] is container_t::count *)
Definition one_of_func (count : T -> nat) (x : T) (nx : string) : cmd S bool :=
  let c := Nat.ltb 0 (count x) in cbind (assertf_l c (fun _ => nx ++ " not in set") p a) (fun _ => cret c).

(** ** the macros.  A use has its argument expressions and their source text (#x). *)
Inductive use :=
| UInsist (c : ex S bool) (cs : ex S string) | URequire (c : ex S bool) (cs : ex S string)
| UCheck (c : ex S bool) (cs : ex S string) | UEnsure (c : ex S bool) (cs : ex S string)
| UEqual (x y : ex S T) (nx ny : string) | UNotEqual (x y : ex S T) (nx ny : string)
| UInOpenRange (x mn mx : ex S T) (nx : string) | UGreaterThan (x mn : ex S T) (nx : string)
| UGreaterEqual (x mn : ex S T) (nx : string) | ULessThan (x mx : ex S T) (nx : string)
| UOneOf (x : ex S T) (set : ex S (T -> nat)) (nx : string).
Definition use2 {A B} (x : ex S A) (y : ex S B) (f : A -> B -> cmd S bool) : cmd S bool :=
  cbind (eval x) (fun u => cbind (eval y) (fun v => f u v)).
(* the value is None when the macro expands to nothing *)
Definition some (m : cmd S bool) : cmd S (option bool) := cbind m (fun b => cret (Some b)).
(* 201-204 *)
Definition insist (c : ex S bool) (cs : ex S string) : cmd S bool := use2 c cs (fun b s => assertf b s p a).
(* 206-250 RISTRA_REQUIRE_ON *)
Definition expand_on (u : use) : cmd S (option bool) :=
  match u with
  | UInsist c cs => some (insist c cs)
  | URequire c cs | UCheck c cs | UEnsure c cs => some (use2 c cs (fun b s => assertf b s p a))
  | UEqual x y nx ny => some (use2 x y (fun u v => equal_func u v nx ny))
  | UNotEqual x y nx ny => some (use2 x y (fun u v => not_equal_func u v nx ny))
  | UInOpenRange x mn mx nx => some (cbind (eval x) (fun u => use2 mn mx (fun v w => in_open_range_func u v w nx)))
  | UGreaterThan x mn nx => some (use2 x mn (fun u v => greater_than_func u v nx))
  | UGreaterEqual x mn nx => some (use2 x mn (fun u v => greater_equal_func u v nx))
  | ULessThan x mx nx => some (use2 x mx (fun u v => less_than_func u v nx))
  | UOneOf x set nx => some (use2 x set (fun u c => one_of_func c u nx))
  end.
(* 252-265; && evaluates its right operand only when the left one is true, and (x) appears twice in InOpenRange *)
Definition expand_off (u : use) : cmd S (option bool) :=
  match u with
  | UInsist c cs => some (insist c cs)
  | URequire _ _ | UCheck _ _ | UEnsure _ _ => cret None
  | UEqual x y _ _ => some (use2 x y (fun u v => cret (t_eq O u v)))
  | UNotEqual x y _ _ => some (use2 x y (fun u v => cret (t_ne O u v)))
  | UInOpenRange x mn mx _ => some (cbind (use2 x mn (fun u v => cret (t_gt O u v)))
      (fun b => if b then use2 x mx (fun u v => cret (t_lt O u v)) else cret false))
  | UGreaterThan x mn _ => some (use2 x mn (fun u v => cret (t_gt O u v)))
  | UGreaterEqual x mn _ => some (use2 x mn (fun u v => cret (t_ge O u v)))
  | ULessThan x mx _ => some (use2 x mx (fun u v => cret (t_lt O u v)))
  | UOneOf _ _ _ => cret (Some true)
  end.
End Checks.

(** ** errors.h *)
(* 23-28 THROW_EXCEPTION; 35-74 with RISTRA_HERE (here.h 16-17) and exceptions.h: the location, the message where there is one, then the exception with its fixed text *)
Definition here (p : site) : string := file p ++ " :: " ++ func p ++ " :: L" ++ dec (line p).
Inductive err := ERuntime (msg : string) | ELogic (msg : string) | EFile (name : string) | EImplemented (msg : string).
Definition raise_error {S A} (enable_exceptions : bool) (p : site) (e : err) : cmd S A := fun w =>
  let out := match e with EFile _ => here p ++ nl | ERuntime m | ELogic m | EImplemented m => here p ++ nl ++ m ++ nl end in
  let text := match e with ERuntime _ => "general runtime error" | ELogic _ => "error in internal logic"
     | EFile n => "error accessing file: " ++ n | EImplemented _ => "error, not implemented" end in
  if enable_exceptions then (mk_world (user w) (stream w ++ out) text, Throw) else (mk_world (user w) (stream w ++ out) (what w), AssertFail).
(** 81-83 assert_true is an if statement without braces: a small grammar of C++ statements *)
Inductive tok := TIf (c : nat) | TElse | TStmt (s : nat).              (* "if (c)", "else", a complete statement "s;" *)
Inductive stmt := SIf (c : nat) (t : stmt) (e : option stmt) | SDo (s : nat).
(* the grammar of statements: an else belongs to the nearest if *)
Fixpoint parse (fuel : nat) (l : list tok) : option (stmt * list tok) :=
  match fuel with
  | O => None
  | Datatypes.S n =>
      match l with
      | TStmt s :: l' => Some (SDo s, l')
      | TIf c :: l' =>
          match parse n l' with
          | Some (t, TElse :: l'') => match parse n l'' with Some (e, r) => Some (SIf c t (Some e), r) | None => None end
          | Some (t, r) => Some (SIf c t None, r)
          | None => None
          end
      | _ => None
      end
  end.
(* condition numbers are interpreted by [v]; the result is the list of statements run *)
Fixpoint exec (v : nat -> bool) (s : stmt) : list nat :=
  match s with
  | SDo n => [n]
  | SIf c t e => if v c then exec v t else match e with Some e => exec v e | None => [] end
  end.
(* 81-83: condition number [notc] stands for !(cond), statement [thr] for THROW_RUNTIME_ERROR(...) and its semicolon *)
Definition assert_true (notc thr : nat) : list tok := [TIf notc; TStmt thr].
(* a list of statements, all tokens used *)
Fixpoint parse_all (fuel : nat) (l : list tok) : option (list stmt) :=
  match fuel with
  | O => None
  | Datatypes.S n =>
      match l with
      | [] => Some []
      | _ => match parse n l with Some (s, r) => option_map (cons s) (parse_all n r) | None => None end
      end
  end.
(* dbc.h 201-204, 209-250: the text of an enabled check ends with a semicolon of its own, so that a use followed by a semicolon is the
   call and then the empty statement [empty] *)
Definition check_use (call empty : nat) : list tok := [TStmt call; TStmt empty].
(* here.h 29-42; the texts of HERE and HERE_STR *)
Definition here_func (p : site) (m : string) : string := "HERE " ++ func p ++ ":" ++ file p ++ ":" ++ dec (line p) ++ " " ++ m ++ nl.
Definition here_str_func (p : site) (m : string) : string := file p ++ ":" ++ func p ++ ":" ++ dec (line p) ++ " " ++ m.
