(** Model of how the operators, member functions and free functions of ristra/atomics/src/atomics.h
    reach the function object and the apply() overload that do the work, and of the memory orders
    handed to compare_exchange. Tables transcribed from the #defines that precede each #include.
    Not modelled: which operations the value type itself offers. *)
From Coq Require Import List Arith Bool ZArith String.
From Verif Require Import Outcome.
Import ListNotations.
Open Scope string_scope.

(** function objects, 1190-1303 *)
Inductive cls := Caddequal | Csubequal | Cmulequal | Cdivequal | Cmodequal | Clshiftequal | Crshiftequal
  | Candequal | Corequal | Cxorequal | Cminequal | Cmaxequal | Cpreinc | Cpostinc | Cpredec | Cpostdec.
(** lhs atomics_op val of atomics-macro-class.h 84-108 and prepost 84-100 on a value of unbounded
    signed integral type: the new value and the returned value; / and % are undefined for 0,
    shifts for a negative count *)
Definition cls_apply (c : cls) (x v : Z) : outcome (Z * Z) :=
  let same r := Ok (r, r) in
  match c with
  | Caddequal => same (v + x)%Z
  | Csubequal => same (v - x)%Z
  | Cmulequal => same (v * x)%Z
  | Cdivequal => if (x =? 0)%Z then UB else same (Z.quot v x)
  | Cmodequal => if (x =? 0)%Z then UB else same (Z.rem v x)
  | Clshiftequal => if (x <? 0)%Z then UB else same (Z.shiftl v x)
  | Crshiftequal => if (x <? 0)%Z then UB else same (Z.shiftr v x)
  | Candequal => same (Z.land v x)
  | Corequal => same (Z.lor v x)
  | Cxorequal => same (Z.lxor v x)
  | Cminequal => same (if (x <? v)%Z then x else v)
  | Cmaxequal => same (if (v <? x)%Z then x else v)
  | Cpreinc => same (v + 1)%Z
  | Cpostinc => Ok ((v + 1)%Z, v)
  | Cpredec => same (v - 1)%Z
  | Cpostdec => Ok ((v - 1)%Z, v)
  end.
(** free functions: atomics_fun -> atomics_class, 1318-1416 *)
Definition function_class : list (string * cls) :=
  [("add", Caddequal); ("sub", Csubequal); ("mul", Cmulequal); ("div", Cdivequal); ("mod", Cmodequal);
   ("lshift", Clshiftequal); ("rshift", Crshiftequal); ("andeq", Candequal); ("oreq", Corequal);
   ("xoreq", Cxorequal); ("min", Cminequal); ("max", Cmaxequal); ("inc", Cpreinc); ("preinc", Cpreinc);
   ("postinc", Cpostinc); ("dec", Cpredec); ("predec", Cpredec); ("postdec", Cpostdec)].
(** member functions call the free function of the same name, 1584-1665 and
    atomics-macro-member.h, atomics-macro-member-prepost.h *)
Definition members : list string :=
  ["add"; "sub"; "mul"; "div"; "mod"; "lshift"; "rshift"; "andeq"; "oreq"; "xoreq"; "min"; "max";
   "inc"; "preinc"; "postinc"; "dec"; "predec"; "postdec"].
(** operators call a member function, 1679-1755 and atomics-macro-operator.h,
    atomics-macro-operator-prepost.h; "++x" and "x++" tell the unary forms apart *)
Definition operator_member : list (string * string) :=
  [("+=", "add"); ("-=", "sub"); ("*=", "mul"); ("/=", "div"); ("%=", "mod"); ("<<=", "lshift");
   (">>=", "rshift"); ("&=", "andeq"); ("|=", "oreq"); ("^=", "xoreq"); ("++x", "preinc"); ("x++", "postinc");
   ("--x", "predec"); ("x--", "postdec")].
Fixpoint find {A} (k : string) (l : list (string * A)) : option A :=
  match l with [] => None | (n, a) :: r => if String.eqb n k then Some a else find k r end.
Definition member_class (m : string) : option cls :=
  if existsb (String.eqb m) members then find m function_class else None.
Definition operator_class (o : string) : option cls :=
  match find o operator_member with Some m => member_class m | None => None end.

(** schemes as types; [None] stands for the default template argument S = char of the free
    functions: get_scheme, 219-231 *)
Inductive tag := Tcpp | Tkokkos | Tstrong | Tstrong_pun | Tweak | Tweak_pun | Tlock | Tserial.
Definition get_scheme (var : tag) (s : option tag) : tag := match s with Some t => t | None => var end.
(** member functions: template<class S = SCHEME> passes S on; operators pass nothing *)
Definition member_scheme (var : tag) (s : option tag) : tag :=
  get_scheme var (Some (match s with Some t => t | None => var end)).
Definition operator_scheme (var : tag) : tag := member_scheme var None.

(** classes with a std::atomic form (atomics_cpp defined) taking a memory order; ++ and -- have one
    without a memory order *)
Definition has_fetch (c : cls) : bool :=
  match c with Caddequal | Csubequal | Candequal | Corequal | Cxorequal => true | _ => false end.
Definition is_prepost (c : cls) : bool :=
  match c with Cpreinc | Cpostinc | Cpredec | Cpostdec => true | _ => false end.
(** is there an apply() overload for the scheme and that many memory orders, and does the class have
    the operator() it calls: 481-503 (cpp), 517-527 (kokkos), 545-602, 621-713, 765-807, 826-921,
    948-957 (lock), 973-981 (serial) *)
Definition available (s : tag) (c : cls) (orders : nat) : bool :=
  match s with
  | Tcpp => match orders with
            | 0 => has_fetch c || is_prepost c
            | 1 => has_fetch c
            | _ => false
            end
  | Tkokkos => (orders =? 0)%nat
  | Tlock | Tserial => (orders =? 0)%nat
  | Tstrong | Tstrong_pun | Tweak | Tweak_pun => (orders <=? 2)%nat
  end.

(** memory orders, in the order of the C++ enumeration *)
Inductive memord := Relaxed | Consume | Acquire | Release | AcqRel | SeqCst.
Definition rank (m : memord) : nat :=
  match m with Relaxed => 0 | Consume => 1 | Acquire => 2 | Release => 3 | AcqRel => 4 | SeqCst => 5 end.
(** precondition of compare_exchange(expected, desired, success, failure), C++11/14 [atomics.types.operations] *)
Definition cas_orders_ok (success failure : memord) : bool :=
  match failure with Release | AcqRel => false | _ => (rank failure <=? rank success)%nat end.
(** the failure order of the overload with one order *)
Definition failure_of (m : memord) : memord :=
  match m with AcqRel => Acquire | Release => Relaxed | x => x end.
(** the orders that reach compare_exchange in apply(strong, ...) etc.: default seq_cst 550, one order
    572, two orders 599 *)
Definition cas_orders (given : list memord) : option (memord * memord) :=
  match given with
  | [] => Some (SeqCst, failure_of SeqCst)
  | [m] => Some (m, failure_of m)
  | [m; f] => Some (m, f)
  | _ => None
  end.
Definition cas_call (given : list memord) : outcome unit :=
  match cas_orders given with
  | Some (s, f) => if cas_orders_ok s f then Ok tt else UB
  | None => Throw (* does not compile *)
  end.
