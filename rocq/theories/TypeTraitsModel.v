(** Type traits: ristra/utils/type_traits.h, ristra/utils/type_traits_impl.h and where the traits decide which function is
    called: ristra/utils/array_view.h 86-95 and 165-172, ristra/math/general.h 49-73 and 90-108.
    - C++ types are a datatype.  Function types, enumerations and classes are identified by a number; std::reference_wrapper<T>
      is a class with its argument visible, because special_decay matches it.  Member pointers and bit fields are left out.
    - what classes contain is an environment [cxx]: nested type names and member functions that are accessible, unions, final
      classes, whether name lookup finds an operator(), and the outcome of overload resolution for calls, subscripts and <<.
      Every theorem holds for every environment.
    - [None] is an ill-formed program that substitution failure does not excuse; [Some b] is the value of the trait.
    - C++17 (CMakeLists.txt 26); iterator_traits<T*> is declared for every T, so it cannot be instantiated with void.
    - the compiler is the reader of these texts: the model is what [temp.deduct], [over.match], [expr.sub], [dcl.init.ref]
      and [iterator.traits] of the standard say about them. *)
From Coq Require Import String List Bool Arith.
Import ListNotations.
Local Open Scope nat_scope.
Local Open Scope list_scope.

Inductive ty :=
| Void | Int (k : nat) | Flt (k : nat) | Nullptr | Enum (scoped : bool) (k : nat)
| Fun (k : nat) | Class (k : nat) | RefWrap (t : ty)
| Ptr (t : ty) | LRef (t : ty) | RRef (t : ty) | Cv (c v : bool) (t : ty) | Arr (n : option nat) (t : ty).
Definition ty_eq (a b : ty) : {a = b} + {a <> b}.
Proof. repeat decide equality. Defined.
Definition eqt (a b : ty) : bool := if ty_eq a b then true else false.

(** ** the parts of <type_traits> that are used *)
Definition remove_reference (t : ty) : ty := match t with LRef u | RRef u => u | _ => t end.
Definition remove_cv (t : ty) : ty := match t with Cv _ _ u => u | _ => t end.
(* std::decay *)
Definition decay (t : ty) : ty :=
  match remove_reference t with Arr _ u => Ptr u | Fun k => Ptr (Fun k) | u => remove_cv u end.
Definition is_integral (t : ty) : bool := match remove_cv t with Int _ => true | _ => false end.
Definition is_reference (t : ty) : bool := match t with LRef _ | RRef _ => true | _ => false end.
Definition is_void (t : ty) : bool := match remove_cv t with Void => true | _ => false end.
Fixpoint rank (t : ty) : nat := match t with Arr _ u => S (rank u) | _ => 0 end.
Fixpoint extent (t : ty) (i : nat) : nat := match t, i with Arr n _, O => match n with Some k => k | None => 0 end | Arr _ u, S j => extent u j | _, _ => 0 end.

(** ** expressions: type without reference and value category *)
Inductive category := Lvalue | Xvalue | Prvalue.
Record expr := mk_expr { e_type : ty; e_cat : category }.
Definition lvalue (e : expr) : bool := match e_cat e with Lvalue => true | _ => false end.
(* std::declval<T>(); None: T is void *)
Definition declval (t : ty) : option expr :=
  match t with
  | LRef u => Some (mk_expr u Lvalue)
  | RRef (Fun k) | Fun k => Some (mk_expr (Fun k) Lvalue)
  | RRef u => Some (mk_expr u Xvalue)
  | u => if is_void u then None else Some (mk_expr u Xvalue)
  end.
(* a parameter of type P&&, P a template parameter, and one of type P *)
Definition deduce_forward (e : expr) : ty := if lvalue e then LRef (e_type e) else e_type e.
Definition deduce_value (e : expr) : ty := decay (e_type e).

(** ** classes *)
Record cxx := {
  x_union : ty -> bool; x_final : ty -> bool;
  x_nested : ty -> string -> bool;                          (* typename T::name is accessible *)
  x_method : ty -> bool -> bool -> bool -> string -> bool;  (* e.name() on an object that is const, volatile, an lvalue *)
  x_call_name : ty -> bool;                                 (* lookup of operator() in the class and its bases finds something *)
  x_call : expr -> list expr -> bool;                       (* e(args...) is valid *)
  x_subscript : expr -> expr -> bool;                       (* a[b] with an operand of class type is valid *)
  x_output : expr -> bool;                                  (* os << e is valid *)
  x_name : ty -> string                                     (* demangled name of a type without reference and cv *) }.
Definition class_type (t : ty) : bool := match remove_cv t with Class _ | RefWrap _ => true | _ => false end.
Definition cv_of (t : ty) : bool * bool := match t with Cv c v _ => (c, v) | _ => (false, false) end.
Definition nested (X : cxx) (t : ty) (s : string) : bool := class_type t && x_nested X (remove_cv t) s.
Definition method (X : cxx) (e : option expr) (s : string) : bool :=
  match e with
  | Some e => class_type (e_type e) && x_method X (remove_cv (e_type e)) (fst (cv_of (e_type e))) (snd (cv_of (e_type e))) (lvalue e) s
  | None => false end.

(** ** type_traits_impl.h *)
(* 24-33 detail::and_ *)
Fixpoint and_ (conds : list bool) : bool := match conds with [] => true | c :: cs => if c then and_ cs else false end.
(* 38-46 detail::has_subscript_operator_impl; built-in subscripts: one operand a pointer to an object (or an array), the other
   an integer or an unscoped enumeration *)
Definition pointer_operand (t : ty) : bool :=
  match remove_cv t with Arr _ _ => true | Ptr u => match remove_cv u with Void | Fun _ => false | _ => true end | _ => false end.
Definition index_operand (t : ty) : bool := match remove_cv t with Int _ | Enum false _ => true | _ => false end.
Definition subscript (X : cxx) (a b : expr) : bool :=
  if class_type (e_type a) || class_type (e_type b) then x_subscript X a b
  else (pointer_operand (e_type a) && index_operand (e_type b)) || (index_operand (e_type a) && pointer_operand (e_type b)).
Definition has_subscript_operator (X : cxx) (t i : ty) : bool :=
  match declval t, declval i with Some a, Some b => subscript X a b | _, _ => false end.
(* 51-59 detail::has_call_operator_impl *)
Fixpoint declvals (ts : list ty) : option (list expr) :=
  match ts with
  | [] => Some []
  | t :: ts => match declval t, declvals ts with Some e, Some es => Some (e :: es) | _, _ => None end
  end.
Definition has_call_operator (X : cxx) (t : ty) (args : list ty) : bool :=
  match declval t, declvals args with Some f, Some es => x_call X f es | _, _ => false end.
(* 71-94 detail::is_callable: Derived has the bases T and Fallback; &Derived::operator() is ambiguous, and test(...) is
   chosen, exactly if lookup in T finds something.  A final class cannot be a base *)
Definition detail_is_callable (X : cxx) (t : ty) : option bool :=
  if x_final X (remove_cv t) then None else Some (x_call_name X (remove_cv t)).
(* 106-112 detail::extract_extents_helper: an array of [rank] extents; the return type auto is deduced by decay, so a prvalue
   pointer to the local array; an array without elements is ill-formed *)
Definition size_t : ty := Int 0.
Definition extract_extents_helper (t : ty) : option expr :=
  match rank t with O => None | S r => Some (mk_expr (decay (Arr (Some (S r)) (Cv true false size_t))) Prvalue) end.

(** ** type_traits.h *)
(* 28-30 are_type_t *)
Definition are_type_t (target : ty) (ts : list ty) : bool := and_ (map (fun t => eqt (decay t) (decay target)) ts).
(* 35-50 is_iterator: U is deduced from declval<T>(); iterator_traits<U> has its five members for a pointer that is not cv,
   and for a class that has them all *)
Definition iterator_names : list string := ["difference_type"; "pointer"; "reference"; "value_type"; "iterator_category"]%string.
Definition has_iterator_traits (X : cxx) (u : ty) : option bool :=
  match u with
  | Ptr v => if is_void v then None else Some true
  | _ => Some (forallb (nested X u) iterator_names)
  end.
Definition is_iterator (X : cxx) (t : ty) : option bool :=
  match declval t with None => None | Some e => has_iterator_traits X (deduce_forward e) end.
(* 59-66 is_callable: std::is_class is false for unions *)
Definition is_class (X : cxx) (t : ty) : bool := class_type t && negb (x_union X (remove_cv t)).
Definition is_callable (X : cxx) (t : ty) : option bool := if is_class X t then detail_is_callable X t else Some false.
(* 73-95 is_container *)
Definition is_container (X : cxx) (t : ty) : bool :=
  forallb (nested X t) ["value_type"; "size_type"; "allocator_type"; "iterator"; "const_iterator"]%string
  && forallb (method X (declval t)) ["size"; "begin"; "end"; "cbegin"; "cend"; "data"]%string.
(* 101-114 is_ostream_writeable *)
Definition is_ostream_writeable (X : cxx) (t : ty) : bool := match declval t with Some e => x_output X e | None => false end.
(* 121-138 is_minimal_container *)
Definition is_minimal_container (X : cxx) (t : ty) : bool := method X (declval t) "size" && method X (declval t) "data".
(* 144-160 are_integral *)
Fixpoint are_integral (ts : list ty) : bool := match ts with [] => true | t :: ts => is_integral t && are_integral ts end.
(* 182-187 extract_extents: auto & binds to lvalues *)
Definition extract_extents (t : ty) : option ty :=
  match extract_extents_helper t with
  | Some e => match e_cat e with Lvalue => Some (LRef (e_type e)) | _ => None end
  | None => None
  end.
(* 194-209 special_decay *)
Definition special_decay (t : ty) : ty := match t with RefWrap u => LRef u | _ => decay t end.
(* 215-226 type_as_string: typeid ignores a reference and then cv *)
Definition type_as_string (X : cxx) (t : ty) : string := x_name X (remove_cv (remove_reference t)).

(** ** uses *)
(* array_view.h 165-172 index_t(Ts... ts), 86-95 ordering::operator()(Args... args): by value *)
Definition index_enabled (r : nat) (args : list expr) : bool := Nat.eqb (length args) r && are_integral (map deduce_value args).
(* array_view.h 2136-2145 strided_array_view(Container & cont): enabled, and the member initialisers compile *)
Definition view_enabled (X : cxx) (e : expr) : bool := lvalue e && is_minimal_container X (e_type e).
Definition view_compiles (X : cxx) (e : expr) : bool := method X (Some (mk_expr (e_type e) Lvalue)) "data" && method X (Some (mk_expr (e_type e) Lvalue)) "size".
(* std::forward<T>(u), u a named parameter of type U&&: remove_reference_t<T> & must bind to the lvalue u *)
Fixpoint split_cv (t : ty) : (bool * bool) * ty :=
  match t with
  | Cv c v u => ((c, v), u)
  | Arr n u => let '(q, w) := split_cv u in (q, Arr n w)
  | _ => ((false, false), t)
  end.
Definition binds (from to : ty) : bool :=
  let '((c, v), a) := split_cv from in let '((c', v'), b) := split_cv to in eqt a b && implb c c' && implb v v'.
Definition forward_as (T : ty) (u : expr) : option expr :=
  if binds (e_type u) (remove_reference T)
  then Some (mk_expr (remove_reference T) (match T with LRef _ => Lvalue | _ => Xvalue end)) else None.
(* general.h 52-58, 63-73 and 92-108: average(a, b).  The overload for iterators is more specialised than the one for values.
   The overload for different types fails its static_assert *)
Inductive two := Range | Values (first second : expr) | Ill.
Definition average_two (X : cxx) (a b : expr) : two :=
  let T := deduce_forward a in let U := deduce_forward b in
  let range := if eqt (deduce_value a) (deduce_value b) then is_iterator X (deduce_value a) else Some false in
  match range with
  | None => Ill
  | Some true => Range
  | Some false =>
      if are_type_t T [U] then
        (* a named parameter is an lvalue of the argument's type *)
        match forward_as T (mk_expr (e_type a) Lvalue), forward_as T (mk_expr (e_type b) Lvalue) with
        | Some t, Some u => Values t u
        | _, _ => Ill
        end
      else Ill
  end.

(** ** types and expressions of the language *)
Fixpoint wf (t : ty) : bool :=
  match t with
  | Cv c v u => (c || v) && wf u && match u with Cv _ _ _ | LRef _ | RRef _ | Arr _ _ | Fun _ => false | _ => true end
  | LRef u | RRef u => wf u && negb (is_reference u) && negb (is_void u)
  | Ptr u => wf u && negb (is_reference u)
  | RefWrap u => wf u && negb (is_reference u) && negb (is_void u)
  | Arr _ u => wf u && negb (is_reference u) && negb (is_void u) && match u with Fun _ => false | _ => true end
  | _ => true
  end.
Definition wfe (e : expr) : bool := wf (e_type e) && negb (is_reference (e_type e)) && negb (is_void (e_type e))
  && match e_type e with Fun _ => lvalue e | _ => true end.
Definition object (t : ty) : bool := match t with Arr _ _ | Fun _ => false | _ => true end.
