(** Model of what MathArrayModel.v leaves out of math/multi_array.h, math/array.h and math/tuple.h: indices of any
    integer type, construction from lists and from single values, comparison with a value, and output. *)
From Coq Require Import String Ascii List Arith ZArith Bool.
From Verif Require Import Outcome BoundsModel MathArrayModel.
Import ListNotations.

(** * Indices. An index of any integer type of at most 64 bits has a value in [-2^63, 2^64). *)
Local Open Scope Z_scope.
(** conversion to size_t *)
Definition size_t_of (i : Z) : Z := i mod 2 ^ 64.
(** multi_array.h, 599-610: dim has type size_t, so i >= dim converts i *)
Fixpoint check_ranges_any (dims ids : list Z) : outcome unit :=
  match ids, dims with
  | i :: ids', n :: dims' => if size_t_of i >=? n then Throw else check_ranges_any dims' ids'
  | _, _ => Ok tt
  end.
(** multi_array.h, 614-626 *)
Fixpoint assert_ranges_any (dbg : bool) (dims ids : list Z) : outcome unit :=
  match ids, dims with
  | i :: ids', n :: dims' => assert_then dbg (size_t_of i <? n) (assert_ranges_any dbg dims' ids')
  | _, _ => Ok tt
  end.
(** multi_array.h, 558-583: each index is converted, products and sums are taken in size_t *)
Definition element_any (dims ids : list Z) : Z :=
  fold_left (fun ind i => size_t_of (ind + size_t_of (size_t_of (get ids i) * get (strs (contiguous dims)) i))) (seq 0 (rank dims)) 0.
Section Access.
Context {T : Type}.
(** multi_array.h, 310-327, 334-349 and 288-302 *)
Definition call_any (dbg : bool) (dims : list Z) (st : list T) (ids : list Z) : outcome nat :=
  bind (assert_ranges_any dbg dims ids) (fun _ => ma_cell st (element_any dims ids)).
Definition at_any (dims : list Z) (st : list T) (ids : list Z) : outcome nat :=
  bind (check_ranges_any dims ids) (fun _ => ma_cell st (element_any dims ids)).
Definition brackets_any (dims : list Z) (st : list T) (ids : list Z) : outcome nat := ma_cell st (element_any dims ids).
End Access.

(** * Construction. None is an element that was not initialised. *)
Local Open Scope nat_scope.
Section Construction.
Context {T : Type}.
(** multi_array.h, 417-420, and array.h, 300-304, on fresh storage *)
Definition filled (n : nat) (v : T) : list (option T) := for_each_elem (fun _ _ => Some v) (repeat None n).
(** multi_array.h, 434-438: std::copy past the end is undefined *)
Definition assigned (dbg : bool) (n : nat) (l : list T) : outcome (list (option T)) :=
  assert_then dbg (length l =? n) (if length l <=? n then Ok (map Some l ++ repeat None (n - length l)) else UB).
(** multi_array.h, 209-216 *)
Definition ma_of_list (dbg : bool) (n : nat) (l : list T) : outcome (list (option T)) :=
  match l with [v] => Ok (filled n v) | _ => assigned dbg n l end.
(** array.h, 103-115: enabled for exactly N arguments; [None] is a call that does not compile *)
Definition arr_of_args (n : nat) (l : list T) : option (list (option T)) :=
  if (length l =? n) && (2 <=? length l) then Some (map Some l) else None.
(** array.h, 464-473, and multi_array.h, 663-671: comparison with one value *)
Fixpoint arr_eq_value (neqb : T -> T -> bool) (a : list T) (v : T) : bool :=
  match a with [] => true | x :: a' => if neqb x v then false else arr_eq_value neqb a' v end.
End Construction.

(** * Output. [show] is the text of one element. *)
Local Open Scope string_scope.
Definition newline : ascii := "010"%char.
Section Output.
Context {T : Type}.
Variable show : T -> string.
(** for ( auto i : a ) os << " " << i *)
Fixpoint spaced (l : list T) : string := match l with [] => "" | x :: r => " " ++ show x ++ spaced r end.
(** array.h, 717-724 *)
Definition arr_out (l : list T) : string := "(" ++ spaced l ++ " )".
(** multi_array.h, 903-913: one line for each j < D2 *)
Definition ma_out (D1 D2 : nat) (a : nat -> nat -> T) : string :=
  fold_left (fun os j => os ++ "[" ++ spaced (map (fun i => a i j) (seq 0 D1)) ++ " ]" ++ String newline "") (seq 0 D2) "".
(** tuple.h, 325-333; the components are given by their texts since their types differ *)
Definition tuple_out (l : list T) : string := "{" ++ fold_right (fun x r => " [ " ++ show x ++ " ]" ++ r) "" l ++ " }".
End Output.
