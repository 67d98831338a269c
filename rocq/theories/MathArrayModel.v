(** Model of ristra/math/array.h, ristra/math/multi_array.h and ristra/utils/dimensioned_array.h.
    The elements are a list; an operand passed by reference may be the array itself or one of its
    elements, so the loops read operands from the current state. *)
From Coq Require Import List Arith ZArith Bool Lia.
From Verif Require Import Outcome BoundsModel.
Import ListNotations.

Section Array.
Context {T : Type}.
Variable d : T. (* only for out-of-range nth, never reached *)

Fixpoint upd (l : list T) (i : nat) (v : T) : list T :=
  match l, i with
  | [], _ => []
  | _ :: t, O => v :: t
  | x :: t, S j => x :: upd t j v
  end.

(** array operand: another object, or *this *)
Inductive arr_arg := Other (b : list T) | Self.
(** scalar operand by const reference: a value elsewhere, or element k of *this *)
Inductive sc_arg := Val (v : T) | Elem (k : nat).

Definition arr_read (st : list T) (b : arr_arg) (i : nat) : T :=
  match b with Other l => nth i l d | Self => nth i st d end.
Definition sc_read (st : list T) (s : sc_arg) : T :=
  match s with Val v => v | Elem k => nth k st d end.

(** for (i=0; i<N; i++) elems_[i] = body(i), the body reading the current state *)
Definition for_each_elem (body : list T -> nat -> T) (st : list T) : list T :=
  fold_left (fun st i => upd st i (body st i)) (seq 0 (length st)) st.

Variable op : T -> T -> T.
(** operator+= -= *= /= with an array: array.h 352-357, 372-377, 393-398, 413-418;
    multi_array.h 469-473, 487-491, 506-510, 524-528 *)
Definition op_assign_array (st : list T) (b : arr_arg) : list T :=
  for_each_elem (fun st i => op (nth i st d) (arr_read st b i)) st.
(** operator+= -= *= with a scalar by reference: array.h 362-367, 382-387, 403-408;
    multi_array.h 478-482, 496-500, 515-519 *)
Definition op_assign_scalar (st : list T) (s : sc_arg) : list T :=
  for_each_elem (fun st i => op (nth i st d) (sc_read st s)) st.
(** operator/= with a scalar: array.h 423-429, multi_array.h 533-538.
    [div] is the element type's division, [mul] its product *)
Definition div_assign_scalar (one : T) (div mul : T -> T -> T) (st : list T) (s : sc_arg) : list T :=
  let inv := div one (sc_read st s) in
  for_each_elem (fun st i => mul (nth i st d) inv) st.
(** free operators: a fresh tmp is filled, the operands are never written.
    array.h 513-674; multi_array.h 711-864. tmp starts with arbitrary contents. *)
Definition free_array (lhs rhs tmp : list T) : list T :=
  for_each_elem (fun _ i => op (nth i lhs d) (nth i rhs d)) tmp.
Definition free_scalar_right (lhs : list T) (v : T) (tmp : list T) : list T :=
  for_each_elem (fun _ i => op (nth i lhs d) v) tmp.
Definition free_scalar_left (v : T) (rhs tmp : list T) : list T :=
  for_each_elem (fun _ i => op v (nth i rhs d)) tmp.
(** array / scalar: array.h 684-696, multi_array.h 872-883 *)
Definition free_div_scalar (one : T) (div mul : T -> T -> T) (lhs : list T) (v : T) (tmp : list T) : list T :=
  let inv := div one v in for_each_elem (fun _ i => mul (nth i lhs d) inv) tmp.
(** fill(const T&): array.h 300-304, multi_array.h 416-419; also operator=(const T2&) *)
Definition fill (st : list T) (s : sc_arg) : list T := for_each_elem (fun st _ => sc_read st s) st.
(** unary minus: array.h 434-439 *)
Definition neg_array (neg : T -> T) (st tmp : list T) : list T :=
  for_each_elem (fun _ i => neg (nth i st d)) tmp.
(** swap: array.h 293-297 (element by element, through std::swap) *)
Fixpoint swap_loop (n : nat) (a b : list T) : list T * list T :=
  match n with
  | O => (a, b)
  | S k => let '(a, b) := swap_loop k a b in (upd a k (nth k b d), upd b k (nth k a d))
  end.
Definition swap_arrays (a b : list T) : list T * list T := swap_loop (length a) a b.

(** dimensioned_array__::operator op= (dimensioned_array__ const &), 201-214: nothing if this == &rhs *)
Definition dim_op_assign (st : list T) (b : arr_arg) : list T :=
  match b with
  | Self => st
  | Other _ => for_each_elem (fun st i => op (nth i st d) (arr_read st b i)) st
  end.
(** dimensioned_array__::operator op= (TYPE val), 220-231: the scalar is copied *)
Definition dim_op_assign_scalar (st : list T) (s : sc_arg) : list T :=
  let v := sc_read st s in for_each_elem (fun st i => op (nth i st d) v) st.
(** free + and -, 312-353: copy, then op= with rhs (a different object than the copy) *)
Definition dim_free (lhs rhs : list T) : list T := dim_op_assign lhs (Other rhs).

(** operator[] 183-209 (assert) and at() 215-229 of array *)
Definition arr_index (dbg : bool) (st : list T) (i : nat) : outcome T :=
  assert_then dbg (i <? length st) (match nth_error st i with Some v => Ok v | None => UB end).
Definition arr_at (st : list T) (i : nat) : outcome T :=
  if length st <=? i then Throw else match nth_error st i with Some v => Ok v | None => UB end.
(** assign(first,last), 310-313: std::copy into begin(), no check; assign(list), 315-319 *)
Definition assign_range (st : list T) (src : list T) : outcome (list T) :=
  if length src <=? length st then Ok (src ++ skipn (length src) st) else UB.
Definition assign_list (dbg : bool) (st src : list T) : outcome (list T) :=
  assert_then dbg (length src =? length st) (assign_range st src).
(** operator==, 454-462 *)
Fixpoint arr_eq (neqb : T -> T -> bool) (a b : list T) : bool :=
  match a, b with
  | x :: a', y :: b' => if neqb x y then false else arr_eq neqb a' b'
  | _, _ => true
  end.
(** operator<: std::lexicographical_compare, 476-479; >, <=, >= derived from it, 487-497 *)
Fixpoint arr_lt (ltb : T -> T -> bool) (a b : list T) : bool :=
  match a, b with
  | _, [] => false
  | [], _ :: _ => true
  | x :: a', y :: b' => if ltb x y then true else if ltb y x then false else arr_lt ltb a' b'
  end.
End Array.
Arguments arr_arg : clear implicits.
Arguments sc_arg : clear implicits.

(** * multi_array indexing (multi_array.h). row_major_ordering 31-71 is textually make_strides. *)
Local Open Scope Z_scope.
(** element(ids), 558-571 *)
Definition ma_element (dims ids : list Z) : Z := static_linearize (contiguous dims) ids.
(** check_ranges 599-610: tuple_visit in order, throws at the first index out of range.
    Indices are compared as size_t; [ids] are non-negative. *)
Fixpoint check_ranges (dims ids : list Z) : outcome unit :=
  match ids, dims with
  | i :: ids', n :: dims' => if i >=? n then Throw else check_ranges dims' ids'
  | _, _ => Ok tt
  end.
Fixpoint assert_ranges (dbg : bool) (dims ids : list Z) : outcome unit :=
  match ids, dims with
  | i :: ids', n :: dims' => assert_then dbg (i <? n) (assert_ranges dbg dims' ids')
  | _, _ => Ok tt
  end.
Section MultiArray.
Context {T : Type}.
Definition ma_cell (st : list T) (k : Z) : outcome nat :=
  if (0 <=? k) && (k <? Z.of_nat (length st)) then Ok (Z.to_nat k) else UB.
(** operator()(i...) 310-327 and at(i...) 334-349: the cell referred to *)
Definition ma_call (dbg : bool) (dims : list Z) (st : list T) (ids : list Z) : outcome nat :=
  bind (assert_ranges dbg dims ids) (fun _ => ma_cell st (ma_element dims ids)).
Definition ma_at (dims : list Z) (st : list T) (ids : list Z) : outcome nat :=
  bind (check_ranges dims ids) (fun _ => ma_cell st (ma_element dims ids)).
End MultiArray.
(** col_major_ordering, 77-117: stride(&ids[N-I-1], I) *)
Definition col_strides (dims : list Z) : list Z :=
  map (fun i => stride_rec (skipn (length dims - i - 1) dims) i) (seq 0 (length dims)).
Definition col_element (dims ids : list Z) : Z :=
  static_linearize (mk_bounds dims (col_strides dims)) ids.
