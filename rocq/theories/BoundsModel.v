(** Model of ristra/utils/array_view.h: index_t, make_strides, the three bounds classes,
    bounds_iterator, and the three views.
    Indices and extents are lists of Z (ptrdiff_t; overflow not modelled); the rank is the length.
    A pointer is an offset (Z) into one allocation. *)
From Coq Require Import List Arith ZArith Bool Lia.
From Verif Require Import Outcome.
Import ListNotations.
Local Open Scope Z_scope.

Definition index := list Z.
Definition rank (e : index) : nat := length e.
Definition get (l : index) (i : nat) : Z := nth i l 0.
Fixpoint put (l : index) (i : nat) (v : Z) : index :=
  match l, i with
  | [], _ => []
  | _ :: t, O => v :: t
  | x :: t, S j => x :: put t j v
  end.

(** * index_t *)
(** shift_left, 250-256 *)
Definition shift_left (l : index) : index := map (fun i => get l i) (seq 1 (rank l - 1)).
(** operator<, 300-306: loop returning true at the first component that is smaller *)
Fixpoint idx_lt (a b : index) : bool :=
  match a, b with
  | x :: a', y :: b' => if x <? y then true else idx_lt a' b'
  | _, _ => false
  end.
(** operator<= 310-311, operator> 315-316, operator>= 320-321 *)
Definition idx_le (a b : index) : bool := negb (idx_lt b a).
Definition idx_gt (a b : index) : bool := idx_lt b a.
Definition idx_ge (a b : index) : bool := negb (idx_gt b a).
(** operator==, 283-286 (std::equal over the components) *)
Fixpoint idx_eq (a b : index) : bool :=
  match a, b with
  | [], [] => true
  | x :: a', y :: b' => (x =? y) && idx_eq a' b'
  | _, _ => false
  end.
(** operator+= / -= (std::transform), 359-380 *)
Fixpoint idx_add (a b : index) : index :=
  match a, b with x :: a', y :: b' => x + y :: idx_add a' b' | _, _ => [] end.
Fixpoint idx_sub (a b : index) : index :=
  match a, b with x :: a', y :: b' => x - y :: idx_sub a' b' | _, _ => [] end.
(** at(), 231-247 *)
Definition idx_at (a : index) (i : nat) : outcome Z :=
  if (i <? rank a)%nat then Ok (get a i) else Throw.

(** * make_strides, 41-97. [ids] is the array from the pointer on. *)
Fixpoint stride_rec (ids : index) (N : nat) : Z :=
  match N with
  | O => 1
  | S k => match ids with
           | _ :: (x :: _) as t => x * stride_rec (tl ids) k
           | _ => 1 (* never reached: N counts the remaining elements *)
           end
  end.
Definition make_strides (ids : index) : index :=
  map (fun i => stride_rec (skipn i ids) (rank ids - i - 1)) (seq 0 (rank ids)).

(** * bounds: extents and strides (strided_bounds 552-804, contiguous_bounds 811-1060) *)
Record bounds := mk_bounds { exts : index; strs : index }.
(** constructors from extents: 606-614, 630-633, 865-872, 888-897, 1261-1266 (static_bounds) *)
Definition contiguous (e : index) : bounds := mk_bounds e (make_strides e).
(** contiguous_bounds(ArrayType &) 877-883 through the protected constructor 1039-1044 *)
Definition contiguous_of_c_array (e : index) : bounds := mk_bounds e e.
(** strided_bounds(ArrayType &) 619-625 through 783-789 *)
Definition strided_of_c_array (e : index) : bounds := mk_bounds e (make_strides e).

(** size(): 683-689, 938-944; multiply(...) for static_bounds 1261 *)
Definition bsize (b : bounds) : Z :=
  fold_left (fun r i => r * get (exts b) i) (seq 0 (rank (exts b))) 1.
(** total_size() of strided_bounds: 692-698 *)
Definition btotal_size (b : bounds) : Z :=
  fold_left (fun r i => r + (get (exts b) i - 1) * get (strs b) i) (seq 0 (rank (exts b))) 1.
(** contains(): 703-709, 955-961, 1177-1183. [idx] has the rank of the bounds (a type constraint) *)
Fixpoint contains_loop (e idx : index) : bool :=
  match e, idx with
  | n :: e', i :: idx' => if (i <? 0) || (i >=? n) then false else contains_loop e' idx'
  | _, _ => true
  end.
Definition contains (b : bounds) (idx : index) : bool := contains_loop (exts b) idx.
(** linearize(): 724-729, 980-986 *)
Definition linearize (b : bounds) (idx : index) : Z :=
  fold_left (fun o i => o + get idx i * get (strs b) i) (seq 1 (rank (exts b) - 1))
            (get idx 0 * get (strs b) 0).
(** static_bounds::linearize(): 1202-1208 *)
Definition static_linearize (b : bounds) (idx : index) : Z :=
  fold_left (fun o i => o + get idx i * get (strs b) i) (seq 0 (rank (exts b))) 0.
(** slice(): strided 733-736, contiguous 990-993 *)
Definition strided_slice (b : bounds) : bounds := mk_bounds (shift_left (exts b)) (shift_left (strs b)).
Definition contiguous_slice (b : bounds) : bounds := contiguous (shift_left (exts b)).

(** * bounds_iterator, 1290-1567; the state is [current_], [e] is [bounds_] *)
(** begin()/end() of the bounds: 740-746, 997-1003 *)
Definition it_begin (e : index) : index := repeat 0 (rank e).
Definition it_end (e : index) : index := e.
(** operator++, 1362-1374; the loop variable runs rank-1 .. 0 *)
Fixpoint incr_loop (e : index) (i : nat) (cur : index) : index :=
  match i with
  | O => e
  | S k => if get cur k <? get e k - 1 then put cur k (get cur k + 1)
           else incr_loop e k (put cur k 0)
  end.
Definition it_incr (e cur : index) : index := incr_loop e (rank e) cur.
(** operator--, 1385-1405 *)
Fixpoint decr_loop (e : index) (i : nat) (cur : index) : outcome index :=
  match i with
  | O => Throw
  | S k => if get cur k >=? 1 then Ok (put cur k (get cur k - 1))
           else decr_loop e k (put cur k (get e k - 1))
  end.
Definition it_decr (e cur : index) : outcome index :=
  if idx_ge cur e then Ok (map (fun n => n - 1) e) else decr_loop e (rank e) cur.
(** linearize (private), 1530-1552; both loops run rank-1 .. 0 *)
Fixpoint lin_loop (e idx : index) (d : Z) (i : nat) (res mul : Z) : Z :=
  match i with
  | O => res
  | S k => lin_loop e idx d k (res + (get idx k - d) * mul) (mul * get e k)
  end.
Definition it_linearize (e idx : index) : Z :=
  if idx_ge idx e then lin_loop e idx 1 (rank e) 1 1 else lin_loop e idx 0 (rank e) 0 1.
(** operator+=, 1433-1448: strides from the right, then division with remainder from the left
    (C++ division truncates). [dbg]: assert at 1446. Rank >= 1. *)
Fixpoint it_strides_loop (e : index) (i : nat) (str : index) : index :=
  match i with
  | O => str
  | S k => it_strides_loop e k (put str k (get str (S k) * get e (S k)))
  end.
Definition it_strides (e : index) : index :=
  it_strides_loop e (rank e - 1) (put (repeat 0 (rank e)) (rank e - 1) 1).
Fixpoint delinearize (str : index) (n : Z) : index :=
  match str with
  | [] => []
  | s :: r => Z.quot n s :: delinearize r (Z.rem n s)
  end.
Definition it_plus (dbg : bool) (e cur : index) (n : Z) : outcome index :=
  let c := delinearize (it_strides e) (it_linearize e cur + n) in
  assert_then dbg (idx_ge c (repeat 0 (rank e)) && idx_ge e c) (Ok c).
(** operator- of two iterators, 1464-1468 *)
Definition it_diff (e a b : index) : Z := it_linearize e a - it_linearize e b.

(** for (it = begin(); it != end(); ++it) visit *it.  None: fuel exhausted *)
Fixpoint it_loop (fuel : nat) (e cur : index) : option (list index) :=
  match fuel with
  | O => None
  | S f => if idx_eq cur (it_end e) then Some []
           else option_map (cons cur) (it_loop f e (it_incr e cur))
  end.
Definition it_visit (fuel : nat) (e : index) : option (list index) := it_loop fuel e (it_begin e).
(** std::reverse_iterator: starts at end(), dereferences a decremented copy, stops at begin() *)
Fixpoint it_rloop (fuel : nat) (e cur : index) : option (outcome (list index)) :=
  match fuel with
  | O => None
  | S f => if idx_eq cur (it_begin e) then Some (Ok [])
           else match it_decr e cur with
                | Ok c => option_map (fun r => bind r (fun l => Ok (c :: l))) (it_rloop f e c)
                | Throw => Some Throw | AssertFail => Some AssertFail | UB => Some UB
                end
  end.
Definition it_rvisit (fuel : nat) (e : index) : option (outcome (list index)) :=
  it_rloop fuel e (it_end e).

(** * views: data pointer (None = nullptr; offset otherwise) and bounds *)
Record view := mk_view { vdata : option Z; vbounds : bounds }.
Definition vsize (v : view) : Z := bsize (vbounds v).
(** empty(): 2221, 2731, 3239 *)
Definition vempty (v : view) : bool := match vdata v with Some _ => true | None => false end.
(** operator[](index): the cell addressed, 2265-2268, 2774-2777, 3283-3286 *)
Definition cell (v : view) (idx : index) : outcome Z :=
  match vdata v with None => UB | Some p => Ok (p + linearize (vbounds v) idx) end.
(** at(): throws inside a noexcept function, 2274-2278: std::terminate, modelled as Throw *)
Definition vat (v : view) (idx : index) : outcome Z :=
  if contains (vbounds v) idx then cell v idx else Throw.
(** operator[](size_type): strided 2301-2305, contiguous 2810-2814 *)
Definition strided_sub (v : view) (i : Z) : view :=
  mk_view (option_map (fun p => p + i * get (strs (vbounds v)) 0) (vdata v)) (strided_slice (vbounds v)).
Definition contiguous_sub (v : view) (i : Z) : view :=
  mk_view (option_map (fun p => p + i * get (strs (vbounds v)) 0) (vdata v)) (contiguous_slice (vbounds v)).
(** slice(idx): 2312-2317, 2821-2826 (idx is unsigned: i >= 0) *)
Definition strided_slice_at (v : view) (i : Z) : outcome view :=
  if i >=? get (exts (vbounds v)) 0 then Throw else Ok (strided_sub v i).
Definition contiguous_slice_at (v : view) (i : Z) : outcome view :=
  if i >=? get (exts (vbounds v)) 0 then Throw else Ok (contiguous_sub v i).
(** section(origin): 2329-2334, 2838-2843 *)
Definition section1 (dbg : bool) (v : view) (origin : index) : outcome view :=
  assert_then dbg (contains (vbounds v) origin)
   (bind (cell v origin) (fun p =>
     Ok (mk_view (Some p) (mk_bounds (idx_sub (exts (vbounds v)) origin) (strs (vbounds v)))))).
(** section(origin,bnds): 2336-2343, 2845-2852 *)
Definition section2 (dbg : bool) (v : view) (origin bnds : index) : outcome view :=
  assert_then dbg (contains (vbounds v) origin)
   (assert_then dbg (idx_le (idx_add origin bnds) (exts (vbounds v)))
     (bind (cell v origin) (fun p => Ok (mk_view (Some p) (mk_bounds bnds (strs (vbounds v))))))).
(** view(container, bounds): assert( cont.size() >= bounds.size() ), 2160-2165, 2682-2688 *)
Definition view_of_container (dbg : bool) (n : Z) (b : bounds) : outcome view :=
  assert_then dbg (n >=? bsize b) (Ok (mk_view (Some 0) b)).

(** * element sequences. [mem] gives the contents of the allocation.
    strided_iterator 1573-1771: dereferences container[*it_] *)
Section Elements.
Context {T : Type}.
Variable mem : Z -> T.
Definition strided_elements (fuel : nat) (v : view) : option (outcome (list T)) :=
  match it_visit fuel (exts (vbounds v)) with
  | None => None
  | Some ids => Some (fold_right (fun idx acc =>
      bind (cell v idx) (fun p => bind acc (fun l => Ok (mem p :: l)))) (Ok []) ids)
  end.
(** contiguous_iterator 1776-1973: pointer from data() to data()+size() *)
Definition contiguous_elements (v : view) : outcome (list T) :=
  match vdata v with
  | None => if vsize v =? 0 then Ok [] else UB
  | Some p => Ok (map (fun k => mem (p + Z.of_nat k)) (seq 0 (Z.to_nat (vsize v))))
  end.
(** operator==, array_view 2936-2941 (strided 2421-2426 alike with its iterator) *)
Variable eqb : T -> T -> bool.
Fixpoint equal_prefix (a b : list T) : bool :=
  match a, b with
  | [], _ => true
  | x :: a', y :: b' => eqb x y && equal_prefix a' b'
  | _ :: _, [] => false
  end.
Definition same_data (a b : option Z) : bool :=
  match a, b with None, None => true | Some p, Some q => p =? q | _, _ => false end.
Definition view_eq (v w : view) (ev ew : list T) : bool :=
  (vsize v =? vsize w) && (same_data (vdata v) (vdata w) || equal_prefix ev ew).
End Elements.
