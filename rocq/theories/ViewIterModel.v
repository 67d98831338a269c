(** Iterators over views, and the parts of the views that BoundsModel.v leaves out: ristra/utils/array_view.h 1572-1973
    (strided_iterator, contiguous_iterator), 2133-2146 and 2655-2668 (flattening), 2354-2410 and the same in the other two
    classes (clear, begin, cbegin, rbegin, <), 3054-3117 (static_array_view), 2099-2110, 2622-2634 and 2856-2859 (conversions).
    - a view object has an address (a natural number); [None]: no live object there.  Iterators keep the address, strided ones
      use the object when they are dereferenced.
    - pointers are offsets into one allocation, None is nullptr, as in BoundsModel.v; an iterator gives the offset of its element.
    - the const iterators go through reinterpret_cast to a view of const elements; reading through it is modelled as reading the
      same members (strictly it is undefined).
    - [dbg]: assert is active.  strided_iterator::operator-- is noexcept: Throw stands for std::terminate.
    - static_array_view: slicing (3318-3326), section with an origin (3350-3366) and the conversion operators (3368-3378) are
      ill-formed when instantiated, and are not modelled.  The constructor of a strided view from an array_view (2081-2091) deduces
      an int from a ptrdiff_t and is never viable; the conversion is the operator of array_view. *)
From Coq Require Import List Arith ZArith Bool.
From Verif Require Import Outcome BoundsModel.
Import ListNotations.
Local Open Scope Z_scope.

Definition store := nat -> option view.
Definition bounds_of (v : view) : index := exts (vbounds v).

(** ** strided_iterator: container_ and it_ (bounds_ and current_) *)
Record sit := mk_sit { s_view : nat; s_bounds : index; s_current : index }.
(* 1605-1608 with strided_array_view::begin, end 2365-2372 *)
Definition s_begin (W : store) (a : nat) : outcome sit :=
  match W a with Some v => Ok (mk_sit a (bounds_of v) (it_begin (bounds_of v))) | None => UB end.
Definition s_end (W : store) (a : nat) : outcome sit :=
  match W a with Some v => Ok (mk_sit a (bounds_of v) (it_end (bounds_of v))) | None => UB end.
(* 1618-1619 *)
Definition s_deref (W : store) (i : sit) : outcome Z := match W (s_view i) with Some v => cell v (s_current i) | None => UB end.
(* 1629-1641 *)
Definition s_incr (i : sit) : sit := mk_sit (s_view i) (s_bounds i) (it_incr (s_bounds i) (s_current i)).
(* 1644-1656 *)
Definition s_decr (i : sit) : outcome sit := bind (it_decr (s_bounds i) (s_current i)) (fun c => Ok (mk_sit (s_view i) (s_bounds i) c)).
(* 1660-1681 *)
Definition s_plus (dbg : bool) (i : sit) (n : Z) : outcome sit :=
  bind (it_plus dbg (s_bounds i) (s_current i) n) (fun c => Ok (mk_sit (s_view i) (s_bounds i) c)).
(* 1685-1696 *)
Definition s_minus (dbg : bool) (i : sit) (n : Z) : outcome sit := s_plus dbg i (- n).
(* 1700-1704 *)
Definition s_diff (dbg : bool) (i j : sit) : outcome Z :=
  assert_then dbg (Nat.eqb (s_view i) (s_view j)) (Ok (it_diff (s_bounds i) (s_current i) (s_current j))).
(* 1708-1712 *)
Definition s_at (dbg : bool) (W : store) (i : sit) (n : Z) : outcome Z :=
  bind (it_plus dbg (s_bounds i) (s_current i) n) (fun c => match W (s_view i) with Some v => cell v c | None => UB end).
(* 1721-1747 *)
Definition s_eq (dbg : bool) (i j : sit) : outcome bool := assert_then dbg (Nat.eqb (s_view i) (s_view j)) (Ok (idx_eq (s_current i) (s_current j))).
Definition s_lt (dbg : bool) (i j : sit) : outcome bool := assert_then dbg (Nat.eqb (s_view i) (s_view j)) (Ok (idx_lt (s_current i) (s_current j))).
Definition s_le (dbg : bool) (i j : sit) : outcome bool := bind (s_lt dbg j i) (fun b => Ok (negb b)).
Definition s_gt (dbg : bool) (i j : sit) : outcome bool := s_lt dbg j i.
Definition s_ge (dbg : bool) (i j : sit) : outcome bool := bind (s_gt dbg j i) (fun b => Ok (negb b)).

(** ** contiguous_iterator: container_ and a pointer *)
Record cit := mk_cit { c_view : nat; c_ptr : option Z }.
(* pointer arithmetic *)
Definition padd (p : option Z) (n : Z) : outcome (option Z) :=
  match p with Some q => Ok (Some (q + n)) | None => if n =? 0 then Ok None else UB end.
Definition psub (p q : option Z) : outcome Z := match p, q with Some a, Some b => Ok (a - b) | None, None => Ok 0 | _, _ => UB end.
Definition plt (p q : option Z) : outcome bool := match p, q with Some a, Some b => Ok (a <? b) | None, None => Ok false | _, _ => UB end.
(* 1808-1811; begin, end 2880-2887 *)
Definition c_begin (W : store) (a : nat) : outcome cit := match W a with Some v => Ok (mk_cit a (vdata v)) | None => UB end.
Definition c_end (W : store) (a : nat) : outcome cit :=
  match W a with Some v => bind (padd (vdata v) (vsize v)) (fun p => Ok (mk_cit a p)) | None => UB end.
(* 1821-1822 *)
Definition c_deref (i : cit) : outcome Z := match c_ptr i with Some p => Ok p | None => UB end.
(* 1832-1899 *)
Definition c_plus (i : cit) (n : Z) : outcome cit := bind (padd (c_ptr i) n) (fun p => Ok (mk_cit (c_view i) p)).
Definition c_incr (i : cit) : outcome cit := c_plus i 1.
Definition c_decr (i : cit) : outcome cit := c_plus i (-1).
Definition c_minus (i : cit) (n : Z) : outcome cit := c_plus i (- n).
(* 1903-1907 *)
Definition c_diff (dbg : bool) (i j : cit) : outcome Z := assert_then dbg (Nat.eqb (c_view i) (c_view j)) (psub (c_ptr i) (c_ptr j)).
(* 1911-1914 *)
Definition c_at (i : cit) (n : Z) : outcome Z := bind (c_plus i n) c_deref.
(* 1923-1949 *)
Definition c_eq (dbg : bool) (i j : cit) : outcome bool := assert_then dbg (Nat.eqb (c_view i) (c_view j)) (Ok (same_data (c_ptr i) (c_ptr j))).
Definition c_lt (dbg : bool) (i j : cit) : outcome bool := assert_then dbg (Nat.eqb (c_view i) (c_view j)) (plt (c_ptr i) (c_ptr j)).

(** ** loops over iterators: the elements met by for (; it != last; ++it), and by a std::reverse_iterator.  None: fuel exhausted *)
Section Walk.
Context {I : Type} (eq : I -> I -> outcome bool) (deref : I -> outcome Z) (next prev : I -> outcome I).
Fixpoint walk (fuel : nat) (it last : I) : option (outcome (list Z)) :=
  match fuel with
  | O => None
  | S f => match eq it last with
           | Ok true => Some (Ok [])
           | Ok false => match deref it with
                         | Ok x => match next it with
                                   | Ok it' => option_map (fun r => bind r (fun l => Ok (x :: l))) (walk f it' last)
                                   | _ => Some UB
                                   end
                         | _ => Some UB
                         end
           | AssertFail => Some AssertFail
           | _ => Some UB
           end
  end.
(* reverse_iterator: current; *r is *(--copy); ++r is --current *)
Fixpoint rwalk (fuel : nat) (it last : I) : option (outcome (list Z)) :=
  match fuel with
  | O => None
  | S f => match eq it last with
           | Ok true => Some (Ok [])
           | Ok false => match prev it with
                         | Ok it' => match deref it' with
                                     | Ok x => option_map (fun r => bind r (fun l => Ok (x :: l))) (rwalk f it' last)
                                     | _ => Some UB
                                     end
                         | Throw => Some Throw
                         | _ => Some UB
                         end
           | AssertFail => Some AssertFail
           | _ => Some UB
           end
  end.
End Walk.
Definition s_walk (dbg : bool) (W : store) := walk (s_eq dbg) (s_deref W) (fun i => Ok (s_incr i)).
Definition s_rwalk (dbg : bool) (W : store) := rwalk (s_eq dbg) (s_deref W) s_decr.
Definition c_walk (dbg : bool) := walk (c_eq dbg) c_deref c_incr.
Definition c_rwalk (dbg : bool) := rwalk (c_eq dbg) c_deref c_decr.
(* begin() to end(), rbegin() to rend() *)
Definition s_all (dbg : bool) (fuel : nat) (W : store) (a : nat) : option (outcome (list Z)) :=
  match s_begin W a, s_end W a with Ok b, Ok e => s_walk dbg W fuel b e | _, _ => Some UB end.
Definition s_rall (dbg : bool) (fuel : nat) (W : store) (a : nat) : option (outcome (list Z)) :=
  match s_begin W a, s_end W a with Ok b, Ok e => s_rwalk dbg W fuel e b | _, _ => Some UB end.
Definition c_all (dbg : bool) (fuel : nat) (W : store) (a : nat) : option (outcome (list Z)) :=
  match c_begin W a, c_end W a with Ok b, Ok e => c_walk dbg fuel b e | _, _ => Some UB end.
Definition c_rall (dbg : bool) (fuel : nat) (W : store) (a : nat) : option (outcome (list Z)) :=
  match c_begin W a, c_end W a with Ok b, Ok e => c_rwalk dbg fuel e b | _, _ => Some UB end.

(** ** views *)
(* static_array_view<T, e...>: a pointer; the bounds are static *)
Definition static_view (p : option Z) (e : index) : view := mk_view p (contiguous e).
(* 3107: const_static_array_view is static_array_view<const T, Rank>; 3410-3417 cbegin, cend *)
Definition static_const (p : option Z) (e : index) : view := static_view p [Z.of_nat (rank e)].
(* 2133-2146, 2655-2668: the view of rank one on a container, here another view: cont.data(), cont.size() *)
Definition flatten (v : view) : view := mk_view (vdata v) (contiguous [vsize v]).
(* default constructors: index_ = {} 536, data_ = nullptr 2518, 3033, 3560; clear 2354, 2869, 3388 *)
Definition default_view (r : nat) : view := mk_view None (mk_bounds (repeat 0 r) (repeat 0 r)).
Definition static_default (e : index) : view := static_view None e.
(* 2622-2634 static to array_view, 2099-2110 static to strided_array_view, 2856-2859 array_view to strided_array_view *)
Definition static_to_array (p : option Z) (e : index) : view := mk_view p (contiguous e).
Definition to_strided (v : view) : view := mk_view (vdata v) (mk_bounds (exts (vbounds v)) (strs (vbounds v))).
Definition static_cell (p : option Z) (e idx : index) : outcome Z :=
  match p with Some q => Ok (q + static_linearize (contiguous e) idx) | None => UB end.

(** ** operators < <= > >= of views, over the elements in the order of iteration: std::lexicographical_compare *)
Section Compare.
Context {T : Type} (lt : T -> T -> bool).
Fixpoint lex (a b : list T) : bool :=
  match a, b with
  | _, [] => false
  | [], _ :: _ => true
  | x :: a', y :: b' => if lt x y then true else if lt y x then false else lex a' b'
  end.
Definition v_lt (a b : list T) : bool := lex a b.
Definition v_le (a b : list T) : bool := negb (v_lt b a).
Definition v_gt (a b : list T) : bool := v_lt b a.
Definition v_ge (a b : list T) : bool := negb (v_lt a b).
End Compare.
