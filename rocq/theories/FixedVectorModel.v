(** Model of ristra/utils/fixed_vector.h (fixed_vector<T,N>).

    State: the [std::array<T,N> data_] (line 372) as a list of cells, a cell being [None] when its
    value is indeterminate (never assigned), and [length_] (line 374).
    Iterators are offsets from [begin()]; iterators before [begin()] are not represented.
    Sizes are [nat]; the one place where [size_t] wrap-around matters ([insert(pos,count,value)],
    line 211) is written out modulo 2^64. *)
From Coq Require Import List Arith ZArith Bool Lia.
From Verif Require Import Outcome.
Import ListNotations.

Section FixedVector.
Context {T : Type}.

Record fv : Type := mkfv { store : list (option T); len : nat }.

Definition capacity (s : fv) : nat := length (store s).

(** Visible contents [begin(),end()), fixed_vector.h:145-146. *)
Definition contents (s : fv) : list (option T) := firstn (len s) (store s).

(** One cell write/read in the storage. *)
Fixpoint upd (l : list (option T)) (i : nat) (v : option T) : list (option T) :=
  match l, i with
  | [], _ => []
  | _ :: t, 0 => v :: t
  | x :: t, S j => x :: upd t j v
  end.

Definition write (l : list (option T)) (i : nat) (v : option T) : outcome (list (option T)) :=
  if i <? length l then Ok (upd l i v) else UB.

Definition cell (l : list (option T)) (i : nat) : option T := nth i l None.

(** How the standard library implements std::copy / std::move of [first,last) to [dst]:
    - [Strict]: by the standard, [dst] inside [first,last) is undefined behaviour;
    - [Memmove]: libstdc++/libc++ for trivially copyable T;
    - [ElementLoop]: libstdc++/libc++ for every other T, element by element, front to back. *)
Inductive copy_impl : Type := Strict | Memmove | ElementLoop.

(** for (k = 0; k < n; ++k) st[dst+k] = st[src+k] *)
Fixpoint copy_loop (n src dst : nat) (l : list (option T)) : list (option T) :=
  match n with
  | 0 => l
  | S n' => copy_loop n' (S src) (S dst) (upd l dst (cell l src))
  end.

Definition memmove (n src dst : nat) (l : list (option T)) : list (option T) :=
  firstn dst l ++ firstn n (skipn src l) ++ skipn (dst + n) l.

Definition std_copy (m : copy_impl) (first last dst : nat) (l : list (option T))
  : outcome (list (option T)) :=
  if last <? first then UB
  else let n := last - first in
  if n =? 0 then Ok l
  else if (length l <? dst + n) || (length l <? last) then UB
  else match m with
       | Strict => if (first <=? dst) && (dst <? last) then UB else Ok (copy_loop n first dst l)
       | Memmove => Ok (memmove n first dst l)
       | ElementLoop => Ok (copy_loop n first dst l)
       end.

(** std::fill_n(begin()+pos, count, value) *)
Definition fill_n (pos count : nat) (v : option T) (l : list (option T))
  : outcome (list (option T)) :=
  if length l <? pos + count then UB
  else Ok (firstn pos l ++ repeat v count ++ skipn (pos + count) l).

(** std::copy from an external range to begin()+pos *)
Definition copy_in (xs : list T) (pos : nat) (l : list (option T)) : outcome (list (option T)) :=
  if length l <? pos + length xs then UB
  else Ok (firstn pos l ++ map Some xs ++ skipn (pos + length xs) l).

(** A [const T&] argument: a value, or a reference to the element at offset k of the same vector. *)
Inductive arg : Type := AVal (v : T) | ARef (k : nat).
Definition deref (a : arg) (l : list (option T)) : option T :=
  match a with AVal v => Some v | ARef k => cell l k end.

Variable dbg : bool.          (* asserts compiled in? *)
Variable impl : copy_impl.

(** fixed_vector(), line 51; [junk] is the indeterminate storage. *)
Definition fv_empty (N : nat) : fv := mkfv (repeat None N) 0.

(** push_back, lines 310-320 (also emplace_back 322-327). *)
Definition push_back (s : fv) (a : arg) : outcome fv :=
  assert_then dbg (len s <? capacity s)
    (bind (write (store s) (len s) (deref a (store s)))
          (fun l => Ok (mkfv l (S (len s))))).

(** pop_back, lines 329-333: no-op on empty. *)
Definition pop_back (s : fv) : outcome fv :=
  if len s =? 0 then Ok s else Ok (mkfv (store s) (len s - 1)).

(** clear, line 175. *)
Definition clear (s : fv) : outcome fv := Ok (mkfv (store s) 0).

(** assign(count,value), lines 90-95 (constructor 64-67). *)
Definition assign_fill (s : fv) (count : nat) (v : T) : outcome fv :=
  assert_then dbg (count <=? capacity s)
    (bind (fill_n 0 count (Some v) (store s)) (fun l => Ok (mkfv l count))).

(** assign(first,last) and assign(ilist), lines 97-110 (external source range). *)
Definition assign_range (s : fv) (xs : list T) : outcome fv :=
  assert_then dbg (length xs <=? capacity s)
    (bind (copy_in xs 0 (store s)) (fun l => Ok (mkfv l (length xs)))).

(** resize(count), lines 335-339. *)
Definition resize (s : fv) (count : nat) : outcome fv :=
  assert_then dbg (count <=? capacity s) (Ok (mkfv (store s) count)).

(** resize(count,value), lines 340-346. *)
Definition resize_val (s : fv) (count : nat) (v : T) : outcome fv :=
  assert_then dbg (count <=? capacity s)
    (bind (fill_n (len s) (count - len s) (Some v) (store s)) (fun l => Ok (mkfv l count))).

(** _validate_iterator, lines 360-365. *)
Definition validate {A : Type} (s : fv) (pos : nat) (k : outcome A) : outcome A :=
  assert_then dbg (pos <=? len s) k.

(** insert(pos,const T&) and insert(pos,T&&), lines 177-207: shift right by std::copy/std::move,
    then assign, then ++length_. Returns the offset of the inserted element. *)
Definition insert1 (s : fv) (pos : nat) (a : arg) : outcome (fv * nat) :=
  assert_then dbg (len s <? capacity s)
    (validate s pos
      (bind (std_copy impl pos (len s) (S pos) (store s)) (fun l =>
       bind (write l pos (deref a l)) (fun l' =>
       Ok (mkfv l' (S (len s)), pos))))).

Definition two64 : Z := (2 ^ 64)%Z.

(** insert(pos,count,value), lines 209-225; the assert computes size()+count in size_t. *)
Definition insert_fill (s : fv) (pos : nat) (count : Z) (a : arg) : outcome (fv * nat) :=
  assert_then dbg (Z.leb ((Z.of_nat (len s) + count) mod two64) (Z.of_nat (capacity s)))
    (validate s pos
      (if Z.eqb count 0 then Ok (s, pos)
       else if Z.ltb (Z.of_nat (capacity s)) (Z.of_nat pos + count) then UB
       else
         let c := Z.to_nat count in
         bind (std_copy impl pos (len s) (pos + c) (store s)) (fun l =>
         bind (fill_n pos c (deref a l) l) (fun l' =>
         Ok (mkfv l' (len s + c), pos))))).

(** insert(pos,first,last), lines 231-249, and insert(pos,ilist), lines 251-269.
    The ilist overload (251-269) does not validate the iterator; positions past end() are then
    caught by std_copy (UB). [checked] distinguishes the two. External source range. *)
Definition insert_range (checked : bool) (s : fv) (pos : nat) (xs : list T) : outcome (fv * nat) :=
  assert_then dbg (len s + length xs <=? capacity s)
    (assert_then (dbg && checked) (pos <=? len s)
      (if length xs =? 0 then Ok (s, pos)
       else bind (std_copy impl pos (len s) (pos + length xs) (store s)) (fun l =>
            bind (copy_in xs pos l) (fun l' =>
            Ok (mkfv l' (len s + length xs), pos))))).

(** erase(pos), lines 273-288. *)
Definition erase1 (s : fv) (pos : nat) : outcome (fv * nat) :=
  if len s =? 0 then Ok (s, len s)
  else validate s pos
    (bind (if S pos =? len s then Ok (store s)
           else std_copy impl (S pos) (len s) pos (store s)) (fun l =>
     Ok (mkfv l (len s - 1), pos))).

(** erase(first,last), lines 290-308. An inverted range is outside the precondition: UB. *)
Definition erase_range (s : fv) (first last : nat) : outcome (fv * nat) :=
  if len s =? 0 then Ok (s, len s)
  else if first =? last then Ok (s, 0)
  else validate s first (validate s last
    (if last <? first then UB
     else bind (if last =? len s then Ok (store s)
                else std_copy impl last (len s) first (store s)) (fun l =>
          Ok (mkfv l (len s - (last - first)), first)))).

(** operator[], lines 115-116: unchecked access to data_. *)
Definition index (s : fv) (i : nat) : outcome (option T) :=
  if i <? capacity s then Ok (cell (store s) i) else UB.

(** at, lines 118-129. *)
Definition at_ (s : fv) (i : nat) : outcome (option T) :=
  if len s <=? i then Throw else index s i.

(** front/back, lines 131-135: data_[0] and data_[size()-1]. *)
Definition front (s : fv) : outcome (option T) := index s 0.
Definition back (s : fv) : outcome (option T) :=
  if len s =? 0 then UB else index s (len s - 1).

(** copy constructor, lines 53-57: copies the first length_ cells into fresh storage. *)
Definition copy_ctor (s : fv) : fv :=
  mkfv (firstn (len s) (store s) ++ repeat None (capacity s - len s)) (len s).

(** swap, lines 348-352. *)
Definition swap (a b : fv) : fv * fv :=
  (mkfv (store b) (len b), mkfv (store a) (len a)).

(** operator==, lines 382-387: std::equal(lhs.begin(),lhs.end(),rhs.begin()), comparing
    lhs.size() cells of rhs's storage. Reading an indeterminate cell is UB. *)
Fixpoint std_equal (eqb : T -> T -> bool) (a b : list (option T)) : outcome bool :=
  match a, b with
  | [], _ => Ok true
  | _ :: _, [] => UB
  | Some x :: a', Some y :: b' => if eqb x y then std_equal eqb a' b' else Ok false
  | _ :: _, _ :: _ => UB
  end.

Definition fv_eq (eqb : T -> T -> bool) (lhs rhs : fv) : outcome bool :=
  std_equal eqb (contents lhs) (store rhs).

(** The mutating operations as data, with one step function. *)
Inductive op : Type :=
| OPush (v : T) | OPop | OClear
| OAssignFill (count : nat) (v : T) | OAssignRange (xs : list T)
| OResizeVal (count : nat) (v : T)
| OInsert (pos : nat) (v : T)
| OInsertFill (pos count : nat) (v : T)
| OInsertRange (pos : nat) (xs : list T)
| OInsertIlist (pos : nat) (xs : list T)
| OErase (pos : nat) | OEraseRange (first last : nat).

Definition drop_ret (r : outcome (fv * nat)) : outcome fv := bind r (fun p => Ok (fst p)).

Definition step (s : fv) (o : op) : outcome fv :=
  match o with
  | OPush v => push_back s (AVal v)
  | OPop => pop_back s
  | OClear => clear s
  | OAssignFill c v => assign_fill s c v
  | OAssignRange xs => assign_range s xs
  | OResizeVal c v => resize_val s c v
  | OInsert p v => drop_ret (insert1 s p (AVal v))
  | OInsertFill p c v => drop_ret (insert_fill s p (Z.of_nat c) (AVal v))
  | OInsertRange p xs => drop_ret (insert_range true s p xs)
  | OInsertIlist p xs => drop_ret (insert_range false s p xs)
  | OErase p => drop_ret (erase1 s p)
  | OEraseRange f l => drop_ret (erase_range s f l)
  end.

Fixpoint run (s : fv) (os : list op) : outcome fv :=
  match os with
  | [] => Ok s
  | o :: rest => bind (step s o) (fun s' => run s' rest)
  end.

End FixedVector.

Arguments fv : clear implicits.
Arguments op : clear implicits.
Arguments arg : clear implicits.
