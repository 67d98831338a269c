(** Models of small utilities: zip, filter_iterator, algorithm, time_utils, trivial_string,
    const_string, tuple_visit / tuple_for_each / static_for / gens, template_helpers. *)
From Coq Require Import List Arith ZArith Bool Lia.
From Verif Require Import Outcome.
Import ListNotations.

(** * zip (ristra/utils/zip.h, zip_impl.h)
    The tuple of containers is a list of lists (one element type; the code is heterogeneous). *)
Section Zip.
Context {T : Type}.

(** zip.h:130-137. [sizes] is the array of container sizes; sizes[1] is read unconditionally. *)
Definition zip_check (dbg : bool) (sizes : list nat) : outcome unit :=
  match nth_error sizes 1 with
  | None => UB
  | Some first_size =>
      assert_then dbg (forallb (fun s => first_size =? s) (skipn 2 sizes)) (Ok tt)
  end.

(** increment, zip_impl.h:98-109 *)
Definition incr_all (cur : list nat) : list nat := map S cur.
(** not_equal_tuples, zip_impl.h:119-133: conjunction over all components *)
Fixpoint not_equal_tuples (a b : list nat) : bool :=
  match a, b with
  | [x], [y] => negb (x =? y)
  | x :: a', y :: b' => negb (x =? y) && not_equal_tuples a' b'
  | _, _ => false
  end.
(** equal_tuples, zip_impl.h:143-157 *)
Fixpoint equal_tuples (a b : list nat) : bool :=
  match a, b with
  | [x], [y] => x =? y
  | x :: a', y :: b' => (x =? y) && equal_tuples a' b'
  | _, _ => true
  end.
(** dereference_tuple, zip_impl.h:167-184 *)
Fixpoint deref_all (cs : list (list T)) (cur : list nat) : outcome (list T) :=
  match cs, cur with
  | [], [] => Ok []
  | c :: cs', i :: cur' =>
      match nth_error c i with
      | None => UB
      | Some v => bind (deref_all cs' cur') (fun vs => Ok (v :: vs))
      end
  | _, _ => UB
  end.
(** for (it = begin(); it != end(); ++it) visit *it.  None: fuel exhausted. *)
Fixpoint zip_loop (fuel : nat) (cs : list (list T)) (cur ends : list nat)
  : option (outcome (list (list T))) :=
  match fuel with
  | 0 => None
  | S f => if not_equal_tuples cur ends then
             match deref_all cs cur with
             | Ok row => option_map (fun r => bind r (fun rows => Ok (row :: rows)))
                                    (zip_loop f cs (incr_all cur) ends)
             | Throw => Some Throw | AssertFail => Some AssertFail | UB => Some UB
             end
           else Some (Ok [])
  end.
(** zipper, zip_impl.h:264-268: begin_/end_ hold every container's begin()/end() *)
Definition zip_iterate (fuel : nat) (cs : list (list T)) : option (outcome (list (list T))) :=
  zip_loop fuel cs (map (fun _ => 0) cs) (map (@length T) cs).
End Zip.

(** * filter_iterator (ristra/utils/filter_iterator.h). Positions are offsets in [xs]. *)
Section Filter.
Context {T : Type}.
Variable pred : T -> bool.
(** operator++, lines 107-114: leaves iter_ where it is if the predicate already holds there *)
Fixpoint first_match (xs : list T) : nat :=
  match xs with [] => 0 | x :: t => if pred x then 0 else S (first_match t) end.
Definition fi_incr (xs : list T) (p : nat) : nat := p + first_match (skipn p xs).
(** the constructor (53-55) stores [first] without searching *)
Definition fi_begin : nat := 0.
(** for (it = begin; it != end; ++it) visit *it  (comparison of positions, 133-142) *)
Fixpoint fi_loop (fuel : nat) (xs : list T) (p : nat) : option (list T) :=
  match fuel with
  | 0 => None
  | S f => match nth_error xs p with
           | None => Some []
           | Some x => option_map (cons x) (fi_loop f xs (fi_incr xs p))
           end
  end.
End Filter.

(** * algorithm.h *)
Section Algorithm.
Context {T : Type}.
Variable ltb : T -> T -> bool.
(** std::sort: modelled by insertion sort (any sort gives the same list for a total order) *)
Fixpoint insert_sorted (x : T) (l : list T) : list T :=
  match l with
  | [] => [x]
  | y :: t => if ltb y x then y :: insert_sorted x t else x :: l
  end.
Definition std_sort (l : list T) : list T := fold_right insert_sorted [] l.
(** std::set_intersection *)
Fixpoint set_intersection (a : list T) : list T -> list T :=
  fix inner (b : list T) : list T :=
    match a, b with
    | x :: a', y :: b' =>
        if ltb x y then set_intersection a' b
        else if ltb y x then inner b'
        else x :: set_intersection a' b'
    | _, _ => []
    end.
(** unsorted_set_intersection, algorithm.h:29-46 *)
Definition unsorted_set_intersection (a b : list T) : list T :=
  set_intersection (std_sort a) (std_sort b).
(** std::unique + erase = remove_duplicates, algorithm.h:52-58 *)
Variable eqb : T -> T -> bool.
Fixpoint unique_from (last : T) (l : list T) : list T :=
  match l with
  | [] => []
  | y :: t => if eqb last y then unique_from last t else y :: unique_from y t
  end.
Definition remove_duplicates (l : list T) : list T :=
  match l with [] => [] | x :: t => x :: unique_from x t end.
End Algorithm.

(** * daysHoursMinutesSeconds, time_utils.h:63-87 (C++ integer division truncates) *)
Definition dhms (t : Z) : Z * Z * Z * Z :=
  let days := Z.quot t 86400 in
  let hr := Z.rem t 86400 in
  let hours := Z.quot hr 3600 in
  let mr := Z.rem hr 3600 in
  let minutes := Z.quot mr 60 in
  let sr := Z.rem mr 60 in
  (days, hours, minutes, Z.quot sr 1).

(** * trivial_string<N> (trivial_string.h) and const_string (const_string.h); characters are Z.
    A buffer cell is [None] while indeterminate. *)
Definition buffer := list (option Z).
Fixpoint c_prefix (s : list Z) : list Z :=
  match s with [] => [] | c :: t => if Z.eqb c 0 then [] else c :: c_prefix t end.
(** strcpy(tmp.data(), str.c_str()), lines 78-83: copies up to and including the first NUL *)
Definition to_trivial_string (N : nat) (s : list Z) : outcome buffer :=
  let c := c_prefix s in
  if length c + 1 <=? N
  then Ok (map Some c ++ Some 0%Z :: repeat None (N - (length c + 1)))
  else UB.
(** str(), line 57: std::string from a char pointer, reads up to the first NUL *)
Fixpoint read_c (b : buffer) : outcome (list Z) :=
  match b with
  | [] => UB
  | None :: _ => UB
  | Some c :: t => if Z.eqb c 0 then Ok [] else bind (read_c t) (fun r => Ok (c :: r))
  end.
Definition ts_str (b : buffer) : outcome (list Z) := read_c b.
(** operator[], lines 36-48: assert( n <= size() ) *)
Definition ts_index (dbg : bool) (b : buffer) (n : nat) : outcome (option Z) :=
  assert_then dbg (n <=? length b)
    (match nth_error b n with Some c => Ok c | None => UB end).
(** const_string(const char (&a)[N]) keeps sz_ = N-1 (line 29); operator[] throws (32-33).
    The array literal is the string plus its terminator. *)
Definition cs_size (literal : list Z) : nat := length literal - 1.
Definition cs_index (literal : list Z) (n : nat) : outcome Z :=
  if n <? cs_size literal
  then match nth_error literal n with Some c => Ok c | None => UB end
  else Throw.

(** * compile-time loops. A call of the user's function on component i is a state transformer. *)
Section Loops.
Context {St : Type}.
Variable f : nat -> St -> St.
(** std::make_index_sequence<N> *)
Definition index_sequence (N : nat) : list nat := seq 0 N.
(** braced-init-list pack expansion evaluates left to right: static_for.h:21-36,
    tuple_for_each_impl.h:24-33 *)
Definition expand_calls (Is : list nat) (s : St) : St := fold_left (fun s i => f i s) Is s.
Definition static_for (N : nat) (s : St) : St := expand_calls (index_sequence N) s.
Definition tuple_for_each (N : nat) (s : St) : St := expand_calls (index_sequence N) s.
(** visit_tuple_ws<size>::visit, tuple_visit_impl.h:19-47; tuple_visit calls it with size-1 *)
Fixpoint visit_ws (n : nat) (s : St) : St :=
  match n with
  | 0 => f 0 s
  | S k => f (S k) (visit_ws k s)
  end.
Definition tuple_visit (size : nat) (s : St) : St := visit_ws (size - 1) s.
End Loops.

(** gens<N,S...>, tuple_zip_impl.h:25-38: gens<N,S...> : gens<N-1,N-1,S...> *)
Fixpoint gens (N : nat) (S_ : list nat) : list nat :=
  match N with 0 => S_ | S k => gens k (k :: S_) end.
(** tuple_zip / tuple_tie, tuple_zip.h:24-52 *)
Definition tuple_zip {A B} (da : A) (db : B) (t1 : list A) (t2 : list B) : list (A * B) :=
  map (fun i => (nth i t1 da, nth i t2 db)) (gens (length t2) []).
(** multiply, template_helpers_impl.h:27-34, for integers: the innermost factor is a std::size_t, so that every product is one *)
Fixpoint multiply (args : list Z) : Z :=
  match args with [] => 1%Z | a :: r => ((a * multiply r) mod 2 ^ 64)%Z end.
(** fill<N>::apply, template_helpers.h:67-84 (N >= 1) *)
Fixpoint fill_apply {A} (N : nat) (v : A) (vs : list A) : list A :=
  match N with
  | 0 | 1 => v :: vs
  | S k => fill_apply k v (v :: vs)
  end.
(** binary operators of math::tuple, tuple.h:83-96 etc.: tmp[i] = lhs[i] op rhs[i] through
    tuple_visit; [tmp] starts with arbitrary contents. *)
Fixpoint list_set {A} (l : list A) (i : nat) (v : A) : list A :=
  match l, i with
  | [], _ => []
  | _ :: t, 0 => v :: t
  | x :: t, S j => x :: list_set t j v
  end.
Definition tuple_binop {A} (d : A) (op : A -> A -> A) (lhs rhs tmp : list A) : list A :=
  tuple_visit (fun i tmp => list_set tmp i (op (nth i lhs d) (nth i rhs d))) (length lhs) tmp.
(** tuple op= scalar passed by reference, tuple.h:70-78 etc.: [rhs] may alias component k *)
Definition tuple_scalar_eq {A} (d : A) (op : A -> A -> A) (rhs : A + nat) (lhs : list A) : list A :=
  tuple_for_each (fun i t =>
    let r := match rhs with inl v => v | inr k => nth k t d end in
    list_set t i (op (nth i t d) r)) (length lhs) lhs.
