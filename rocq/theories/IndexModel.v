(** Machine arithmetic of ristra/utils/array_view.h (ptrdiff_t and size_t of 64 bits), the arithmetic operators of
    index_t, and the loop counters chosen by ristra/utils/template_helpers.h. BoundsModel.v has the same functions
    without limits. *)
From Coq Require Import List Arith ZArith QArith Qround Bool Lia.
From Verif Require Import Outcome BoundsModel.
Import ListNotations.
Local Open Scope Z_scope.

(** signed overflow of ptrdiff_t is undefined *)
Definition fits (x : Z) : bool := (- 2 ^ 63 <=? x) && (x <? 2 ^ 63).
Definition chk (x : Z) : outcome Z := if fits x then Ok x else UB.
Definition cadd (a b : Z) : outcome Z := chk (a + b).
Definition csub (a b : Z) : outcome Z := chk (a - b).
Definition cmul (a b : Z) : outcome Z := chk (a * b).
(** size_t wraps around *)
Definition wrap (x : Z) : Z := x mod 2 ^ 64.

Fixpoint collect {A : Type} (l : list (outcome A)) : outcome (list A) :=
  match l with [] => Ok [] | x :: t => bind x (fun a => bind (collect t) (fun r => Ok (a :: r))) end.

(** make_strides::stride 47-53 and ordering_helper 60-64 *)
Fixpoint stride_c (ids : index) (N : nat) : outcome Z :=
  match N with
  | O => Ok 1
  | S k => match ids with
           | _ :: (x :: _) as t => bind (stride_c (tl ids) k) (fun r => cmul x r)
           | _ => Ok 1 (* never reached: N counts the remaining elements *)
           end
  end.
Definition make_strides_c (ids : index) : outcome index :=
  collect (map (fun i => stride_c (skipn i ids) (rank ids - i - 1)) (seq 0 (rank ids))).
(** size() 683-689, 938-944: size_t ret = 1; ret *= bounds_[i] *)
Definition size_c (e : index) : Z := fold_left (fun r i => wrap (r * get e i)) (seq 0 (rank e)) 1.
(** linearize() 724-729, 980-986 *)
Definition linearize_c (b : bounds) (idx : index) : outcome Z :=
  fold_left (fun o i => bind o (fun o => bind (cmul (get idx i) (get (strs b) i)) (fun p => cadd o p)))
            (seq 1 (rank (exts b) - 1)) (cmul (get idx 0) (get (strs b) 0)).
(** view(container, bounds) 2160-2166, 2682-2688: the assertion on cont.size(), a size_t *)
Definition view_of_container_c (dbg : bool) (n : Z) (b : bounds) : outcome view :=
  assert_then dbg (n >=? size_c (exts b)) (Ok (mk_view (Some 0) b)).

(** ** operators of index_t *)
Fixpoint zipw (f : Z -> Z -> outcome Z) (a b : index) : outcome index :=
  match a, b with
  | x :: a', y :: b' => bind (f x y) (fun v => bind (zipw f a' b') (fun r => Ok (v :: r)))
  | _, _ => Ok []
  end.
(** operator+ 339-344 through += 359-367, operator- 349-354 through -= 372-380 *)
Definition ix_add (a b : index) : outcome index := zipw cadd a b.
Definition ix_sub (a b : index) : outcome index := zipw csub a b.
(** unary + 464-465, unary - 469-477 *)
Definition ix_pos (a : index) : index := a.
Definition ix_neg (a : index) : outcome index := collect (map (fun x => chk (- x)) a).
(** an arithmetic argument: a number of an integer type of at most 64 bits, or a finite floating-point number *)
Inductive scalar := SInt (z : Z) | SFlt (q : Q).
(** the lambdas 434 and 450 call std::multiplies<value_type> / std::divides<value_type>, so the scalar is first
    converted to ptrdiff_t: integers modulo 2^64, floating-point numbers truncated (undefined if out of range) *)
Definition Qtrunc (q : Q) : Z := Z.quot (Qnum q) (Zpos (Qden q)).
Definition to_ptrdiff (s : scalar) : outcome Z :=
  match s with
  | SInt z => Ok ((z + 2 ^ 63) mod 2 ^ 64 - 2 ^ 63)
  | SFlt q => chk (Qtrunc q)
  end.
(** operator* 386-394 (and the friend 416-420) through *= 427-437 *)
Definition ix_mul (a : index) (s : scalar) : outcome index :=
  collect (map (fun x => bind (to_ptrdiff s) (fun v => cmul x v)) a).
(** operator/ 400-408 through /= 443-453 *)
Definition cdiv (x v : Z) : outcome Z := if v =? 0 then UB else chk (Z.quot x v).
Definition ix_div (a : index) (s : scalar) : outcome index :=
  collect (map (fun x => bind (to_ptrdiff s) (fun v => cdiv x v)) a).
(** ++ and -- of an index of rank one 483-501 *)
Definition ix_incr (x : Z) : outcome Z := cadd x 1.
Definition ix_decr (x : Z) : outcome Z := csub x 1.

(** ** select_counter, template_helpers.h 37-60 *)
Inductive counter := CInt | CSize.
Definition select_counter (N : Z) : counter := if N <? 2 ^ 31 - 1 then CInt else CSize.
(** initialisation of the counter from a size_t (int: modulo 2^32, as compilers define it) *)
Definition counter_init (c : counter) (v : Z) : Z :=
  match c with CInt => (v + 2 ^ 31) mod 2 ^ 32 - 2 ^ 31 | CSize => v end.
(** i < bound compares in size_t *)
Definition counter_less (i bound : Z) : bool := wrap i <? bound.
Definition counter_next (c : counter) (i : Z) : outcome Z :=
  match c with CInt => if i =? 2 ^ 31 - 1 then UB else Ok (i + 1) | CSize => Ok (wrap (i + 1)) end.
(** for ( select_counter_t<N> i = first; i < last; ++i ), as in general.h 178, 217, 254, 281, 310, matrix.h passim,
    fixed_vector.h 343. The visited values; None: fuel exhausted *)
Fixpoint counter_loop (fuel : nat) (c : counter) (i last : Z) : option (outcome (list Z)) :=
  match fuel with
  | O => None
  | S f => if counter_less i last
           then match counter_next c i with
                | Ok j => option_map (fun r => bind r (fun l => Ok (i :: l))) (counter_loop f c j last)
                | _ => Some UB
                end
           else Some (Ok [])
  end.
Definition counted (fuel : nat) (N first last : Z) : option (outcome (list Z)) :=
  counter_loop fuel (select_counter N) (counter_init (select_counter N) first) last.
