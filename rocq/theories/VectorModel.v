(** Model of ristra/math/general.h, the vector half, of rotation_matrix (math/matrix.h 406-427) and of
    geometry/point.h, over the reals. Fixed-size vectors are functions of the index together with
    their length; run-time containers are lists. Rounding is not modelled. *)
From Coq Require Import Reals List ZArith Bool Lia.
From Verif Require Import Outcome.
Import ListNotations.
Local Open Scope R_scope.

(** for ( i = 0; i < n; ++i ) body *)
Fixpoint loop {S : Type} (n : nat) (body : nat -> S -> S) (s : S) : S :=
  match n with O => s | Datatypes.S k => body k (loop k body s) end.
Definition vec := nat -> R.
Definition set (v : vec) (i : nat) (x : R) : vec := fun k => if Nat.eqb k i then x else v k.

(** dot_product, array version, general.h 170-181 *)
Definition dot_product (D : nat) (a b : vec) : R := loop D (fun i dot => dot + a i * b i) 0.
(** magnitude, array version, 209-220; abs 224-239 *)
Definition magnitude (D : nat) (a : vec) : R := sqrt (loop D (fun i s => s + a i * a i) 0).
(** delta_magnitude 244-259 *)
Definition delta_magnitude (D : nat) (a b : vec) : R :=
  sqrt (loop D (fun i s => let del := a i - b i in s + del * del) 0).
(** geometry/point.h distance 36-46 *)
Definition distance (D : nat) (a b : vec) : R :=
  sqrt (loop D (fun d sum => sum + (a d - b d) * (a d - b d)) 0).
(** geometry/point.h midpoint 51-56; x / s multiplies by 1/s (array.h 686-696) *)
Definition midpoint (a b : vec) : vec := fun i => (a i + b i) * (1 / 2).
(** geometry/point.h centroid 64-84 *)
Definition point_centroid (vs : list vec) : vec :=
  let tmp := fold_left (fun tmp v => (fun i => tmp i + v i)) vs (fun _ => 0) in
  fun i => tmp i * (1 / INR (length vs)).
(** unit 357-366 *)
Definition unit (D : nat) (x : vec) : vec := let l := magnitude D x in fun i => x i * (1 / l).

(** vector.h reflect 35-50; rot *= 2*dot and tmp -= rot are the element loops of array.h *)
Definition reflect (D : nat) (v n : vec) : vec :=
  let dot := dot_product D v n in
  let rot := loop D (fun i r => set r i (r i * (2 * dot))) n in
  loop D (fun i t => set t i (t i - rot i)) v.
(** normal for 3-D arrays 391-399 *)
Definition normal3 {A : Type} (a b : A) : outcome A := Throw.

(** container versions: std::inner_product 163-168, 184-189: reading past b is undefined *)
Fixpoint inner_product (a b : list R) (acc : R) : outcome R :=
  match a, b with
  | nil, _ => Ok acc
  | x :: a', y :: b' => inner_product a' b' (acc + x * y)
  | _ :: _, nil => UB
  end.
Definition dot_container (a b : list R) : outcome R := inner_product a b 0.
Definition magnitude_container (a : list R) : outcome R :=
  bind (dot_container a a) (fun d => Ok (sqrt d)).

(** two and three dimensional formulas; components as separate arguments of a record *)
Record v2 := V2 { x2 : R; y2 : R }.
Record v3 := V3 { x3 : R; y3 : R; z3 : R }.
(** normal 2-D 377-384 *)
Definition normal2 (a b : v2) : v2 := V2 (y2 a - y2 b) (x2 b - x2 a).
(** cross_product 2-D 411-418, 3-D 426-437 *)
Definition cross2 (a b : v2) : R := x2 a * y2 b - y2 a * x2 b.
Definition cross3 (a b : v3) : v3 :=
  V3 (y3 a * z3 b - z3 a * y3 b) (z3 a * x3 b - x3 a * z3 b) (x3 a * y3 b - y3 a * x3 b).
(** triple_product 449-458 *)
Definition triple_product (a b c : v3) : R :=
  x3 a * y3 b * z3 c + x3 b * y3 c * z3 a + x3 c * y3 a * z3 b
  - z3 a * y3 b * x3 c - z3 b * y3 c * x3 a - z3 c * y3 a * x3 b.
Definition dot3 (a b : v3) : R := 0 + x3 a * x3 b + y3 a * y3 b + z3 a * z3 b.
Definition dot2 (a b : v2) : R := 0 + x2 a * x2 b + y2 a * y2 b.
Definition mag3 (a : v3) : R := sqrt (dot3 a a).

(** sqr, cube, sgn 330-343 *)
Definition sqr (x : R) := x * x.
Definition cube (x : R) := x * x * x.
Definition b2z (b : bool) : Z := if b then 1%Z else 0%Z.
Definition ltb (x y : R) : bool := if Rlt_dec x y then true else false.
Definition sgn (v : R) : Z := (b2z (ltb 0 v) - b2z (ltb v 0))%Z.

(** average: variadic 36-47, two arguments 52-58, container 77-88, iterators 92-107 *)
Definition average_variadic (t : R) (args : list R) : R :=
  fold_left Rplus args t / INR (length args + 1).
Definition average2 (t u : R) : R := (t + u) / 2.
Definition average_container (dbg : bool) (vals : list R) : outcome R :=
  assert_then dbg (Nat.ltb 0 (length vals)) (Ok (fold_left Rplus vals 0 / INR (length vals))).
(** the same on a container of int: the sum is converted to the unsigned 64-bit type of size(),
    divided there, and converted back to 32-bit int; signed overflow of the sum is not modelled *)
Definition to_u64 (z : Z) : Z := Z.modulo z (2 ^ 64).
Definition to_i32 (z : Z) : Z := (Z.modulo (z + 2 ^ 31) (2 ^ 32) - 2 ^ 31)%Z.
Definition average_int_container (vals : list Z) : Z :=
  to_i32 (Z.div (to_u64 (fold_left Z.add vals 0%Z)) (Z.of_nat (length vals))).
(** iterators: std::distance is signed, so the division is C++ int division *)
Definition average_int_iter (vals : list Z) : Z :=
  Z.quot (fold_left Z.add vals 0%Z) (Z.of_nat (length vals)).

(** std::min_element / std::max_element (117-150): index of the first extreme element; the end
    position for an empty range *)
Fixpoint best (less : R -> R -> bool) (l : list R) (i besti : nat) (b : R) : nat :=
  match l with
  | nil => besti
  | x :: l' => if less x b then best less l' (S i) i x else best less l' (S i) besti b
  end.
Definition min_element (l : list R) : nat :=
  match l with nil => O | x :: l' => best ltb l' 1 0 x end.
Definition max_element (l : list R) : nat :=
  match l with nil => O | x :: l' => best (fun y b => ltb b y) l' 1 0 x end.

(** std::min(a,b) = (b < a) ? b : a; std::max(a,b) = (a < b) ? b : a *)
Definition std_min (a b : R) := if ltb b a then b else a.
Definition std_max (a b : R) := if ltb a b then b else a.
(** element-wise min/max, arrays 273-283, 302-312 *)
Definition min_array (D : nat) (a b tmp : vec) : vec := loop D (fun i t => set t i (std_min (a i) (b i))) tmp.
Definition max_array (D : nat) (a b tmp : vec) : vec := loop D (fun i t => set t i (std_max (a i) (b i))) tmp.
(** containers 285-293, 314-322: tmp is default constructed, hence empty for std::vector, and tmp[i]
    is evaluated for every i < a.size(); b[i] is unchecked too *)
Definition write (t : list R) (i : nat) (x : R) : outcome (list R) :=
  if Nat.ltb i (length t) then Ok (firstn i t ++ x :: skipn (S i) t) else UB.
Definition read (t : list R) (i : nat) : outcome R :=
  match nth_error t i with Some x => Ok x | None => UB end.
Definition elementwise (f : R -> R -> R) (a b : list R) : outcome (list R) :=
  loop (length a) (fun i t => bind t (fun t => bind (read a i) (fun x => bind (read b i) (fun y =>
    write t i (f x y))))) (Ok nil).
Definition min_container := elementwise std_min.
Definition max_container := elementwise std_max.

(** rotation_matrix, matrix.h 406-427 (D = 2 only) *)
Definition mat2 := nat -> nat -> R.
Definition setm (m : mat2) (i j : nat) (x : R) : mat2 :=
  fun a b => if Nat.eqb a i && Nat.eqb b j then x else m a b.
Definition rotation_matrix (junk : mat2) (radians : R) : mat2 :=
  let c := cos radians in let s := sin radians in
  let rot := loop 2 (fun i r => setm r i i 1) junk in
  setm (setm (setm (setm rot 0 0 c) 0 1 (- s)) 1 0 s) 1 1 c.
