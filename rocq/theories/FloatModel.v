(** The vector, matrix and geometry functions in floating-point arithmetic.

    The other models of these functions compute in a ring or a field. Here the element type is an IEEE
    754 binary format of precision prec and exponent range emax (53 and 1024 for double, 24 and 128 for
    float), with the operations of Coq.Floats.SpecFloat: every operation rounds to nearest even, there
    are infinities, signed zeros and one NaN. The order of the operations is that of the source.

    Assumed of the compiler and the machine: no contraction of a*b+c into one operation, no extra
    precision (FLT_EVAL_METHOD is 0), the default rounding mode, subnormal numbers not flushed, no
    value-changing optimisation (no -ffast-math). The sign and payload of a NaN are not modelled. *)
From Coq Require Import ZArith List Bool SpecFloat.
Import ListNotations.

Section Format.
Variables prec emax : Z.
Notation add := (SFadd prec emax).
Notation sub := (SFsub prec emax).
Notation mul := (SFmul prec emax).
Notation div := (SFdiv prec emax).
Notation sqrt := (SFsqrt prec emax).
Notation num := spec_float.

(** T(0), and the conversion of an integer to T *)
Definition f0 : num := S754_zero false.
Definition of_int (n : Z) : num := binary_normalize prec emax n 0 false.

(** ristra/math/general.h, 175-181: the loop; 163-168: std::inner_product, which performs the same
    operations, init + a*b from left to right; 184-189 calls the latter *)
Definition fdot (a b : list num) : num :=
  fold_left (fun dot p => add dot (mul (fst p) (snd p))) (combine a b) f0.
(** ristra/math/general.h, 214-220 (204-207 is sqrt(dot_product(a,a)), the same operations) *)
Definition fmagnitude (a : list num) : num :=
  sqrt (fold_left (fun s x => add s (mul x x)) a f0).
(** ristra/math/general.h, 251-259 *)
Definition fdelta_magnitude (a b : list num) : num :=
  sqrt (fold_left (fun s p => let del := sub (fst p) (snd p) in add s (mul del del)) (combine a b) f0).
(** ristra/geometry/point.h, 36-46: the difference is written twice *)
Definition fdistance (a b : list num) : num :=
  sqrt (fold_left (fun s p => add s (mul (sub (fst p) (snd p)) (sub (fst p) (snd p)))) (combine a b) f0).

(** ristra/math/general.h, 81-88 and 96-107: T avg(0); avg += x; avg /= vals.size() *)
Definition faverage (xs : list num) : num := div (fold_left add xs f0) (of_int (Z.of_nat (length xs))).
(** ristra/math/general.h, 41-47 with general_impl.h: starts from the first argument *)
Definition faverage_args (t : num) (args : list num) : num :=
  div (fold_left add args t) (of_int (Z.of_nat (length args) + 1)).
(** ristra/math/general.h, 55-58 *)
Definition faverage2 (t u : num) : num := div (add t u) (of_int 2).

(** std::min and std::max, and ristra/math/general.h, 278-322 *)
Definition std_min (a b : num) : num := if SFltb b a then b else a.
Definition std_max (a b : num) : num := if SFltb a b then b else a.
Definition fmin (a b : list num) : list num := map (fun p => std_min (fst p) (snd p)) (combine a b).
Definition fmax (a b : list num) : list num := map (fun p => std_max (fst p) (snd p)) (combine a b).
(** ristra/math/general.h, 340-343 *)
Definition fsgn (v : num) : Z := (Z.b2z (SFltb f0 v) - Z.b2z (SFltb v f0))%Z.
(** ristra/math/general.h, 330-337 *)
Definition fsqr (x : num) : num := mul x x.
Definition fcube (x : num) : num := mul (mul x x) x.

(** ristra/math/general.h, 361-366, with array / scalar of array.h, 686-696, which multiplies by static_cast<T>(1) / l *)
Definition funit (x : list num) : list num :=
  let l := fmagnitude x in let inv := div (of_int 1) l in map (fun c => mul c inv) x.
(** ristra/math/general.h, 381-384 *)
Definition fnormal2 (a b : num * num) : num * num := (sub (snd a) (snd b), sub (fst b) (fst a)).
(** ristra/math/general.h, 415-418 *)
Definition fcross2 (a b : num * num) : num := sub (mul (fst a) (snd b)) (mul (snd a) (fst b)).
(** ristra/math/general.h, 430-437 *)
Definition fcross3 (a b : num * num * num) : num * num * num :=
  let '(a0, a1, a2) := a in let '(b0, b1, b2) := b in
  (sub (mul a1 b2) (mul a2 b1), sub (mul a2 b0) (mul a0 b2), sub (mul a0 b1) (mul a1 b0)).
(** ristra/math/vector.h, 39-50: rot = n; rot *= 2*dot; tmp = v; tmp -= rot *)
Definition freflect (v n : list num) : list num :=
  let dot := fdot v n in
  map (fun p => sub (fst p) (mul (snd p) (mul (of_int 2) dot))) (combine v n).

(** ristra/geometry/area.h, 46-63: from the last point to the first, then along the list *)
Fixpoint farea_loop (a : num) (po : num * num) (pts : list (num * num)) : num :=
  match pts with
  | [] => a
  | pn :: rest => farea_loop (add a (sub (mul (fst po) (snd pn)) (mul (fst pn) (snd po)))) pn rest
  end.
Definition farea_2d (pts : list (num * num)) : num :=
  SFabs (div (farea_loop f0 (last pts (f0, f0)) pts) (of_int 2)).
(** ristra/geometry/area.h, 22-38 with area_impl.h, 22-38: the points as arguments; along the list, and
    from the last point back to the first at the end *)
Definition farea_2d_args (t : num * num) (args : list (num * num)) : num :=
  SFabs (div (farea_loop f0 t (args ++ [t])) (of_int 2)).
(** ristra/geometry/shapes/triangle.h, 64-73: half * abs(cross), half = 1/2 *)
Definition ftriangle_area (p0 p1 p2 : num * num) : num :=
  let u := (sub (fst p1) (fst p0), sub (snd p1) (snd p0)) in
  let v := (sub (fst p2) (fst p0), sub (snd p2) (snd p0)) in
  mul (div (of_int 1) (of_int 2)) (SFabs (fcross2 u v)).

(** ristra/math/matrix.h, 361-377: a matrix is its element function, n the inner dimension; the result
    starts from C(0), and C(i,j) += sum *)
Definition fmatmul (n : nat) (A B : nat -> nat -> num) (i j : nat) : num :=
  add f0 (fold_left (fun sum k => add sum (mul (A i k) (B k j))) (seq 0 n) f0).
(** ristra/math/matrix.h, 324-333 *)
Definition fmatvec (n : nat) (A : nat -> nat -> num) (x : nat -> num) (i : nat) : num :=
  fold_left (fun s j => add s (mul (A i j) (x j))) (seq 0 n) f0.
(** ristra/math/matrix.h, 547-560 and 521-532 *)
Definition ftranspose (A : nat -> nat -> num) (i j : nat) : num := A j i.
Definition fidentity (i j : nat) : num := if Nat.eqb i j then of_int 1 else f0.
(** ristra/math/matrix.h, 469-486: std::max( norm, sum_row ) *)
Definition finf_norm (n : nat) (A : nat -> nat -> num) : num :=
  fold_left (fun norm i => std_max norm (fold_left (fun s j => add s (SFabs (A i j))) (seq 0 n) f0)) (seq 0 n) f0.
(** ristra/math/matrix.h, 184-200: the determinant of the 2x2 inverse, and the inverse itself;
    the assertion is denom != 0, None stands for its failure; tmp /= denom is multi_array.h, 534-538, which
    multiplies by static_cast<T>(1) / denom *)
Definition fdet2 (a b c d : num) : num := sub (mul a d) (mul b c).
Definition finverse2 (a b c d : num) : option (num * num * num * num) :=
  let denom := fdet2 a b c d in
  if SFeqb denom f0 then None
  else let inv := div (of_int 1) denom in
       Some (mul d inv, mul (SFopp b) inv, mul (SFopp c) inv, mul a inv).
(** ristra/math/matrix.h, 231-233: the denominator of the 3x3 inverse *)
Definition fdet3 (a11 a12 a13 a21 a22 a23 a31 a32 a33 : num) : num :=
  sub (sub (sub (add (add (mul (mul a11 a22) a33) (mul (mul a12 a23) a31)) (mul (mul a13 a21) a32))
    (mul (mul a31 a22) a13)) (mul (mul a32 a23) a11)) (mul (mul a33 a21) a12).
End Format.
