(** ristra/geometry/space_vector.h and the distance of ristra/geometry/point.h with elements that are not real numbers:
    floating-point numbers of any binary format (first part) and integers of any type (second part).
    Assumed as in FloatModel: no contraction, no extra precision, rounding to nearest.
    The exact functions are in SpaceVectorModel.v. *)
From Coq Require Import ZArith List SpecFloat Bool.
From Verif Require Import Outcome FloatModel AtomicsTypesModel.
Import ListNotations.

(** * floating-point elements *)
Section Float.
Variables prec emax : Z.
Notation num := spec_float.
Notation add := (SFadd prec emax).
Notation sub := (SFsub prec emax).
Notation mul := (SFmul prec emax).
(** operator*(v, s), space_vector.h 59-66: s * v[d] *)
Definition fsv_scale (v : list num) (s : num) : list num := map (fun x => mul s x) v.
(** dot 72-82, magnitude 88-97: T sum(0); sum += a[d]*b[d] *)
Definition fsv_dot (a b : list num) : num := fold_left (fun sum p => add sum (mul (fst p) (snd p))) (combine a b) f0.
Definition fsv_magnitude (a : list num) : num := SFsqrt prec emax (fold_left (fun sum x => add sum (mul x x)) a f0).
(** cross_magnitude in one dimension 103-107 *)
Definition fcross_magnitude1 (a b : num) : num := f0.
(** in two 112-116. fabs takes a double; for float the conversions there and back are exact and left out *)
Definition fcross_magnitude2 (a b : num * num) : num := SFabs (sub (mul (fst a) (snd b)) (mul (snd a) (fst b))).
(** in three 121-129; unary minus binds tighter than the product *)
Definition fcross_magnitude3 (a b : num * num * num) : num :=
  let '(a0, a1, a2) := a in let '(b0, b1, b2) := b in
  fsv_magnitude [sub (mul a1 b2) (mul a2 b1); add (mul (SFopp a0) b2) (mul a2 b0); sub (mul a0 b1) (mul a1 b0)].
(** normal of two points 136-141 and of two vectors 146-153 *)
Definition fsv_normal2 (a b : num * num) : num * num := (sub (snd a) (snd b), sub (fst b) (fst a)).
Definition fsv_normal3 (a b : num * num * num) : num * num * num :=
  let '(a0, a1, a2) := a in let '(b0, b1, b2) := b in
  (sub (mul a1 b2) (mul a2 b1), sub (mul a2 b0) (mul a0 b2), sub (mul a0 b1) (mul a1 b0)).
End Float.

(** * integer elements of type T = t: products and differences are computed in the promoted type *)
Local Open Scope Z_scope.
Section Integer.
Variable t : ity.
Let p := promote t.
Definition imul (x y : Z) : outcome Z := arith p (wrap p x * wrap p y).
Definition isub (x y : Z) : outcome Z := arith p (wrap p x - wrap p y).
Definition iadd (x y : Z) : outcome Z := arith p (wrap p x + wrap p y).
(** sum += x, with sum of type T *)
Definition iacc (sum x : Z) : outcome Z := bind (iadd sum x) (fun r => Ok (wrap t r)).
(** std::sqrt and fabs of an integer compute in double; the result is converted to T on return *)
Definition iroot (v : Z) : outcome Z := to_int t (SFsqrt 53 1024 (of_int 53 1024 v)).
Definition ifabs (v : Z) : outcome Z := to_int t (SFabs (of_int 53 1024 v)).
(** magnitude, space_vector.h 88-97 *)
Definition imagnitude (a : list Z) : outcome Z :=
  bind (fold_left (fun acc x => bind acc (fun sum => bind (imul x x) (iacc sum))) a (Ok 0)) iroot.
(** cross_magnitude in two dimensions 112-116 *)
Definition icross_magnitude2 (a b : Z * Z) : outcome Z :=
  bind (imul (fst a) (snd b)) (fun x => bind (imul (snd a) (fst b)) (fun y => bind (isub x y) ifabs)).
(** distance, point.h 36-46: the difference is computed twice, with the same result *)
Definition idistance (a b : list Z) : outcome Z :=
  bind (fold_left (fun acc q => bind acc (fun sum =>
    bind (isub (fst q) (snd q)) (fun d => bind (imul d d) (iacc sum)))) (combine a b) (Ok 0)) iroot.
End Integer.
