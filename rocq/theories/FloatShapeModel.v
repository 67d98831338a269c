(** Three-dimensional shapes, determinants and centroids in floating-point arithmetic.

    Continues FloatModel.v, under the same assumptions on the compiler and the machine: the operations of
    Coq.Floats.SpecFloat in the order of the source, where + and - associate to the left and so does the product. The int
    factors 1 and -1 in determinant are converted to T. *)
From Coq Require Import ZArith List Bool SpecFloat Arith.
From Verif Require Import FloatModel.
Import ListNotations.

Record p3 : Type := P3 { cx : spec_float; cy : spec_float; cz : spec_float }.

Section Format.
Variables prec emax : Z.
Notation num := spec_float.
Notation of_int := (of_int prec emax).
Infix "+!" := (SFadd prec emax) (at level 50, left associativity).
Infix "-!" := (SFsub prec emax) (at level 50, left associativity).
Infix "*!" := (SFmul prec emax) (at level 40, left associativity).
Infix "/!" := (SFdiv prec emax) (at level 40, left associativity).

(** ristra/math/general.h, 453-458 *)
Definition ftriple (a b c : p3) : num :=
  cx a *! cy b *! cz c +! cx b *! cy c *! cz a +! cx c *! cy a *! cz b -!
  cz a *! cy b *! cx c -! cz b *! cy c *! cx a -! cz c *! cy a *! cx b.

(** ristra/geometry/shapes/tetrahedron.h, 57-75 *)
Definition ftet_det (pt0 pt1 pt2 pt3 : p3) : num :=
  cx pt3 *! cy pt2 *! cz pt1 -! cx pt2 *! cy pt3 *! cz pt1 -!
  cx pt3 *! cy pt1 *! cz pt2 +! cx pt1 *! cy pt3 *! cz pt2 +!
  cx pt2 *! cy pt1 *! cz pt3 -! cx pt1 *! cy pt2 *! cz pt3 -!
  cx pt3 *! cy pt2 *! cz pt0 +! cx pt2 *! cy pt3 *! cz pt0 +!
  cx pt3 *! cy pt0 *! cz pt2 -! cx pt0 *! cy pt3 *! cz pt2 -!
  cx pt2 *! cy pt0 *! cz pt3 +! cx pt0 *! cy pt2 *! cz pt3 +!
  cx pt3 *! cy pt1 *! cz pt0 -! cx pt1 *! cy pt3 *! cz pt0 -!
  cx pt3 *! cy pt0 *! cz pt1 +! cx pt0 *! cy pt3 *! cz pt1 +!
  cx pt1 *! cy pt0 *! cz pt3 -! cx pt0 *! cy pt1 *! cz pt3 -!
  cx pt2 *! cy pt1 *! cz pt0 +! cx pt1 *! cy pt2 *! cz pt0 +!
  cx pt2 *! cy pt0 *! cz pt1 -! cx pt0 *! cy pt2 *! cz pt1 -!
  cx pt1 *! cy pt0 *! cz pt2 +! cx pt0 *! cy pt1 *! cz pt2.
Definition ftet_volume (pt0 pt1 pt2 pt3 : p3) : num := SFabs (ftet_det pt0 pt1 pt2 pt3) /! of_int 6.

(** the componentwise differences and sums of hexahedron.h, 158-166 *)
Definition fsub3 (a b : p3) : p3 := P3 (cx a -! cx b) (cy a -! cy b) (cz a -! cz b).
Definition fadd3 (a b : p3) : p3 := P3 (cx a +! cx b) (cy a +! cy b) (cz a +! cz b).
(** ristra/geometry/shapes/hexahedron.h, 152-173 *)
Definition fhex_volume (pt0 pt1 pt2 pt3 pt4 pt5 pt6 pt7 : p3) : num :=
  let d20 := fsub3 pt2 pt0 in
  let d50 := fsub3 pt5 pt0 in
  let d61 := fsub3 pt6 pt1 in
  let d63 := fsub3 pt6 pt3 in
  let d64 := fsub3 pt6 pt4 in
  let d70 := fsub3 pt7 pt0 in
  let d61_d70 := fadd3 d61 d70 in
  let d63_d50 := fadd3 d63 d50 in
  let d64_d20 := fadd3 d64 d20 in
  let det := SFabs (ftriple d61_d70 d63 d20) +! SFabs (ftriple d70 d63_d50 d64) +! SFabs (ftriple d61 d50 d64_d20) in
  det /! of_int 12.

(** one coordinate of triangle<2>::midpoint and triangle<3>::midpoint, ristra/geometry/shapes/triangle.h, 49-58 and
    117-127, of quadrilateral<D>::midpoint, quadrilateral.h, 48-58 and 122-133, of tetrahedron::midpoint,
    tetrahedron.h, 40-51, and of hexahedron::midpoint, hexahedron.h, 133-145; third, fourth and eigth are constants of
    the coordinate type *)
Definition fmid3 (a b c : num) : num := of_int 1 /! of_int 3 *! (a +! b +! c).
Definition fmid4 (a b c d : num) : num := of_int 1 /! of_int 4 *! (a +! b +! c +! d).
Definition fmid8 (a b c d e f g h : num) : num := of_int 1 /! of_int 8 *! (a +! b +! c +! d +! e +! f +! g +! h).

(** ristra/math/matrix.h, 104-130: without one row and one column *)
Definition fcofactor (A : nat -> nat -> num) (row col : nat) : nat -> nat -> num :=
  fun i j => A (if i <? row then i else S i) (if j <? col then j else S j).
(** ristra/math/matrix.h, 139-164 *)
Fixpoint fdeterminant (n : nat) (A : nat -> nat -> num) : num :=
  match n with
  | O => f0
  | S O => A 0 0
  | S k => fold_left (fun det i => det +! of_int (if Nat.eqb (i mod 2) 1 then -1 else 1) *! A 0 i *! fdeterminant k (fcofactor A 0 i)) (seq 0 n) f0
  end.
(** ristra/math/matrix.h, 203-241: None stands for the failed assertion; tmp /= denom multiplies by static_cast<T>(1) / denom,
    multi_array.h, 534-538 *)
Definition finverse3 (a11 a12 a13 a21 a22 a23 a31 a32 a33 : num) : option (list num) :=
  let tmp := [a22*!a33 -! a32*!a23; a13*!a32 -! a33*!a12; a12*!a23 -! a22*!a13;
              a23*!a31 -! a33*!a21; a11*!a33 -! a31*!a13; a13*!a21 -! a23*!a11;
              a21*!a32 -! a31*!a22; a12*!a31 -! a32*!a11; a11*!a22 -! a21*!a12] in
  let denom := fdet3 prec emax a11 a12 a13 a21 a22 a23 a31 a32 a33 in
  if SFeqb denom f0 then None else let inv := of_int 1 /! denom in Some (map (fun t => t *! inv) tmp).
(** ristra/math/matrix.h, 244-271: the assertion is std::abs(det) > 0 *)
Definition finverse (n : nat) (A : nat -> nat -> num) : option (nat -> nat -> num) :=
  let det := fdeterminant n A in
  if SFltb f0 (SFabs det) then
    let inv_det := of_int 1 /! det in
    Some (fun i j => let val := inv_det *! fdeterminant (n - 1) (fcofactor A j i) in
                     if Nat.eqb ((i + j) mod 2) 1 then SFopp val else val)
  else None.

(** ristra/geometry/centroid_impl.h, 30-42, called by centroid.h, 27-45: the points as arguments, the first again at the end *)
Fixpoint fcentroid_args_loop (s : num * num * num) (v1 : num * num) (pts : list (num * num)) : num * num * num :=
  match pts with
  | [] => s
  | v2 :: rest =>
      let '(c0, c1, vol) := s in
      let tmp := fst v1 *! snd v2 -! fst v2 *! snd v1 in
      fcentroid_args_loop (c0 +! (fst v1 +! fst v2) *! tmp, c1 +! (snd v1 +! snd v2) *! tmp, vol +! tmp) v2 rest
  end.
(** cx /= 3 * vol, array.h, 424-429 *)
Definition fcentroid_end (s : num * num * num) : num * num :=
  let '(c0, c1, vol) := s in let inv := of_int 1 /! (of_int 3 *! vol) in (c0 *! inv, c1 *! inv).
Definition fcentroid_args (t : num * num) (args : list (num * num)) : num * num :=
  fcentroid_end (fcentroid_args_loop (f0, f0, f0) t (args ++ [t])).
(** ristra/geometry/centroid.h, 50-76: from the last point to the first, then along the list *)
Fixpoint fcentroid_loop (s : num * num * num) (po : num * num) (pts : list (num * num)) : num * num * num :=
  match pts with
  | [] => s
  | pn :: rest =>
      let '(c0, c1, a) := s in
      let tmp := fst po *! snd pn -! fst pn *! snd po in
      fcentroid_loop (c0 +! tmp *! (fst po +! fst pn), c1 +! tmp *! (snd po +! snd pn), a +! tmp) pn rest
  end.
Definition fcentroid_2d (pts : list (num * num)) : num * num :=
  fcentroid_end (fcentroid_loop (f0, f0, f0) (last pts (f0, f0)) pts).
End Format.
