(** Averages and shapes for points with integer coordinates. The functions are templates over the coordinate type; with
    T = int a constant like static_cast<T>(1)/static_cast<T>(3) is an integer division. Coordinates are unlimited
    integers here: products that overflow the type are outside of this model, except where conversions between int and
    size_t matter (the averages). *)
From Coq Require Import List ZArith Bool Lia.
From Verif Require Import Outcome.
Import ListNotations.
Local Open Scope Z_scope.

Record i2 := I2 { ix2 : Z; iy2 : Z }.
Record i3 := I3 { ix3 : Z; iy3 : Z; iz3 : Z }.

(** integer division truncates; division by zero is undefined *)
Definition idiv (a b : Z) : outcome Z := if b =? 0 then UB else Ok (Z.quot a b).
(** the constants third, half, fourth, eigth of the shapes *)
Definition inverse_of (n : Z) : Z := Z.quot 1 n.

(** ** triangle.h 40-98 (2-D), 110-170 (3-D; the normal only, the area goes through std::sqrt) *)
Definition itriangle2_midpoint (a b c : i2) : i2 :=
  let third := inverse_of 3 in I2 (third * (ix2 a + ix2 b + ix2 c)) (third * (iy2 a + iy2 b + iy2 c)).
Definition icross2 (u v : i2) : Z := ix2 u * iy2 v - iy2 u * ix2 v.
Definition itriangle2_area (a b c : i2) : Z :=
  let half := inverse_of 2 in
  half * Z.abs (icross2 (I2 (ix2 b - ix2 a) (iy2 b - iy2 a)) (I2 (ix2 c - ix2 a) (iy2 c - iy2 a))).
Definition itriangle2_normal (a b c : i2) : i2 :=
  let half := inverse_of 2 in
  I2 0 (half * icross2 (I2 (ix2 b - ix2 a) (iy2 b - iy2 a)) (I2 (ix2 c - ix2 a) (iy2 c - iy2 a))).
Definition isub3 (a b : i3) : i3 := I3 (ix3 a - ix3 b) (iy3 a - iy3 b) (iz3 a - iz3 b).
Definition iadd3 (a b : i3) : i3 := I3 (ix3 a + ix3 b) (iy3 a + iy3 b) (iz3 a + iz3 b).
Definition icross3 (u v : i3) : i3 :=
  I3 (iy3 u * iz3 v - iz3 u * iy3 v) (iz3 u * ix3 v - ix3 u * iz3 v) (ix3 u * iy3 v - iy3 u * ix3 v).
Definition itriangle3_normal (a b c : i3) : i3 :=
  let half := inverse_of 2 in let n := icross3 (isub3 b a) (isub3 c a) in
  I3 (ix3 n * half) (iy3 n * half) (iz3 n * half).
(** ** quadrilateral.h 46-56, 118-129; tetrahedron.h 39-51; hexahedron.h 132-146 *)
Definition iquad2_midpoint (a b c d : i2) : i2 :=
  let fourth := inverse_of 4 in
  I2 (fourth * (ix2 a + ix2 b + ix2 c + ix2 d)) (fourth * (iy2 a + iy2 b + iy2 c + iy2 d)).
Definition iquad3_midpoint (a b c d : i3) : i3 :=
  let fourth := inverse_of 4 in
  I3 (fourth * (ix3 a + ix3 b + ix3 c + ix3 d)) (fourth * (iy3 a + iy3 b + iy3 c + iy3 d))
     (fourth * (iz3 a + iz3 b + iz3 c + iz3 d)).
Definition ihex_midpoint (p0 p1 p2 p3 p4 p5 p6 p7 : i3) : i3 :=
  let e := inverse_of 8 in
  let f (c : i3 -> Z) := e * (c p0 + c p1 + c p2 + c p3 + c p4 + c p5 + c p6 + c p7) in I3 (f ix3) (f iy3) (f iz3).

(** ** polygon<2>, polygon.h: the iterator versions 249-269 and 319-340, loops as in GeometryModel.edge_loop *)
Definition iarea_body (po pn : i2) (a : Z) : Z := a + (ix2 po * iy2 pn - ix2 pn * iy2 po).
Definition iedge_sum (points : list i2) : Z :=
  match rev points with
  | [] => 0
  | po :: _ => fst (fold_left (fun st pn => (iarea_body (snd st) pn (fst st), pn)) points (0, po))
  end.
Definition ipolygon2_area (dbg : bool) (points : list i2) : outcome Z :=
  assert_then dbg (Nat.ltb 2 (length points))
    (match points with [] => UB | _ => Ok (Z.abs (Z.quot (iedge_sum points) 2)) end).
Definition ipolygon2_normal (dbg : bool) (points : list i2) : outcome i2 :=
  assert_then dbg (Nat.ltb 2 (length points))
    (match points with [] => UB | _ => Ok (I2 0 (Z.quot (iedge_sum points) 2)) end).
(** centroid 172-200: cx /= 3*a multiplies by static_cast<T>(1) / (3*a), array.h 424-429 *)
Definition icentroid_body (po pn : i2) (s : i2 * Z) : i2 * Z :=
  let tmp := ix2 po * iy2 pn - ix2 pn * iy2 po in
  (I2 (ix2 (fst s) + tmp * (ix2 po + ix2 pn)) (iy2 (fst s) + tmp * (iy2 po + iy2 pn)), snd s + tmp).
Definition icentroid_loop (points : list i2) : i2 * Z :=
  match rev points with
  | [] => (I2 0 0, 0)
  | po :: _ => fst (fold_left (fun st pn => (icentroid_body (snd st) pn (fst st), pn)) points ((I2 0 0, 0), po))
  end.
Definition ipolygon2_centroid (dbg : bool) (points : list i2) : outcome i2 :=
  assert_then dbg (Nat.ltb 2 (length points))
    (match points with [] => UB | _ =>
       let s := icentroid_loop points in
       bind (idiv 1 (3 * snd s)) (fun inv => Ok (I2 (ix2 (fst s) * inv) (iy2 (fst s) * inv))) end).

(** ** volumes: tetrahedron.h 56-74 (abs(det) / 6), hexahedron.h 151-172 (det / 12) *)
Definition itet_det (p0 p1 p2 p3 : i3) : Z :=
  ix3 p3 * iy3 p2 * iz3 p1 - ix3 p2 * iy3 p3 * iz3 p1 -
  ix3 p3 * iy3 p1 * iz3 p2 + ix3 p1 * iy3 p3 * iz3 p2 +
  ix3 p2 * iy3 p1 * iz3 p3 - ix3 p1 * iy3 p2 * iz3 p3 -
  ix3 p3 * iy3 p2 * iz3 p0 + ix3 p2 * iy3 p3 * iz3 p0 +
  ix3 p3 * iy3 p0 * iz3 p2 - ix3 p0 * iy3 p3 * iz3 p2 -
  ix3 p2 * iy3 p0 * iz3 p3 + ix3 p0 * iy3 p2 * iz3 p3 +
  ix3 p3 * iy3 p1 * iz3 p0 - ix3 p1 * iy3 p3 * iz3 p0 -
  ix3 p3 * iy3 p0 * iz3 p1 + ix3 p0 * iy3 p3 * iz3 p1 +
  ix3 p1 * iy3 p0 * iz3 p3 - ix3 p0 * iy3 p1 * iz3 p3 -
  ix3 p2 * iy3 p1 * iz3 p0 + ix3 p1 * iy3 p2 * iz3 p0 +
  ix3 p2 * iy3 p0 * iz3 p1 - ix3 p0 * iy3 p2 * iz3 p1 -
  ix3 p1 * iy3 p0 * iz3 p2 + ix3 p0 * iy3 p1 * iz3 p2.
Definition itet_volume (p0 p1 p2 p3 : i3) : Z := Z.quot (Z.abs (itet_det p0 p1 p2 p3)) 6.
(** triple_product, general.h 452-462 *)
Definition itriple (a b c : i3) : Z :=
  ix3 a * iy3 b * iz3 c + ix3 b * iy3 c * iz3 a + ix3 c * iy3 a * iz3 b
  - iz3 a * iy3 b * ix3 c - iz3 b * iy3 c * ix3 a - iz3 c * iy3 a * ix3 b.
Definition ihex_volume (p0 p1 p2 p3 p4 p5 p6 p7 : i3) : Z :=
  let d20 := isub3 p2 p0 in let d50 := isub3 p5 p0 in let d61 := isub3 p6 p1 in
  let d63 := isub3 p6 p3 in let d64 := isub3 p6 p4 in let d70 := isub3 p7 p0 in
  let d61_d70 := iadd3 d61 d70 in let d63_d50 := iadd3 d63 d50 in let d64_d20 := iadd3 d64 d20 in
  let det := Z.abs (itriple d61_d70 d63 d20) + Z.abs (itriple d70 d63_d50 d64) + Z.abs (itriple d61 d50 d64_d20) in
  Z.quot det 12.

(** ** point.h. midpoint 51-56: (a + b) / 2.0 multiplies by 0.5 in double (exact, sums of two int are below 2^53) and
    truncates on assignment. distance 36-46: std::sqrt in double, truncated on return (for sums below 2^52 this is
    the integer square root). centroid 64-84: multiplies by static_cast<T>(1) / size *)
Definition ipoint_midpoint (a b : list Z) : list Z := map (fun p => Z.quot (fst p + snd p) 2) (combine a b).
Definition ipoint_distance (a b : list Z) : Z :=
  Z.sqrt (fold_left (fun s p => s + (fst p - snd p) * (fst p - snd p)) (combine a b) 0).
Definition isum (D : nat) (vs : list (list Z)) : list Z :=
  fold_left (fun tmp v => map (fun p => fst p + snd p) (combine tmp v)) vs (repeat 0 D).
Definition ipoint_centroid (D : nat) (vs : list (list Z)) : outcome (list Z) :=
  bind (idiv 1 (Z.of_nat (length vs))) (fun inv => Ok (map (fun x => x * inv) (isum D vs))).

(** ** math::average of int, general.h 36-107. avg /= n with n a size_t converts avg to size_t (modulo 2^64) and the
    quotient back to int (the low 32 bits); with n a ptrdiff_t (iterators) the division is signed *)
Definition to_size (x : Z) : Z := x mod 2 ^ 64.
Definition to_int (x : Z) : Z := (x + 2 ^ 31) mod 2 ^ 32 - 2 ^ 31.
Definition int_range (x : Z) : bool := (- 2 ^ 31 <=? x) && (x <? 2 ^ 31).
(** avg += x: signed overflow is undefined *)
Fixpoint int_sum (l : list Z) (s : Z) : outcome Z :=
  match l with [] => Ok s | x :: t => if int_range (s + x) then int_sum t (s + x) else UB end.
Definition div_size (s : Z) (n : nat) : Z := to_int (Z.div (to_size s) (Z.of_nat n)).
(** three or more arguments 36-47 *)
Definition iaverage_args (t : Z) (args : list Z) : outcome Z :=
  bind (int_sum args t) (fun s => Ok (div_size s (length args + 1))).
(** two arguments 52-58 *)
Definition iaverage_two (t u : Z) : outcome Z := if int_range (t + u) then Ok (Z.quot (t + u) 2) else UB.
(** container 77-88 *)
Definition iaverage_container (dbg : bool) (l : list Z) : outcome Z :=
  assert_then dbg (Nat.ltb 0 (length l))
    (bind (int_sum l 0) (fun s => if Nat.eqb (length l) 0 then UB else Ok (div_size s (length l)))).
(** iterators 92-107 *)
Definition iaverage_iter (dbg : bool) (l : list Z) : outcome Z :=
  assert_then dbg (Nat.ltb 0 (length l))
    (bind (int_sum l 0) (fun s => bind (idiv s (Z.of_nat (length l))) (fun r => Ok r))).
