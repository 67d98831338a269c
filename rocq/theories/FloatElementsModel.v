(** Shape functions with rounding: the formulas of ristra/elements/elements.cc 878-2127 as texts that can be read with
    any arithmetic.
    - [T] with add, sub, mul, divn (division by a whole literal) and int (a whole literal) is the arithmetic; reading the
      texts with SFadd, SFsub, SFmul, SFdiv gives what the code computes with real_t a binary floating point type:
      every operation rounds to nearest, ties to even, in the order of the text (no contraction to fma, no excess
      precision, no reassociation).
    - literals such as 1.0, 9.0 or the int 1 converted to double are whole numbers and exact; 1.0/4.0, 9.0/32.0 and
      +-1./3. are divisions of literals, rounded in the same way.
    - loops, order of writes and junk (what an array holds before it is written) are as in ElementsModel.v, whose reading
      over exact reals is recovered in FloatElementsProps.v (C162_text). *)
From Coq Require Import ZArith List Bool SpecFloat Reals.
From Verif Require Import Outcome VectorModel ElementsModel FloatModel FloatExpr.
Import ListNotations.

Inductive elem := Quad4 | Quad8 | Quad12 | Hex8 | Hex20 | Hex32.
Inductive func := Shape | Partial_xi | Partial_eta | Partial_mu.
Definition nodes_of (e : elem) : nat := match e with Quad4 => 4 | Quad8 => 8 | Quad12 => 12 | Hex8 => 8 | Hex20 => 20 | Hex32 => 32 end.
Definition dims_of (e : elem) : nat := match e with Quad4 | Quad8 | Quad12 => 2 | _ => 3 end.
(* the 2D classes have no partial_mu_shape_fcn *)
Definition has (e : elem) (f : func) : bool := match e, f with (Quad4 | Quad8 | Quad12), Partial_mu => false | _, _ => true end.

Section Text.
Context {T : Type} (add sub mul : T -> T -> T) (divn : T -> Z -> T) (int : Z -> T).
Declare Scope text_scope.
Local Open Scope nat_scope.
Local Open Scope text_scope.
Local Notation "a + b" := (add a b) : text_scope.
Local Notation "a - b" := (sub a b) : text_scope.
Local Notation "a * b" := (mul a b) : text_scope.
Local Notation "a / n" := (divn a n%Z) : text_scope.
Local Notation "# n" := (int n%Z) (at level 1, n at level 0, format "# n") : text_scope.
Definition vecT := nat -> T.
Definition setT (v : vecT) (i : nat) (x : T) : vecT := fun k => if Nat.eqb k i then x else v k.
Definition tabT (t : list (list T)) (i d : nat) : T := nth d (nth i t []) #0.
(* "x_point[dim] = 0.0" and "x_point[dim] += vertices[this_vert][dim]*shape_fcn[this_vert]": 904-911, 1037-1045,
   1228-1236, 1424-1432, 1929-1934 *)
Definition zero_pointT (D : nat) (xp : vecT) : vecT := for_step 0 D 1 (fun d xp => setT xp d #0) xp.
Definition positionT (n D : nat) (shape : vecT) (vertices : nat -> vecT) (xp : vecT) : vecT :=
  for_step 0 n 1 (fun v xp => for_step 0 D 1 (fun d xp => setT xp d (xp d + vertices v d * shape v)) xp) (zero_pointT D xp).
(* the same with the two loops exchanged: Hex20, 1605-1614 *)
Definition position_dim_firstT (n D : nat) (shape : vecT) (vertices : nat -> vecT) (xp : vecT) : vecT :=
  for_step 0 D 1 (fun d xp => for_step 0 n 1 (fun v xp => setT xp d (xp d + vertices v d * shape v)) xp) (zero_pointT D xp).


(** ** Quad_4_2D *)

(* elements.cc 878-884 ref_vert of Quad_4_2D *)
Definition quad4_refT : nat -> vecT := tabT [
  [#(-1); #(-1)]; [#1; #(-1)]; [#1; #1]; [#(-1); #1]].

(* elements.cc 887-921 Quad_4_2D::physical_position, the local array shape_fcn *)
Definition quad4_shapeT (x junk : vecT) : vecT :=
  let a := for_step 0 4 1 (fun i a => setT a i (
    #1 / 4 * (#1 + x 0*quad4_refT i 0) * (#1 + x 1*quad4_refT i 1))) junk in
  a.

(* elements.cc 924-936 Quad_4_2D::basis *)
Definition quad4_basisT (x junk : vecT) : vecT :=
  let a := for_step 0 4 1 (fun i a => setT a i (
    #1 / 4 * (#1 + x 0*quad4_refT i 0) * (#1 + x 1*quad4_refT i 1))) junk in
  a.

(* elements.cc 940-950 Quad_4_2D::partial_xi_shape_fcn *)
Definition quad4_partial_xiT (x junk : vecT) : vecT :=
  let a := for_step 0 4 1 (fun i a => setT a i (
    (#1 / 4) * (quad4_refT i 0) * (#1 + x 1*quad4_refT i 1))) junk in
  a.

(* elements.cc 954-963 Quad_4_2D::partial_eta_shape_fcn *)
Definition quad4_partial_etaT (x junk : vecT) : vecT :=
  let a := for_step 0 4 1 (fun i a => setT a i (
    (#1 / 4) * (#1 + x 0*quad4_refT i 0) * (quad4_refT i 1))) junk in
  a.


(** ** Quad_8_2D *)

(* elements.cc 990-1002 ref_vert of Quad_8_2D *)
Definition quad8_refT : nat -> vecT := tabT [
  [#(-1); #(-1)]; [#1; #(-1)]; [#1; #1]; [#(-1); #1]; [#0; #(-1)]; [#1; #0]; [#0; #1]; [#(-1); #0]].

(* elements.cc 1006-1054 Quad_8_2D::physical_position, the local array shape_fcn *)
Definition quad8_shapeT (x junk : vecT) : vecT :=
  let a := for_step 0 4 1 (fun i a => setT a i (
    #1 / 4 * (#1 + x 0*quad8_refT i 0) * (#1 + x 1*quad8_refT i 1) * (x 0*quad8_refT i 0 + x 1*quad8_refT i 1 - #1))) junk in
  let a := for_step 4 7 2 (fun i a => setT a i (
    #1 / 2 * (#1 - x 0*x 0) * (#1 + x 1*quad8_refT i 1))) a in
  let a := for_step 5 8 2 (fun i a => setT a i (
    #1 / 2 * (#1 + x 0*quad8_refT i 0) * (#1 - x 1*x 1))) a in
  a.

(* elements.cc 1057-1085 Quad_8_2D::basis *)
Definition quad8_basisT (x junk : vecT) : vecT :=
  let a := for_step 0 4 1 (fun i a => setT a i (
    #1 / 4 * (#1 + x 0*quad8_refT i 0) * (#1 + x 1*quad8_refT i 1) * (x 0*quad8_refT i 0 + x 1*quad8_refT i 1 - #1))) junk in
  let a := for_step 4 7 2 (fun i a => setT a i (
    #1 / 2 * (#1 - x 0*x 0) * (#1 + x 1*quad8_refT i 1))) a in
  let a := for_step 5 8 2 (fun i a => setT a i (
    #1 / 2 * (#1 + x 0*quad8_refT i 0) * (#1 - x 1*x 1))) a in
  a.

(* elements.cc 1088-1115 Quad_8_2D::partial_xi_shape_fcn *)
Definition quad8_partial_xiT (x junk : vecT) : vecT :=
  let a := for_step 0 4 1 (fun i a => setT a i (
    #1 / 4 * (quad8_refT i 0) * (#1 + quad8_refT i 1*x 1) *((#2 * quad8_refT i 0*x 0) + (quad8_refT i 1*x 1)))) junk in
  let a := for_step 4 7 2 (fun i a => setT a i (
    #(-1) * (x 0) * (#1 + quad8_refT i 1*x 1))) a in
  let a := for_step 5 8 2 (fun i a => setT a i (
    #1 / 2 * (quad8_refT i 0) * (#1 - x 1*x 1))) a in
  a.

(* elements.cc 1118-1144 Quad_8_2D::partial_eta_shape_fcn *)
Definition quad8_partial_etaT (x junk : vecT) : vecT :=
  let a := for_step 0 4 1 (fun i a => setT a i (
    #1 / 4 * (#1 + quad8_refT i 0*x 0) * (quad8_refT i 1) *((quad8_refT i 0*x 0) + (#2 * quad8_refT i 1*x 1)))) junk in
  let a := for_step 4 7 2 (fun i a => setT a i (
    #1 / 2 * (#1 - x 0*x 0) * (quad8_refT i 1))) a in
  let a := for_step 5 8 2 (fun i a => setT a i (
    #(-1) * (#1 + quad8_refT i 0*x 0) * (x 1))) a in
  a.


(** ** Quad_12_2D *)

(* elements.cc 1171-1188 ref_vert of Quad_12_2D *)
Definition quad12_refT : nat -> vecT := tabT [
  [#(-1); #(-1)]; [#1; #(-1)]; [#1; #1]; [#(-1); #1]; [#(-1) / 3; #(-1)]; [#1 / 3; #(-1)]; [#1 / 3; #1];
  [#(-1) / 3; #1]; [#(-1); #(-1) / 3]; [#1; #(-1) / 3]; [#1; #1 / 3]; [#(-1); #1 / 3]].

(* elements.cc 1191-1244 Quad_12_2D::physical_position, the local array shape_fcn *)
Definition quad12_shapeT (x junk : vecT) : vecT :=
  let a := for_step 0 4 1 (fun i a => setT a i (
    #1 / 32 * (#1 + quad12_refT i 0 * x 0) * (#1 + quad12_refT i 1 * x 1) * (#9 * (x 0 * x 0 + x 1 * x 1) - (#10)))) junk in
  let a := for_step 4 8 1 (fun i a => setT a i (
    #9 / 32 * (#1 - x 0 * x 0) * (#1 + x 1 * quad12_refT i 1) * (#1 + #9 * x 0 * quad12_refT i 0))) a in
  let a := for_step 8 12 1 (fun i a => setT a i (
    #9 / 32 * (#1 + x 0 * quad12_refT i 0) * (#1 - x 1 * x 1) * (#1 + #9 * x 1 * quad12_refT i 1))) a in
  a.

(* elements.cc 1278-1313 Quad_12_2D::partial_xi_shape_fcn *)
Definition quad12_partial_xiT (x junk : vecT) : vecT :=
  let a := for_step 0 4 1 (fun i a => setT a i (
    #1 / 32 * (#1 + x 1 * quad12_refT i 1) *((#9 * quad12_refT i 0 * (x 0 * x 0 + x 1 * x 1)) + (#18 * x 0 * (#1 +
      x 0 * quad12_refT i 0)) - (#10 * quad12_refT i 0)))) junk in
  let a := for_step 4 8 1 (fun i a => setT a i (
    (#9 / 32) * (#1 + x 1 * quad12_refT i 1) *((#9 * quad12_refT i 0 * (#1 - #3 * x 0*x 0)) - (#2 * x 0)))) a in
  let a := for_step 8 12 1 (fun i a => setT a i (
    #9 / 32 * (quad12_refT i 0) * (#1 - x 1 * x 1) * (#1 + #9 * x 1 * quad12_refT i 1))) a in
  a.

(* elements.cc 1316-1349 Quad_12_2D::partial_eta_shape_fcn *)
Definition quad12_partial_etaT (x junk : vecT) : vecT :=
  let a := for_step 0 4 1 (fun i a => setT a i (
    #1 / 32 * (#1 + x 0 * quad12_refT i 0) *((#9 * quad12_refT i 1 * (x 0 * x 0 + x 1 * x 1)) + (#18 * x 1 * (#1 +
      x 1 * quad12_refT i 1)) - (#10 * quad12_refT i 1)))) junk in
  let a := for_step 4 8 1 (fun i a => setT a i (
    #9 / 32 * (#1 - x 0 * x 0) * (#1 + #9 * x 0 * quad12_refT i 0) * (quad12_refT i 1))) a in
  let a := for_step 8 12 1 (fun i a => setT a i (
    #9 / 32 * (#1 + x 0 * quad12_refT i 0) *((#9 * quad12_refT i 1 * (#1 - #3 * x 1*x 1)) - (#2 * x 1)))) a in
  a.


(** ** Hex8 *)

(* elements.cc 1392-1404 ref_vert of Hex8 *)
Definition hex8_refT : nat -> vecT := tabT [
  [#(-1); #(-1); #(-1)]; [#1; #(-1); #(-1)]; [#1; #(-1); #1]; [#(-1); #(-1); #1]; [#(-1); #1; #(-1)];
  [#1; #1; #(-1)]; [#1; #1; #1]; [#(-1); #1; #1]].

(* elements.cc 1407-1437 Hex8::physical_position, the local array shape_fcn *)
Definition hex8_shapeT (x junk : vecT) : vecT :=
  let a := for_step 0 8 1 (fun i a => setT a i (
    #1 / 8 * (#1 + x 0*hex8_refT i 0) * (#1 + x 1*hex8_refT i 1) * (#1 + x 2*hex8_refT i 2))) junk in
  a.

(* elements.cc 1440-1452 Hex8::basis *)
Definition hex8_basisT (x junk : vecT) : vecT :=
  let a := for_step 0 8 1 (fun i a => setT a i (
    #1 / 8 * (#1 + x 0*hex8_refT i 0) * (#1 + x 1*hex8_refT i 1) * (#1 + x 2*hex8_refT i 2))) junk in
  a.

(* elements.cc 1456-1468 Hex8::partial_xi_shape_fcn *)
Definition hex8_partial_xiT (x junk : vecT) : vecT :=
  let a := for_step 0 8 1 (fun i a => setT a i (
    (#1 / 8) * (hex8_refT i 0) * (#1 + x 1*hex8_refT i 1) * (#1 + x 2*hex8_refT i 2))) junk in
  a.

(* elements.cc 1471-1481 Hex8::partial_eta_shape_fcn *)
Definition hex8_partial_etaT (x junk : vecT) : vecT :=
  let a := for_step 0 8 1 (fun i a => setT a i (
    (#1 / 8) * (#1 + x 0*hex8_refT i 0) * (hex8_refT i 1) * (#1 + x 2*hex8_refT i 2))) junk in
  a.

(* elements.cc 1484-1494 Hex8::partial_mu_shape_fcn *)
Definition hex8_partial_muT (x junk : vecT) : vecT :=
  let a := for_step 0 8 1 (fun i a => setT a i (
    (#1 / 8) * (#1 + x 0*hex8_refT i 0) * (#1 + x 1*hex8_refT i 1) * (hex8_refT i 2))) junk in
  a.


(** ** Hex20 *)

(* elements.cc 1525-1552 ref_vert of Hex20 *)
Definition hex20_refT : nat -> vecT := tabT [
  [#(-1); #(-1); #(-1)]; [#1; #(-1); #(-1)]; [#1; #(-1); #1]; [#(-1); #(-1); #1]; [#(-1); #1; #(-1)];
  [#1; #1; #(-1)]; [#1; #1; #1]; [#(-1); #1; #1]; [#0; #(-1); #(-1)]; [#1; #(-1); #0]; [#0; #(-1); #1];
  [#(-1); #(-1); #0]; [#0; #1; #(-1)]; [#1; #1; #0]; [#0; #1; #1]; [#(-1); #1; #0]; [#(-1); #0; #(-1)];
  [#1; #0; #(-1)]; [#1; #0; #1]; [#(-1); #0; #1]].

(* elements.cc 1556-1620 Hex20::physical_position, the local array shape_fcn *)
Definition hex20_shapeT (x junk : vecT) : vecT :=
  let a := for_step 0 8 1 (fun i a => setT a i (
    #1 / 8 * (#1 + x 0*hex20_refT i 0) * (#1 + x 1*hex20_refT i 1) * (#1 + x 2*hex20_refT i 2) * (x 0*hex20_refT i
      0 + x 1*hex20_refT i 1 + x 2*hex20_refT i 2 - #2))) junk in
  let a := for_step 8 15 2 (fun i a => setT a i (
    #1 / 4 * (#1 - x 0*x 0) * (#1 + x 1*hex20_refT i 1) * (#1 + x 2*hex20_refT i 2))) a in
  let a := for_step 16 20 1 (fun i a => setT a i (
    #1 / 4 * (#1 + x 0*hex20_refT i 0) * (#1 - x 1*x 1) * (#1 + x 2*hex20_refT i 2))) a in
  let a := for_step 9 16 2 (fun i a => setT a i (
    #1 / 4 * (#1 + x 0*hex20_refT i 0) * (#1 + x 1*hex20_refT i 1) * (#1 - x 2*x 2))) a in
  a.

(* elements.cc 1623-1662 Hex20::basis *)
Definition hex20_basisT (x junk : vecT) : vecT :=
  let a := for_step 0 8 1 (fun i a => setT a i (
    #1 / 8 * (#1 + x 0*hex20_refT i 0) * (#1 + x 1*hex20_refT i 1) * (#1 + x 2*hex20_refT i 2) * (x 0*hex20_refT i
      0 + x 1*hex20_refT i 1 + x 2*hex20_refT i 2 - #2))) junk in
  let a := for_step 8 15 2 (fun i a => setT a i (
    #1 / 4 * (#1 - x 0*x 0) * (#1 + x 1*hex20_refT i 1) * (#1 + x 2*hex20_refT i 2))) a in
  let a := for_step 16 20 1 (fun i a => setT a i (
    #1 / 4 * (#1 + x 0*hex20_refT i 0) * (#1 - x 1*x 1) * (#1 + x 2*hex20_refT i 2))) a in
  let a := for_step 9 16 2 (fun i a => setT a i (
    #1 / 4 * (#1 + x 0*hex20_refT i 0) * (#1 + x 1*hex20_refT i 1) * (#1 - x 2*x 2))) a in
  a.

(* elements.cc 1666-1705 Hex20::partial_xi_shape_fcn *)
Definition hex20_partial_xiT (x junk : vecT) : vecT :=
  let a := for_step 0 8 1 (fun i a => setT a i (
    (#1 / 8) * (hex20_refT i 0) * (#1 + (x 1*hex20_refT i 1)) * (#1 + (x 2*hex20_refT i 2)) * (#2 * (x 0*hex20_refT
      i 0) + x 1*hex20_refT i 1 + x 2*hex20_refT i 2 - #1))) junk in
  let a := for_step 8 15 2 (fun i a => setT a i (
    (#(-1) / 2) * (x 0) * (#1 + x 1*hex20_refT i 1) * (#1 + x 2*hex20_refT i 2))) a in
  let a := for_step 9 16 2 (fun i a => setT a i (
    (#1 / 4) * (hex20_refT i 0) * (#1 + x 1*hex20_refT i 1) * (#1 - x 2*x 2))) a in
  let a := for_step 16 20 1 (fun i a => setT a i (
    (#1 / 4) * (hex20_refT i 0) * (#1 - x 1*x 1) * (#1 + x 2*hex20_refT i 2))) a in
  a.

(* elements.cc 1708-1746 Hex20::partial_eta_shape_fcn *)
Definition hex20_partial_etaT (x junk : vecT) : vecT :=
  let a := for_step 0 8 1 (fun i a => setT a i (
    (#1 / 8) * (#1 + x 0*hex20_refT i 0) * (hex20_refT i 1) * (#1 + x 2*hex20_refT i 2) * (x 0*hex20_refT i 0 + #2
      * x 1*hex20_refT i 1 + x 2*hex20_refT i 2 - #1))) junk in
  let a := for_step 8 15 2 (fun i a => setT a i (
    (#1 / 4) * (#1 - (x 0*x 0)) * (hex20_refT i 1) * (#1 + x 2*hex20_refT i 2))) a in
  let a := for_step 9 16 2 (fun i a => setT a i (
    (#1 / 4) * (#1 + x 0*hex20_refT i 0) * (hex20_refT i 1) * (#1 - (x 2*x 2)))) a in
  let a := for_step 16 20 1 (fun i a => setT a i (
    (#(-1) / 2) * (#1 + x 0*hex20_refT i 0) * (x 1) * (#1 + x 2*hex20_refT i 2))) a in
  a.

(* elements.cc 1749-1787 Hex20::partial_mu_shape_fcn *)
Definition hex20_partial_muT (x junk : vecT) : vecT :=
  let a := for_step 0 8 1 (fun i a => setT a i (
    (#1 / 8) * (#1 + x 0*hex20_refT i 0) * (#1 + x 1*hex20_refT i 1) * (hex20_refT i 2) * ((x 0*hex20_refT i 0) +
      (x 1*hex20_refT i 1) + (#2 * x 2*hex20_refT i 2) - #1))) junk in
  let a := for_step 8 15 2 (fun i a => setT a i (
    (#1 / 4) * (#1 - (x 0*x 0)) * (#1 + x 1*hex20_refT i 1) * (hex20_refT i 2))) a in
  let a := for_step 9 16 2 (fun i a => setT a i (
    (#(-1) / 2) * (#1 + x 0*hex20_refT i 0) * (#1 + x 1*hex20_refT i 1) * (x 2))) a in
  let a := for_step 16 20 1 (fun i a => setT a i (
    (#1 / 4) * (#1 + x 0*hex20_refT i 0) * (#1 - x 1*x 1) * (hex20_refT i 2))) a in
  a.


(** ** Hex32 *)

(* elements.cc 1830-1867 ref_vert of Hex32 *)
Definition hex32_refT : nat -> vecT := tabT [
  [#(-1); #(-1); #(-1)]; [#1; #(-1); #(-1)]; [#1; #(-1); #1]; [#(-1); #(-1); #1]; [#(-1); #1; #(-1)];
  [#1; #1; #(-1)]; [#1; #1; #1]; [#(-1); #1; #1]; [#(-1); #(-1); #(-1) / 3]; [#1; #(-1); #(-1) / 3];
  [#1; #(-1); #1 / 3]; [#(-1); #(-1); #1 / 3]; [#(-1); #1; #(-1) / 3]; [#1; #1; #(-1) / 3]; [#1; #1; #1 / 3];
  [#(-1); #1; #1 / 3]; [#(-1) / 3; #(-1); #(-1)]; [#1 / 3; #(-1); #(-1)]; [#1 / 3; #(-1); #1];
  [#(-1) / 3; #(-1); #1]; [#(-1) / 3; #1; #(-1)]; [#1 / 3; #1; #(-1)]; [#1 / 3; #1; #1]; [#(-1) / 3; #1; #1];
  [#(-1); #(-1) / 3; #(-1)]; [#1; #(-1) / 3; #(-1)]; [#1; #(-1) / 3; #1]; [#(-1); #(-1) / 3; #1];
  [#(-1); #1 / 3; #(-1)]; [#1; #1 / 3; #(-1)]; [#1; #1 / 3; #1]; [#(-1); #1 / 3; #1]].

(* elements.cc 1871-1941 Hex32::physical_position, the local array shape_fcn *)
Definition hex32_shapeT (x junk : vecT) : vecT :=
  let a := for_step 0 8 1 (fun i a => setT a i (
    #1 / 64 * (#1 + x 0*hex32_refT i 0) * (#1 + x 1*hex32_refT i 1) * (#1 + x 2*hex32_refT i 2) * (#9 * x 0*x 0 +
      #9 * x 1*x 1 + #9 * x 2*x 2 - #19))) junk in
  let a := for_step 8 16 1 (fun i a => setT a i (
    #9 / 64 * (#1 + x 0*hex32_refT i 0) * (#1 + x 1*hex32_refT i 1) * (#1 + #9 * x 2*hex32_refT i 2) * (#1 - x 2*x
      2))) a in
  let a := for_step 16 24 1 (fun i a => setT a i (
    #9 / 64 * (#1 - x 0*x 0) * (#1 + #9 * x 0*hex32_refT i 0) * (#1 + x 1*hex32_refT i 1) * (#1 + x 2*hex32_refT i
      2))) a in
  let a := for_step 24 32 1 (fun i a => setT a i (
    #9 / 64 * (#1 + x 0*hex32_refT i 0) * (#1 - x 1*x 1) * (#1 + #9 * x 1*hex32_refT i 1) * (#1 + x 2*hex32_refT i
      2))) a in
  a.

(* elements.cc 1944-1989 Hex32::basis *)
Definition hex32_basisT (x junk : vecT) : vecT :=
  let a := for_step 0 8 1 (fun i a => setT a i (
    #1 / 64 * (#1 + x 0*hex32_refT i 0) * (#1 + x 1*hex32_refT i 1) * (#1 + x 2*hex32_refT i 2) * (#9 * x 0*x 0 +
      #9 * x 1*x 1 + #9 * x 2*x 2 - #19))) junk in
  let a := for_step 8 16 1 (fun i a => setT a i (
    #9 / 64 * (#1 + x 0*hex32_refT i 0) * (#1 + x 1*hex32_refT i 1) * (#1 + #9 * x 2*hex32_refT i 2) * (#1 - x 2*x
      2))) a in
  let a := for_step 16 24 1 (fun i a => setT a i (
    #9 / 64 * (#1 - x 0*x 0) * (#1 + #9 * x 0*hex32_refT i 0) * (#1 + x 1*hex32_refT i 1) * (#1 + x 2*hex32_refT i
      2))) a in
  let a := for_step 24 32 1 (fun i a => setT a i (
    #9 / 64 * (#1 + x 0*hex32_refT i 0) * (#1 - x 1*x 1) * (#1 + #9 * x 1*hex32_refT i 1) * (#1 + x 2*hex32_refT i
      2))) a in
  a.

(* elements.cc 1993-2034 Hex32::partial_xi_shape_fcn *)
Definition hex32_partial_xiT (x junk : vecT) : vecT :=
  let a := for_step 0 8 1 (fun i a => setT a i (
    #1 / 64 * (#1 + x 1 * hex32_refT i 1) * (#1 + x 2 * hex32_refT i 2) *((#9 * (hex32_refT i 0) * (x 0*x 0 + x 1*x
      1 + x 2*x 2)) + (#18 * x 0 * (#1 + x 0*hex32_refT i 0)) - (#19 * hex32_refT i 0)))) junk in
  let a := for_step 8 16 1 (fun i a => setT a i (
    #9 / 64 * (hex32_refT i 0) * (#1 + x 1 * hex32_refT i 1) * (#1 + #9 * x 2 * hex32_refT i 2) * (#1 - x 2 * x 2))) a in
  let a := for_step 16 24 1 (fun i a => setT a i (
    #9 / 64 * (#1 + x 1 * hex32_refT i 1) * (#1 + x 2 * hex32_refT i 2) * (#9 * hex32_refT i 0 * (#1 - #3 * x 0 * x
      0) - (#2 * x 0)))) a in
  let a := for_step 24 32 1 (fun i a => setT a i (
    #9 / 64 * (hex32_refT i 0) * (#1 - x 1 * x 1) * (#1 + #9 * x 1 * hex32_refT i 1) * (#1 + x 2 * hex32_refT i 2))) a in
  a.

(* elements.cc 2037-2080 Hex32::partial_eta_shape_fcn *)
Definition hex32_partial_etaT (x junk : vecT) : vecT :=
  let a := for_step 0 8 1 (fun i a => setT a i (
    #1 / 64 * (#1 + x 0 * hex32_refT i 0) * (#1 + x 2 * hex32_refT i 2) *((#9 * hex32_refT i 1 * (x 0*x 0 + x 1*x 1
      + x 2*x 2)) + (#18 * x 1 * (#1 + x 1*hex32_refT i 1)) - (#19 * hex32_refT i 1)))) junk in
  let a := for_step 8 16 1 (fun i a => setT a i (
    #9 / 64 * (#1 + x 0 * hex32_refT i 0) * (hex32_refT i 1) * (#1 + #9 * x 2 * hex32_refT i 2) * (#1 - x 2 * x 2))) a in
  let a := for_step 16 24 1 (fun i a => setT a i (
    #9 / 64 * (#1 - x 0 * x 0) * (#1 + #9 * x 0 * hex32_refT i 0) * (hex32_refT i 1) * (#1 + x 2 * hex32_refT i 2))) a in
  let a := for_step 24 32 1 (fun i a => setT a i (
    #9 / 64 * (#1 + x 0 * hex32_refT i 0) * (#1 + x 2 * hex32_refT i 2) *((#9 * hex32_refT i 1 * (#1 - #3 * x 1 * x
      1)) - (#2 * x 1)))) a in
  a.

(* elements.cc 2083-2127 Hex32::partial_mu_shape_fcn *)
Definition hex32_partial_muT (x junk : vecT) : vecT :=
  let a := for_step 0 8 1 (fun i a => setT a i (
    #1 / 64 * (#1 + x 0 * hex32_refT i 0) * (#1 + x 1 * hex32_refT i 1) *((#9 * (hex32_refT i 2) * (x 0*x 0 + x 1*x
      1 + x 2*x 2)) + (#18 * x 2 * (#1 + x 2*hex32_refT i 2)) - (#19 * hex32_refT i 2)))) junk in
  let a := for_step 8 16 1 (fun i a => setT a i (
    #9 / 64 * (#1 + x 0 * hex32_refT i 0) * (#1 + x 1 * hex32_refT i 1) *((#9 * hex32_refT i 2 * (#1 - #3 * x 2 * x
      2)) - (#2 * x 2)))) a in
  let a := for_step 16 24 1 (fun i a => setT a i (
    #9 / 64 * (#1 - x 0 * x 0) * (#1 + #9 * x 0 * hex32_refT i 0) * (#1 + x 1 * hex32_refT i 1) * (hex32_refT i 2))) a in
  let a := for_step 24 32 1 (fun i a => setT a i (
    #9 / 64 * (#1 + x 0 * hex32_refT i 0) * (#1 - x 1 * x 1) * (#1 + #9 * x 1 * hex32_refT i 1) * (hex32_refT i 2))) a in
  a.


(** ** physical_position: 887-921, 1006-1054, 1191-1244, 1407-1437, 1556-1620, 1871-1941 *)
Definition quad4_positionT (xp x : vecT) (vertices : nat -> vecT) (junk : vecT) : vecT := positionT 4 2 (quad4_shapeT x junk) vertices xp.
Definition quad8_positionT (xp x : vecT) (vertices : nat -> vecT) (junk : vecT) : vecT := positionT 8 2 (quad8_shapeT x junk) vertices xp.
Definition quad12_positionT (xp x : vecT) (vertices : nat -> vecT) (junk : vecT) : vecT := positionT 12 2 (quad12_shapeT x junk) vertices xp.
Definition hex8_positionT (xp x : vecT) (vertices : nat -> vecT) (junk : vecT) : vecT := positionT 8 3 (hex8_shapeT x junk) vertices xp.
Definition hex20_positionT (xp x : vecT) (vertices : nat -> vecT) (junk : vecT) : vecT :=
  position_dim_firstT 20 3 (hex20_shapeT x junk) vertices xp.
Definition hex32_positionT (xp x : vecT) (vertices : nat -> vecT) (junk : vecT) : vecT := positionT 32 3 (hex32_shapeT x junk) vertices xp.

(** ** the texts by element and function *)
Definition text (e : elem) (f : func) (x junk : nat -> T) : nat -> T :=
  match e, f with
  | Quad4, Shape => quad4_shapeT x junk
  | Quad4, Partial_xi => quad4_partial_xiT x junk
  | Quad4, Partial_eta => quad4_partial_etaT x junk
  | Quad8, Shape => quad8_shapeT x junk
  | Quad8, Partial_xi => quad8_partial_xiT x junk
  | Quad8, Partial_eta => quad8_partial_etaT x junk
  | Quad12, Shape => quad12_shapeT x junk
  | Quad12, Partial_xi => quad12_partial_xiT x junk
  | Quad12, Partial_eta => quad12_partial_etaT x junk
  | Hex8, Shape => hex8_shapeT x junk
  | Hex8, Partial_xi => hex8_partial_xiT x junk
  | Hex8, Partial_eta => hex8_partial_etaT x junk
  | Hex8, Partial_mu => hex8_partial_muT x junk
  | Hex20, Shape => hex20_shapeT x junk
  | Hex20, Partial_xi => hex20_partial_xiT x junk
  | Hex20, Partial_eta => hex20_partial_etaT x junk
  | Hex20, Partial_mu => hex20_partial_muT x junk
  | Hex32, Shape => hex32_shapeT x junk
  | Hex32, Partial_xi => hex32_partial_xiT x junk
  | Hex32, Partial_eta => hex32_partial_etaT x junk
  | Hex32, Partial_mu => hex32_partial_muT x junk
  | _, Partial_mu => junk
  end.
Definition nodeT (e : elem) : nat -> nat -> T :=
  match e with
  | Quad4 => quad4_refT
  | Quad8 => quad8_refT
  | Quad12 => quad12_refT
  | Hex8 => hex8_refT
  | Hex20 => hex20_refT
  | Hex32 => hex32_refT
  end.
Definition position_text (e : elem) (xp x : nat -> T) (vertices : nat -> nat -> T) (junk : nat -> T) : nat -> T :=
  match e with
  | Quad4 => quad4_positionT xp x vertices junk
  | Quad8 => quad8_positionT xp x vertices junk
  | Quad12 => quad12_positionT xp x vertices junk
  | Hex8 => hex8_positionT xp x vertices junk
  | Hex20 => hex20_positionT xp x vertices junk
  | Hex32 => hex32_positionT xp x vertices junk
  end.
End Text.

(** ** the three readings *)
(* real_t a binary floating point type *)
Section Floating.
Variables prec emax : Z.
Definition felem (e : elem) (f : func) (x junk : nat -> spec_float) : nat -> spec_float :=
  text (SFadd prec emax) (SFsub prec emax) (SFmul prec emax) (fun a n => SFdiv prec emax a (of_int prec emax n)) (of_int prec emax) e f x junk.
Definition fnode (e : elem) : nat -> nat -> spec_float :=
  nodeT (fun a n => SFdiv prec emax a (of_int prec emax n)) (of_int prec emax) e.
Definition fposition (e : elem) (xp x : nat -> spec_float) (vertices : nat -> nat -> spec_float) (junk : nat -> spec_float) : nat -> spec_float :=
  position_text (SFadd prec emax) (SFsub prec emax) (SFmul prec emax) (fun a n => SFdiv prec emax a (of_int prec emax n)) (of_int prec emax) e xp x vertices junk.
End Floating.
(* exact reals *)
Definition relem (e : elem) (f : func) (x junk : nat -> R) : nat -> R :=
  text Rplus Rminus Rmult (fun a n => (a / IZR n)%R) IZR e f x junk.
Definition rnode (e : elem) : nat -> nat -> R := nodeT (fun a n => (a / IZR n)%R) IZR e.
Definition rposition (e : elem) (xp x : nat -> R) (vertices : nat -> nat -> R) (junk : nat -> R) : nat -> R :=
  position_text Rplus Rminus Rmult (fun a n => (a / IZR n)%R) IZR e xp x vertices junk.
