(** Finite element shape functions: ristra/elements/elements.cc 878-2127, 2752-2878, over exact reals.
    Conventions:
    - real_t (double) is R: rounding is not modelled.
    - a std::vector or array of reals is a function [vec := nat -> R]; sizes are not modelled, the callers must pass
      vectors that are large enough (the code never resizes them).
    - an array that the code has not written yet is an arbitrary function [junk].
    - ref_vert is a table; [tab] reads it.
    The shape-function loops below were transcribed mechanically from the C++ text, loop by loop. *)
From Coq Require Import Reals List Arith Lia.
From Verif Require Import Outcome VectorModel.
Import ListNotations.
Open Scope R_scope.

(* for (i = lo; i < hi; i += step) *)
Fixpoint steps {S : Type} (n i step : nat) (body : nat -> S -> S) (s : S) : S :=
  match n with O => s | Datatypes.S n' => steps n' (i + step) step body (body i s) end.
Definition for_step {S : Type} (lo hi step : nat) (body : nat -> S -> S) (s : S) : S :=
  steps (Nat.div (hi - lo + step - 1) step) lo step body s.
Definition tab (t : list (list R)) (i d : nat) : R := nth d (nth i t []) 0.

(* "for this_vert < n, for dim < D: x_point[dim] += vertices[this_vert][dim]*shape_fcn[this_vert]" after zeroing
   x_point: lines 904-911, 1037-1045, 1228-1236, 1424-1432, 1658-1663 of the text that the classes below share *)
Definition zero_point (D : nat) (xp : vec) : vec := for_step 0 D 1 (fun d xp => set xp d 0) xp.
Definition position (n D : nat) (shape : vec) (vertices : nat -> vec) (xp : vec) : vec :=
  for_step 0 n 1 (fun v xp => for_step 0 D 1 (fun d xp => set xp d (xp d + vertices v d * shape v)) xp) (zero_point D xp).
(* the same with the two loops exchanged, as Hex20::physical_position has them *)
Definition position_dim_first (n D : nat) (shape : vec) (vertices : nat -> vec) (xp : vec) : vec :=
  for_step 0 D 1 (fun d xp => for_step 0 n 1 (fun v xp => set xp d (xp d + vertices v d * shape v)) xp) (zero_point D xp).

(** ** Quad_4_2D *)
(* elements.cc 878-884 ref_vert of Quad_4_2D *)
Definition quad4_ref : nat -> vec := tab [
  [-1; -1]; [1; -1]; [1; 1]; [-1; 1]].
(* elements.cc 887-921 Quad_4_2D::physical_position, the local array shape_fcn *)
Definition quad4_shape (x junk : vec) : vec :=
  let a := for_step 0 4 1 (fun i a => set a i (
    1/4 * (1 + x 0%nat*quad4_ref i 0%nat) * (1 + x 1%nat*quad4_ref i 1%nat))) junk in
  a.
(* elements.cc 924-936 Quad_4_2D::basis *)
Definition quad4_basis (x junk : vec) : vec :=
  let a := for_step 0 4 1 (fun i a => set a i (
    1/4 * (1 + x 0%nat*quad4_ref i 0%nat) * (1 + x 1%nat*quad4_ref i 1%nat))) junk in
  a.
(* elements.cc 940-950 Quad_4_2D::partial_xi_shape_fcn *)
Definition quad4_partial_xi (x junk : vec) : vec :=
  let a := for_step 0 4 1 (fun i a => set a i (
    (1/4) * (quad4_ref i 0%nat) * (1 + x 1%nat*quad4_ref i 1%nat))) junk in
  a.
(* elements.cc 954-963 Quad_4_2D::partial_eta_shape_fcn *)
Definition quad4_partial_eta (x junk : vec) : vec :=
  let a := for_step 0 4 1 (fun i a => set a i (
    (1/4) * (1 + x 0%nat*quad4_ref i 0%nat) * (quad4_ref i 1%nat))) junk in
  a.

(** ** Quad_8_2D *)
(* elements.cc 990-1002 ref_vert of Quad_8_2D *)
Definition quad8_ref : nat -> vec := tab [
  [-1; -1]; [1; -1]; [1; 1]; [-1; 1]; [0; -1]; [1; 0]; [0; 1]; [-1; 0]].
(* elements.cc 1006-1054 Quad_8_2D::physical_position, the local array shape_fcn *)
Definition quad8_shape (x junk : vec) : vec :=
  let a := for_step 0 4 1 (fun i a => set a i (
    1/4 * (1 + x 0%nat*quad8_ref i 0%nat) * (1 + x 1%nat*quad8_ref i 1%nat) * (x 0%nat*quad8_ref i 0%nat + x 1%nat*quad8_ref i 1%nat
      -1))) junk in
  let a := for_step 4 7 2 (fun i a => set a i (
    1/2 * (1 - x 0%nat*x 0%nat) * (1 + x 1%nat*quad8_ref i 1%nat))) a in
  let a := for_step 5 8 2 (fun i a => set a i (
    1/2 * (1 + x 0%nat*quad8_ref i 0%nat) * (1 - x 1%nat*x 1%nat))) a in
  a.
(* elements.cc 1057-1085 Quad_8_2D::basis *)
Definition quad8_basis (x junk : vec) : vec :=
  let a := for_step 0 4 1 (fun i a => set a i (
    1/4 * (1 + x 0%nat*quad8_ref i 0%nat) * (1 + x 1%nat*quad8_ref i 1%nat) * (x 0%nat*quad8_ref i 0%nat + x 1%nat*quad8_ref i 1%nat
      -1))) junk in
  let a := for_step 4 7 2 (fun i a => set a i (
    1/2 * (1 - x 0%nat*x 0%nat) * (1 + x 1%nat*quad8_ref i 1%nat))) a in
  let a := for_step 5 8 2 (fun i a => set a i (
    1/2 * (1 + x 0%nat*quad8_ref i 0%nat) * (1 - x 1%nat*x 1%nat))) a in
  a.
(* elements.cc 1088-1115 Quad_8_2D::partial_xi_shape_fcn *)
Definition quad8_partial_xi (x junk : vec) : vec :=
  let a := for_step 0 4 1 (fun i a => set a i (
    1/4 * (quad8_ref i 0%nat) * (1 + quad8_ref i 1%nat*x 1%nat) *((2 * quad8_ref i 0%nat*x 0%nat) + (quad8_ref i 1%nat*x 1%nat)))) junk in
  let a := for_step 4 7 2 (fun i a => set a i (
    -1 * (x 0%nat) * (1 + quad8_ref i 1%nat*x 1%nat))) a in
  let a := for_step 5 8 2 (fun i a => set a i (
    1/2 * (quad8_ref i 0%nat) * (1 - x 1%nat*x 1%nat))) a in
  a.
(* elements.cc 1118-1144 Quad_8_2D::partial_eta_shape_fcn *)
Definition quad8_partial_eta (x junk : vec) : vec :=
  let a := for_step 0 4 1 (fun i a => set a i (
    1/4 * (1 + quad8_ref i 0%nat*x 0%nat) * (quad8_ref i 1%nat) *((quad8_ref i 0%nat*x 0%nat) + (2 * quad8_ref i 1%nat*x 1%nat)))) junk in
  let a := for_step 4 7 2 (fun i a => set a i (
    1/2 * (1 - x 0%nat*x 0%nat) * (quad8_ref i 1%nat))) a in
  let a := for_step 5 8 2 (fun i a => set a i (
    -1 * (1 + quad8_ref i 0%nat*x 0%nat) * (x 1%nat))) a in
  a.

(** ** Quad_12_2D *)
(* elements.cc 1171-1188 ref_vert of Quad_12_2D *)
Definition quad12_ref : nat -> vec := tab [
  [-1; -1]; [1; -1]; [1; 1]; [-1; 1]; [-1/3; -1]; [1/3; -1]; [1/3; 1]; [-1/3; 1]; [-1; -1/3]; [1; -1/3];
  [1; 1/3]; [-1; 1/3]].
(* elements.cc 1191-1244 Quad_12_2D::physical_position, the local array shape_fcn *)
Definition quad12_shape (x junk : vec) : vec :=
  let a := for_step 0 4 1 (fun i a => set a i (
    1/32 * (1 + quad12_ref i 0%nat * x 0%nat) * (1 + quad12_ref i 1%nat * x 1%nat) * (9 * (x 0%nat * x 0%nat + x 1%nat *
      x 1%nat) - (10)))) junk in
  let a := for_step 4 8 1 (fun i a => set a i (
    9/32 * (1 - x 0%nat * x 0%nat) * (1 + x 1%nat * quad12_ref i 1%nat) * (1 + 9 * x 0%nat * quad12_ref i 0%nat))) a in
  let a := for_step 8 12 1 (fun i a => set a i (
    9/32 * (1 + x 0%nat * quad12_ref i 0%nat) * (1 - x 1%nat * x 1%nat) * (1 + 9 * x 1%nat * quad12_ref i 1%nat))) a in
  a.
(* elements.cc 1247-1275 Quad_12_2D::basis *)
Definition quad12_basis (x junk : vec) : vec :=
  let a := for_step 0 4 1 (fun i a => set a i (
    1/4 * (1 + x 0%nat*quad12_ref i 0%nat) * (1 + x 1%nat*quad12_ref i 1%nat) * (x 0%nat*quad12_ref i 0%nat + x 1%nat*quad12_ref i 1%nat
      -1))) junk in
  let a := for_step 4 7 2 (fun i a => set a i (
    1/2 * (1 - x 0%nat*x 0%nat) * (1 + x 1%nat*quad12_ref i 1%nat))) a in
  let a := for_step 5 8 2 (fun i a => set a i (
    1/2 * (1 + x 0%nat*quad12_ref i 0%nat) * (1 - x 1%nat*x 1%nat))) a in
  a.
(* elements.cc 1278-1313 Quad_12_2D::partial_xi_shape_fcn *)
Definition quad12_partial_xi (x junk : vec) : vec :=
  let a := for_step 0 4 1 (fun i a => set a i (
    1/32 * (1 + x 1%nat * quad12_ref i 1%nat) *((9 * quad12_ref i 0%nat * (x 0%nat * x 0%nat + x 1%nat * x 1%nat)) + (18
      * x 0%nat * (1 + x 0%nat * quad12_ref i 0%nat)) - (10 * quad12_ref i 0%nat)))) junk in
  let a := for_step 4 8 1 (fun i a => set a i (
    (9/32) * (1 + x 1%nat * quad12_ref i 1%nat) *((9 * quad12_ref i 0%nat * (1 - 3 * x 0%nat*x 0%nat)) - (2 * x 0%nat)))) a in
  let a := for_step 8 12 1 (fun i a => set a i (
    9/32 * (quad12_ref i 0%nat) * (1 - x 1%nat * x 1%nat) * (1 + 9 * x 1%nat * quad12_ref i 1%nat))) a in
  a.
(* elements.cc 1316-1349 Quad_12_2D::partial_eta_shape_fcn *)
Definition quad12_partial_eta (x junk : vec) : vec :=
  let a := for_step 0 4 1 (fun i a => set a i (
    1/32 * (1 + x 0%nat * quad12_ref i 0%nat) *((9 * quad12_ref i 1%nat * (x 0%nat * x 0%nat + x 1%nat * x 1%nat)) + (18
      * x 1%nat * (1 + x 1%nat * quad12_ref i 1%nat)) - (10 * quad12_ref i 1%nat)))) junk in
  let a := for_step 4 8 1 (fun i a => set a i (
    9/32 * (1 - x 0%nat * x 0%nat) * (1 + 9 * x 0%nat * quad12_ref i 0%nat) * (quad12_ref i 1%nat))) a in
  let a := for_step 8 12 1 (fun i a => set a i (
    9/32 * (1 + x 0%nat * quad12_ref i 0%nat) *((9 * quad12_ref i 1%nat * (1 - 3 * x 1%nat*x 1%nat)) - (2 * x 1%nat)))) a in
  a.

(** ** Hex8 *)
(* elements.cc 1392-1404 ref_vert of Hex8 *)
Definition hex8_ref : nat -> vec := tab [
  [-1; -1; -1]; [1; -1; -1]; [1; -1; 1]; [-1; -1; 1]; [-1; 1; -1]; [1; 1; -1]; [1; 1; 1]; [-1; 1; 1]].
(* elements.cc 1407-1437 Hex8::physical_position, the local array shape_fcn *)
Definition hex8_shape (x junk : vec) : vec :=
  let a := for_step 0 8 1 (fun i a => set a i (
    1/8 * (1 + x 0%nat*hex8_ref i 0%nat) * (1 + x 1%nat*hex8_ref i 1%nat) * (1 + x 2%nat*hex8_ref i 2%nat))) junk in
  a.
(* elements.cc 1440-1452 Hex8::basis *)
Definition hex8_basis (x junk : vec) : vec :=
  let a := for_step 0 8 1 (fun i a => set a i (
    1/8 * (1 + x 0%nat*hex8_ref i 0%nat) * (1 + x 1%nat*hex8_ref i 1%nat) * (1 + x 2%nat*hex8_ref i 2%nat))) junk in
  a.
(* elements.cc 1456-1468 Hex8::partial_xi_shape_fcn *)
Definition hex8_partial_xi (x junk : vec) : vec :=
  let a := for_step 0 8 1 (fun i a => set a i (
    (1/8) * (hex8_ref i 0%nat) * (1 + x 1%nat*hex8_ref i 1%nat) * (1 + x 2%nat*hex8_ref i 2%nat))) junk in
  a.
(* elements.cc 1471-1481 Hex8::partial_eta_shape_fcn *)
Definition hex8_partial_eta (x junk : vec) : vec :=
  let a := for_step 0 8 1 (fun i a => set a i (
    (1/8) * (1 + x 0%nat*hex8_ref i 0%nat) * (hex8_ref i 1%nat) * (1 + x 2%nat*hex8_ref i 2%nat))) junk in
  a.
(* elements.cc 1484-1494 Hex8::partial_mu_shape_fcn *)
Definition hex8_partial_mu (x junk : vec) : vec :=
  let a := for_step 0 8 1 (fun i a => set a i (
    (1/8) * (1 + x 0%nat*hex8_ref i 0%nat) * (1 + x 1%nat*hex8_ref i 1%nat) * (hex8_ref i 2%nat))) junk in
  a.

(** ** Hex20 *)
(* elements.cc 1525-1552 ref_vert of Hex20 *)
Definition hex20_ref : nat -> vec := tab [
  [-1; -1; -1]; [1; -1; -1]; [1; -1; 1]; [-1; -1; 1]; [-1; 1; -1]; [1; 1; -1]; [1; 1; 1]; [-1; 1; 1];
  [0; -1; -1]; [1; -1; 0]; [0; -1; 1]; [-1; -1; 0]; [0; 1; -1]; [1; 1; 0]; [0; 1; 1]; [-1; 1; 0];
  [-1; 0; -1]; [1; 0; -1]; [1; 0; 1]; [-1; 0; 1]].
(* elements.cc 1556-1620 Hex20::physical_position, the local array shape_fcn *)
Definition hex20_shape (x junk : vec) : vec :=
  let a := for_step 0 8 1 (fun i a => set a i (
    1/8 * (1 + x 0%nat*hex20_ref i 0%nat) * (1 + x 1%nat*hex20_ref i 1%nat) * (1 + x 2%nat*hex20_ref i 2%nat) * (x 0%nat*hex20_ref i
      0%nat + x 1%nat*hex20_ref i 1%nat + x 2%nat*hex20_ref i 2%nat - 2))) junk in
  let a := for_step 8 15 2 (fun i a => set a i (
    1/4 * (1 - x 0%nat*x 0%nat) * (1 + x 1%nat*hex20_ref i 1%nat) * (1 + x 2%nat*hex20_ref i 2%nat))) a in
  let a := for_step 16 20 1 (fun i a => set a i (
    1/4 * (1 + x 0%nat*hex20_ref i 0%nat) * (1 - x 1%nat*x 1%nat) * (1 + x 2%nat*hex20_ref i 2%nat))) a in
  let a := for_step 9 16 2 (fun i a => set a i (
    1/4 * (1 + x 0%nat*hex20_ref i 0%nat) * (1 + x 1%nat*hex20_ref i 1%nat) * (1 - x 2%nat*x 2%nat))) a in
  a.
(* elements.cc 1623-1662 Hex20::basis *)
Definition hex20_basis (x junk : vec) : vec :=
  let a := for_step 0 8 1 (fun i a => set a i (
    1/8 * (1 + x 0%nat*hex20_ref i 0%nat) * (1 + x 1%nat*hex20_ref i 1%nat) * (1 + x 2%nat*hex20_ref i 2%nat) * (x 0%nat*hex20_ref i
      0%nat + x 1%nat*hex20_ref i 1%nat + x 2%nat*hex20_ref i 2%nat - 2))) junk in
  let a := for_step 8 15 2 (fun i a => set a i (
    1/4 * (1 - x 0%nat*x 0%nat) * (1 + x 1%nat*hex20_ref i 1%nat) * (1 + x 2%nat*hex20_ref i 2%nat))) a in
  let a := for_step 16 20 1 (fun i a => set a i (
    1/4 * (1 + x 0%nat*hex20_ref i 0%nat) * (1 - x 1%nat*x 1%nat) * (1 + x 2%nat*hex20_ref i 2%nat))) a in
  let a := for_step 9 16 2 (fun i a => set a i (
    1/4 * (1 + x 0%nat*hex20_ref i 0%nat) * (1 + x 1%nat*hex20_ref i 1%nat) * (1 - x 2%nat*x 2%nat))) a in
  a.
(* elements.cc 1666-1705 Hex20::partial_xi_shape_fcn *)
Definition hex20_partial_xi (x junk : vec) : vec :=
  let a := for_step 0 8 1 (fun i a => set a i (
    (1/8) * (hex20_ref i 0%nat) * (1 + (x 1%nat*hex20_ref i 1%nat)) * (1 + (x 2%nat*hex20_ref i 2%nat)) * (2 * (x 0%nat*hex20_ref i
      0%nat) + x 1%nat*hex20_ref i 1%nat + x 2%nat*hex20_ref i 2%nat - 1))) junk in
  let a := for_step 8 15 2 (fun i a => set a i (
    (-1/2) * (x 0%nat) * (1 + x 1%nat*hex20_ref i 1%nat) * (1 + x 2%nat*hex20_ref i 2%nat))) a in
  let a := for_step 9 16 2 (fun i a => set a i (
    (1/4) * (hex20_ref i 0%nat) * (1 + x 1%nat*hex20_ref i 1%nat) * (1 - x 2%nat*x 2%nat))) a in
  let a := for_step 16 20 1 (fun i a => set a i (
    (1/4) * (hex20_ref i 0%nat) * (1 - x 1%nat*x 1%nat) * (1 + x 2%nat*hex20_ref i 2%nat))) a in
  a.
(* elements.cc 1708-1746 Hex20::partial_eta_shape_fcn *)
Definition hex20_partial_eta (x junk : vec) : vec :=
  let a := for_step 0 8 1 (fun i a => set a i (
    (1/8) * (1 + x 0%nat*hex20_ref i 0%nat) * (hex20_ref i 1%nat) * (1 + x 2%nat*hex20_ref i 2%nat) * (x 0%nat*hex20_ref i 0%nat + 2
      * x 1%nat*hex20_ref i 1%nat + x 2%nat*hex20_ref i 2%nat - 1))) junk in
  let a := for_step 8 15 2 (fun i a => set a i (
    (1/4) * (1 - (x 0%nat*x 0%nat)) * (hex20_ref i 1%nat) * (1 + x 2%nat*hex20_ref i 2%nat))) a in
  let a := for_step 9 16 2 (fun i a => set a i (
    (1/4) * (1 + x 0%nat*hex20_ref i 0%nat) * (hex20_ref i 1%nat) * (1 - (x 2%nat*x 2%nat)))) a in
  let a := for_step 16 20 1 (fun i a => set a i (
    (-1/2) * (1 + x 0%nat*hex20_ref i 0%nat) * (x 1%nat) * (1 + x 2%nat*hex20_ref i 2%nat))) a in
  a.
(* elements.cc 1749-1787 Hex20::partial_mu_shape_fcn *)
Definition hex20_partial_mu (x junk : vec) : vec :=
  let a := for_step 0 8 1 (fun i a => set a i (
    (1/8) * (1 + x 0%nat*hex20_ref i 0%nat) * (1 + x 1%nat*hex20_ref i 1%nat) * (hex20_ref i 2%nat) * ((x 0%nat*hex20_ref i 0%nat) +
      (x 1%nat*hex20_ref i 1%nat) + (2 * x 2%nat*hex20_ref i 2%nat) - 1))) junk in
  let a := for_step 8 15 2 (fun i a => set a i (
    (1/4) * (1 - (x 0%nat*x 0%nat)) * (1 + x 1%nat*hex20_ref i 1%nat) * (hex20_ref i 2%nat))) a in
  let a := for_step 9 16 2 (fun i a => set a i (
    (-1/2) * (1 + x 0%nat*hex20_ref i 0%nat) * (1 + x 1%nat*hex20_ref i 1%nat) * (x 2%nat))) a in
  let a := for_step 16 20 1 (fun i a => set a i (
    (1/4) * (1 + x 0%nat*hex20_ref i 0%nat) * (1 - x 1%nat*x 1%nat) * (hex20_ref i 2%nat))) a in
  a.

(** ** Hex32 *)
(* elements.cc 1830-1867 ref_vert of Hex32 *)
Definition hex32_ref : nat -> vec := tab [
  [-1; -1; -1]; [1; -1; -1]; [1; -1; 1]; [-1; -1; 1]; [-1; 1; -1]; [1; 1; -1]; [1; 1; 1]; [-1; 1; 1];
  [-1; -1; -1/3]; [1; -1; -1/3]; [1; -1; 1/3]; [-1; -1; 1/3]; [-1; 1; -1/3]; [1; 1; -1/3]; [1; 1; 1/3];
  [-1; 1; 1/3]; [-1/3; -1; -1]; [1/3; -1; -1]; [1/3; -1; 1]; [-1/3; -1; 1]; [-1/3; 1; -1]; [1/3; 1; -1];
  [1/3; 1; 1]; [-1/3; 1; 1]; [-1; -1/3; -1]; [1; -1/3; -1]; [1; -1/3; 1]; [-1; -1/3; 1]; [-1; 1/3; -1];
  [1; 1/3; -1]; [1; 1/3; 1]; [-1; 1/3; 1]].
(* elements.cc 1871-1941 Hex32::physical_position, the local array shape_fcn *)
Definition hex32_shape (x junk : vec) : vec :=
  let a := for_step 0 8 1 (fun i a => set a i (
    1/64 * (1 + x 0%nat*hex32_ref i 0%nat) * (1 + x 1%nat*hex32_ref i 1%nat) * (1 + x 2%nat*hex32_ref i 2%nat) * (9 * x
      0%nat*x 0%nat + 9 * x 1%nat*x 1%nat + 9 * x 2%nat*x 2%nat - 19))) junk in
  let a := for_step 8 16 1 (fun i a => set a i (
    9/64 * (1 + x 0%nat*hex32_ref i 0%nat) * (1 + x 1%nat*hex32_ref i 1%nat) * (1 + 9 * x 2%nat*hex32_ref i 2%nat) * (1 - x
      2%nat*x 2%nat))) a in
  let a := for_step 16 24 1 (fun i a => set a i (
    9/64 * (1 - x 0%nat*x 0%nat) * (1 + 9 * x 0%nat*hex32_ref i 0%nat) * (1 + x 1%nat*hex32_ref i 1%nat) * (1 + x
      2%nat*hex32_ref i 2%nat))) a in
  let a := for_step 24 32 1 (fun i a => set a i (
    9/64 * (1 + x 0%nat*hex32_ref i 0%nat) * (1 - x 1%nat*x 1%nat) * (1 + 9 * x 1%nat*hex32_ref i 1%nat) * (1 + x
      2%nat*hex32_ref i 2%nat))) a in
  a.
(* elements.cc 1944-1989 Hex32::basis *)
Definition hex32_basis (x junk : vec) : vec :=
  let a := for_step 0 8 1 (fun i a => set a i (
    1/64 * (1 + x 0%nat*hex32_ref i 0%nat) * (1 + x 1%nat*hex32_ref i 1%nat) * (1 + x 2%nat*hex32_ref i 2%nat) * (9 * x
      0%nat*x 0%nat + 9 * x 1%nat*x 1%nat + 9 * x 2%nat*x 2%nat - 19))) junk in
  let a := for_step 8 16 1 (fun i a => set a i (
    9/64 * (1 + x 0%nat*hex32_ref i 0%nat) * (1 + x 1%nat*hex32_ref i 1%nat) * (1 + 9 * x 2%nat*hex32_ref i 2%nat) * (1 - x
      2%nat*x 2%nat))) a in
  let a := for_step 16 24 1 (fun i a => set a i (
    9/64 * (1 - x 0%nat*x 0%nat) * (1 + 9 * x 0%nat*hex32_ref i 0%nat) * (1 + x 1%nat*hex32_ref i 1%nat) * (1 + x
      2%nat*hex32_ref i 2%nat))) a in
  let a := for_step 24 32 1 (fun i a => set a i (
    9/64 * (1 + x 0%nat*hex32_ref i 0%nat) * (1 - x 1%nat*x 1%nat) * (1 + 9 * x 1%nat*hex32_ref i 1%nat) * (1 + x
      2%nat*hex32_ref i 2%nat))) a in
  a.
(* elements.cc 1993-2034 Hex32::partial_xi_shape_fcn *)
Definition hex32_partial_xi (x junk : vec) : vec :=
  let a := for_step 0 8 1 (fun i a => set a i (
    1/64 * (1 + x 1%nat * hex32_ref i 1%nat) * (1 + x 2%nat * hex32_ref i 2%nat) *((9 * (hex32_ref i 0%nat) * (x 0%nat*x 0%nat
      + x 1%nat*x 1%nat + x 2%nat*x 2%nat)) + (18 * x 0%nat * (1 + x 0%nat*hex32_ref i 0%nat)) - (19 * hex32_ref i
      0%nat)))) junk in
  let a := for_step 8 16 1 (fun i a => set a i (
    9/64 * (hex32_ref i 0%nat) * (1 + x 1%nat * hex32_ref i 1%nat) * (1 + 9 * x 2%nat * hex32_ref i 2%nat) * (1 - x 2%nat * x
      2%nat))) a in
  let a := for_step 16 24 1 (fun i a => set a i (
    9/64 * (1 + x 1%nat * hex32_ref i 1%nat) * (1 + x 2%nat * hex32_ref i 2%nat) * (9 * hex32_ref i 0%nat * (1 - 3 * x 0%nat *
      x 0%nat) - (2 * x 0%nat)))) a in
  let a := for_step 24 32 1 (fun i a => set a i (
    9/64 * (hex32_ref i 0%nat) * (1 - x 1%nat * x 1%nat) * (1 + 9 * x 1%nat * hex32_ref i 1%nat) * (1 + x 2%nat * hex32_ref i
      2%nat))) a in
  a.
(* elements.cc 2037-2080 Hex32::partial_eta_shape_fcn *)
Definition hex32_partial_eta (x junk : vec) : vec :=
  let a := for_step 0 8 1 (fun i a => set a i (
    1/64 * (1 + x 0%nat * hex32_ref i 0%nat) * (1 + x 2%nat * hex32_ref i 2%nat) *((9 * hex32_ref i 1%nat * (x 0%nat*x 0%nat +
      x 1%nat*x 1%nat + x 2%nat*x 2%nat)) + (18 * x 1%nat * (1 + x 1%nat*hex32_ref i 1%nat)) - (19 * hex32_ref i
      1%nat)))) junk in
  let a := for_step 8 16 1 (fun i a => set a i (
    9/64 * (1 + x 0%nat * hex32_ref i 0%nat) * (hex32_ref i 1%nat) * (1 + 9 * x 2%nat * hex32_ref i 2%nat) * (1 - x 2%nat * x
      2%nat))) a in
  let a := for_step 16 24 1 (fun i a => set a i (
    9/64 * (1 - x 0%nat * x 0%nat) * (1 + 9 * x 0%nat * hex32_ref i 0%nat) * (hex32_ref i 1%nat) * (1 + x 2%nat * hex32_ref i
      2%nat))) a in
  let a := for_step 24 32 1 (fun i a => set a i (
    9/64 * (1 + x 0%nat * hex32_ref i 0%nat) * (1 + x 2%nat * hex32_ref i 2%nat) *((9 * hex32_ref i 1%nat * (1 - 3 * x 1%nat *
      x 1%nat)) - (2 * x 1%nat)))) a in
  a.
(* elements.cc 2083-2127 Hex32::partial_mu_shape_fcn *)
Definition hex32_partial_mu (x junk : vec) : vec :=
  let a := for_step 0 8 1 (fun i a => set a i (
    1/64 * (1 + x 0%nat * hex32_ref i 0%nat) * (1 + x 1%nat * hex32_ref i 1%nat) *((9 * (hex32_ref i 2%nat) * (x 0%nat*x 0%nat
      + x 1%nat*x 1%nat + x 2%nat*x 2%nat)) + (18 * x 2%nat * (1 + x 2%nat*hex32_ref i 2%nat)) - (19 * hex32_ref i
      2%nat)))) junk in
  let a := for_step 8 16 1 (fun i a => set a i (
    9/64 * (1 + x 0%nat * hex32_ref i 0%nat) * (1 + x 1%nat * hex32_ref i 1%nat) *((9 * hex32_ref i 2%nat * (1 - 3 * x 2%nat *
      x 2%nat)) - (2 * x 2%nat)))) a in
  let a := for_step 16 24 1 (fun i a => set a i (
    9/64 * (1 - x 0%nat * x 0%nat) * (1 + 9 * x 0%nat * hex32_ref i 0%nat) * (1 + x 1%nat * hex32_ref i 1%nat) * (hex32_ref i
      2%nat))) a in
  let a := for_step 24 32 1 (fun i a => set a i (
    9/64 * (1 + x 0%nat * hex32_ref i 0%nat) * (1 - x 1%nat * x 1%nat) * (1 + 9 * x 1%nat * hex32_ref i 1%nat) * (hex32_ref i
      2%nat))) a in
  a.

(** ** Tess16 *)
(* elements.cc 2754-2776 namespace-scope ref_vert (not the member of Tess16) *)
Definition tess16_ref : nat -> vec := tab [
  [-1; -1; -1; -1]; [1; -1; -1; -1]; [1; -1; 1; -1]; [-1; -1; 1; -1]; [-1; 1; -1; -1]; [1; 1; -1; -1];
  [1; 1; 1; -1]; [-1; 1; 1; -1]; [-1; -1; -1; 1]; [1; -1; -1; 1]; [1; -1; 1; 1]; [-1; -1; 1; 1];
  [-1; 1; -1; 1]; [1; 1; -1; 1]; [1; 1; 1; 1]; [-1; 1; 1; 1]].
(* elements.cc 2781-2816 Tess16::physical_position, the local array shape_fcn *)
Definition tess16_shape (rv : nat -> vec) (x junk : vec) : vec :=
  let a := for_step 0 16 1 (fun i a => set a i (
    1/16 * (1 + x 0%nat*rv i 0%nat) * (1 + x 1%nat*rv i 1%nat) * (1 + x 2%nat*rv i 2%nat) * (1 + x
      3%nat*rv i 3%nat))) junk in
  a.
(* elements.cc 2820-2832 Tess16::partial_xi_shape_fcn *)
Definition tess16_partial_xi (rv : nat -> vec) (x junk : vec) : vec :=
  let a := for_step 0 16 1 (fun i a => set a i (
    1/16 * (rv i 0%nat) * (1 + x 1%nat*rv i 1%nat) * (1 + x 2%nat*rv i 2%nat) * (1 + x 3%nat*rv i 3%nat))) junk in
  a.
(* elements.cc 2835-2847 Tess16::partial_eta_shape_fcn *)
Definition tess16_partial_eta (rv : nat -> vec) (x junk : vec) : vec :=
  let a := for_step 0 16 1 (fun i a => set a i (
    1/16 * (1 + x 0%nat*rv i 0%nat) * (rv i 1%nat) * (1 + x 2%nat*rv i 2%nat) * (1 + x 3%nat*rv i 3%nat))) junk in
  a.
(* elements.cc 2850-2862 Tess16::partial_mu_shape_fcn *)
Definition tess16_partial_mu (rv : nat -> vec) (x junk : vec) : vec :=
  let a := for_step 0 16 1 (fun i a => set a i (
    1/16 * (1 + x 0%nat*rv i 0%nat) * (1 + x 1%nat*rv i 1%nat) * (rv i 2%nat) * (1 + x 3%nat*rv i 3%nat))) junk in
  a.
(* elements.cc 2865-2878 Tess16::partial_tau_shape_fcn *)
Definition tess16_partial_tau (rv : nat -> vec) (x junk : vec) : vec :=
  let a := for_step 0 16 1 (fun i a => set a i (
    1/16 * (1 + x 0%nat*rv i 0%nat) * (1 + x 1%nat*rv i 1%nat) * (1 + x 2%nat*rv i 2%nat) * (rv i 3%nat))) junk in
  a.

(** ** physical_position *)
(* elements.cc 887-921 *)
Definition quad4_position (xp x : vec) (vertices : nat -> vec) (junk : vec) : vec :=
  position 4 2 (quad4_shape x junk) vertices xp.
(* elements.cc 1006-1054 *)
Definition quad8_position (xp x : vec) (vertices : nat -> vec) (junk : vec) : vec :=
  position 8 2 (quad8_shape x junk) vertices xp.
(* elements.cc 1191-1244 *)
Definition quad12_position (xp x : vec) (vertices : nat -> vec) (junk : vec) : vec :=
  position 12 2 (quad12_shape x junk) vertices xp.
(* elements.cc 1407-1437 *)
Definition hex8_position (xp x : vec) (vertices : nat -> vec) (junk : vec) : vec :=
  position 8 3 (hex8_shape x junk) vertices xp.
(* elements.cc 1556-1620 *)
Definition hex20_position (xp x : vec) (vertices : nat -> vec) (junk : vec) : vec :=
  position_dim_first 20 3 (hex20_shape x junk) vertices xp.
(* elements.cc 1873-1940 *)
Definition hex32_position (xp x : vec) (vertices : nat -> vec) (junk : vec) : vec :=
  position 32 3 (hex32_shape x junk) vertices xp.

(** ** Tess16 objects
    elements.h 743-773: ref_vert is a non-static data member of Tess16, there is no constructor, and the
    initialised table at elements.cc 2752-2773 is a variable of namespace scope, not the member. The member function
    bodies name the member.  An object is modelled by its member: [None] = never written (indeterminate), [Some t] = holds
    the values t.  Reading an indeterminate double is undefined behaviour. *)
Definition tess16_obj := option (nat -> vec).
Definition tess16_default : tess16_obj := None.
Definition tess16_read {A : Type} (o : tess16_obj) (k : (nat -> vec) -> A) : outcome A :=
  match o with Some t => Ok (k t) | None => UB end.
(* elements.cc 2778-2812 *)
Definition tess16_position (o : tess16_obj) (xp x : vec) (vertices : nat -> vec) (junk : vec) : outcome vec :=
  tess16_read o (fun rv => position 16 4 (tess16_shape rv x junk) vertices xp).
Definition tess16_obj_partial_xi (o : tess16_obj) (x junk : vec) : outcome vec :=
  tess16_read o (fun rv => tess16_partial_xi rv x junk).
Definition tess16_obj_partial_eta (o : tess16_obj) (x junk : vec) : outcome vec :=
  tess16_read o (fun rv => tess16_partial_eta rv x junk).
Definition tess16_obj_partial_mu (o : tess16_obj) (x junk : vec) : outcome vec :=
  tess16_read o (fun rv => tess16_partial_mu rv x junk).
Definition tess16_obj_partial_tau (o : tess16_obj) (x junk : vec) : outcome vec :=
  tess16_read o (fun rv => tess16_partial_tau rv x junk).
