(** Jacobians of the elements: ristra/elements/elements.cc 527-838, over exact reals.
    - real_t is R, rounding is not modelled; division by 0 is not meaningful here, the theorems assume det <> 0.
    - a vector< vector<real_t> > is [nat -> nat -> R]; J_matrix also has a size (rows, cols) because the determinant
      line reads entries that the loops do not touch.  vertices and this_partial are assumed large enough.
    The determinant and cofactor formulas were transcribed mechanically from the C++ text. *)
From Coq Require Import Reals List Arith Bool Lia.
From Verif Require Import Outcome VectorModel.
Import ListNotations.
Open Scope R_scope.

Notation "M .[ i , j ]" := (M i%nat j%nat) (at level 2, left associativity, only parsing).
Definition mat := nat -> nat -> R.

(* elements.cc 537-541 and 574-578: J_matrix[j][k] = 0 for j,k < dim *)
Definition jac_zero (dim : nat) (J : mat) : mat :=
  loop dim (fun j J => loop dim (fun k J => setm J j k 0) J) J.
(* 544-552 and 581-589: J_matrix[j][k] += vertices[v][k] * this_partial[v][j] *)
Definition jac_fill (n dim : nat) (vertices partial : mat) (J : mat) : mat :=
  loop dim (fun j J => loop dim (fun k J =>
    loop n (fun v J => setm J j k (J j k + vertices v k * partial v j)) J) J) J.
(* 556-561: a3 = abs(dim-3), a2 = abs(dim-2) *)
Definition jac_det23 (J : mat) (a3 a2 : R) : R :=
  J.[0,0] *(J.[1,1] * (J.[2,2] - (J.[2,2] - 1)*a3) - (J.[2,1] * J.[1,2])*a2) - J.[0,1] *(J.[1,0] * (J.[2,2] -
    (J.[2,2] - 1)*a3) - (J.[2,0] * J.[1,2])*a2) + J.[0,2] *(J.[1,0] * J.[2,1] - J.[2,0] * J.[1,1])*(a2).
(* 527-562 jacobian.  operator[] out of range is UB: the loops need dim rows and columns, the determinant 3. *)
Definition jacobian (rows cols : nat) (J0 : mat) (vertices partial : mat) (n dim : nat) : outcome (mat * R) :=
  if (dim <=? rows) && (dim <=? cols) && (3 <=? rows) && (3 <=? cols) then
    let J := jac_fill n dim vertices partial (jac_zero dim J0) in
    Ok (J, jac_det23 J (IZR (Z.abs (Z.of_nat dim - 3))) (IZR (Z.abs (Z.of_nat dim - 2))))
  else UB.
(* 591-614 *)
Definition jac_det4 (J : mat) : R :=
  J.[0,3] * J.[1,2] * J.[2,1] * J.[3,0] - J.[0,2] * J.[1,3] * J.[2,1] * J.[3,0] - J.[0,3] * J.[1,1] * J.[2,2]
    * J.[3,0] + J.[0,1] * J.[1,3] * J.[2,2] * J.[3,0] + J.[0,2] * J.[1,1] * J.[2,3] * J.[3,0] - J.[0,1] *
    J.[1,2] * J.[2,3] * J.[3,0] - J.[0,3] * J.[1,2] * J.[2,0] * J.[3,1] + J.[0,2] * J.[1,3] * J.[2,0] * J.[3,1]
    + J.[0,3] * J.[1,0] * J.[2,2] * J.[3,1] - J.[0,0] * J.[1,3] * J.[2,2] * J.[3,1] - J.[0,2] * J.[1,0] *
    J.[2,3] * J.[3,1] + J.[0,0] * J.[1,2] * J.[2,3] * J.[3,1] + J.[0,3] * J.[1,1] * J.[2,0] * J.[3,2] - J.[0,1]
    * J.[1,3] * J.[2,0] * J.[3,2] - J.[0,3] * J.[1,0] * J.[2,1] * J.[3,2] + J.[0,0] * J.[1,3] * J.[2,1] *
    J.[3,2] + J.[0,1] * J.[1,0] * J.[2,3] * J.[3,2] - J.[0,0] * J.[1,1] * J.[2,3] * J.[3,2] - J.[0,2] * J.[1,1]
    * J.[2,0] * J.[3,3] + J.[0,1] * J.[1,2] * J.[2,0] * J.[3,3] + J.[0,2] * J.[1,0] * J.[2,1] * J.[3,3] -
    J.[0,0] * J.[1,2] * J.[2,1] * J.[3,3] - J.[0,1] * J.[1,0] * J.[2,2] * J.[3,3] + J.[0,0] * J.[1,1] * J.[2,2]
    * J.[3,3].
(* 565-616 jacobian4D *)
Definition jacobian4D (rows cols : nat) (J0 : mat) (vertices partial : mat) (n dim : nat) : outcome (mat * R) :=
  if (dim <=? rows) && (dim <=? cols) && (4 <=? rows) && (4 <=? cols) then
    let J := jac_fill n dim vertices partial (jac_zero dim J0) in Ok (J, jac_det4 J)
  else UB.
(* a vector of vectors given by an initializer list *)
Definition mat_of (rows : list (list R)) : mat := fun i j => nth j (nth i rows []) 0.
(* 619-630 jacobian_inverse_2d *)
Definition jacobian_inverse_2d (J : mat) : mat :=
  let det := J.[0,0]*J.[1,1] - J.[0,1]*J.[1,0] in
  mat_of [[J.[1,1]/det; - J.[0,1]/det]; [- J.[1,0]/det; J.[0,0]/det]].
(* 633-673 jacobian_inverse_3d *)
Definition jacobian_inverse_3d (J : mat) : mat :=
  let A_11 := J.[1,1]*J.[2,2] - J.[1,2]*J.[2,1] in
  let A_22 := J.[2,2]*J.[0,0] - J.[2,0]*J.[0,2] in
  let A_33 := J.[0,0]*J.[1,1] - J.[0,1]*J.[1,0] in
  let A_12 := J.[1,2]*J.[2,0] - J.[1,0]*J.[2,2] in
  let A_23 := J.[2,0]*J.[0,1] - J.[2,1]*J.[0,0] in
  let A_31 := J.[0,1]*J.[1,2] - J.[0,2]*J.[1,1] in
  let A_21 := J.[2,1]*J.[0,2] - J.[0,1]*J.[2,2] in
  let A_32 := J.[0,2]*J.[1,0] - J.[1,2]*J.[0,0] in
  let A_13 := J.[1,0]*J.[1,1] - J.[2,0]*J.[1,1] in
  let det := J.[0,0]*A_11 + J.[0,1]*A_21 + J.[0,2]*A_31 in
  mat_of [[A_11/det; A_12/det; A_13/det]; [A_21/det; A_22/det; A_23/det]; [A_31/det; A_32/det; A_33/det]].
(* 676-838 jacobian_inverse_4d.  684-697: m = the 16 entries in row order *)
Definition flat4 (J : mat) : nat -> R := fun a => J (Nat.div a 4) (Nat.modulo a 4).
(* 700-810: inv *)
Definition inv16 (m : nat -> R) : nat -> R := fun a =>
  match a with
  | 0%nat => m 5%nat * m 10%nat * m 15%nat - m 5%nat * m 11%nat * m 14%nat - m 9%nat * m 6%nat * m 15%nat + m
      9%nat * m 7%nat * m 14%nat + m 13%nat * m 6%nat * m 11%nat - m 13%nat * m 7%nat * m 10%nat
  | 1%nat => -m 1%nat * m 10%nat * m 15%nat + m 1%nat * m 11%nat * m 14%nat + m 9%nat * m 2%nat * m 15%nat - m
      9%nat * m 3%nat * m 14%nat - m 13%nat * m 2%nat * m 11%nat + m 13%nat * m 3%nat * m 10%nat
  | 2%nat => m 1%nat * m 6%nat * m 15%nat - m 1%nat * m 7%nat * m 14%nat - m 5%nat * m 2%nat * m 15%nat + m 5%nat
      * m 3%nat * m 14%nat + m 13%nat * m 2%nat * m 7%nat - m 13%nat * m 3%nat * m 6%nat
  | 3%nat => -m 1%nat * m 6%nat * m 11%nat + m 1%nat * m 7%nat * m 10%nat + m 5%nat * m 2%nat * m 11%nat - m 5%nat
      * m 3%nat * m 10%nat - m 9%nat * m 2%nat * m 7%nat + m 9%nat * m 3%nat * m 6%nat
  | 4%nat => -m 4%nat * m 10%nat * m 15%nat + m 4%nat * m 11%nat * m 14%nat + m 8%nat * m 6%nat * m 15%nat - m
      8%nat * m 7%nat * m 14%nat - m 12%nat * m 6%nat * m 11%nat + m 12%nat * m 7%nat * m 10%nat
  | 5%nat => m 0%nat * m 10%nat * m 15%nat - m 0%nat * m 11%nat * m 14%nat - m 8%nat * m 2%nat * m 15%nat + m
      8%nat * m 3%nat * m 14%nat + m 12%nat * m 2%nat * m 11%nat - m 12%nat * m 3%nat * m 10%nat
  | 6%nat => -m 0%nat * m 6%nat * m 15%nat + m 0%nat * m 7%nat * m 14%nat + m 4%nat * m 2%nat * m 15%nat - m 4%nat
      * m 3%nat * m 14%nat - m 12%nat * m 2%nat * m 7%nat + m 12%nat * m 3%nat * m 6%nat
  | 7%nat => m 0%nat * m 6%nat * m 11%nat - m 0%nat * m 7%nat * m 10%nat - m 4%nat * m 2%nat * m 11%nat + m 4%nat
      * m 3%nat * m 10%nat + m 8%nat * m 2%nat * m 7%nat - m 8%nat * m 3%nat * m 6%nat
  | 8%nat => m 4%nat * m 9%nat * m 15%nat - m 4%nat * m 11%nat * m 13%nat - m 8%nat * m 5%nat * m 15%nat + m 8%nat
      * m 7%nat * m 13%nat + m 12%nat * m 5%nat * m 11%nat - m 12%nat * m 7%nat * m 9%nat
  | 9%nat => -m 0%nat * m 9%nat * m 15%nat + m 0%nat * m 11%nat * m 13%nat + m 8%nat * m 1%nat * m 15%nat - m
      8%nat * m 3%nat * m 13%nat - m 12%nat * m 1%nat * m 11%nat + m 12%nat * m 3%nat * m 9%nat
  | 10%nat => m 0%nat * m 5%nat * m 15%nat - m 0%nat * m 7%nat * m 13%nat - m 4%nat * m 1%nat * m 15%nat + m 4%nat
      * m 3%nat * m 13%nat + m 12%nat * m 1%nat * m 7%nat - m 12%nat * m 3%nat * m 6%nat
  | 11%nat => -m 0%nat * m 5%nat * m 11%nat + m 0%nat * m 7%nat * m 9%nat + m 4%nat * m 1%nat * m 11%nat - m 4%nat
      * m 3%nat * m 9%nat - m 8%nat * m 1%nat * m 7%nat + m 8%nat * m 3%nat * m 5%nat
  | 12%nat => -m 4%nat * m 9%nat * m 14%nat + m 4%nat * m 10%nat * m 13%nat + m 8%nat * m 5%nat * m 14%nat - m
      8%nat * m 6%nat * m 13%nat - m 12%nat * m 5%nat * m 10%nat + m 12%nat * m 6%nat * m 9%nat
  | 13%nat => m 0%nat * m 9%nat * m 14%nat - m 0%nat * m 10%nat * m 13%nat - m 8%nat * m 1%nat * m 14%nat + m 8%nat
      * m 2%nat * m 13%nat + m 12%nat * m 1%nat * m 10%nat - m 12%nat * m 2%nat * m 9%nat
  | 14%nat => -m 0%nat * m 5%nat * m 14%nat + m 0%nat * m 6%nat * m 13%nat + m 4%nat * m 1%nat * m 14%nat - m 4%nat
      * m 2%nat * m 13%nat - m 12%nat * m 1%nat * m 6%nat + m 12%nat * m 2%nat * m 5%nat
  | 15%nat => m 0%nat * m 5%nat * m 10%nat - m 0%nat * m 6%nat * m 9%nat - m 4%nat * m 1%nat * m 10%nat + m 4%nat *
      m 2%nat * m 9%nat + m 8%nat * m 1%nat * m 6%nat - m 8%nat * m 2%nat * m 5%nat
  | _ => 0
  end.
(* 812-836: inv_mat[i] = inv[i] * (1/det_J), copied row by row into J_inverse_matrix (other entries are kept) *)
Definition jacobian_inverse_4d (Jinv J : mat) (det_J : R) : mat := fun i j =>
  if (i <? 4) && (j <? 4) then inv16 (flat4 J) (4 * i + j) * (1 / det_J) else Jinv i j.
