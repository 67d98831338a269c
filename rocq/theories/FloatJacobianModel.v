(** Jacobians with rounding: ristra/elements/elements.cc 527-838 as texts that can be read with any arithmetic.
    - [T] with add, sub, mul, div, neg and ofZ (int converted to real_t) is the arithmetic.  Reading the texts with SFadd,
      SFsub, SFmul, SFdiv, SFopp gives what the code computes with real_t a binary floating point type (round to nearest,
      ties to even, in the order of the text; no contraction to fma, no excess precision, no reassociation).
    - abs(dim-3) and abs(dim-2) are ints, converted where they are multiplied; dim is a natural number.
    - as in JacobianModel.v, whose reading over exact reals is recovered in FloatJacobianProps.v (C164_text): a vector of
      vectors is [nat -> nat -> T], J_matrix also has a size; vertices and this_partial are assumed large enough.
    The formulas were transcribed mechanically from the C++ text. *)
From Coq Require Import Arith List Bool ZArith SpecFloat Reals.
From Verif Require Import Outcome VectorModel FloatModel FloatExpr.
Import ListNotations.
Local Open Scope nat_scope.
Notation "M .[ i , j ]" := (M i%nat j%nat) (at level 2, left associativity, only parsing).
Declare Scope jac_scope.

Section Text.
Context {T : Type} (add sub mul div : T -> T -> T) (neg : T -> T) (ofZ : Z -> T).
Local Notation "x + y" := (add x y) : jac_scope.
Local Notation "x - y" := (sub x y) : jac_scope.
Local Notation "x * y" := (mul x y) : jac_scope.
Local Notation "x / y" := (div x y) : jac_scope.
Local Notation "- x" := (neg x) : jac_scope.
Definition matT := nat -> nat -> T.
Definition setmT (m : matT) (i j : nat) (x : T) : matT := fun a b => if Nat.eqb a i && Nat.eqb b j then x else m a b.
(* elements.cc 537-541 and 574-578: J_matrix[j][k] = 0.0 for j,k < dim *)
Definition jac_zeroT (dim : nat) (J : matT) : matT :=
  loop dim (fun j J => loop dim (fun k J => setmT J j k (ofZ 0)) J) J.
(* 544-552 and 581-589: J_matrix[j][k] += vertices[v][k] * this_partial[v][j] *)
Definition jac_fillT (n dim : nat) (vertices partial : matT) (J : matT) : matT :=
  loop dim (fun j J => loop dim (fun k J =>
    loop n (fun v J => setmT J j k (add (J j k) (mul (vertices v k) (partial v j)))) J) J) J.
Local Open Scope jac_scope.
(* 556-561: a3 = abs(dim-3), a2 = abs(dim-2), converted *)
Definition jac_det23T (J : matT) (a3 a2 : T) : T :=
  J.[0,0] *(J.[1,1] * (J.[2,2] - (J.[2,2] - ofZ 1)*a3) - (J.[2,1] * J.[1,2])*a2) - J.[0,1] *(J.[1,0] * (J.[2,2] -
    (J.[2,2] - ofZ 1)*a3) - (J.[2,0] * J.[1,2])*a2) + J.[0,2] *(J.[1,0] * J.[2,1] - J.[2,0] * J.[1,1])*(a2).
(* 591-614 *)
Definition jac_det4T (J : matT) : T :=
  J.[0,3] * J.[1,2] * J.[2,1] * J.[3,0] - J.[0,2] * J.[1,3] * J.[2,1] * J.[3,0] - J.[0,3] * J.[1,1] * J.[2,2]
    * J.[3,0] + J.[0,1] * J.[1,3] * J.[2,2] * J.[3,0] + J.[0,2] * J.[1,1] * J.[2,3] * J.[3,0] - J.[0,1] *
    J.[1,2] * J.[2,3] * J.[3,0] - J.[0,3] * J.[1,2] * J.[2,0] * J.[3,1] + J.[0,2] * J.[1,3] * J.[2,0] * J.[3,1]
    + J.[0,3] * J.[1,0] * J.[2,2] * J.[3,1] - J.[0,0] * J.[1,3] * J.[2,2] * J.[3,1] - J.[0,2] * J.[1,0] *
    J.[2,3] * J.[3,1] + J.[0,0] * J.[1,2] * J.[2,3] * J.[3,1] + J.[0,3] * J.[1,1] * J.[2,0] * J.[3,2] - J.[0,1]
    * J.[1,3] * J.[2,0] * J.[3,2] - J.[0,3] * J.[1,0] * J.[2,1] * J.[3,2] + J.[0,0] * J.[1,3] * J.[2,1] *
    J.[3,2] + J.[0,1] * J.[1,0] * J.[2,3] * J.[3,2] - J.[0,0] * J.[1,1] * J.[2,3] * J.[3,2] - J.[0,2] * J.[1,1]
    * J.[2,0] * J.[3,3] + J.[0,1] * J.[1,2] * J.[2,0] * J.[3,3] + J.[0,2] * J.[1,0] * J.[2,1] * J.[3,3] -
    J.[0,0] * J.[1,2] * J.[2,1] * J.[3,3] - J.[0,1] * J.[1,0] * J.[2,2] * J.[3,3] + J.[0,0] * J.[1,1] * J.[2,2]
    * J.[3,3].
Local Close Scope jac_scope.
(* 527-562 jacobian *)
Definition jacobianT (rows cols : nat) (J0 : matT) (vertices partial : matT) (n dim : nat) : outcome (matT * T) :=
  if (dim <=? rows) && (dim <=? cols) && (3 <=? rows) && (3 <=? cols) then
    let J := jac_fillT n dim vertices partial (jac_zeroT dim J0) in
    Ok (J, jac_det23T J (ofZ (Z.abs (Z.of_nat dim - 3))) (ofZ (Z.abs (Z.of_nat dim - 2))))
  else UB.
(* 565-616 jacobian4D *)
Definition jacobian4DT (rows cols : nat) (J0 : matT) (vertices partial : matT) (n dim : nat) : outcome (matT * T) :=
  if (dim <=? rows) && (dim <=? cols) && (4 <=? rows) && (4 <=? cols) then
    let J := jac_fillT n dim vertices partial (jac_zeroT dim J0) in Ok (J, jac_det4T J)
  else UB.
Definition mat_ofT (rows : list (list T)) : matT := fun i j => nth j (nth i rows []) (ofZ 0).
Local Open Scope jac_scope.
(* 619-630 jacobian_inverse_2d *)
Definition jacobian_inverse_2dT (J : matT) : matT :=
  let det := J.[0,0]*J.[1,1] - J.[0,1]*J.[1,0] in
  mat_ofT [[J.[1,1]/det; - J.[0,1]/det]; [- J.[1,0]/det; J.[0,0]/det]].
(* 633-673 jacobian_inverse_3d *)
Definition jacobian_inverse_3dT (J : matT) : matT :=
  let A_11 := J.[1,1]*J.[2,2] - J.[1,2]*J.[2,1] in
  let A_22 := J.[2,2]*J.[0,0] - J.[2,0]*J.[0,2] in
  let A_33 := J.[0,0]*J.[1,1] - J.[0,1]*J.[1,0] in
  let A_12 := J.[1,2]*J.[2,0] - J.[1,0]*J.[2,2] in
  let A_23 := J.[2,0]*J.[0,1] - J.[2,1]*J.[0,0] in
  let A_31 := J.[0,1]*J.[1,2] - J.[0,2]*J.[1,1] in
  let A_21 := J.[2,1]*J.[0,2] - J.[0,1]*J.[2,2] in
  let A_32 := J.[0,2]*J.[1,0] - J.[1,2]*J.[0,0] in
  let A_13 := J.[1,0]*J.[1,1] - J.[2,0]*J.[1,1] in
  let det := J.[0,0]*A_11 + J.[0,1]*A_21 + J.[0,2]*A_31 in
  mat_ofT [[A_11/det; A_12/det; A_13/det]; [A_21/det; A_22/det; A_23/det]; [A_31/det; A_32/det; A_33/det]].
(* 684-697: m = the 16 entries in row order *)
Definition flat4T (J : matT) : nat -> T := fun a => J (Nat.div a 4) (Nat.modulo a 4).
(* 700-810: inv *)
Definition inv16T (m : nat -> T) : nat -> T :=  fun a =>
  match a with
  | 0%nat => m 5%nat * m 10%nat * m 15%nat - m 5%nat * m 11%nat * m 14%nat - m 9%nat * m 6%nat * m 15%nat + m
      9%nat * m 7%nat * m 14%nat + m 13%nat * m 6%nat * m 11%nat - m 13%nat * m 7%nat * m 10%nat
  | 1%nat => -m 1%nat * m 10%nat * m 15%nat + m 1%nat * m 11%nat * m 14%nat + m 9%nat * m 2%nat * m 15%nat - m
      9%nat * m 3%nat * m 14%nat - m 13%nat * m 2%nat * m 11%nat + m 13%nat * m 3%nat * m 10%nat
  | 2%nat => m 1%nat * m 6%nat * m 15%nat - m 1%nat * m 7%nat * m 14%nat - m 5%nat * m 2%nat * m 15%nat + m 5%nat
      * m 3%nat * m 14%nat + m 13%nat * m 2%nat * m 7%nat - m 13%nat * m 3%nat * m 6%nat
  | 3%nat => -m 1%nat * m 6%nat * m 11%nat + m 1%nat * m 7%nat * m 10%nat + m 5%nat * m 2%nat * m 11%nat - m 5%nat
      * m 3%nat * m 10%nat - m 9%nat * m 2%nat * m 7%nat + m 9%nat * m 3%nat * m 6%nat
  | 4%nat => -m 4%nat * m 10%nat * m 15%nat + m 4%nat * m 11%nat * m 14%nat + m 8%nat * m 6%nat * m 15%nat - m
      8%nat * m 7%nat * m 14%nat - m 12%nat * m 6%nat * m 11%nat + m 12%nat * m 7%nat * m 10%nat
  | 5%nat => m 0%nat * m 10%nat * m 15%nat - m 0%nat * m 11%nat * m 14%nat - m 8%nat * m 2%nat * m 15%nat + m
      8%nat * m 3%nat * m 14%nat + m 12%nat * m 2%nat * m 11%nat - m 12%nat * m 3%nat * m 10%nat
  | 6%nat => -m 0%nat * m 6%nat * m 15%nat + m 0%nat * m 7%nat * m 14%nat + m 4%nat * m 2%nat * m 15%nat - m 4%nat
      * m 3%nat * m 14%nat - m 12%nat * m 2%nat * m 7%nat + m 12%nat * m 3%nat * m 6%nat
  | 7%nat => m 0%nat * m 6%nat * m 11%nat - m 0%nat * m 7%nat * m 10%nat - m 4%nat * m 2%nat * m 11%nat + m 4%nat
      * m 3%nat * m 10%nat + m 8%nat * m 2%nat * m 7%nat - m 8%nat * m 3%nat * m 6%nat
  | 8%nat => m 4%nat * m 9%nat * m 15%nat - m 4%nat * m 11%nat * m 13%nat - m 8%nat * m 5%nat * m 15%nat + m 8%nat
      * m 7%nat * m 13%nat + m 12%nat * m 5%nat * m 11%nat - m 12%nat * m 7%nat * m 9%nat
  | 9%nat => -m 0%nat * m 9%nat * m 15%nat + m 0%nat * m 11%nat * m 13%nat + m 8%nat * m 1%nat * m 15%nat - m
      8%nat * m 3%nat * m 13%nat - m 12%nat * m 1%nat * m 11%nat + m 12%nat * m 3%nat * m 9%nat
  | 10%nat => m 0%nat * m 5%nat * m 15%nat - m 0%nat * m 7%nat * m 13%nat - m 4%nat * m 1%nat * m 15%nat + m 4%nat
      * m 3%nat * m 13%nat + m 12%nat * m 1%nat * m 7%nat - m 12%nat * m 3%nat * m 6%nat
  | 11%nat => -m 0%nat * m 5%nat * m 11%nat + m 0%nat * m 7%nat * m 9%nat + m 4%nat * m 1%nat * m 11%nat - m 4%nat
      * m 3%nat * m 9%nat - m 8%nat * m 1%nat * m 7%nat + m 8%nat * m 3%nat * m 5%nat
  | 12%nat => -m 4%nat * m 9%nat * m 14%nat + m 4%nat * m 10%nat * m 13%nat + m 8%nat * m 5%nat * m 14%nat - m
      8%nat * m 6%nat * m 13%nat - m 12%nat * m 5%nat * m 10%nat + m 12%nat * m 6%nat * m 9%nat
  | 13%nat => m 0%nat * m 9%nat * m 14%nat - m 0%nat * m 10%nat * m 13%nat - m 8%nat * m 1%nat * m 14%nat + m 8%nat
      * m 2%nat * m 13%nat + m 12%nat * m 1%nat * m 10%nat - m 12%nat * m 2%nat * m 9%nat
  | 14%nat => -m 0%nat * m 5%nat * m 14%nat + m 0%nat * m 6%nat * m 13%nat + m 4%nat * m 1%nat * m 14%nat - m 4%nat
      * m 2%nat * m 13%nat - m 12%nat * m 1%nat * m 6%nat + m 12%nat * m 2%nat * m 5%nat
  | 15%nat => m 0%nat * m 5%nat * m 10%nat - m 0%nat * m 6%nat * m 9%nat - m 4%nat * m 1%nat * m 10%nat + m 4%nat *
      m 2%nat * m 9%nat + m 8%nat * m 1%nat * m 6%nat - m 8%nat * m 2%nat * m 5%nat
  | _ => ofZ 0
  end.
Local Close Scope jac_scope.
(* 676-838 jacobian_inverse_4d: inv_mat[i] = inv[i] * (1.0 / det_J), copied row by row (other entries are kept) *)
Definition jacobian_inverse_4dT (Jinv J : matT) (det_J : T) : matT := fun i j =>
  if (i <? 4) && (j <? 4) then mul (inv16T (flat4T J) (Nat.add (Nat.mul 4 i) j)) (div (ofZ 1%Z) det_J) else Jinv i j.
End Text.

(** ** the readings *)
Section Floating.
Variables prec emax : Z.
Notation fadd := (SFadd prec emax). Notation fsub := (SFsub prec emax). Notation fmul := (SFmul prec emax). Notation fdiv := (SFdiv prec emax).
Notation ofi := (of_int prec emax).
Definition fjacobian := jacobianT fadd fsub fmul ofi.
Definition fjacobian4D := jacobian4DT fadd fsub fmul ofi.
Definition fdet23 := jac_det23T fadd fsub fmul ofi.
Definition fdet4 := jac_det4T fadd fsub fmul.
Definition fjacobian_inverse_2d := jacobian_inverse_2dT fsub fmul fdiv SFopp ofi.
Definition fjacobian_inverse_3d := jacobian_inverse_3dT fadd fsub fmul fdiv ofi.
Definition fjacobian_inverse_4d := jacobian_inverse_4dT fadd fsub fmul fdiv SFopp ofi.
End Floating.
Definition rjacobian := jacobianT Rplus Rminus Rmult IZR.
Definition rjacobian4D := jacobian4DT Rplus Rminus Rmult IZR.
Definition rjacobian_inverse_2d := jacobian_inverse_2dT Rminus Rmult Rdiv Ropp IZR.
Definition rjacobian_inverse_3d := jacobian_inverse_3dT Rplus Rminus Rmult Rdiv IZR.
Definition rjacobian_inverse_4d := jacobian_inverse_4dT Rplus Rminus Rmult Rdiv Ropp IZR.
