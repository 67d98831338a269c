(** Quadrature rules: ristra/elements/elements.cc 10-524, over exact reals.
    The decimal constants are the rationals written in the source (a compiler rounds them to double); rounding of the
    remaining arithmetic is not modelled either.  Integers are unbounded (the largest product is order^4). *)
From Coq Require Import Reals List ZArith Lia.
From Verif Require Import Outcome.
Import ListNotations.
Open Scope R_scope.

(* elements.cc 20-101, the local tables *)
Definition gauss_g2_0 : R := -1/ sqrt (3).
Definition gauss_g2_1 : R := -1 * gauss_g2_0.
Definition gauss_w3_0 : R := 5/9.
Definition gauss_w3_1 : R := 8/9.
Definition gauss_w3_2 : R := gauss_w3_0.
Definition gauss_g3_0 : R := - sqrt (3/5).
Definition gauss_g3_1 : R := 0.
Definition gauss_g3_2 : R := -1 * gauss_g3_0.
Definition gauss_w4_0 : R := (1/2)- sqrt (5/6)/6.
Definition gauss_w4_1 : R := (1/2)+ sqrt (5/6)/6.
Definition gauss_w4_2 : R := gauss_w4_1.
Definition gauss_w4_3 : R := gauss_w4_0.
Definition gauss_g4_0 : R := - sqrt ((3+2* sqrt (6/5))/7).
Definition gauss_g4_1 : R := - sqrt ((3-2* sqrt (6/5))/7).
Definition gauss_g4_2 : R := -gauss_g4_1.
Definition gauss_g4_3 : R := -gauss_g4_0.
Definition gauss_w5_0 : R := (322-13* sqrt (70))/900.
Definition gauss_w5_1 : R := (322+13* sqrt (70))/900.
Definition gauss_w5_2 : R := 512/900.
Definition gauss_w5_3 : R := gauss_w5_1.
Definition gauss_w5_4 : R := gauss_w5_0.
Definition gauss_g5_0 : R := - sqrt (5+2* sqrt (10/7))/3.
Definition gauss_g5_1 : R := - sqrt (5-2* sqrt (10/7))/3.
Definition gauss_g5_2 : R := 0.
Definition gauss_g5_3 : R := -gauss_g5_1.
Definition gauss_g5_4 : R := -gauss_g5_0.
Definition gauss_w6_0 : R := 0.1713244923791704.
Definition gauss_w6_1 : R := 0.3607615730481386.
Definition gauss_w6_2 : R := 0.4679139345726910.
Definition gauss_w6_3 : R := gauss_w6_2.
Definition gauss_w6_4 : R := gauss_w6_1.
Definition gauss_w6_5 : R := gauss_w6_0.
Definition gauss_g6_0 : R := -0.9324695142031521.
Definition gauss_g6_1 : R := -0.6612093864662645.
Definition gauss_g6_2 : R := -0.2386191860831969.
Definition gauss_g6_3 : R := -gauss_g6_2.
Definition gauss_g6_4 : R := -gauss_g6_1.
Definition gauss_g6_5 : R := -gauss_g6_0.
Definition gauss_w7_0 : R := 0.1294849661688697.
Definition gauss_w7_1 : R := 0.2797053914892766.
Definition gauss_w7_2 : R := 0.3818300505051189.
Definition gauss_w7_3 : R := 0.4179591836734694.
Definition gauss_w7_4 : R := gauss_w7_2.
Definition gauss_w7_5 : R := gauss_w7_1.
Definition gauss_w7_6 : R := gauss_w7_0.
Definition gauss_g7_0 : R := -0.9491079123427585.
Definition gauss_g7_1 : R := -0.7415311855993945.
Definition gauss_g7_2 : R := -0.4058451513773972.
Definition gauss_g7_3 : R := 0.
Definition gauss_g7_4 : R := -gauss_g7_2.
Definition gauss_g7_5 : R := -gauss_g7_1.
Definition gauss_g7_6 : R := -gauss_g7_0.
Definition gauss_w8_0 : R := 0.1012285362903763.
Definition gauss_w8_1 : R := 0.2223810344533745.
Definition gauss_w8_2 : R := 0.3137066458778873.
Definition gauss_w8_3 : R := 0.3626837833783620.
Definition gauss_w8_4 : R := gauss_w8_3.
Definition gauss_w8_5 : R := gauss_w8_2.
Definition gauss_w8_6 : R := gauss_w8_1.
Definition gauss_w8_7 : R := gauss_w8_0.
Definition gauss_g8_0 : R := -0.9602898564975363.
Definition gauss_g8_1 : R := -0.7966664774136267.
Definition gauss_g8_2 : R := -0.5255324099163290.
Definition gauss_g8_3 : R := -0.1834346424956498.
Definition gauss_g8_4 : R := -gauss_g8_3.
Definition gauss_g8_5 : R := -gauss_g8_2.
Definition gauss_g8_6 : R := -gauss_g8_1.
Definition gauss_g8_7 : R := -gauss_g8_0.
Definition gauss_points2 : list R := [gauss_g2_0; gauss_g2_1].
Definition gauss_weights2 : list R := [1; 1].
Definition gauss_points3 : list R := [gauss_g3_0; gauss_g3_1; gauss_g3_2].
Definition gauss_weights3 : list R := [gauss_w3_0; gauss_w3_1; gauss_w3_2].
Definition gauss_points4 : list R := [gauss_g4_0; gauss_g4_1; gauss_g4_2; gauss_g4_3].
Definition gauss_weights4 : list R := [gauss_w4_0; gauss_w4_1; gauss_w4_2; gauss_w4_3].
Definition gauss_points5 : list R := [gauss_g5_0; gauss_g5_1; gauss_g5_2; gauss_g5_3; gauss_g5_4].
Definition gauss_weights5 : list R := [gauss_w5_0; gauss_w5_1; gauss_w5_2; gauss_w5_3; gauss_w5_4].
Definition gauss_points6 : list R := [gauss_g6_0; gauss_g6_1; gauss_g6_2; gauss_g6_3; gauss_g6_4; gauss_g6_5].
Definition gauss_weights6 : list R := [gauss_w6_0; gauss_w6_1; gauss_w6_2; gauss_w6_3; gauss_w6_4; gauss_w6_5].
Definition gauss_points7 : list R := [gauss_g7_0; gauss_g7_1; gauss_g7_2; gauss_g7_3; gauss_g7_4; gauss_g7_5; gauss_g7_6].
Definition gauss_weights7 : list R := [gauss_w7_0; gauss_w7_1; gauss_w7_2; gauss_w7_3; gauss_w7_4; gauss_w7_5; gauss_w7_6].
Definition gauss_points8 : list R := [gauss_g8_0; gauss_g8_1; gauss_g8_2; gauss_g8_3; gauss_g8_4; gauss_g8_5; gauss_g8_6; gauss_g8_7].
Definition gauss_weights8 : list R := [gauss_w8_0; gauss_w8_1; gauss_w8_2; gauss_w8_3; gauss_w8_4; gauss_w8_5; gauss_w8_6; gauss_w8_7].

(* elements.cc 125-209, the local tables *)
Definition lobatto_l2_0 : R := -1.
Definition lobatto_l2_1 : R := 1.
Definition lobatto_w3_0 : R := 1/3.
Definition lobatto_w3_1 : R := 4/3.
Definition lobatto_w3_2 : R := lobatto_w3_0.
Definition lobatto_l3_0 : R := 1.
Definition lobatto_l3_1 : R := 0.
Definition lobatto_l3_2 : R := -1.
Definition lobatto_w4_0 : R := 0.1666666666666666666667.
Definition lobatto_w4_1 : R := 0.8333333333333333333333.
Definition lobatto_w4_2 : R := lobatto_w4_1.
Definition lobatto_w4_3 : R := lobatto_w4_0.
Definition lobatto_l4_0 : R := -1.
Definition lobatto_l4_1 : R := -0.447213595499957939282.
Definition lobatto_l4_2 : R := -lobatto_l4_1.
Definition lobatto_l4_3 : R := -lobatto_l4_0.
Definition lobatto_l5_0 : R := -1.
Definition lobatto_l5_1 : R := -0.6546536707079771437983.
Definition lobatto_l5_2 : R := 0.
Definition lobatto_l5_3 : R := -lobatto_l5_1.
Definition lobatto_l5_4 : R := -lobatto_l5_0.
Definition lobatto_w5_0 : R := 0.1.
Definition lobatto_w5_1 : R := 0.544444444444444444444.
Definition lobatto_w5_2 : R := 0.7111111111111111111111.
Definition lobatto_w5_3 : R := lobatto_w5_1.
Definition lobatto_w5_4 : R := lobatto_w5_0.
Definition lobatto_l6_0 : R := -1.
Definition lobatto_l6_1 : R := -0.765055323929464692851.
Definition lobatto_l6_2 : R := -0.2852315164806450963142.
Definition lobatto_l6_3 : R := -lobatto_l6_2.
Definition lobatto_l6_4 : R := -lobatto_l6_1.
Definition lobatto_l6_5 : R := -lobatto_l6_0.
Definition lobatto_w6_0 : R := 0.06666666666666666666667.
Definition lobatto_w6_1 : R := 0.3784749562978469803166.
Definition lobatto_w6_2 : R := 0.5548583770354863530167.
Definition lobatto_w6_3 : R := lobatto_w6_2.
Definition lobatto_w6_4 : R := lobatto_w6_1.
Definition lobatto_w6_5 : R := lobatto_w6_0.
Definition lobatto_l7_0 : R := -1.
Definition lobatto_l7_1 : R := -0.830223896278566929872.
Definition lobatto_l7_2 : R := -0.4688487934707142138038.
Definition lobatto_l7_3 : R := 0.
Definition lobatto_l7_4 : R := -lobatto_l7_2.
Definition lobatto_l7_5 : R := -lobatto_l7_1.
Definition lobatto_l7_6 : R := -lobatto_l7_0.
Definition lobatto_w7_0 : R := 0.04761904761904761904762.
Definition lobatto_w7_1 : R := 0.276826047361565948011.
Definition lobatto_w7_2 : R := 0.4317453812098626234179.
Definition lobatto_w7_3 : R := 0.487619047619047619048.
Definition lobatto_w7_4 : R := lobatto_w7_2.
Definition lobatto_w7_5 : R := lobatto_w7_1.
Definition lobatto_w7_6 : R := lobatto_w7_0.
Definition lobatto_l8_0 : R := -1.
Definition lobatto_l8_1 : R := -0.8717401485096066153375.
Definition lobatto_l8_2 : R := -0.5917001814331423021445.
Definition lobatto_l8_3 : R := -0.2092992179024788687687.
Definition lobatto_l8_4 : R := -lobatto_l8_3.
Definition lobatto_l8_5 : R := -lobatto_l8_2.
Definition lobatto_l8_6 : R := -lobatto_l8_1.
Definition lobatto_l8_7 : R := -lobatto_l8_0.
Definition lobatto_w8_0 : R := 0.03571428571428571428571.
Definition lobatto_w8_1 : R := 0.210704227143506039383.
Definition lobatto_w8_2 : R := 0.3411226924835043647642.
Definition lobatto_w8_3 : R := 0.4124587946587038815671.
Definition lobatto_w8_4 : R := lobatto_w8_3.
Definition lobatto_w8_5 : R := lobatto_w8_2.
Definition lobatto_w8_6 : R := lobatto_w8_1.
Definition lobatto_w8_7 : R := lobatto_w8_0.
Definition lobatto_points2 : list R := [lobatto_l2_0; lobatto_l2_1].
Definition lobatto_weights2 : list R := [1; 1].
Definition lobatto_points3 : list R := [lobatto_l3_0; lobatto_l3_1; lobatto_l3_2].
Definition lobatto_weights3 : list R := [lobatto_w3_0; lobatto_w3_1; lobatto_w3_2].
Definition lobatto_points4 : list R := [lobatto_l4_0; lobatto_l4_1; lobatto_l4_2; lobatto_l4_3].
Definition lobatto_weights4 : list R := [lobatto_w4_0; lobatto_w4_1; lobatto_w4_2; lobatto_w4_3].
Definition lobatto_points5 : list R := [lobatto_l5_0; lobatto_l5_1; lobatto_l5_2; lobatto_l5_3; lobatto_l5_4].
Definition lobatto_weights5 : list R := [lobatto_w5_0; lobatto_w5_1; lobatto_w5_2; lobatto_w5_3; lobatto_w5_4].
Definition lobatto_points6 : list R := [lobatto_l6_0; lobatto_l6_1; lobatto_l6_2; lobatto_l6_3; lobatto_l6_4; lobatto_l6_5].
Definition lobatto_weights6 : list R := [lobatto_w6_0; lobatto_w6_1; lobatto_w6_2; lobatto_w6_3; lobatto_w6_4; lobatto_w6_5].
Definition lobatto_points7 : list R := [lobatto_l7_0; lobatto_l7_1; lobatto_l7_2; lobatto_l7_3; lobatto_l7_4; lobatto_l7_5; lobatto_l7_6].
Definition lobatto_weights7 : list R := [lobatto_w7_0; lobatto_w7_1; lobatto_w7_2; lobatto_w7_3; lobatto_w7_4; lobatto_w7_5; lobatto_w7_6].
Definition lobatto_points8 : list R := [lobatto_l8_0; lobatto_l8_1; lobatto_l8_2; lobatto_l8_3; lobatto_l8_4; lobatto_l8_5; lobatto_l8_6; lobatto_l8_7].
Definition lobatto_weights8 : list R := [lobatto_w8_0; lobatto_w8_1; lobatto_w8_2; lobatto_w8_3; lobatto_w8_4; lobatto_w8_5; lobatto_w8_6; lobatto_w8_7].

(* x = g[m]; w = w[m]: reading outside the array is undefined *)
Definition look (xs ws : list R) (m : Z) : outcome (R * R) :=
  if Z.ltb m 0 then UB else
  match nth_error xs (Z.to_nat m), nth_error ws (Z.to_nat m) with Some x, Some w => Ok (x, w) | _, _ => UB end.
(* elements.cc 10-111 LineGaussRuleInfo: "m--" and then one table lookup per order.  No branch is taken for an order outside
   1..8: x and w then keep their values, which at every call below are uninitialised, so the caller reads
   indeterminate values; that is UB here. *)
Definition line_gauss (m p : Z) : outcome (R * R) :=
  let m := (m - 1)%Z in
  match p with
  | 1%Z => Ok (0, 2)
  | 2%Z => look gauss_points2 gauss_weights2 m
  | 3%Z => look gauss_points3 gauss_weights3 m
  | 4%Z => look gauss_points4 gauss_weights4 m
  | 5%Z => look gauss_points5 gauss_weights5 m
  | 6%Z => look gauss_points6 gauss_weights6 m
  | 7%Z => look gauss_points7 gauss_weights7 m
  | 8%Z => look gauss_points8 gauss_weights8 m
  | _ => UB
  end.
(* elements.cc 114-219 LineLobattoRuleInfo: "m--" and then one table lookup per order.  No branch is taken for an order outside
   1..8: x and w then keep their values, which at every call below are uninitialised, so the caller reads
   indeterminate values; that is UB here. *)
Definition line_lobatto (m p : Z) : outcome (R * R) :=
  let m := (m - 1)%Z in
  match p with
  | 1%Z => Ok (0, 2)
  | 2%Z => look lobatto_points2 lobatto_weights2 m
  | 3%Z => look lobatto_points3 lobatto_weights3 m
  | 4%Z => look lobatto_points4 lobatto_weights4 m
  | 5%Z => look lobatto_points5 lobatto_weights5 m
  | 6%Z => look lobatto_points6 lobatto_weights6 m
  | 7%Z => look lobatto_points7 lobatto_weights7 m
  | 8%Z => look lobatto_points8 lobatto_weights8 m
  | _ => UB
  end.

(** ** index arithmetic of the tensor-product rules; [n] is quad_order *)
(* elements.cc 240-241 and 400-401: int division, floor of an int *)
Definition idx2 (n m : Z) : Z * Z :=
  let j := (Z.quot m n + 1)%Z in
  let i := (m + 1 - n * (j - 1))%Z in (i, j).
(* elements.cc 283-290 and 436-443 *)
Definition idx3 (n m : Z) : Z * Z * Z :=
  let p12 := (n * n)%Z in
  let k := (Z.quot m p12 + 1)%Z in
  let jj := (m + 1 - p12 * (k - 1))%Z in
  let j := (Z.quot (jj - 1) n + 1)%Z in
  let i := (jj - n * (j - 1))%Z in (i, j, k).
(* elements.cc 339-354 and 481-496: a and b are doubles, so the divisions by them are real and floor is the real one;
   every value is an integer, so the conversions to int are exact *)
Definition floor (r : R) : Z := Int_part r.
Definition idx4 (n dim m : Z) : Z * Z * Z * Z :=
  let a := (n ^ (dim - 1))%Z in
  let b := (n ^ (dim - 2))%Z in
  let l := (floor (IZR m / IZR a) + 1)%Z in
  let kk := (m + 1 - a * (l - 1))%Z in
  let k := (floor (IZR (kk - 1) / IZR b) + 1)%Z in
  let jj := (m + 1 - b * (k - 1) - a * (l - 1))%Z in
  let j := (Z.quot (jj - 1) n + 1)%Z in
  let i := (jj - n * (j - 1))%Z in (i, j, k, l).

(** what the loop body stores for point number m: these_g_pts[m], these_weights[m] ({1.0,..} and then *= w).
    The loop runs over m < order^d and every iteration writes only its own entries. *)
Definition axis (line : Z -> Z -> outcome (R * R)) (n i : Z) (k : R -> R -> outcome (list R * list R)) :=
  bind (line i n) (fun xw => k (fst xw) (1 * snd xw)).
(* elements.cc 222-262 Gauss2D; 385-415 Lobatto2D *)
Definition tensor2 (line : Z -> Z -> outcome (R * R)) (n m : Z) : outcome (list R * list R) :=
  let '(i, j) := idx2 n m in
  axis line n i (fun x0 w0 => axis line n j (fun x1 w1 => Ok ([x0; x1], [w0; w1]))).
Definition gauss2d := tensor2 line_gauss.
Definition lobatto2d := tensor2 line_lobatto.
(* elements.cc 265-319 Gauss3D; 418-464 Lobatto3D *)
Definition tensor3 (line : Z -> Z -> outcome (R * R)) (n m : Z) : outcome (list R * list R) :=
  let '(i, j, k) := idx3 n m in
  axis line n i (fun x0 w0 => axis line n j (fun x1 w1 => axis line n k (fun x2 w2 =>
    Ok ([x0; x1; x2], [w0; w1; w2])))).
Definition gauss3d := tensor3 line_gauss.
Definition lobatto3d := tensor3 line_lobatto.
(* elements.cc 322-382 Gauss4D; 467-524 Lobatto4D *)
Definition tensor4 (line : Z -> Z -> outcome (R * R)) (n dim m : Z) : outcome (list R * list R) :=
  let '(i, j, k, l) := idx4 n dim m in
  axis line n i (fun x0 w0 => axis line n j (fun x1 w1 => axis line n k (fun x2 w2 => axis line n l (fun x3 w3 =>
    Ok ([x0; x1; x2; x3], [w0; w1; w2; w3]))))).
Definition gauss4d := tensor4 line_gauss.
Definition lobatto4d := tensor4 line_lobatto.
(* tot_g_weight, elements.cc 253-257 and 309-314 *)
Definition tot_weight (pw : list R * list R) : R := fold_left Rmult (tl (snd pw)) (hd 0 (snd pw)).
