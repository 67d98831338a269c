(** Quadrature rules in double precision: ristra/elements/elements.cc 10-524 with real_t = double.
    Every operation rounds to nearest even, in the order of the text; the assumptions on compiler and machine are those of
    FloatModel.v.
    - a decimal literal is the double nearest to the number written ([lit]); FloatQuadratureProps.v proves that [lit] is.
    - the index arithmetic is that of QuadratureModel.v. *)
From Coq Require Import ZArith List Bool SpecFloat.
From Verif Require Import Outcome FloatModel QuadratureModel.
Import ListNotations.
Local Open Scope Z_scope.

Notation num := spec_float.
Declare Scope num_scope.
Delimit Scope num_scope with num.
Bind Scope num_scope with spec_float.
Notation "a + b" := (SFadd 53 1024 a b) : num_scope.
Notation "a - b" := (SFsub 53 1024 a b) : num_scope.
Notation "a * b" := (SFmul 53 1024 a b) : num_scope.
Notation "a / b" := (SFdiv 53 1024 a b) : num_scope.
Definition sqrt (x : num) : num := SFsqrt 53 1024 x.
Definition opp (x : num) : num := SFopp x.
(* a whole literal *)
Definition i (n : Z) : num := of_int 53 1024 n.
(* the literal m / 10^k; the arguments of SFdiv are exact numbers, not doubles *)
Definition lit (m : positive) (k : positive) : num := SFdiv 53 1024 (S754_finite false m 0) (S754_finite false (10 ^ k) 0).
Local Open Scope num_scope.

(** ** LineGaussRuleInfo *)
(* 21-22 g2 *)
Definition gauss_g2 : list num :=
  let e0 := opp (i 1) / sqrt (i 3) in
  let e1 := opp (i 1) * e0 in
  [e0; e1].
(* 24-26 w3 *)
Definition gauss_w3 : list num :=
  let e0 := i 5 / i 9 in
  let e1 := i 8 / i 9 in
  let e2 := e0 in
  [e0; e1; e2].
(* 28-30 g3 *)
Definition gauss_g3 : list num :=
  let e0 := opp (sqrt (i 3 / i 5)) in
  let e1 := i 0 in
  let e2 := opp (i 1) * e0 in
  [e0; e1; e2].
(* 32-35 w4 *)
Definition gauss_w4 : list num :=
  let e0 := (i 1 / i 2) - sqrt (i 5 / i 6) / i 6 in
  let e1 := (i 1 / i 2) + sqrt (i 5 / i 6) / i 6 in
  let e2 := e1 in
  let e3 := e0 in
  [e0; e1; e2; e3].
(* 37-40 g4 *)
Definition gauss_g4 : list num :=
  let e0 := opp (sqrt ((i 3 + i 2 * sqrt (i 6 / i 5)) / i 7)) in
  let e1 := opp (sqrt ((i 3 - i 2 * sqrt (i 6 / i 5)) / i 7)) in
  let e2 := opp e1 in
  let e3 := opp e0 in
  [e0; e1; e2; e3].
(* 42-46 w5 *)
Definition gauss_w5 : list num :=
  let e0 := (i 322 - i 13 * sqrt (i 70)) / i 900 in
  let e1 := (i 322 + i 13 * sqrt (i 70)) / i 900 in
  let e2 := i 512 / i 900 in
  let e3 := e1 in
  let e4 := e0 in
  [e0; e1; e2; e3; e4].
(* 48-52 g5 *)
Definition gauss_g5 : list num :=
  let e0 := opp (sqrt (i 5 + i 2 * sqrt (i 10 / i 7))) / i 3 in
  let e1 := opp (sqrt (i 5 - i 2 * sqrt (i 10 / i 7))) / i 3 in
  let e2 := i 0 in
  let e3 := opp e1 in
  let e4 := opp e0 in
  [e0; e1; e2; e3; e4].
(* 54-59 w6 *)
Definition gauss_w6 : list num :=
  let e0 := lit 1713244923791704 16 in
  let e1 := lit 3607615730481386 16 in
  let e2 := lit 4679139345726910 16 in
  let e3 := e2 in
  let e4 := e1 in
  let e5 := e0 in
  [e0; e1; e2; e3; e4; e5].
(* 61-66 g6 *)
Definition gauss_g6 : list num :=
  let e0 := opp (lit 9324695142031521 16) in
  let e1 := opp (lit 6612093864662645 16) in
  let e2 := opp (lit 2386191860831969 16) in
  let e3 := opp e2 in
  let e4 := opp e1 in
  let e5 := opp e0 in
  [e0; e1; e2; e3; e4; e5].
(* 68-74 w7 *)
Definition gauss_w7 : list num :=
  let e0 := lit 1294849661688697 16 in
  let e1 := lit 2797053914892766 16 in
  let e2 := lit 3818300505051189 16 in
  let e3 := lit 4179591836734694 16 in
  let e4 := e2 in
  let e5 := e1 in
  let e6 := e0 in
  [e0; e1; e2; e3; e4; e5; e6].
(* 76-82 g7 *)
Definition gauss_g7 : list num :=
  let e0 := opp (lit 9491079123427585 16) in
  let e1 := opp (lit 7415311855993945 16) in
  let e2 := opp (lit 4058451513773972 16) in
  let e3 := i 0 in
  let e4 := opp e2 in
  let e5 := opp e1 in
  let e6 := opp e0 in
  [e0; e1; e2; e3; e4; e5; e6].
(* 84-91 w8 *)
Definition gauss_w8 : list num :=
  let e0 := lit 1012285362903763 16 in
  let e1 := lit 2223810344533745 16 in
  let e2 := lit 3137066458778873 16 in
  let e3 := lit 3626837833783620 16 in
  let e4 := e3 in
  let e5 := e2 in
  let e6 := e1 in
  let e7 := e0 in
  [e0; e1; e2; e3; e4; e5; e6; e7].
(* 93-100 g8 *)
Definition gauss_g8 : list num :=
  let e0 := opp (lit 9602898564975363 16) in
  let e1 := opp (lit 7966664774136267 16) in
  let e2 := opp (lit 5255324099163290 16) in
  let e3 := opp (lit 1834346424956498 16) in
  let e4 := opp e3 in
  let e5 := opp e2 in
  let e6 := opp e1 in
  let e7 := opp e0 in
  [e0; e1; e2; e3; e4; e5; e6; e7].
(** ** LineLobattoRuleInfo *)
(* 125-126 L2 *)
Definition lobatto_l2 : list num :=
  let e0 := opp (i 1) in
  let e1 := i 1 in
  [e0; e1].
(* 128-130 w3 *)
Definition lobatto_w3 : list num :=
  let e0 := i 1 / i 3 in
  let e1 := i 4 / i 3 in
  let e2 := e0 in
  [e0; e1; e2].
(* 132-134 L3 *)
Definition lobatto_l3 : list num :=
  let e0 := i 1 in
  let e1 := i 0 in
  let e2 := opp (i 1) in
  [e0; e1; e2].
(* 136-139 w4 *)
Definition lobatto_w4 : list num :=
  let e0 := lit 1666666666666666666667 22 in
  let e1 := lit 8333333333333333333333 22 in
  let e2 := e1 in
  let e3 := e0 in
  [e0; e1; e2; e3].
(* 141-144 L4 *)
Definition lobatto_l4 : list num :=
  let e0 := opp (i 1) in
  let e1 := opp (lit 447213595499957939282 21) in
  let e2 := opp e1 in
  let e3 := opp e0 in
  [e0; e1; e2; e3].
(* 146-150 L5 *)
Definition lobatto_l5 : list num :=
  let e0 := opp (i 1) in
  let e1 := opp (lit 6546536707079771437983 22) in
  let e2 := i 0 in
  let e3 := opp e1 in
  let e4 := opp e0 in
  [e0; e1; e2; e3; e4].
(* 152-156 w5 *)
Definition lobatto_w5 : list num :=
  let e0 := lit 1 1 in
  let e1 := lit 544444444444444444444 21 in
  let e2 := lit 7111111111111111111111 22 in
  let e3 := e1 in
  let e4 := e0 in
  [e0; e1; e2; e3; e4].
(* 158-163 L6 *)
Definition lobatto_l6 : list num :=
  let e0 := opp (i 1) in
  let e1 := opp (lit 765055323929464692851 21) in
  let e2 := opp (lit 2852315164806450963142 22) in
  let e3 := opp e2 in
  let e4 := opp e1 in
  let e5 := opp e0 in
  [e0; e1; e2; e3; e4; e5].
(* 166-171 w6 *)
Definition lobatto_w6 : list num :=
  let e0 := lit 6666666666666666666667 23 in
  let e1 := lit 3784749562978469803166 22 in
  let e2 := lit 5548583770354863530167 22 in
  let e3 := e2 in
  let e4 := e1 in
  let e5 := e0 in
  [e0; e1; e2; e3; e4; e5].
(* 173-179 L7 *)
Definition lobatto_l7 : list num :=
  let e0 := opp (i 1) in
  let e1 := opp (lit 830223896278566929872 21) in
  let e2 := opp (lit 4688487934707142138038 22) in
  let e3 := i 0 in
  let e4 := opp e2 in
  let e5 := opp e1 in
  let e6 := opp e0 in
  [e0; e1; e2; e3; e4; e5; e6].
(* 182-188 w7 *)
Definition lobatto_w7 : list num :=
  let e0 := lit 4761904761904761904762 23 in
  let e1 := lit 276826047361565948011 21 in
  let e2 := lit 4317453812098626234179 22 in
  let e3 := lit 487619047619047619048 21 in
  let e4 := e2 in
  let e5 := e1 in
  let e6 := e0 in
  [e0; e1; e2; e3; e4; e5; e6].
(* 191-198 L8 *)
Definition lobatto_l8 : list num :=
  let e0 := opp (i 1) in
  let e1 := opp (lit 8717401485096066153375 22) in
  let e2 := opp (lit 5917001814331423021445 22) in
  let e3 := opp (lit 2092992179024788687687 22) in
  let e4 := opp e3 in
  let e5 := opp e2 in
  let e6 := opp e1 in
  let e7 := opp e0 in
  [e0; e1; e2; e3; e4; e5; e6; e7].
(* 201-208 w8 *)
Definition lobatto_w8 : list num :=
  let e0 := lit 3571428571428571428571 23 in
  let e1 := lit 210704227143506039383 21 in
  let e2 := lit 3411226924835043647642 22 in
  let e3 := lit 4124587946587038815671 22 in
  let e4 := e3 in
  let e5 := e2 in
  let e6 := e1 in
  let e7 := e0 in
  [e0; e1; e2; e3; e4; e5; e6; e7].

(** ** line rules *)
(* x = g[m]; w = w[m] *)
Definition flook (xs ws : list num) (m : Z) : outcome (num * num) :=
  if Z.ltb m 0 then UB else
  match nth_error xs (Z.to_nat m), nth_error ws (Z.to_nat m) with Some x, Some w => Ok (x, w) | _, _ => UB end.
(* 102-109; other orders leave x and w uninitialised *)
Definition fline_gauss (m p : Z) : outcome (num * num) :=
  let m := (m - 1)%Z in
  match p with
  | 1%Z => Ok (i 0, i 2)
  | 2%Z => flook gauss_g2 [i 1; i 1] m
  | 3%Z => flook gauss_g3 gauss_w3 m
  | 4%Z => flook gauss_g4 gauss_w4 m
  | 5%Z => flook gauss_g5 gauss_w5 m
  | 6%Z => flook gauss_g6 gauss_w6 m
  | 7%Z => flook gauss_g7 gauss_w7 m
  | 8%Z => flook gauss_g8 gauss_w8 m
  | _ => UB
  end.
(* 210-217 *)
Definition fline_lobatto (m p : Z) : outcome (num * num) :=
  let m := (m - 1)%Z in
  match p with
  | 1%Z => Ok (i 0, i 2)
  | 2%Z => flook lobatto_l2 [i 1; i 1] m
  | 3%Z => flook lobatto_l3 lobatto_w3 m
  | 4%Z => flook lobatto_l4 lobatto_w4 m
  | 5%Z => flook lobatto_l5 lobatto_w5 m
  | 6%Z => flook lobatto_l6 lobatto_w6 m
  | 7%Z => flook lobatto_l7 lobatto_w7 m
  | 8%Z => flook lobatto_l8 lobatto_w8 m
  | _ => UB
  end.

(** ** tensor product rules: point number m, as in QuadratureModel.v *)
(* one direction after the other: these_g_pts[m][d] = x; these_weights[m][d] = 1.0 * w *)
Fixpoint fdirections (line : Z -> Z -> outcome (num * num)) (n : Z) (is : list Z) : outcome (list num * list num) :=
  match is with
  | [] => Ok ([], [])
  | j :: is => bind (line j n) (fun xw => bind (fdirections line n is) (fun r => Ok (fst xw :: fst r, i 1 * snd xw :: snd r)))
  end.
(* 222-262 and 385-417 *)
Definition ftensor2 line (n m : Z) := let '(a, b) := idx2 n m in fdirections line n [a; b].
(* 265-319 and 420-464 *)
Definition ftensor3 line (n m : Z) := let '(a, b, c) := idx3 n m in fdirections line n [a; b; c].
(* 322-382 and 467-524 *)
Definition ftensor4 line (n dim m : Z) := let '(a, b, c, d) := idx4 n dim m in fdirections line n [a; b; c; d].
(* 253-257 and 309-314: the product of the weights, from left to right *)
Definition ftot_weight (ws : list num) : num := fold_left (SFmul 53 1024) (tl ws) (hd (i 0) ws).
