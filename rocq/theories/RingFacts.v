(** Polynomial identities used for the 2x2 and 3x3 inverses, proved once over any commutative ring
    given by the standard library's [ring_theory] (mathcomp rings are instances of it). *)
Require Import Ring Ring_theory ZArith List.
Set Implicit Arguments.
Section Identities.
Variable T : Type.
Variables (r0 r1 : T) (radd rmul rsub : T -> T -> T) (ropp : T -> T).
Variable RT : ring_theory r0 r1 radd rmul rsub ropp (@eq T).
Add Ring Tring : RT.
Notation "0" := r0. Notation "1" := r1.
Notation "x + y" := (radd x y). Notation "x * y" := (rmul x y).
Notation "x - y" := (rsub x y). Notation "- x" := (ropp x).

Lemma det2_fact a b c d :
  0 + 1 * a * d + (- (1)) * b * c = a * d - b * c.
Proof using RT. ring. Qed.
Lemma det3_fact a11 a12 a13 a21 a22 a23 a31 a32 a33 :
  0 + 1 * a11 * (0 + 1 * a22 * a33 + (- (1)) * a23 * a32)
    + (- (1)) * a12 * (0 + 1 * a21 * a33 + (- (1)) * a23 * a31)
    + 1 * a13 * (0 + 1 * a21 * a32 + (- (1)) * a22 * a31)
  = a11*a22*a33 + a12*a23*a31 + a13*a21*a32 - a31*a22*a13 - a32*a23*a11 - a33*a21*a12.
Proof using RT. ring. Qed.
Lemma inv2_fact a b c d e : (a * d - b * c) * e = 1 ->
  a * (d * e) + b * (- c * e) = 1 /\ a * (- b * e) + b * (a * e) = 0 /\
  c * (d * e) + d * (- c * e) = 0 /\ c * (- b * e) + d * (a * e) = 1.
Proof using RT. intro H; repeat split; try ring; rewrite <- H; ring. Qed.
Lemma inv3_fact a11 a12 a13 a21 a22 a23 a31 a32 a33 e :
  (a11*a22*a33 + a12*a23*a31 + a13*a21*a32 - a31*a22*a13 - a32*a23*a11 - a33*a21*a12) * e = 1 ->
  (a11*((a22*a33 - a32*a23) * e) + a12*((a23*a31 - a33*a21) * e) + a13*((a21*a32 - a31*a22) * e) = 1 /\
   a11*((a13*a32 - a33*a12) * e) + a12*((a11*a33 - a31*a13) * e) + a13*((a12*a31 - a32*a11) * e) = 0 /\
   a11*((a12*a23 - a22*a13) * e) + a12*((a13*a21 - a23*a11) * e) + a13*((a11*a22 - a21*a12) * e) = 0) /\
  (a21*((a22*a33 - a32*a23) * e) + a22*((a23*a31 - a33*a21) * e) + a23*((a21*a32 - a31*a22) * e) = 0 /\
   a21*((a13*a32 - a33*a12) * e) + a22*((a11*a33 - a31*a13) * e) + a23*((a12*a31 - a32*a11) * e) = 1 /\
   a21*((a12*a23 - a22*a13) * e) + a22*((a13*a21 - a23*a11) * e) + a23*((a11*a22 - a21*a12) * e) = 0) /\
  (a31*((a22*a33 - a32*a23) * e) + a32*((a23*a31 - a33*a21) * e) + a33*((a21*a32 - a31*a22) * e) = 0 /\
   a31*((a13*a32 - a33*a12) * e) + a32*((a11*a33 - a31*a13) * e) + a33*((a12*a31 - a32*a11) * e) = 0 /\
   a31*((a12*a23 - a22*a13) * e) + a32*((a13*a21 - a23*a11) * e) + a33*((a11*a22 - a21*a12) * e) = 1).
Proof using RT. intro H; repeat split; try ring; rewrite <- H; ring. Qed.

(** Numerals of an arbitrary commutative ring, in the form the [ring] tactic reads as constants. *)
Definition num (z : Z) : T := InitialRing.gen_phiZ r0 r1 radd rmul ropp z.

(** Horner form: [horner [a0;a1;...] x = a0 + x*(a1 + ...)] *)
Fixpoint hor (l : list Z) (x : T) : T :=
  match l with nil => r0 | cons a nil => num a | cons a l' => num a + x * hor l' x end.
Fixpoint pw (x : T) (n : nat) : T := match n with 0%nat => r1 | S k => x * pw x k end.
(** the (6,6) Pade approximant of the exponential agrees with it through x^12:
    665280*D(x) times 12!*T(x) is 12! times 665280*N(x), up to x^13 *)
Definition pade_num := (665280 :: 332640 :: 75600 :: 10080 :: 840 :: 42 :: 1 :: nil)%Z.
Definition pade_den := (665280 :: (-332640) :: 75600 :: (-10080) :: 840 :: (-42) :: 1 :: nil)%Z.
Definition exp_trunc := (479001600 :: 479001600 :: 239500800 :: 79833600 :: 19958400 :: 3991680 :: 665280 :: 95040 :: 11880 :: 1320 :: 132 :: 12 :: 1 :: nil)%Z.
Definition exp_trunc2 := (479001600 :: 958003200 :: 958003200 :: 638668800 :: 319334400 :: 127733760 :: 42577920 :: 12165120 :: 3041280 :: 675840 :: 135168 :: 24576 :: 4096 :: nil)%Z.
Lemma pade_fact x :
  hor pade_den x * hor exp_trunc x =
  num 479001600 * hor pade_num x + pw x 13 * hor ((-51120) :: 21960 :: (-4224) :: 468 :: (-30) :: 1 :: nil)%Z x.
Proof using RT. cbv [hor num pade_num pade_den exp_trunc InitialRing.gen_phiZ InitialRing.gen_phiPOS pw]. ring. Qed.
(** the remainder of the Pade approximation: sum of d_i times the falling factorials of j *)
Lemma pade_falling j :
  num 665280 + num (-332640) * j + num 75600 * (j * (j - 1)) + num (-10080) * (j * (j - 1) * (j - num 2))
  + num 840 * (j * (j - 1) * (j - num 2) * (j - num 3)) + num (-42) * (j * (j - 1) * (j - num 2) * (j - num 3) * (j - num 4))
  + j * (j - 1) * (j - num 2) * (j - num 3) * (j - num 4) * (j - num 5)
  = (j - num 7) * (j - num 8) * (j - num 9) * (j - num 10) * (j - num 11) * (j - num 12).
Proof using RT. cbv [num InitialRing.gen_phiZ InitialRing.gen_phiPOS]. ring. Qed.
(** T(x)^2 = T(2x) up to x^13 *)
Lemma square_fact x :
  hor exp_trunc x * hor exp_trunc x =
  num 479001600 * hor exp_trunc2 x + pw x 13 * hor (301771008000 :: 43041715200 :: 5706961920 :: 703391040 :: 80403840 :: 8490240 :: 823680 :: 72864 :: 5808 :: 408 :: 24 :: 1 :: nil)%Z x.
Proof using RT. cbv [hor num exp_trunc exp_trunc2 InitialRing.gen_phiZ InitialRing.gen_phiPOS pw]. ring. Qed.
Lemma trunc2_fact x : hor exp_trunc2 x = hor exp_trunc (num 2 * x).
Proof using RT. cbv [hor num exp_trunc exp_trunc2 InitialRing.gen_phiZ InitialRing.gen_phiPOS pw]. ring. Qed.
Lemma num_morph : ring_morph r0 r1 radd rmul rsub ropp (@eq T) 0%Z 1%Z Z.add Z.mul Z.sub Z.opp Zeq_bool num.
Proof using RT. exact (InitialRing.gen_phiZ_morph (Eqsth T) (Eq_ext radd rmul ropp) RT). Qed.
Lemma loop_num_fact k0 k1 k2 k3 k4 k5 k6 x :
  k6 * (x * (x * (x * (x * (x * x))))) + (k5 * (x * (x * (x * (x * x)))) + (k4 * (x * (x * (x * x))) +
  (k3 * (x * (x * x)) + (k2 * (x * x) + (k0 + k1 * x))))) =
  k0 + x * (k1 + x * (k2 + x * (k3 + x * (k4 + x * (k5 + x * k6))))).
Proof using RT. ring. Qed.
Lemma loop_den_fact k0 k1 k2 k3 k4 k5 k6 x :
  k0 - k1 * x + k2 * (x * x) - k3 * (x * (x * x)) + k4 * (x * (x * (x * x)))
  - k5 * (x * (x * (x * (x * x)))) + k6 * (x * (x * (x * (x * (x * x))))) =
  k0 + x * (- k1 + x * (k2 + x * (- k3 + x * (k4 + x * (- k5 + x * k6))))).
Proof using RT. ring. Qed.
End Identities.
