(** C107: exponential (matrix.h 562-618) over the real numbers, with the number of squarings the code
    computes. *)
From Coq Require Import Reals Lra ZArith List.
From mathcomp Require Import all_ssreflect all_algebra.
From Verif Require Import Outcome RingFacts MatrixModel MatrixProofs MatrixNorms MatrixExp MatrixExpAcc RealInst ExpScale MatrixExpReal.
Set Implicit Arguments. Unset Strict Implicit. Unset Printing Implicit Defensive.
Import Order.TTheory GRing.Theory Num.Theory.
Local Open Scope ring_scope.
Notation RF := R_realFieldType.

(** the real matrix E is the sum of A^k / k! *)
Definition exp_series n (A E : mat RF) : Prop := forall i j : 'I_n.+1,
  infinite_sum (fun k => Rdiv ((mx n.+1 n.+1 A ^+ k) i j) (INR (fact k))) (E i j).
Lemma exp_series_is n (A E : mat RF) : exp_series n A E <-> is_exp n A E.
Proof.
  have T i j k : (i < n.+1)%N -> (j < n.+1)%N ->
    Rdiv ((mx n.+1 n.+1 A ^+ k) (inord i) (inord j)) (INR (fact k)) = term n A i j k.
    by move=> iN jN; rewrite /term inv_fact.
  split=> H.
  - move=> i j iN jN e e0. have [K HK] := H (inord i) (inord j) e e0. rewrite !inordK // in HK. exists K => k kK.
    rewrite (PartSum.sum_eq _ (fun k => Rdiv ((mx n.+1 n.+1 A ^+ k) (inord i) (inord j)) (INR (fact k)))); first exact: HK.
    by move=> q _; rewrite T.
  - move=> i j e e0. have [K HK] := H i j (ltn_ord i) (ltn_ord j) e e0. exists K => k kK.
    rewrite (PartSum.sum_eq _ (term n A i j)); first exact: HK. by move=> q _; rewrite -T // !inord_val.
Qed.

(** every real matrix has an exponential; for every matrix but zero the code returns, in debug and in
    release mode, and each row of the result is within the stated distance of the exponential *)
Theorem C107_accuracy junk dbg n (A : mat RF) (a := infinity_norm n.+1 A) : a != 0 ->
  exists P E, exponential junk dbg squarings n.+1 A = Ok P /\ exp_series n A E /\
    forall i, (i < n.+1)%N -> \sum_(j < n.+1) `|P i j - E i j| <=
      exp a * ((1 + 6`!%:R ^+ 2 / (12`!%:R * 13`!%:R * 2%:R ^+ 12)) ^+ (2 ^ squarings a) - 1).
Proof.
  move=> nz. have [P [HP H]] := exp_real junk dbg nz. have [E HE] := exp_exists n A.
  exists P, E. split=> //. split; first exact/exp_series_is. move=> i iN. rewrite -eta_val. exact: H.
Qed.
Print Assumptions C107_accuracy.

Theorem C107_simple junk dbg n (A : mat RF) (a := infinity_norm n.+1 A) P E :
  a != 0 -> Rle a (pow (IZR 10) 15) -> exponential junk dbg squarings n.+1 A = Ok P -> exp_series n A E ->
  forall i, (i < n.+1)%N ->
    Rle (\sum_(j < n.+1) `|P i j - E i j|) (Rmult (Rmult (Rdiv 1 (pow (IZR 10) 15)) (Rmax 1 a)) (exp a)).
Proof.
  move=> nz. have -> : pow (IZR 10) 15 = IZR 1000000000000000 by rewrite pow_IZR.
  move=> a15 HP /exp_series_is HE i iN. have [P' [HP' H]] := exp_real junk dbg nz.
  have EP : P' = P by move: HP; rewrite HP' => - [].
  rewrite EP in H. have := H E HE i iN => /RleP D. apply: (Rle_trans _ _ _ D).
  apply/RleP. apply: exp_real_simple => //. apply/RltP. by rewrite lt0r nz infinity_norm_ge0.
Qed.
Print Assumptions C107_simple.

(** the code scales enough, and not more than needed *)
Theorem C107_scaling (norm : R) : Rlt 0 norm ->
  Rlt (Rdiv norm (pow 2 (squarings norm))) (Rdiv 1 2) /\
  (squarings norm = 0%N \/ Rle (pow 2 (squarings norm)) (Rmult 8 norm)) /\
  (Rle norm (Rdiv 1 4) -> squarings norm = 0%N).
Proof.
  move=> p. split; last by split; [exact: squarings_bound|move=> q; exact: squarings_small].
  have H := squarings_enough norm p. have P2 : Rlt 0 (pow 2 (squarings norm)) by apply: pow_lt; lra.
  apply: (Rmult_lt_reg_r _ _ _ P2). rewrite /Rdiv Rmult_assoc Rinv_l; last exact: Rgt_not_eq. lra.
Qed.
Print Assumptions C107_scaling.

(** over any real field and for any choice of the number of squarings that brings the norm to 1/2: the
    distance to every partial sum of at least 13 terms *)
Theorem C107_every_field (F : realFieldType) junk dbg (s_of : F -> nat) n (A : mat F)
  (a := infinity_norm n.+1 A) (m := (2 ^ s_of a)%N) : a != 0 -> 2%:R * a <= m%:R ->
  exists P, exponential junk dbg s_of n.+1 A = Ok P /\ forall L, (12 <= L)%N -> forall i : 'I_n.+1,
    \sum_(j < n.+1) `|P i j - (\sum_(k < L.+1) (k`!%:R)^-1 *: mx n.+1 n.+1 A ^+ k) i j| <=
    (\sum_(k < (m * L).+1) a ^+ k / k`!%:R) *
      (1 + 6`!%:R ^+ 2 / (12`!%:R * 13`!%:R * 2%:R ^+ 12) + 12%:R / 2%:R ^+ L) ^+ m - \sum_(k < L.+1) a ^+ k / k`!%:R.
Proof.
  move=> nz. rewrite natrX => Hs. have [P [HP H]] := exp_accuracy junk dbg nz Hs. exists P; split=> // L L12 i.
  have := H L L12. rewrite eta_val /beta !horner_te -/a -/m. apply: le_trans.
  have := infinity_norm_row (fm (mx n.+1 n.+1 P - etrunc L.+1 (mx n.+1 n.+1 A))) (ltn_ord i). apply: le_trans.
  rewrite /rowsum. apply: ler_sum => j _. rewrite /fm !inord_val. set T := etrunc _ _.
  have -> : (mx n.+1 n.+1 P - T) i j = P i j - T i j by rewrite !mxE. by [].
Qed.
Print Assumptions C107_every_field.

(** the 1x1 matrix (1): the result is e up to 10^-15 e *)
Example C107_ex : exists P, exponential (fun _ _ => R0 : RF) true squarings 1 (fun _ _ => R1 : RF) = Ok P /\
  Rle (Rabs (Rminus (P 0%N 0%N) (exp 1))) (Rmult (Rdiv 1 (pow (IZR 10) 15)) (exp 1)).
Proof.
  pose A : mat RF := fun _ _ => R1.
  have a1 : infinity_norm 1 A = R1.
    rewrite /infinity_norm /= add0r -[`|_|]/(Rabs R1) Rabs_R1 std_max_maxr max_r //. exact: ler01.
  have nz : infinity_norm 1 A != 0 by rewrite a1 oner_eq0.
  have [P [E [HP _]]] := C107_accuracy (fun _ _ => R0 : RF) true nz. exists P; split=> //.
  have HE : exp_series 0 A (fun _ _ => exp 1).
    move=> i j. have := svalP (exist_exp 1). rewrite -/(exp 1) => H e e0. have [K HK] := H e e0. exists K => k kK.
    rewrite (PartSum.sum_eq _ (fun i => Rmult (Rinv (INR (fact i))) (pow 1 i))); first exact: HK.
    move=> q _. have -> : mx 1 1 A = 1 by apply/matrixP => u v; rewrite !mxE !ord1.
    by rewrite expr1n mxE !ord1 eqxx pow1 Rmult_1_r /Rdiv Rmult_1_l.
  have a15 : Rle (infinity_norm 1 A) (pow (IZR 10) 15) by rewrite a1 pow_IZR; change R1 with (IZR 1); apply: IZR_le; apply/Z.leb_le.
  have := C107_simple nz a15 HP HE (ltnSn 0). rewrite big_ord_recr big_ord0 /= add0r a1 Rmax_left; last exact: Rle_refl.
  by rewrite Rmult_1_r.
Qed.
