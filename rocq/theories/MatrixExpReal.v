(** exponential (matrix.h 562-618) over the real numbers: the matrix exponential exists and the code's
    result is close to it. *)
From Coq Require Import Reals Lra ZArith List.
From mathcomp Require Import all_ssreflect all_algebra.
From Verif Require Import Outcome RingFacts MatrixModel MatrixProofs MatrixNorms MatrixExp MatrixExpAcc RealInst ExpScale.
Set Implicit Arguments. Unset Strict Implicit. Unset Printing Implicit Defensive.
Import Order.TTheory GRing.Theory Num.Theory.
Local Open Scope ring_scope.

Lemma fact_fact k : fact k = k`!.
Proof. elim: k => [|k IH] //. by rewrite factS -IH. Qed.
Lemma sum_big (f : nat -> R) L : sum_f_R0 f L = \sum_(k < L.+1) f k.
Proof.
  elim: L => [|L IH]; first by rewrite big_ord_recr big_ord0 /= add0r.
  by rewrite big_ord_recr /= -IH.
Qed.
Lemma fact_R0 k : INR (fact k) <> R0. Proof. exact: INR_fact_neq_0. Qed.
Lemma inv_fact k : (k`!%:R)^-1 = Rinv (INR (fact k)) :> R.
Proof. rewrite RnatE -fact_fact RinvE //. exact: fact_R0. Qed.

(** sequences *)
Lemma cv_shift (u : nat -> R) l m : Un_cv u l -> Un_cv (fun k => u (k + m)%N) l.
Proof.
  move=> H e e0. have [K HK] := H e e0. exists K => k kK. apply: HK.
  apply: (Nat.le_trans _ _ _ kK). exact/ssrnat.leP/leq_addr.
Qed.
Lemma cv_const (l : R) : Un_cv (fun _ => l) l.
Proof. move=> e e0. exists 0%N => k _. by rewrite /R_dist Rminus_diag_eq // Rabs_R0. Qed.
Lemma cv_ext (u v : nat -> R) l : u =1 v -> Un_cv u l -> Un_cv v l.
Proof. move=> E H e e0. have [K HK] := H e e0. exists K => k kK. rewrite -E. exact: HK. Qed.
Lemma cv_pow (u : nat -> R) l m : Un_cv u l -> Un_cv (fun k => u k ^+ m) (l ^+ m).
Proof.
  move=> H. elim: m => [|m IH].
    by apply: (cv_ext (u := fun _ => 1)) (cv_const _) => k; rewrite expr0.
  apply: (cv_ext (u := fun k => Rmult (u k) (u k ^+ m))) => [k|]; first by rewrite exprS.
  rewrite exprS. exact: (CV_mult u (fun k => u k ^+ m) _ _ H IH).
Qed.
Lemma cv_bigsum (N : nat) (u : nat -> nat -> R) (l : nat -> R) :
  (forall j, (j < N)%N -> Un_cv (fun k => u k j) (l j)) -> Un_cv (fun k => \sum_(j < N) u k j) (\sum_(j < N) l j).
Proof.
  elim: N => [|N IH] H.
    apply: (cv_ext (u := fun _ => 0)) => [k|]; first by rewrite big_ord0. rewrite big_ord0. exact: cv_const.
  apply: (cv_ext (u := fun k => Rplus (\sum_(j < N) u k j) (u k N))) => [k|]; first by rewrite big_ord_recr.
  rewrite big_ord_recr /=. apply: (CV_plus (fun k => \sum_(j < N) u k j) (fun k => u k N)); last exact: H.
  by apply: IH => j jN; apply: H; apply: ltnW.
Qed.

Section ExpR.
Variable n : nat.
Notation N := n.+1.
Notation M_ := (mx N N).
Implicit Types A : mat R_realFieldType.

(** the entries of A^k / k! *)
Definition term A i j (k : nat) : R_realFieldType := (M_ A ^+ k) (inord i) (inord j) / k`!%:R.
Definition is_exp A (E : mat R_realFieldType) : Prop := forall i j, (i < N)%N -> (j < N)%N -> infinite_sum (term A i j) (E i j).

Lemma exp_partial (x : R_realFieldType) L : (te _ L).[x] = sum_f_R0 (fun k => Rmult (Rinv (INR (fact k))) (pow x k)) L.
Proof. rewrite sum_big horner_te. apply: eq_bigr => k _. by rewrite inv_fact RpowE mulrC. Qed.
Lemma exp_cv (x : R_realFieldType) : Un_cv (fun L => (te _ L).[x]) (exp x).
Proof.
  apply: (cv_ext (u := fun L => sum_f_R0 (fun k => Rmult (Rinv (INR (fact k))) (pow x k)) L)) => [L|]; first by rewrite exp_partial.
  rewrite /exp. by case: exist_exp.
Qed.
Lemma exp_upper (x : R_realFieldType) L : 0 <= x -> (te _ L).[x] <= exp x.
Proof.
  move=> x0. apply/RleP. apply: growing_ineq (exp_cv x) L => L. apply/RleP.
  rewrite !horner_te [X in _ <= X]big_ord_recr /= ler_addl. by rewrite divr_ge0 ?exprn_ge0 ?ler0n.
Qed.
Lemma etrunc_term A L i j : (i < N)%N -> (j < N)%N ->
  etrunc L.+1 (M_ A) (inord i) (inord j) = sum_f_R0 (term A i j) L.
Proof.
  move=> iN jN. rewrite sum_big /etrunc summxE. apply: eq_bigr => k _.
  rewrite mxE /term.
  exact: mulrC.
Qed.
Lemma term_bound A i j k : (i < N)%N -> (j < N)%N ->
  Rle (Rabs (term A i j k)) (Rmult (Rinv (INR (fact k))) (pow (infinity_norm N A) k)).
Proof.
  move=> iN jN. rewrite -RpowE -inv_fact. apply/RleP. change (Rabs (term A i j k)) with (`|term A i j k|). rewrite /term normrM mulrC [`|_^-1|]ger0_norm ?invr_ge0 ?ler0n //.
  apply: ler_wpmul2l; first by rewrite invr_ge0 ler0n.
  have H := infinity_norm_entry (fm (M_ A ^+ k)) iN jN.
  apply: le_trans H _. apply: le_trans (nrmX _ _) _. by rewrite nrm_mx.
Qed.
(** the exponential of every matrix exists *)
Lemma exp_exists A : exists E, is_exp A E.
Proof.
  have H i j : (i < N)%N -> (j < N)%N -> {l | Un_cv (fun L => sum_f_R0 (term A i j) L) l}.
    move=> iN jN. apply: cv_cauchy_2. apply: cauchy_abs. apply: cv_cauchy_1.
    apply: (Rseries_CV_comp _ (fun k => Rmult (Rinv (INR (fact k))) (pow (infinity_norm N A) k))).
      by move=> k; split; [apply: Rabs_pos|apply: term_bound].
    exists (exp (infinity_norm N A)). rewrite /exp. by case: exist_exp.
  exists (fun i j => match Sumbool.sumbool_of_bool (i < N)%N, Sumbool.sumbool_of_bool (j < N)%N with
     left p, left q => sval (H i j p q) | _, _ => R0 end).
  move=> i j iN jN. case: Sumbool.sumbool_of_bool => [p|p]; last by rewrite iN in p.
  case: Sumbool.sumbool_of_bool => [q|q]; last by rewrite jN in q.
  exact: (svalP (H i j p q)).
Qed.
Notation eta := (eta R_realFieldType).
Notation beta := (@beta R_realFieldType).
Lemma beta_cv : Un_cv beta 0.
Proof.
  apply: (cv_ext (u := fun L => Rdiv (INR 12) (pow 2 L))) (cv_pow_half _) => L.
  rewrite /MatrixExpAcc.beta RnatE RinvE; last by rewrite RpowE RnatE; apply: pow_nonzero; rewrite /=; lra.
  rewrite RpowE RnatE /=. by rewrite /Rdiv; congr (Rmult _ (Rinv (pow _ _))); lra.
Qed.

Theorem exp_real (junk : mat R_realFieldType) dbg A (a := infinity_norm N A) (m := (2 ^ squarings a)%N) : a != 0 ->
  exists P, exponential junk dbg squarings N A = Ok P /\
    forall E, is_exp A E -> forall i, (i < N)%N -> \sum_(j < N) `|P i j - E i j| <= exp a * ((1 + eta) ^+ m - 1).
Proof.
  move=> nz. have a0 : 0 < a by rewrite lt0r nz infinity_norm_ge0.
  have Hs : 2%:R * a <= 2%:R ^+ squarings a.
    apply/RleP. rewrite RpowE RnatE. apply: Rlt_le. have := squarings_enough a. rewrite /=. apply. exact/RltP.
  have [P [HP H]] := exp_accuracy junk dbg nz Hs. exists P; split=> // E HE i iN.
  have u12 : forall L, \sum_(j < N) `|P i j - etrunc (L + 12).+1 (M_ A) (inord i) (inord j)| <=
      exp a * (1 + eta + beta (L + 12)) ^+ m - (te _ (L + 12)).[a].
    move=> L. have := H (L + 12)%N (leq_addl _ _). rewrite -/m -/a => HL. apply: le_trans (le_trans HL _).
      have := infinity_norm_row (fm (M_ P - etrunc (L + 12).+1 (M_ A))) iN. apply: le_trans.
      rewrite /rowsum. apply: ler_sum => j _. rewrite /fm !mxE !inordK //. 
    rewrite ler_add2r. apply: ler_wpmul2r; last by apply: exp_upper; apply: ltW.
    have b0 := ltW (beta_gt0 R_realFieldType (L + 12)). have h0 := ltW (eta_gt0 R_realFieldType).
    by apply: exprn_ge0; apply: addr_ge0 => //; apply: addr_ge0 ler01 h0.
  pose U (L : nat) : R := \sum_(j < N) `|P i j - etrunc (L + 12).+1 (M_ A) (inord i) (inord j)|.
  pose V (L : nat) : R_realFieldType := exp a * (1 + eta + beta (L + 12)) ^+ m - (te _ (L + 12)).[a].
  apply/RleP.
  apply: (@Rle_cv_lim U V).
  - by move=> L; apply/RleP; apply: u12.
  - apply: (cv_bigsum (u := fun L j => `|P i j - etrunc (L + 12).+1 (M_ A) (inord i) (inord j)|) (l := fun j => `|P i j - E i j|)) => j jN.
    apply: (cv_cvabs (fun L => P i j - etrunc (L + 12).+1 (M_ A) (inord i) (inord j)) (P i j - E i j)).
    apply: (CV_minus (fun _ => P i j) (fun L => etrunc (L + 12).+1 (M_ A) (inord i) (inord j))); first exact: cv_const.
    apply: (cv_ext (u := fun L => sum_f_R0 (term A i j) (L + 12))) => [L|]; first by rewrite etrunc_term.
    apply: (cv_shift 12 (u := fun L => sum_f_R0 (term A i j) L)). exact: HE.
  - rewrite /V mulrBr mulr1.
    apply: (CV_minus (fun L => exp a * (1 + eta + beta (L + 12)) ^+ m) (fun L => (te R_realFieldType (L + 12)).[a])); last first.
      exact: (cv_shift 12 (exp_cv a)).
    apply: (CV_mult (fun _ => exp a) (fun L => (1 + eta + beta (L + 12)) ^+ m)); first exact: cv_const.
    apply: (cv_pow (u := fun L => 1 + eta + beta (L + 12))).
    suff : Un_cv (fun L => 1 + eta + beta (L + 12)) (Rplus (1 + eta) 0) by rewrite Rplus_0_r.
    apply: (CV_plus (fun _ => 1 + eta) (fun L => beta (L + 12))); first exact: cv_const.
    exact: (cv_shift 12 beta_cv).
Qed.


(** ** a simple form of the bound *)
Lemma nm_IZR z : nm R_realFieldType z = IZR z.
Proof.
  have P p : nm R_realFieldType (Zpos p) = IZR (Zpos p).
    by rewrite -(positive_nat_Z p) -nm_nat RnatE INR_IZR_INZ.
  case: z => [|p|p] //. rewrite -Pos2Z.opp_pos nmN P. by rewrite opp_IZR.
Qed.
Lemma eta_real : Rle R0 eta /\ Rle (Rmult eta (IZR 20000000000000000)) R1.
Proof.
  split; first by apply/RleP/ltW/eta_gt0.
  have := eta_le R_realFieldType. rewrite nm_IZR RinvE; last by apply: Rgt_not_eq; lra.
  move/RleP => H. have := Rmult_le_compat_r (IZR 20000000000000000) _ _ _ H. rewrite Rinv_l; last by apply: Rgt_not_eq; lra.
  apply. exact: IZR_le.
Qed.
Lemma expn_pow s : (2 ^ s)%N = Nat.pow 2 s.
Proof. elim: s => [|s IH] //. by rewrite expnS IH mul2n -addnn /= Nat.add_0_r. Qed.
Lemma exp_real_simple (a : R_realFieldType) (m := (2 ^ squarings a)%N) : Rlt R0 a -> Rle a (IZR 1000000000000000) ->
  exp a * ((1 + eta) ^+ m - 1) <= Rmult (Rmult (Rdiv R1 (IZR 1000000000000000)) (Rmax R1 a)) (exp a).
Proof.
  move=> a0 a15. have [h0 h1] := eta_real. apply/RleP. have := exp_simple a eta (conj a0 a15) h0 h1.
  by rewrite /m RpowE expn_pow.
Qed.
End ExpR.
