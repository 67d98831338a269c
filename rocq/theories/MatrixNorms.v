(** Matrix norms (matrix.h 469-519) over any real field. *)
From mathcomp Require Import all_ssreflect all_algebra.
From Verif Require Import Outcome MatrixModel MatrixProofs.
Set Implicit Arguments. Unset Strict Implicit. Unset Printing Implicit Defensive.
Import Order.TTheory GRing.Theory Num.Theory.
Local Open Scope ring_scope.

Section Real.
Variable F : realFieldType.
Implicit Types (A B : mat F) (x : vec F).

Lemma std_max_maxr (a b : F) : std_max a b = Num.max a b.
Proof. by rewrite /std_max /Order.max. Qed.

Lemma run_max n (f : nat -> F) c :
  (for_ n (fun i m => std_max m (f i)) 0 <= c) = (0 <= c) && [forall i : 'I_n, f i <= c].
Proof.
  elim: n => [|n IH] /=; first by (have -> : [forall i : 'I_0, f i <= c] by apply/forallP => - []); rewrite andbT.
  rewrite std_max_maxr le_maxl IH -andbA. congr (_ && _). apply/andP/forallP => [[/forallP H K] i|H].
    case: (ltnP i n) => Hi; first exact: (H (Ordinal Hi)).
    by have -> : (i = n :> nat) by apply/eqP; rewrite eqn_leq Hi -ltnS ltn_ord.
  split; last exact: (H ord_max). by apply/forallP => i; exact: (H (widen_ord (leqnSn n) i)).
Qed.

Definition rowsum N A i : F := \sum_(j < N) `|A i j|.
Lemma infinity_norm_le N A c :
  (infinity_norm N A <= c) = (0 <= c) && [forall i : 'I_N, rowsum N A i <= c].
Proof.
  rewrite /infinity_norm (@for_ext _ N _ (fun ii norm => std_max norm (rowsum N A ii))); first exact: run_max.
  by move=> k t _; rewrite (for_sum N (fun jj => `|A k jj|)) add0r.
Qed.
Lemma infinity_norm_ge0 N A : 0 <= infinity_norm N A.
Proof. by have := lexx (infinity_norm N A); rewrite infinity_norm_le => /andP []. Qed.
Lemma infinity_norm_row N A i : (i < N)%N -> rowsum N A i <= infinity_norm N A.
Proof.
  move=> iN. have := lexx (infinity_norm N A). rewrite {1}infinity_norm_le => /andP [_ /forallP H].
  exact: (H (Ordinal iN)).
Qed.
Lemma infinity_norm_entry N A i j : (i < N)%N -> (j < N)%N -> `|A i j| <= infinity_norm N A.
Proof.
  move=> iN jN. apply: le_trans (infinity_norm_row A iN).
  rewrite /rowsum (bigD1 (Ordinal jN)) //= ler_addl. by apply: sumr_ge0 => k _; apply: normr_ge0.
Qed.
Lemma infinity_norm_intro N A c : 0 <= c -> (forall i, (i < N)%N -> rowsum N A i <= c) -> infinity_norm N A <= c.
Proof. move=> c0 H. rewrite infinity_norm_le c0 /=. by apply/forallP => i; apply: H. Qed.
(** the largest row sum is attained *)
Lemma run_max_attained n (f : nat -> F) : (forall i, 0 <= f i) ->
  exists i, (i < n.+1)%N /\ for_ n.+1 (fun i m => std_max m (f i)) 0 = f i.
Proof.
  move=> f0. elim: n => [|n [i [Hi IH]]].
    exists 0%N; split=> //=. by rewrite std_max_maxr max_r.
  rewrite [for_ n.+2 _ _]/= -/(for_ n.+1 (fun i m => std_max m (f i)) 0) IH std_max_maxr.
  case: (leP (f i) (f n.+1)) => H; first by exists n.+1.
  by exists i; split=> //; apply: ltnW.
Qed.
Lemma infinity_norm_attained N A : (0 < N)%N -> exists i, (i < N)%N /\ infinity_norm N A = rowsum N A i.
Proof.
  case: N => // n _. rewrite /infinity_norm (@for_ext _ n.+1 _ (fun ii norm => std_max norm (rowsum n.+1 A ii))).
    by apply: run_max_attained => i; apply: sumr_ge0 => j _; apply: normr_ge0.
  by move=> k t _; rewrite (for_sum n.+1 (fun jj => `|A k jj|)) add0r.
Qed.

Lemma infinity_norm_ext N A B : (forall i j, (i < N)%N -> (j < N)%N -> A i j = B i j) ->
  infinity_norm N A = infinity_norm N B.
Proof.
  move=> H. apply: for_ext => i t iN. congr (std_max _ _). apply: for_ext => j u jN. by rewrite H.
Qed.
Lemma one_norm_transpose (junk : mat F) N A : one_norm N A = infinity_norm N (transpose junk N N A).
Proof.
  apply: for_ext => j t jN. congr (std_max _ _). apply: for_ext => i u iN. by rewrite transpose_spec.
Qed.

Lemma infinity_norm_eq0 N A : infinity_norm N A = 0 <-> forall i j, (i < N)%N -> (j < N)%N -> A i j = 0.
Proof.
  split=> [E i j iN jN|H].
    by apply/eqP; rewrite -normr_le0 -E; apply: infinity_norm_entry.
  apply/le_anti; rewrite infinity_norm_ge0 andbT. apply: infinity_norm_intro => // i iN.
  rewrite /rowsum big1 // => j _. by rewrite H // normr0.
Qed.
Lemma infinity_norm_scale_le N A c : infinity_norm N (mscale c A) <= `|c| * infinity_norm N A.
Proof.
  apply: infinity_norm_intro => [|i iN]; first by rewrite mulr_ge0 // infinity_norm_ge0.
  rewrite /rowsum /mscale (eq_bigr (fun j : 'I_N => `|c| * `|A i j|)) => [|j _]; last exact: normrM.
  by rewrite -mulr_sumr ler_wpmul2l // infinity_norm_row.
Qed.
Lemma infinity_norm_scale N A c : infinity_norm N (mscale c A) = `|c| * infinity_norm N A.
Proof.
  case: (c =P 0) => [->|/eqP c0].
    rewrite normr0 mul0r. by apply/infinity_norm_eq0 => i j _ _; rewrite /mscale mul0r.
  apply/le_anti. rewrite infinity_norm_scale_le /=.
  have := infinity_norm_scale_le N (mscale c A) c^-1.
  rewrite (@infinity_norm_ext N _ A) => [H|i j _ _]; last by rewrite /mscale mulrA mulVf ?mul1r.
  apply: le_trans (ler_wpmul2l (normr_ge0 c) H) _. by rewrite mulrA -normrM divff // normr1 mul1r.
Qed.
Lemma infinity_norm_add N A B : infinity_norm N (madd A B) <= infinity_norm N A + infinity_norm N B.
Proof.
  apply: infinity_norm_intro => [|i iN]; first by rewrite addr_ge0 // infinity_norm_ge0.
  apply: le_trans (ler_add (infinity_norm_row A iN) (infinity_norm_row B iN)).
  rewrite /rowsum -big_split /=. apply: ler_sum => j _. exact: ler_norm_add.
Qed.
Lemma infinity_norm_mul N A B :
  infinity_norm N (matrix_multiply N N N A B) <= infinity_norm N A * infinity_norm N B.
Proof.
  apply: infinity_norm_intro => [|i iN]; first by rewrite mulr_ge0 // infinity_norm_ge0.
  apply: le_trans (ler_wpmul2r (infinity_norm_ge0 N B) (infinity_norm_row A iN)).
  apply: (@le_trans _ _ (\sum_(j < N) \sum_(k < N) `|A i k| * `|B k j|)).
    apply: ler_sum => j _. rewrite mm_spec //. apply: le_trans (ler_norm_sum _ _ _) _.
    by apply: ler_sum => k _; rewrite normrM.
  rewrite exchange_big /= /rowsum mulr_suml. apply: ler_sum => k _.
  rewrite -mulr_sumr ler_wpmul2l //. exact: (infinity_norm_row B (ltn_ord k)).
Qed.
(** it is the operator norm induced by the maximum norm on vectors *)
Lemma infinity_norm_vec junkv N A x c i : (forall j, (j < N)%N -> `|x j| <= c) -> (i < N)%N ->
  `|mat_vec junkv N N A x i| <= infinity_norm N A * c.
Proof.
  move=> Hx iN. have c0 : 0 <= c by apply: le_trans (normr_ge0 _) (Hx i iN).
  rewrite mat_vec_spec //. apply: le_trans (ler_norm_sum _ _ _) _.
  apply: le_trans (ler_wpmul2r c0 (infinity_norm_row A iN)). rewrite /rowsum mulr_suml.
  apply: ler_sum => j _. by rewrite normrM ler_wpmul2l // Hx.
Qed.
Lemma infinity_norm_sharp junkv N A : (0 < N)%N ->
  exists x i, [/\ (i < N)%N, forall j, `|x j| <= 1 & `|mat_vec junkv N N A x i| = infinity_norm N A].
Proof.
  move=> N0. have [i [iN E]] := infinity_norm_attained A N0.
  exists (fun j => Num.sg (A i j)), i. split=> //.
    by move=> j; rewrite normr_sg; case: (A i j != 0); rewrite ?ler01 ?lexx.
  rewrite E mat_vec_spec // /rowsum (eq_bigr (fun j : 'I_N => `|A i j|)) => [|j _].
    by rewrite ger0_norm // sumr_ge0.
  by rewrite mulrC -normrEsg.
Qed.

(** Cauchy-Schwarz *)
Lemma cauchy_schwarz (I : finType) (a b : I -> F) :
  (\sum_i a i * b i) ^+ 2 <= (\sum_i a i ^+ 2) * (\sum_i b i ^+ 2).
Proof.
  set P := \sum_i a i * b i. set S := \sum_i b i ^+ 2. set Q := \sum_i a i ^+ 2.
  have S0 : 0 <= S by apply: sumr_ge0 => i _; apply: sqr_ge0.
  have H : 0 <= S * (S * Q - P ^+ 2).
    have -> : S * (S * Q - P ^+ 2) = \sum_i (S * a i - P * b i) ^+ 2.
      under eq_bigr => i _ do rewrite sqrrB.
      rewrite big_split sumrB /=.
      have -> : \sum_i (S * a i) ^+ 2 = S ^+ 2 * Q by rewrite /Q mulr_sumr; apply: eq_bigr => i _; rewrite exprMn.
      have -> : \sum_i (P * b i) ^+ 2 = P ^+ 2 * S by rewrite /S mulr_sumr; apply: eq_bigr => i _; rewrite exprMn.
      have -> : \sum_i (S * a i * (P * b i)) *+ 2 = (S * P * P) *+ 2.
        rewrite sumrMnl. congr (_ *+ _). transitivity (\sum_i S * P * (a i * b i)).
          by apply: eq_bigr => i _; rewrite mulrACA.
        by rewrite -mulr_sumr.
      rewrite mulrBr mulr2n opprD mulrA -expr2 -mulrA -expr2 (mulrC (P ^+ 2)).
      by rewrite addrA subrK.
    by apply: sumr_ge0 => i _; apply: sqr_ge0.
  case: (S =P 0) => [S_0|/eqP Sn].
    have b0 : forall i, b i = 0.
      move=> i. apply/eqP. rewrite -sqrf_eq0. move/eqP: S_0.
      by rewrite psumr_eq0 => [/allP /(_ i (mem_index_enum _))|j _] //; apply: sqr_ge0.
    by rewrite S_0 mulr0 /P big1 ?expr0n // => i _; rewrite b0 mulr0.
  have Sp : 0 < S by rewrite lt_def Sn.
  by move: H; rewrite pmulr_rge0 // subr_ge0 mulrC.
Qed.
End Real.

Section Rcf.
Variable F : rcfType.
(** triangle inequality for the Euclidean norm over any finite index set *)
Lemma euclid_triangle (I : finType) (a b : I -> F) :
  Num.sqrt (\sum_i (a i + b i) ^+ 2) <= Num.sqrt (\sum_i a i ^+ 2) + Num.sqrt (\sum_i b i ^+ 2).
Proof.
  set Q := \sum_i a i ^+ 2. set S := \sum_i b i ^+ 2.
  have Q0 : 0 <= Q by apply: sumr_ge0 => i _; apply: sqr_ge0.
  have S0 : 0 <= S by apply: sumr_ge0 => i _; apply: sqr_ge0.
  have r0 : 0 <= Num.sqrt Q + Num.sqrt S by rewrite addr_ge0 ?sqrtr_ge0.
  rewrite -(ger0_norm r0) -sqrtr_sqr ler_wsqrtr // sqrrD !sqr_sqrtr //.
  under eq_bigr => i _ do rewrite sqrrD.
  rewrite 2!big_split /= -/Q -/S ler_add2r ler_add2l sumrMnl ler_muln2r /=.
  apply: le_trans (ler_norm _) _. rewrite -sqrtr_sqr -sqrtrM // ler_wsqrtr //. exact: cauchy_schwarz.
Qed.

Implicit Types A B : mat F.
Lemma two_normE N A : two_norm N A = Num.sqrt (\sum_(p : 'I_N * 'I_N) A p.1 p.2 ^+ 2).
Proof.
  rewrite /two_norm (for_sum2 N N (fun i j => A i j * A i j)) add0r. congr Num.sqrt.
  rewrite pair_big /=. by apply: eq_bigr => p _; rewrite expr2.
Qed.
Lemma two_normE2 N A : two_norm N A = Num.sqrt (\sum_(i < N) \sum_(j < N) A i j ^+ 2).
Proof. by rewrite two_normE pair_big /=. Qed.
Lemma two_norm_ge0 N A : 0 <= two_norm N A.
Proof. exact: sqrtr_ge0. Qed.
Lemma two_norm_eq0 N A : two_norm N A = 0 <-> forall i j, (i < N)%N -> (j < N)%N -> A i j = 0.
Proof.
  rewrite two_normE; split=> [/eqP|H].
    rewrite sqrtr_eq0 => H i j iN jN.
    have : \sum_(p : 'I_N * 'I_N) A p.1 p.2 ^+ 2 == 0.
      by rewrite eq_le H sumr_ge0 // => p _; apply: sqr_ge0.
    rewrite psumr_eq0 => [/allP /(_ (Ordinal iN, Ordinal jN) (mem_index_enum _))|p _]; last exact: sqr_ge0.
    by rewrite /= sqrf_eq0 => /eqP.
  rewrite big1 ?sqrtr0 // => p _. by rewrite H // expr0n.
Qed.
Lemma two_norm_scale N A c : two_norm N (mscale c A) = `|c| * two_norm N A.
Proof.
  rewrite !two_normE -[`|c|]sqrtr_sqr -sqrtrM ?sqr_ge0 // mulr_sumr.
  by congr Num.sqrt; apply: eq_bigr => p _; rewrite /mscale exprMn.
Qed.
Lemma two_norm_add N A B : two_norm N (madd A B) <= two_norm N A + two_norm N B.
Proof. rewrite !two_normE. exact: euclid_triangle. Qed.
Lemma two_norm_mul N A B : two_norm N (matrix_multiply N N N A B) <= two_norm N A * two_norm N B.
Proof.
  have pos : forall X : mat F, 0 <= \sum_(i < N) \sum_(j < N) X i j ^+ 2.
    by move=> X; apply: sumr_ge0 => i _; apply: sumr_ge0 => j _; apply: sqr_ge0.
  rewrite !two_normE2 -sqrtrM // ler_wsqrtr // [X in _ * X]exchange_big /= mulr_suml.
  apply: ler_sum => i _. rewrite mulr_sumr.
  apply: ler_sum => j _. rewrite mm_spec //. exact: cauchy_schwarz.
Qed.
End Rcf.
