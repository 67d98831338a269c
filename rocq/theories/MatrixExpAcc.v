(** exponential (matrix.h 562-618): the denominator is invertible and the result is close to the
    exponential series, for every matrix. *)
From Coq Require Import ZArith List.
From mathcomp Require Import all_ssreflect all_algebra.
From Verif Require Import Outcome RingFacts MatrixModel MatrixProofs MatrixNorms MatrixExp.
Set Implicit Arguments. Unset Strict Implicit. Unset Printing Implicit Defensive.
Import Order.TTheory GRing.Theory Num.Theory.
Local Open Scope ring_scope.

Section Acc.
Variable F : realFieldType.
Variable n : nat.
Notation N := n.+1.
Notation M_ := (mx N N).
Implicit Types (X Y : 'M[F]_N) (p q : {poly F}).

(** ** the norm on matrices *)
Definition fm X : mat F := fun i j => X (inord i) (inord j).
Definition nrm X : F := infinity_norm N (fm X).
Lemma mx_fm X : M_ (fm X) = X.
Proof. by apply/matrixP => i j; rewrite mxE /fm !inord_val. Qed.
Lemma nrm_mx (A : mat F) : nrm (M_ A) = infinity_norm N A.
Proof. by apply: infinity_norm_ext => i j iN jN; rewrite /fm mxE !inordK. Qed.
Lemma nrm_ge0 X : 0 <= nrm X. Proof. exact: infinity_norm_ge0. Qed.
Lemma nrmD X Y : nrm (X + Y) <= nrm X + nrm Y.
Proof.
  apply: le_trans (infinity_norm_add N (fm X) (fm Y)). rewrite le_eqVlt; apply/orP; left; apply/eqP.
  by apply: infinity_norm_ext => i j _ _; rewrite /fm /madd mxE.
Qed.
Lemma nrmZ c X : nrm (c *: X) = `|c| * nrm X.
Proof. rewrite /nrm -infinity_norm_scale. by apply: infinity_norm_ext => i j _ _; rewrite /fm /mscale mxE. Qed.
Lemma nrmM X Y : nrm (X * Y) <= nrm X * nrm Y.
Proof.
  have := infinity_norm_mul N (fm X) (fm Y). by rewrite -(nrm_mx (matrix_multiply _ _ _ _ _)) mx_mm !mx_fm.
Qed.
Lemma nrmN X : nrm (- X) = nrm X.
Proof. by rewrite -scaleN1r nrmZ normrN1 mul1r. Qed.
Lemma nrmB X Y : nrm (X - Y) <= nrm X + nrm Y.
Proof. by apply: le_trans (nrmD _ _) _; rewrite nrmN. Qed.
Lemma nrm0 : nrm 0 = 0.
Proof. by rewrite -(scale0r (0 : 'M[F]_N)) nrmZ normr0 mul0r. Qed.
Lemma nrm_eq0 X : nrm X = 0 -> X = 0.
Proof.
  move=> /infinity_norm_eq0 H. apply/matrixP => i j. have := H i j (ltn_ord i) (ltn_ord j).
  by rewrite /fm !inord_val mxE.
Qed.
Lemma nrm1 : nrm 1 <= 1.
Proof.
  apply: infinity_norm_intro => // i iN. rewrite /rowsum (bigD1 (Ordinal iN)) //= big1 ?addr0 => [|j ne].
    by rewrite /fm mxE eqxx normr1.
  rewrite /fm mxE -val_eqE /= !inordK //. case: eqP => [E|]; last by rewrite normr0.
  by case/negP: ne; rewrite -val_eqE /= E.
Qed.
Lemma nrmX X k : nrm (X ^+ k) <= nrm X ^+ k.
Proof.
  elim: k => [|k IH]; first by rewrite !expr0 nrm1.
  rewrite !exprS. apply: le_trans (nrmM _ _) _. by apply: ler_wpmul2l => //; apply: nrm_ge0.
Qed.
Lemma nrm_sum (I : Type) (r : seq I) (P : pred I) (f : I -> 'M[F]_N) :
  nrm (\sum_(i <- r | P i) f i) <= \sum_(i <- r | P i) nrm (f i).
Proof.
  elim: r => [|a r IH]; first by rewrite !big_nil nrm0.
  rewrite !big_cons. case: (P a) => //. apply: le_trans (nrmD _ _) _. by rewrite ler_add2l.
Qed.

(** ** polynomials of a matrix *)
Definition ab (m : nat) p (x : F) : F := \sum_(k < m) `|p`_k| * x ^+ k.
Lemma horner_mx_sum m p X : (size p <= m)%N -> horner_mx X p = \sum_(k < m) p`_k *: X ^+ k.
Proof.
  move=> sz. rewrite -{1}(coefK p) poly_def rmorph_sum /=.
  rewrite (eq_bigr (fun k : 'I_(size p) => p`_k *: X ^+ k)) => [|k _]; last by rewrite linearZ /= rmorphX /= horner_mx_X.
  rewrite (big_ord_widen _ (fun k => p`_k *: X ^+ k) sz) big_mkcond /=. apply: eq_bigr => k _.
  case: ltnP => // H. by rewrite nth_default ?scale0r.
Qed.
Lemma nrm_horner m p X x : (size p <= m)%N -> nrm X <= x -> nrm (horner_mx X p) <= ab m p x.
Proof.
  move=> sz Hx. rewrite (horner_mx_sum X sz). apply: le_trans (nrm_sum _ _ _) _. apply: ler_sum => k _.
  rewrite nrmZ. apply: ler_wpmul2l => //. apply: le_trans (nrmX _ _) _. by apply: ler_expn2r => //; rewrite ?nnegrE ?nrm_ge0 // (le_trans (nrm_ge0 X)).
Qed.
Lemma ab_nonneg m p x : (size p <= m)%N -> (forall k, 0 <= p`_k) -> ab m p x = p.[x].
Proof.
  move=> sz p0. rewrite (horner_coef_wide _ sz). apply: eq_bigr => k _. by rewrite ger0_norm.
Qed.

(** ** coefficients of the Pade numerator and denominator *)
Notation horp := (@hor {poly F} 0 1 +%R *%R -%R).
Lemma coef_hor l k : (horp l 'X : {poly F})`_k = nm F (seq.nth Z0 l k).
Proof.
  elim: l k => [|a l IH] k; first by rewrite /= coef0 nth_nil nm0.
  rewrite hor_cons nmpC coefD coefC coefXM. case: k => [|k] /=; first by rewrite addr0.
  by rewrite add0r IH.
Qed.
Notation QE := (qE (ploop F)).
Notation QD := (qD (ploop F)).
Notation K := (K F).
Lemma coef_QE k : K * QE`_k = nm F (seq.nth Z0 pade_num k).
Proof. by rewrite -coefZ (proj1 (ploop_scaled F)) coef_hor. Qed.
Lemma coef_QD k : K * QD`_k = nm F (seq.nth Z0 pade_den k).
Proof. by rewrite -coefZ (proj2 (ploop_scaled F)) coef_hor. Qed.
Lemma nm_pos (z : positive) : 0 < nm F (Zpos z).
Proof. by rewrite lt0r nm_neq0 -(positive_nat_Z z) -nm_nat ler0n. Qed.
Lemma K_gt0 : 0 < K. Proof. exact: nm_pos. Qed.
Lemma K_nm : K = nm F 665280. Proof. by []. Qed.
Lemma nm_le a b : Z.le a b -> nm F a <= nm F b.
Proof.
  move=> H. rewrite -subr_ge0 -nmN -nmD. have : Z.le Z0 (Z.add b (Z.opp a)) by apply/Z.le_0_sub.
  case: (Z.add _ _) => [|z|z] // _. exact/ltW/nm_pos.
Qed.
Lemma nm_abs a : `|nm F a| = nm F (Z.abs a).
Proof.
  case: a => [|z|z] /=; rewrite ?nm0 ?normr0 //; first by rewrite gtr0_norm ?nm_pos.
  by rewrite -Pos2Z.opp_pos nmN normrN gtr0_norm ?nm_pos.
Qed.
Lemma abs_QD k : `|QD`_k| = nm F (Z.abs (seq.nth Z0 pade_den k)) / K.
Proof.
  apply: (mulfI (lt0r_neq0 K_gt0)). rewrite mulrCA divff ?lt0r_neq0 ?K_gt0 // mulr1 -nm_abs -coef_QD normrM.
  by rewrite (gtr0_norm K_gt0).
Qed.
Lemma coef_big (q : {poly F}) l : size l = 7%N -> (forall k, K * q`_k = nm F (seq.nth Z0 l k)) -> (size q <= 7)%N.
Proof.
  move=> sl H. apply/leq_sizeP => j jn. apply: (mulfI (lt0r_neq0 K_gt0)).
  by rewrite H nth_default ?sl // nm0 mulr0.
Qed.
Lemma size_QD : (size QD <= 7)%N. Proof. exact: (coef_big (l := pade_den)) coef_QD. Qed.
Lemma size_QE : (size QE <= 7)%N. Proof. exact: (coef_big (l := pade_num)) coef_QE. Qed.

(** ** the truncated exponential series *)
Definition te (L : nat) : {poly F} := \poly_(k < L.+1) (k`!%:R)^-1.
Lemma coef_te L k : (te L)`_k = if (k <= L)%N then (k`!%:R)^-1 else 0.
Proof. by rewrite coef_poly ltnS. Qed.
Lemma te_coef_ge0 L k : 0 <= (te L)`_k.
Proof. by rewrite coef_te; case: ifP => // _; rewrite invr_ge0 ler0n. Qed.
Lemma te_coef_le1 L k : (te L)`_k <= 1.
Proof.
  rewrite coef_te; case: ifP => _; last exact: ler01. by rewrite invf_le1 ?ltr0n ?fact_gt0 // ler1n fact_gt0.
Qed.
Lemma size_te L : (size (te L) <= L.+1)%N. Proof. exact: size_poly. Qed.
Lemma horner_te L x : (te L).[x] = \sum_(k < L.+1) x ^+ k / k`!%:R.
Proof. rewrite horner_poly. by apply: eq_bigr => k _; rewrite mulrC. Qed.

Lemma natr_ffact j i : (j ^_ i)%:R = \prod_(t < i) (j%:R - t%:R) :> F.
Proof.
  elim: i => [|i IH]; first by rewrite big_ord0.
  rewrite ffactnSr natrM IH big_ord_recr /=. case: (leqP i j) => H; first by rewrite natrB.
  have -> : \prod_(t < i) (j%:R - t%:R) = 0 :> F; last by rewrite !mul0r.
  by rewrite (bigD1 (Ordinal H)) //= subrr mul0r.
Qed.
Lemma inv_fact_ffact j i : (i <= j)%N -> ((j - i)`!%:R)^-1 * j`!%:R = (j ^_ i)%:R :> F.
Proof.
  move=> ij. rewrite -(ffact_fact ij) natrM mulrC mulfK //. exact: fact_neq0.
Qed.

(** the remainder D * e_L - E *)
Definition rem L : {poly F} := QD * te L - QE.
Lemma rem_coef L j : (j <= L)%N ->
  K * (rem L)`_j * j`!%:R =
    \prod_(k < 6) (j%:R - (k + 7)%:R) - nm F (seq.nth Z0 pade_num j) * j`!%:R.
Proof.
  move=> jL. rewrite coefB mulrBr coef_QE mulrBl. congr (_ - _).
  rewrite coefM mulr_sumr mulr_suml.
  transitivity (\sum_(i < 7) nm F (seq.nth Z0 pade_den i) * (j ^_ i)%:R).
    have W : forall m, (j < m)%N -> (7 <= m)%N ->
      \sum_(i < j.+1) K * (QD`_i * (te L)`_(j - i)) * j`!%:R = \sum_(i < 7) nm F (seq.nth Z0 pade_den i) * (j ^_ i)%:R.
      move=> m jm m7. rewrite (big_ord_widen _ (fun i => K * (QD`_i * (te L)`_(j - i)) * j`!%:R) jm) big_mkcond /=.
      rewrite (big_ord_widen _ (fun i => nm F (seq.nth Z0 pade_den i) * (j ^_ i)%:R) m7) [RHS]big_mkcond /=.
      apply: eq_bigr => i _. case: (ltnP i j.+1) => ij.
        rewrite mulrA coef_QD coef_te (leq_trans (leq_subr i j)) // -mulrA inv_fact_ffact //.
        case: ltnP => // i7. by rewrite nth_default // nm0 mul0r.
      rewrite ffact_small // mulr0. by case: ifP.
    by apply: (W (maxn j.+1 7)); rewrite ?leq_maxl ?leq_maxr.
  rewrite (eq_bigr (fun i : 'I_7 => nm F (seq.nth Z0 pade_den i) * \prod_(t < i) (j%:R - t%:R))) => [|i _]; last by rewrite natr_ffact.
  do 7 rewrite big_ord_recr /=. rewrite big_ord0 add0r.
  do 7 rewrite ?big_ord_recr /=. rewrite !big_ord0 !mul1r mulr1 !subr0.

  have c k : k%:R = nm F (Z.of_nat k) by exact: nm_nat.
  rewrite (c 2%N) (c 3%N) (c 4%N) (c 5%N) (c 7%N) (c 8%N) (c 9%N) (c 10%N) (c 11%N) (c 12%N) /=.
  exact: (pade_falling (comring_RT F) j%:R).
Qed.

Lemma natr_nm_sub a b : a%:R - b%:R = nm F (Z.sub (Z.of_nat a) (Z.of_nat b)).
Proof. by rewrite !nm_nat -nmN -nmD. Qed.
Lemma rem_zero L j : (j <= L)%N -> (j <= 12)%N -> (rem L)`_j = 0.
Proof.
  move=> jL j12. have H := rem_coef jL.
  have Z : \prod_(k < 6) (j%:R - (k + 7)%:R) - nm F (seq.nth Z0 pade_num j) * j`!%:R = 0.
    case: (leqP 7 j) => j7.
      rewrite nth_default // nm0 mul0r subr0. have k6 : (j - 7 < 6)%N by rewrite ltn_subLR.
      by rewrite (bigD1 (Ordinal k6)) //= subnK // subrr mul0r.
    move: j7 {H jL j12}. do 7 (case: j => [_|j]; first by do 6 rewrite big_ord_recr /=; rewrite big_ord0 mul1r !natr_nm_sub nm_nat -!nmM -nmN -nmD). by [].
  rewrite Z -mulrA in H. apply: (mulIf (fact_neq0 F j)). apply: (mulfI (lt0r_neq0 K_gt0)). by rewrite H mul0r mulr0.
Qed.
Lemma leq_ffact i m k : (m <= k)%N -> (m ^_ i <= k ^_ i)%N.
Proof.
  elim: i m k => [|i IH] m k mk //. rewrite !ffactnS. apply: leq_mul => //. apply: IH.
  by rewrite -!subn1 leq_sub2r.
Qed.
Definition eta0 : F := (K * (13 ^_ 7)%:R)^-1.
Lemma eta0_gt0 : 0 < eta0.
Proof. by rewrite invr_gt0 mulr_gt0 ?K_gt0 // ltr0n ffact_gt0. Qed.
Lemma rem_mid L j : (13 <= j)%N -> (j <= L)%N -> `|(rem L)`_j| <= eta0 / (j - 13)`!%:R.
Proof.
  move=> j13 jL. have := rem_coef jL. have j7 : (7 <= j)%N by exact: (leq_trans _ j13).
  rewrite (nth_default Z0 (j7 : (size pade_num <= j)%N)).
  rewrite nm0 mul0r subr0.
  have -> : \prod_(k < 6) (j%:R - (k + 7)%:R) = ((j - 7) ^_ 6)%:R :> F.
    rewrite natr_ffact. apply: eq_bigr => k _. by rewrite natrB // natrD opprD addrA addrAC.
  have f1 : j`! = (j ^_ 7 * ((j - 7) ^_ 6 * (j - 13)`!))%N.
    have -> : (j - 13 = j - 7 - 6)%N by rewrite -subnDA.
    rewrite ffact_fact ?ffact_fact //. by rewrite leq_subRL.
  have g0 : (0 < (j - 7) ^_ 6)%N by rewrite ffact_gt0 leq_subRL.
  have g7 : (13 ^_ 7 <= j ^_ 7)%N by apply: leq_ffact.
  have e7 : (0 < 13 ^_ 7)%N by rewrite ffact_gt0.
  rewrite /eta0 f1. move: (13 ^_ 7)%N (j ^_ 7)%N ((j - 7) ^_ 6)%N g0 g7 e7 {f1} => e a b b0 ae e0.
  have a0 : (0 < a)%N by apply: leq_trans ae.
  have c0 := fact_gt0 (j - 13). move: ((j - 13)`!) c0 => c c0. set r := _`_j.
  have [a0' b0' c0' e0'] : [/\ a%:R != 0 :> F, b%:R != 0 :> F, c%:R != 0 :> F & e%:R != 0 :> F] by rewrite !pnatr_eq0 -!lt0n.
  have Kp := K_gt0. move: (K) Kp => k k0. have k0' := lt0r_neq0 k0. rewrite !natrM => H.
  have {}H : r = (k * a%:R)^-1 / c%:R.
    apply: (mulIf b0'). rewrite -{2}H.
    have -> : k * r * (a%:R * (b%:R * c%:R)) = (k * a%:R) * c%:R * (r * b%:R).
      rewrite (mulrAC k) -!mulrA. do 2 congr (_ * _). by rewrite mulrCA (mulrC r).
    rewrite [RHS]mulrA -[(k * a%:R)^-1 / c%:R]invfM.
    by rewrite mulVf ?mul1r // !mulf_neq0.
  rewrite H ger0_norm; last by rewrite divr_ge0 ?ler0n // invr_ge0 mulr_ge0 ?ler0n // ltW.
  apply: ler_wpmul2r; first by rewrite invr_ge0 ler0n.
  by rewrite lef_pinv ?posrE ?mulr_gt0 ?ltr0n // ler_pmul2l // ler_nat.
Qed.
Lemma QD_abs_sum : \sum_(i < 7) `|QD`_i| <= 2%:R.
Proof.
  rewrite (eq_bigr (fun i : 'I_7 => nm F (Z.abs (seq.nth Z0 pade_den i)) / K)) => [|i _]; last exact: abs_QD.
  rewrite -mulr_suml ler_pdivr_mulr ?K_gt0 //. do 7 rewrite big_ord_recr /=. rewrite big_ord0 add0r -!nmD nm_nat K_nm -nmM.
  exact: nm_le.
Qed.
Lemma size_rem L : (6 <= L)%N -> (size (rem L) <= L + 7)%N.
Proof.
  move=> L6. apply: leq_trans (size_add _ _) _. rewrite size_opp geq_max. apply/andP; split.
    apply: leq_trans (size_mul_leq _ _) _. have : (size QD + size (te L) <= (L + 7).+1)%N by rewrite -addSn addnC leq_add ?size_QD ?size_te.
    by case: (_ + _)%N.
  by apply: leq_trans size_QE _; rewrite leq_addl.
Qed.
Lemma rem_tail L j : (6 <= L)%N -> (L < j)%N -> `|(rem L)`_j| <= 2%:R.
Proof.
  move=> L6 Lj. have j7 : (7 <= j)%N by exact: (leq_trans _ Lj).
  have e0 : QE`_j = 0 by rewrite nth_default // (leq_trans size_QE).
  rewrite coefB e0 subr0 coefM. apply: le_trans (ler_norm_sum _ _ _) _. apply: le_trans QD_abs_sum.
  rewrite (big_ord_widen j.+1 (fun i => `|QD`_i|)); last by apply: leq_trans j7 _.
  rewrite [X in _ <= X]big_mkcond /=. apply: ler_sum => i _. rewrite normrM.
  case: ltnP => i7; last by rewrite nth_default ?normr0 ?mul0r // (leq_trans size_QD).
  rewrite -[X in _ <= X]mulr1. apply: ler_wpmul2l => //. by rewrite ger0_norm ?te_coef_ge0 // te_coef_le1.
Qed.
Lemma half_pow (x : F) L j : 0 <= x -> x <= 2%:R^-1 -> (L <= j)%N -> x ^+ j <= (2%:R ^+ L)^-1.
Proof.
  move=> x0 xh Lj. have x1 : x <= 1 by apply: le_trans xh _; rewrite invf_le1 ?ltr0n // ler1n.
  apply: le_trans (_ : x ^+ L <= _); first exact: ler_wiexpn2l.
  rewrite -exprVn. apply: ler_expn2r => //; by rewrite nnegrE // invr_ge0 ler0n.
Qed.
Lemma rem_ab L x : (12 <= L)%N -> 0 <= x -> x <= 2%:R^-1 ->
  ab (L + 7) (rem L) x <= eta0 * x ^+ 13 * (te L).[x] + 12%:R / 2%:R ^+ L.+1.
Proof.
  move=> L12 x0 xh. rewrite /ab -(big_mkord xpredT (fun k => `|(rem L)`_k| * x ^+ k)).
  have L7 : (L.+1 <= L + 7)%N by rewrite -addn1 leq_add2l.
  rewrite (@big_cat_nat _ _ _ L.+1) //= (@big_cat_nat _ _ _ 13 0 L.+1) //=.
  rewrite big1_seq ?add0r => [|k]; last first.
    rewrite mem_index_iota /= => k13. by rewrite rem_zero ?normr0 ?mul0r // (leq_trans _ L12).
  apply: ler_add.
    apply: (@le_trans _ _ (\sum_(13 <= k < L.+1) eta0 * x ^+ 13 * (x ^+ (k - 13) / (k - 13)`!%:R))).
      rewrite big_nat [X in _ <= X]big_nat. apply: ler_sum => k /andP [k13 kL].
      have -> : x ^+ k = x ^+ 13 * x ^+ (k - 13) by rewrite -exprD subnKC.
      have -> : eta0 * x ^+ 13 * (x ^+ (k - 13) / (k - 13)`!%:R) = eta0 / (k - 13)`!%:R * (x ^+ 13 * x ^+ (k - 13)).
        by rewrite [X in _ * X = _]mulrC mulrACA.
      apply: ler_wpmul2r; first by rewrite mulr_ge0 ?exprn_ge0. exact: rem_mid.
    rewrite -mulr_sumr. apply: ler_wpmul2l; first by apply: mulr_ge0; [exact: (ltW eta0_gt0)|exact: exprn_ge0].
    rewrite -[13%N]add0n big_addn horner_te -(big_mkord xpredT (fun k => x ^+ k / k`!%:R)).
    rewrite (@big_cat_nat _ _ _ (L.+1 - 13) 0 L.+1) ?leq_subr //= -[X in X <= _]addr0. apply: ler_add.
      rewrite big_nat [X in _ <= X]big_nat. apply: ler_sum => k _. by rewrite addnK.
    by apply: sumr_ge0 => k _; rewrite divr_ge0 ?ler0n ?exprn_ge0.
  apply: (@le_trans _ _ (\sum_(L.+1 <= k < L + 7) 2%:R / 2%:R ^+ L.+1)).
    rewrite big_nat [X in _ <= X]big_nat. apply: ler_sum => k /andP [kL _].
    apply: ler_pmul => //; first by rewrite exprn_ge0.
      by apply: rem_tail => //; apply: leq_trans L12.
    exact: half_pow.
  have -> : (12 = 2 * 6)%N by [].
  rewrite sumr_const_nat. have -> : (L + 7 - L.+1 = 6)%N by rewrite -[L.+1]addn1 subnDl.
  by rewrite -mulr_natr mulrAC natrM.
Qed.

(** ** the denominator is invertible and its inverse has norm at most 2 *)
Lemma QD_small X : nrm X <= 2%:R^-1 -> nrm (1 - horner_mx X QD) <= 2%:R^-1.
Proof.
  move=> Hx. have x0 : 0 <= 2%:R^-1 :> F by rewrite invr_ge0 ler0n.
  have -> : 1 - horner_mx X QD = horner_mx X (1 - QD) by rewrite rmorphB rmorph1.
  have sz : (size (1 - QD)%R <= 7)%N.
    apply: leq_trans (size_add _ _) _. by rewrite size_opp geq_max size_QD size_poly1.
  apply: le_trans (nrm_horner sz Hx) _. rewrite /ab big_ord_recl.
  have -> : (1 - QD)`_(@ord0 6) = 0.
    apply: (mulfI (lt0r_neq0 K_gt0)). by rewrite coefB mulrBr coef_QD coef1 /= mulr1 K_nm subrr mulr0.
  rewrite normr0 mul0r add0r.
  apply: (@le_trans _ _ (\sum_(i < 6) nm F (Z.abs (seq.nth Z0 pade_den i.+1)) / K * 2%:R^-1)).
    apply: ler_sum => i _. rewrite coefB coef1 /= sub0r normrN abs_QD. apply: ler_wpmul2l.
      apply: divr_ge0; last exact: (ltW K_gt0). by rewrite -nm_abs.
    have -> : bump 0 i = i.+1 by [].
    rewrite exprS -[X in _ <= X]mulr1. apply: ler_wpmul2l => //. apply: exprn_ile1 => //.
    by rewrite invf_le1 ?ltr0n // ler1n.
  rewrite -!mulr_suml -[X in _ <= X]mul1r. apply: ler_wpmul2r => //. rewrite ler_pdivr_mulr ?K_gt0 // mul1r K_nm.
  do 6 rewrite big_ord_recr /=. rewrite big_ord0 add0r -!nmD. exact: nm_le.
Qed.
Lemma near_one_inv X : nrm (1 - X) <= 2%:R^-1 -> \det X != 0.
Proof.
  move=> H. apply/negP => /det0P [v v0 vX]. pose V : 'M[F]_N := \matrix_(i, j) v ord0 j.
  have rV : forall i, row i V = v by move=> i; apply/rowP => j; rewrite !mxE.
  have VX : V * X = 0 by apply/row_matrixP => i; rewrite row_mul rV vX row0.
  have E : V = V * (1 - X) by rewrite mulrBr mulr1 VX subr0.
  have L : nrm V <= nrm V * 2%:R^-1.
    rewrite {1}E. apply: le_trans (nrmM _ _) _. by apply: ler_wpmul2l; rewrite ?nrm_ge0.
  have nV : nrm V = 0.
    have := nrm_ge0 V. rewrite le_eqVlt => /orP [/eqP //|p]. move: L. rewrite ler_pmulr // => L.
    by move: L; rewrite leNgt invf_lt1 ?ltr0n // ltr1n.
  move/eqP: v0; apply. rewrite -(rV ord0) (nrm_eq0 nV). exact: row0.
Qed.
Lemma inv_norm X Y : nrm (1 - X) <= 2%:R^-1 -> Y * X = 1 -> nrm Y <= 2%:R.
Proof.
  move=> H YX. have E : Y = 1 + Y * (1 - X) by rewrite mulrBr mulr1 YX addrCA subrr addr0.
  have L : nrm Y <= 1 + nrm Y * 2%:R^-1.
    rewrite {1}E. apply: le_trans (nrmD _ _) _. apply: ler_add; first exact: nrm1.
    apply: le_trans (nrmM _ _) _. by apply: ler_wpmul2l; rewrite ?nrm_ge0.
  have h : nrm Y = nrm Y * 2%:R^-1 + nrm Y * 2%:R^-1 by rewrite -mulrDr -mulr2n -mulr_natl divff ?mulr1 // pnatr_eq0.
  move: L. rewrite {1}h ler_add2r ler_pdivr_mulr ?ltr0n // mul1r. by [].
Qed.

(** ** products of the truncated series *)
Lemma te_pow_ge0 L m k : 0 <= (te L ^+ m)`_k.
Proof.
  elim: m k => [|m IH] k; first by rewrite expr0 coef1 ler0n.
  rewrite exprS coefM. apply: sumr_ge0 => i _. by rewrite mulr_ge0 // te_coef_ge0.
Qed.
Lemma binom_exp (m : nat) k : \sum_(i < k.+1) (m%:R ^+ i / i`!%:R) * (k - i)`!%:R^-1 = m.+1%:R ^+ k / k`!%:R :> F.
Proof.
  rewrite -[m.+1]addn1 natrD (addrC m%:R) exprDn mulr_suml. apply: eq_bigr => i _.
  have ik : (i <= k)%N by rewrite -ltnS.
  have c0 := fact_neq0 F (k - i). have d0 := fact_neq0 F i.
  rewrite expr1n mul1r -[_ *+ 'C(k, i)]mulr_natl -(bin_fact ik) !natrM.
  have b0 : 'C(k, i)%:R != 0 :> F by rewrite pnatr_eq0 -lt0n bin_gt0.
  move: ('C(k, i)%:R : F) (i`!%:R : F) ((k - i)`!%:R : F) (m%:R ^+ i : F) b0 c0 d0 => b d c x b0 c0 d0.
  by rewrite -mulf_div divff // mul1r invfM mulrA.
Qed.
Lemma te_pow_coef L m k : (k <= L)%N -> (te L ^+ m)`_k = m%:R ^+ k / k`!%:R.
Proof.
  elim: m k => [|m IH] k kL.
    rewrite expr0 coef1 expr0n. by case: k kL => [|k] _; rewrite /= ?mul0r // fact0 divr1.
  rewrite exprSr coefM -binom_exp. apply: eq_bigr => i _. have ik : (i <= k)%N by rewrite -ltnS.
  by rewrite IH ?(leq_trans ik) // coef_te (leq_trans (leq_subr _ _) kL).
Qed.
Lemma te_pow_le L m k : (te L ^+ m)`_k <= m%:R ^+ k / k`!%:R.
Proof.
  elim: m k => [|m IH] k.
    rewrite expr0 coef1 expr0n. by case: k => [|k]; rewrite /= ?mul0r // fact0 divr1.
  rewrite exprSr coefM -binom_exp. apply: ler_sum => i _. apply: ler_pmul => //; rewrite ?te_pow_ge0 ?te_coef_ge0 //.
  rewrite coef_te. case: ifP => // _. by rewrite invr_ge0 ler0n.
Qed.
Lemma size_te_pow L m : (size (te L ^+ m) <= (m * L).+1)%N.
Proof.
  elim: m => [|m IH]; first by rewrite expr0 size_poly1.
  rewrite exprS. apply: leq_trans (size_mul_leq _ _) _.
  have : (size (te L) + size (te L ^+ m) <= ((m.+1 * L).+1).+1)%N.
    by rewrite mulSn -addnS -addSn leq_add // size_te.
  by case: (_ + _)%N.
Qed.
(** e_L(x)^m <= e_(m L)(m x) *)
Lemma te_pow_val L m x : 0 <= x -> (te L).[x] ^+ m <= (te (m * L)).[m%:R * x].
Proof.
  move=> x0. rewrite -horner_exp (horner_coef_wide _ (size_te_pow L m)) horner_te. apply: ler_sum => k _.
  rewrite exprMn mulrAC. apply: ler_wpmul2r; first exact: exprn_ge0. exact: te_pow_le.
Qed.
Definition scp L (m : nat) : {poly F} := \poly_(k < L.+1) (m%:R ^+ k / k`!%:R).
Lemma horner_scp L m x : (scp L m).[x] = (te L).[m%:R * x].
Proof. rewrite horner_poly horner_te. apply: eq_bigr => k _. by rewrite exprMn mulrAC. Qed.
Lemma horner_mx_te L X : horner_mx X (te L) = \sum_(k < L.+1) (k`!%:R)^-1 *: X ^+ k.
Proof. rewrite (horner_mx_sum X (size_te L)). apply: eq_bigr => k _. by rewrite coef_te -ltnS ltn_ord. Qed.
Lemma horner_mx_scp L m X : horner_mx X (scp L m) = horner_mx (m%:R *: X) (te L).
Proof.
  rewrite horner_mx_te (@horner_mx_sum L.+1) ?size_poly //. apply: eq_bigr => k _.
  by rewrite coef_poly ltn_ord exprZn scalerA mulrC.
Qed.
(** the series of m X against the m-th power of the series of X *)
Lemma te_pow_dist L m X : nrm (horner_mx X (te L) ^+ m - horner_mx (m%:R *: X) (te L)) <=
  (te L).[nrm X] ^+ m - (te L).[m%:R * nrm X].
Proof.
  rewrite -rmorphX -horner_mx_scp -rmorphB /= -horner_scp -horner_exp -hornerN -hornerD.
  set p := _ - _. apply: le_trans (nrm_horner (leqnn (size p)) (lexx _)) _. rewrite ab_nonneg // => k.
  rewrite coefB coef_poly. case: ltnP => k1; last by rewrite subr0 te_pow_ge0.
  by rewrite te_pow_coef ?subrr // -ltnS.
Qed.
(** powers of close matrices *)
Lemma pow_dist X Y a d m : nrm Y <= a -> nrm (X - Y) <= d ->
  nrm (X ^+ m) <= (a + d) ^+ m /\ nrm (X ^+ m - Y ^+ m) <= (a + d) ^+ m - a ^+ m.
Proof.
  move=> Ya XY. have a0 : 0 <= a by apply: le_trans Ya; apply: nrm_ge0.
  have d0 : 0 <= d by apply: le_trans XY; apply: nrm_ge0.
  have Xad : nrm X <= a + d.
    rewrite -(subrK Y X). apply: le_trans (nrmD _ _) _. by rewrite addrC ler_add.
  have P k : nrm (X ^+ k) <= (a + d) ^+ k.
    apply: le_trans (nrmX _ _) _. by apply: ler_expn2r; rewrite ?nnegrE ?nrm_ge0 ?addr_ge0.
  split=> //. elim: m => [|m IH]; first by rewrite !expr0 !subrr nrm0.
  have -> : X ^+ m.+1 - Y ^+ m.+1 = X ^+ m * (X - Y) + (X ^+ m - Y ^+ m) * Y.
    by rewrite !exprSr mulrBr mulrBl addrA subrK.
  have -> : (a + d) ^+ m.+1 - a ^+ m.+1 = (a + d) ^+ m * d + ((a + d) ^+ m - a ^+ m) * a.
    by rewrite !exprSr mulrDr mulrBl addrA [_ * d + _]addrC.
  apply: le_trans (nrmD _ _) _. apply: ler_add; apply: le_trans (nrmM _ _) _;
    by apply: ler_pmul => //; apply: nrm_ge0.
Qed.

(** ** one Pade step *)
Definition eta : F := 2%:R * eta0 / 2%:R ^+ 13.
Definition beta (L : nat) : F := 12%:R / 2%:R ^+ L.
Lemma te_ge1 L x : 0 <= x -> 1 <= (te L).[x].
Proof.
  move=> x0. rewrite horner_te big_ord_recl /= expr0 fact0 divr1 ler_addl.
  by apply: sumr_ge0 => k _; rewrite divr_ge0 ?ler0n ?exprn_ge0.
Qed.
Lemma nrm_te L X : nrm (horner_mx X (te L)) <= (te L).[nrm X].
Proof.
  apply: le_trans (nrm_horner (size_te L) (lexx _)) _. rewrite ab_nonneg ?size_te // => k. exact: te_coef_ge0.
Qed.
Lemma pade_close L X B : (12 <= L)%N -> nrm X <= 2%:R^-1 -> B * horner_mx X QD = 1 ->
  nrm (B * horner_mx X QE - horner_mx X (te L)) <= eta * (te L).[nrm X] + beta L.
Proof.
  move=> L12 Hx BD. have B2 := inv_norm (QD_small Hx) BD. have x0 := nrm_ge0 X.
  have -> : B * horner_mx X QE - horner_mx X (te L) = - (B * horner_mx X (rem L)).
    have -> : horner_mx X (rem L) = horner_mx X QD * horner_mx X (te L) - horner_mx X QE by rewrite /rem rmorphB rmorphM.
    by rewrite mulrBr mulrA BD mul1r opprB.
  rewrite nrmN. apply: le_trans (nrmM _ _) _.
  have R := rem_ab L12 x0 Hx.
  have S : nrm (horner_mx X (rem L)) <= ab (L + 7) (rem L) (nrm X).
    apply: nrm_horner => //. apply: size_rem. exact: leq_trans L12.
  have e0 : 0 <= (te L).[nrm X] by apply: le_trans (te_ge1 L x0).
  apply: (@le_trans _ _ (2%:R * (eta0 / 2%:R ^+ 13 * (te L).[nrm X] + 12%:R / 2%:R ^+ L.+1))).
    apply: ler_pmul; rewrite ?nrm_ge0 //. apply: le_trans S (le_trans R _). rewrite ler_add2r.
    apply: ler_wpmul2r => //. apply: ler_wpmul2l; first exact: (ltW eta0_gt0). exact: half_pow.
  have -> : beta L = 2%:R * (12%:R / 2%:R ^+ L.+1).
    by rewrite /beta exprS invfM [12%:R * (_ * _)]mulrCA [RHS]mulrA divff ?mul1r // pnatr_eq0.
  by rewrite mulrDr !mulrA.
Qed.

(** ** the theorem *)
Lemma te_pow_lower L m x : 0 <= x -> (te L).[m%:R * x] <= (te L).[x] ^+ m.
Proof.
  move=> x0. rewrite -horner_exp -horner_scp -subr_ge0 -hornerN -hornerD -(ab_nonneg _ (leqnn _)).
    by apply: sumr_ge0 => k _; rewrite mulr_ge0 ?exprn_ge0.
  move=> k. rewrite coefB coef_poly. case: ltnP => k1; last by rewrite subr0 te_pow_ge0.
  by rewrite te_pow_coef ?subrr // -ltnS.
Qed.
Lemma etrunc_te L X : etrunc L.+1 X = horner_mx X (te L).
Proof. by rewrite horner_mx_te. Qed.
Lemma eta_gt0 : 0 < eta.
Proof. apply: divr_gt0; last by rewrite exprn_gt0 // ltr0n. by apply: mulr_gt0; rewrite ?ltr0n // eta0_gt0. Qed.
Lemma beta_gt0 L : 0 < beta L.
Proof. by apply: divr_gt0; rewrite ?exprn_gt0 ?ltr0n. Qed.
Lemma ffact_fact_nm a i z : (i <= a)%N -> \prod_(t < i) (a%:R - t%:R) = nm F z -> a`!%:R = nm F z * (a - i)`!%:R.
Proof. by move=> ia <-; rewrite -natr_ffact -natrM ffact_fact. Qed.
Lemma eta_alg (k f g a b : F) : k != 0 -> f != 0 -> g != 0 -> a = k * f -> b = g * f ->
  2%:R * (k * g)^-1 / 2%:R ^+ 13 = f ^+ 2 / (a * b * 2%:R ^+ 12).
Proof.
  move=> k0 f0 g0 -> ->. have t0 : 2%:R != 0 :> F by rewrite pnatr_eq0.
  rewrite (exprS _ 12). set u := 2%:R ^+ 12. have u0 : u != 0 by rewrite expf_neq0.
  clearbody u. have ff : f ^+ 2 != 0 by rewrite expf_neq0.
  have -> : k * f * (g * f) * u = f ^+ 2 * (k * g * u).
    rewrite mulrACA -expr2.
    by rewrite [LHS]mulrAC [LHS]mulrC.
  by rewrite (invfM (f ^+ 2)) mulrA divff // mul1r (invfM (k * g)) (invfM 2%:R) [2%:R * _]mulrC -mulrA; congr (_ * _); rewrite mulrA divff // mul1r.
Qed.
Lemma E12 : 12`!%:R = K * 6`!%:R :> F.
Proof.
  rewrite K_nm. apply: (@ffact_fact_nm 12 6 665280) => //. do 6 rewrite big_ord_recr /=. by rewrite big_ord0 mul1r !natr_nm_sub -!nmM.
Qed.
Lemma E13 : 13`!%:R = (13 ^_ 7)%:R * 6`!%:R :> F.
Proof. by rewrite -natrM (@ffact_fact 13 7). Qed.
Lemma eta_val : eta = 6`!%:R ^+ 2 / (12`!%:R * 13`!%:R * 2%:R ^+ 12).
Proof.
  apply: (eta_alg (lt0r_neq0 K_gt0) (fact_neq0 F 6) _ E12 E13). by rewrite pnatr_eq0 -lt0n ffact_gt0.
Qed.

Lemma eta_le : eta <= (nm F 20000000000000000)^-1.
Proof.
  have E7 : (13 ^_ 7)%:R = nm F 8648640.
    rewrite natr_ffact. do 7 rewrite big_ord_recr /=. by rewrite big_ord0 mul1r !natr_nm_sub -!nmM.
  have E2 : 2%:R ^+ 13 = 2%:R * nm F 4096 by rewrite exprS; congr (_ * _); rewrite (nm_nat F 2) /=; do 12 rewrite exprS; rewrite expr0 mulr1 -!nmM.
  have -> : eta = (nm F 23567430529843200)^-1.
    rewrite /eta /eta0 E7 E2 K_nm -nmM. have t0 : 2%:R != 0 :> F by rewrite pnatr_eq0.
    have H (k q : F) : 2%:R * k^-1 / (2%:R * q) = (k * q)^-1 by rewrite (invfM 2%:R) mulrACA divff // mul1r -invfM.
    by rewrite H -nmM.
  rewrite lef_pinv ?posrE ?nm_pos //. exact: nm_le.
Qed.

(** whenever 2 ||A|| <= 2^s the exponential exists and is within the stated distance of every
    truncation of the series *)
Theorem exp_accuracy (junk : mat F) dbg s_of (A : mat F) (s := s_of (infinity_norm N A)) :
  infinity_norm N A != 0 -> 2%:R * infinity_norm N A <= 2%:R ^+ s ->
  exists P, exponential junk dbg s_of N A = Ok P /\
    forall L, (12 <= L)%N -> nrm (M_ P - etrunc L.+1 (M_ A)) <=
      (te (2 ^ s * L)).[infinity_norm N A] * (1 + eta + beta L) ^+ (2 ^ s) - (te L).[infinity_norm N A].
Proof.
  move=> nz Hs. rewrite /exponential (negbTE nz) -/s.
  set A1 := mdiv A _. set a := infinity_norm N A in nz Hs *.
  have p0 : 0 < 2%:R ^+ s :> F by rewrite exprn_gt0 // ltr0n.
  have E1 : M_ A1 = (2%:R ^+ s)^-1 *: M_ A by rewrite mx_mdiv.
  have En : nrm (M_ A1) = a / 2%:R ^+ s.
    by rewrite E1 nrmZ nrm_mx ger0_norm ?invr_ge0 ?ltW // mulrC.
  have Ea : (2 ^ s)%:R * nrm (M_ A1) = a.
    by rewrite En natrX mulrC mulfVK // lt0r_neq0.
  have EA : (2 ^ s)%:R *: M_ A1 = M_ A.
    by rewrite E1 natrX scalerA divff ?scale1r // lt0r_neq0.
  have Hx : nrm (M_ A1) <= 2%:R^-1.
    rewrite En ler_pdivr_mulr // mulrC ler_pdivl_mulr ?ltr0n // mulrC. exact: Hs.
  have [HE HD _] := pade_poly n A1. move: (pade_loop N A1) HE HD => p HE HD.
  have dn : \det (M_ (pD p)) != 0 by rewrite HD; apply/near_one_inv/QD_small.
  have [B [-> HB]] := inverse_ok junk dbg dn.
  eexists; split; first reflexivity. move=> L L12.
  have HB' : M_ B * horner_mx (M_ A1) QD = 1 by rewrite -HD; move/mulmx1C: HB.
  rewrite mx_power mx_mmul HE etrunc_te -EA -Ea.
  have C := pade_close L12 Hx HB'. have T := nrm_te L (M_ A1). have x0 := nrm_ge0 (M_ A1).
  have [_ D] := pow_dist (2 ^ s) T C. have D2 := te_pow_dist L (2 ^ s) (M_ A1).
  move: (M_ A1) (M_ B) C T D D2 x0 => X B0 C T D D2 x0 {HB HB' HE HD dn Hx EA E1 En Ea}.
  set R := _ ^+ (2 ^ s) in D *. set Tm := _ ^+ (2 ^ s) in D D2. set TA := horner_mx _ _ in D2 *.
  rewrite -(subrKA Tm). apply: le_trans (nrmD _ _) _.
  apply: le_trans (ler_add D D2) _. rewrite subrKA ler_add2r.
  set e := (te L).[_] in D *. have e1 : 1 <= e by apply: te_ge1.
  apply: (@le_trans _ _ ((e * (1 + eta + beta L)) ^+ (2 ^ s))).
    have b0 := ltW (beta_gt0 L). have h0 := ltW eta_gt0. have e0 : 0 <= e by apply: le_trans e1.
    have [u0 v0] : 0 <= eta * e + beta L /\ 0 <= 1 + eta + beta L.
      split; apply: addr_ge0 => //; first exact: mulr_ge0. exact: (addr_ge0 ler01 h0).
    apply: ler_expn2r; rewrite ?nnegrE; [exact: addr_ge0|exact: mulr_ge0|].
    rewrite !mulrDr mulr1 -!addrA ler_add2l mulrC ler_add2l ler_pmull //. exact: beta_gt0.
  rewrite exprMn. apply: ler_wpmul2r; last exact: te_pow_val.
  have b0 := ltW (beta_gt0 L). have h0 := ltW eta_gt0.
  apply: exprn_ge0; apply: addr_ge0 => //. exact: (addr_ge0 ler01 h0).
Qed.
End Acc.
