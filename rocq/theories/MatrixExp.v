(** exponential (matrix.h 562-618). *)
From Coq Require Import ZArith List.
From mathcomp Require Import all_ssreflect all_algebra.
From Verif Require Import Outcome RingFacts MatrixModel MatrixProofs MatrixNorms.
Set Implicit Arguments. Unset Strict Implicit. Unset Printing Implicit Defensive.
Import Order.TTheory GRing.Theory Num.Theory.
Local Open Scope ring_scope.

Lemma comring_RT (R : comRingType) : @Ring_theory.ring_theory R 0 1 +%R *%R (fun a b => a - b) -%R eq.
Proof.
  split=> *; rewrite ?add0r ?mul1r ?addrA ?mulrA ?mulrDl ?subrr //; [exact: addrC|exact: mulrC].
Qed.

Section Num.
Variable R : comRingType.
Definition nm (z : Z) : R := @num R 0 1 +%R *%R -%R z.
Lemma nm0 : nm Z0 = 0. Proof. by []. Qed.
Lemma nm1 : nm (Zpos xH) = 1. Proof. by []. Qed.
Lemma nmD a b : nm (Z.add a b) = nm a + nm b.
Proof. exact: (Ring_theory.morph_add (num_morph (comring_RT R))). Qed.
Lemma nmM a b : nm (Z.mul a b) = nm a * nm b.
Proof. exact: (Ring_theory.morph_mul (num_morph (comring_RT R))). Qed.
Lemma nmN a : nm (Z.opp a) = - nm a.
Proof. exact: (Ring_theory.morph_opp (num_morph (comring_RT R))). Qed.
Lemma nm_nat n : n%:R = nm (Z.of_nat n).
Proof. elim: n => [|n IH] //. by rewrite Nat2Z.inj_succ -Z.add_1_l nmD -IH nm1 mulrS. Qed.
End Num.
Arguments nm : simpl never.

Lemma nm_rmorph (R S : comRingType) (f : {rmorphism R -> S}) z : f (nm R z) = nm S z.
Proof.
  have pos : forall p, f (nm R (Zpos p)) = nm S (Zpos p).
    move=> p. by rewrite -(positive_nat_Z p) -!nm_nat rmorph_nat.
  case: z => [|p|p]; rewrite ?rmorph0 // -Pos2Z.opp_pos !nmN rmorphN pos //.
Qed.

Lemma nm_neq0 (F : numFieldType) p : nm F (Zpos p) != 0.
Proof. rewrite -(positive_nat_Z p) -nm_nat pnatr_eq0. by have := Pos2Nat.is_pos p; case: (Pos.to_nat p) => // /PeanoNat.Nat.lt_irrefl. Qed.

Section Exp.
Variable F : realFieldType.
Variable n : nat.
Notation N := n.+1.
Notation M_ := (mx N N).
Implicit Types A : mat F.

Lemma mx_madd A B : M_ (madd A B) = M_ A + M_ B. Proof. by apply/matrixP => i j; rewrite !mxE. Qed.
Lemma mx_msub A B : M_ (msub A B) = M_ A - M_ B. Proof. by apply/matrixP => i j; rewrite !mxE. Qed.
Lemma mx_mscale c A : M_ (mscale c A) = c *: M_ A. Proof. by apply/matrixP => i j; rewrite !mxE. Qed.
Lemma mx_mmul A B : M_ (matrix_multiply N N N A B) = M_ A * M_ B. Proof. exact: mx_mm. Qed.
Lemma mx_mdiv A c : M_ (mdiv A c) = c^-1 *: M_ A.
Proof. by apply/matrixP => i j; rewrite !mxE /mdiv div1r mulrC. Qed.

(** the same loop on polynomials *)
Definition cf (ii : nat) : F := (pade_q - ii + 1)%N%:R / (ii * (2 * pade_q - ii + 1))%N%:R.
Record ppoly := mk_pp { qE : {poly F}; qD : {poly F}; qX : {poly F}; qc : F }.
Definition pstep (ii : nat) (s : ppoly) : ppoly :=
  let c := qc s * cf ii in let X := 'X * qX s in
  mk_pp (c *: X + qE s) (if (ii %% 2 == 1)%N then qD s - c *: X else qD s + c *: X) X c.
Definition ploop : ppoly :=
  for_ 5 (fun k => pstep (k + 2)) (mk_pp (1 + (1 / 2%:R) *: 'X) (1 - (1 / 2%:R) *: 'X) 'X (1 / 2%:R)).

Lemma pade_poly A :
  [/\ M_ (pE (pade_loop N A)) = horner_mx (M_ A) (qE ploop),
      M_ (pD (pade_loop N A)) = horner_mx (M_ A) (qD ploop)
    & pc (pade_loop N A) = qc ploop].
Proof.
  pose P (s : pade F) (p : ppoly) := [/\ M_ (pE s) = horner_mx (M_ A) (qE p),
     M_ (pD s) = horner_mx (M_ A) (qD p), M_ (pX s) = horner_mx (M_ A) (qX p) & pc s = qc p].
  suff [? ? _ ?] : P (pade_loop N A) ploop by split.
  have st : forall ii s p, P s p -> P (pade_step N A ii s) (pstep ii p).
    move=> ii s p [H1 H2 H3 H4]. have HX : M_ (matrix_multiply N N N A (pX s)) = horner_mx (M_ A) ('X * qX p).
      by rewrite mx_mmul H3 rmorphM /= horner_mx_X.
    split=> //=; rewrite ?H4.
    - by rewrite mx_madd mx_mscale HX H1 rmorphD /= linearZ.
    - case: ifP => _; rewrite ?mx_msub ?mx_madd mx_mscale HX H2 ?rmorphB ?rmorphD /= [horner_mx _ (_ *: _)]linearZ //.
    - by rewrite /cf.
  rewrite /pade_loop /ploop /=. do 5 apply: (st).
  have HZ : horner_mx (M_ A) ((1 / 2%:R) *: 'X) = (1 / 2%:R) *: M_ A by rewrite [LHS]linearZ /= horner_mx_X.
  split=> /=; rewrite ?mx_msub ?mx_madd ?mx_mscale ?(mx_identity F) ?rmorphD ?rmorphB /= ?rmorph1 ?rmorphN /= ?HZ ?horner_mx_X //.
Qed.

(** on -A numerator and denominator change places *)
Lemma pade_neg A A' : M_ A' = - M_ A ->
  let s := pade_loop N A in let s' := pade_loop N A' in
  M_ (pE s') = M_ (pD s) /\ M_ (pD s') = M_ (pE s).
Proof.
  move=> HA.
  pose P (ii : nat) (s s' : pade F) := [/\ M_ (pE s') = M_ (pD s), M_ (pD s') = M_ (pE s),
     M_ (pX s') = (-1) ^+ ii *: M_ (pX s) & pc s' = pc s].
  suff [] : P 6%N (pade_loop N A) (pade_loop N A') by [].
  have st : forall ii s s', P ii s s' -> P ii.+1 (pade_step N A ii.+1 s) (pade_step N A' ii.+1 s').
    move=> ii s s' [H1 H2 H3 H4].
    have HX : M_ (matrix_multiply N N N A' (pX s')) =
              (-1) ^+ ii.+1 *: M_ (matrix_multiply N N N A (pX s)).
      by rewrite !mx_mmul HA H3 -scalerAr mulNr scalerN -scaleNr exprS mulN1r.
    split=> //=; rewrite ?H4 //; case: ifP; rewrite modn2 => Ho;
      rewrite ?mx_msub ?mx_madd !mx_mscale HX -signr_odd ?H1 ?H2 scalerA;
      (have -> : odd ii.+1 = ~~ odd ii by []); move: Ho => /=; case: (odd ii) => //= _;
      rewrite ?expr1 ?expr0 ?mulr1 ?mulrN1 ?scaleNr ?opprK ?scaler_sign //; by rewrite addrC.
  rewrite /pade_loop /=. do 5 apply: (st).
  split=> /=; rewrite ?mx_msub ?mx_madd ?mx_mscale ?(mx_identity F) ?HA ?scalerN ?opprK ?expr1 ?scaleN1r //.
Qed.

Lemma mx_power s A : M_ (for_ s (fun _ E => matrix_multiply N N N E E) A) = M_ A ^+ (2 ^ s).
Proof. elim: s => [|s IH] /=; first by rewrite expn0 expr1. by rewrite mx_mmul IH -exprD addnn -mul2n expnS. Qed.

Lemma inverse_true_ok (junk : mat F) A B : inverse junk true N A = Ok B -> M_ A * M_ B = 1 /\ M_ B * M_ A = 1.
Proof.
  case: (\det (M_ A) =P 0) => [D|/eqP D]; first by rewrite inverse_singular.
  have [B' [-> H]] := inverse_ok junk true D. case=> <-. split; first exact: H. by move/mulmx1C: H.
Qed.

Lemma comm_pade A : M_ (pE (pade_loop N A)) * M_ (pD (pade_loop N A)) = M_ (pD (pade_loop N A)) * M_ (pE (pade_loop N A)).
Proof. by have [-> -> _] := pade_poly A; rewrite -!rmorphM mulrC. Qed.

(** exponential(A) * exponential(-A) = I *)
Theorem exp_neg (junk : mat F) s_of A P Q :
  exponential junk true s_of N A = Ok P -> exponential junk true s_of N (mscale (-1) A) = Ok Q ->
  M_ P * M_ Q = 1.
Proof.
  rewrite /exponential infinity_norm_scale normrN1 mul1r. case: eqP => // _.
  set s := s_of _. set A1 := mdiv A _. set A2 := mdiv (mscale _ A) _.
  have E : M_ A2 = - M_ A1 by rewrite !mx_mdiv mx_mscale scaleN1r scalerN.
  have [H1 H2] := pade_neg E. have C := comm_pade A1.
  move: H1 H2 C. cbv zeta. move: (pade_loop N A1) (pade_loop N A2) => p1 p2 H1 H2 C.
  case I1: (inverse junk true N (pD p1)) => [B1| | |] // - [<-].
  case I2: (inverse junk true N (pD p2)) => [B2| | |] // - [<-].
  have [R1 L1] := inverse_true_ok I1. have [R2 L2] := inverse_true_ok I2.
  rewrite !mx_power !mx_mmul H1. rewrite H2 in R2 L2.
  set D := M_ (pD _) in C R1 L1 *. set E' := M_ (pE _) in C R2 L2 *.
  have K : (M_ B1 * E') * (M_ B2 * D) = 1 by rewrite mulrA -(mulrA (M_ B1)) R2 mulr1 L1.
  have K' : (M_ B2 * D) * (M_ B1 * E') = 1 by rewrite mulrA -(mulrA (M_ B2)) R1 mulr1 L2.
  rewrite -exprMn_comm ?K ?expr1n // /GRing.comm K K' //.
Qed.

Theorem exp_zero (junk : mat F) dbg s_of A : (forall i j, (i < N)%N -> (j < N)%N -> A i j = 0) ->
  exponential junk dbg s_of N A = UB.
Proof. by move=> /infinity_norm_eq0 E; rewrite /exponential E eqxx. Qed.

(** ** exactness on nilpotent matrices *)
Definition etrunc (m : nat) (M : 'M[F]_N) : 'M[F]_N := \sum_(k < m) (k`!%:R)^-1 *: M ^+ k.
Definition K : F := nm F 665280.
Definition K12 : F := nm F 479001600.
Notation nmp := (nm [comRingType of {poly F}]).
Notation horp := (@hor {poly F} 0 1 +%R *%R -%R).
Lemma nmpC z : nmp z = (nm F z)%:P.
Proof. exact/esym/(nm_rmorph (polyC_rmorphism F)). Qed.
Lemma K_neq0 : K != 0. Proof. exact: nm_neq0. Qed.
Lemma K12_neq0 : K12 != 0. Proof. exact: nm_neq0. Qed.

Lemma cf_step p p' ii u v :
  (pade_q - ii + 1)%N = Z.to_nat u -> (ii * (2 * pade_q - ii + 1))%N = Z.to_nat (Zpos v) ->
  Z.le Z0 u -> Z.mul p u = Z.mul p' (Zpos v) ->
  nm F p * cf ii = nm F p'.
Proof.
  move=> E1 E2 U H. rewrite /cf E1 E2 !nm_nat !Z2Nat.id // mulrA -nmM H nmM mulfK //. exact: nm_neq0.
Qed.

Lemma ploop_scaled : K *: qE ploop = horp pade_num 'X /\ K *: qD ploop = horp pade_den 'X.
Proof.
  have h1 : K * (1 / 2%:R) = nm F 332640.
    by rewrite nm_nat div1r; apply: (@mulIf _ (nm F 2)); [exact: nm_neq0|rewrite mulfVK ?nm_neq0 // -nmM].
  have c2 : K * (1 / 2%:R * cf 2) = nm F 75600 by rewrite mulrA h1; apply: (@cf_step _ _ _ 5 22).
  have c3 : K * (1 / 2%:R * cf 2 * cf 3) = nm F 10080 by rewrite mulrA c2; apply: (@cf_step _ _ _ 4 30).
  have c4 : K * (1 / 2%:R * cf 2 * cf 3 * cf 4) = nm F 840 by rewrite mulrA c3; apply: (@cf_step _ _ _ 3 36).
  have c5 : K * (1 / 2%:R * cf 2 * cf 3 * cf 4 * cf 5) = nm F 42 by rewrite mulrA c4; apply: (@cf_step _ _ _ 2 40).
  have c6 : K * (1 / 2%:R * cf 2 * cf 3 * cf 4 * cf 5 * cf 6) = nm F 1 by rewrite mulrA c5; apply: (@cf_step _ _ _ 1 42).
  pose PR := comring_RT [comRingType of {poly F}].
  split.
  - transitivity (nmp 1 * ('X * ('X * ('X * ('X * ('X * 'X))))) + (nmp 42 * ('X * ('X * ('X * ('X * 'X)))) +
      (nmp 840 * ('X * ('X * ('X * 'X))) + (nmp 10080 * ('X * ('X * 'X)) + (nmp 75600 * ('X * 'X) +
       (nmp 665280 + nmp 332640 * 'X)))))); last exact: (loop_num_fact PR).
    rewrite /ploop /= !scalerDr !scalerA c2 c3 c4 c5 c6 h1 !nmpC !mul_polyC. by rewrite -(alg_polyC K).
  - transitivity (nmp 665280 - nmp 332640 * 'X + nmp 75600 * ('X * 'X) - nmp 10080 * ('X * ('X * 'X)) +
      nmp 840 * ('X * ('X * ('X * 'X))) - nmp 42 * ('X * ('X * ('X * ('X * 'X)))) +
      nmp 1 * ('X * ('X * ('X * ('X * ('X * 'X)))))).
      rewrite /ploop /= !(scalerBr, scalerDr) !scalerA c2 c3 c4 c5 c6 h1 !nmpC !mul_polyC. by rewrite -(alg_polyC K).
    rewrite (loop_den_fact PR) -!nmN. by [].
Qed.

Lemma hor_cons a l (x : {poly F}) : horp (a :: l) x = nmp a + x * horp l x.
Proof. by case: l => [|b l] //=; rewrite mulr0 addr0. Qed.
Lemma hor_sum (M : 'M[F]_N) l : horner_mx M (horp l 'X) = \sum_(k < size l) nm F (seq.nth Z0 l k) *: M ^+ k.
Proof.
  elim: l => [|a l IH]; first by rewrite big_ord0 /= rmorph0.
  rewrite hor_cons rmorphD rmorphM /= IH horner_mx_X nmpC horner_mx_C big_ord_recl /= expr0 scalemx1.
  congr (_ + _). rewrite mulr_sumr. by apply: eq_bigr => k _; rewrite /= exprS -scalerAr.
Qed.
Lemma trunc_nth k : (k < 13)%N -> nm F (seq.nth Z0 exp_trunc k) * k`!%:R = K12.
Proof.
  elim: k => [|k IH] kn; first by rewrite fact0 mulr1.
  rewrite factS natrM mulrA nm_nat -nmM.
  have -> : Z.mul (seq.nth Z0 exp_trunc k.+1) (Z.of_nat k.+1) = seq.nth Z0 exp_trunc k.
    by move: kn {IH}; do 12 (case: k => [|k] //).
  by apply: IH; apply: ltnW.
Qed.
Lemma fact_neq0 k : k`!%:R != 0 :> F.
Proof. by rewrite pnatr_eq0 -lt0n fact_gt0. Qed.
Lemma fact_scaled (M : 'M[F]_N) : K12 *: etrunc 13 M = horner_mx M (horp exp_trunc 'X).
Proof.
  rewrite hor_sum /etrunc scaler_sumr. apply: eq_bigr => k _.
  by rewrite scalerA -(trunc_nth (ltn_ord k)) mulfK // fact_neq0.
Qed.
Lemma pw_exp (x : {poly F}) m : @pw {poly F} 1 *%R x m = x ^+ m.
Proof. by elim: m => [|m IH] //=; rewrite IH exprS. Qed.

Lemma horner_mod (M : 'M[F]_N) (p q r s : {poly F}) (k : F) : M ^+ 13 = 0 ->
  p * q = k%:P * r + 'X ^+ 13 * s -> horner_mx M p * horner_mx M q = k *: horner_mx M r.
Proof.
  move=> nil /(congr1 (horner_mx M)).
  rewrite rmorphD [X in _ + X]rmorphM [X in _ + X * _]rmorphX /= horner_mx_X nil mul0r addr0 !rmorphM /=.
  by rewrite horner_mx_C -mulmxE mul_scalar_mx.
Qed.
Lemma horner_scale (M : 'M[F]_N) (p : {poly F}) (k : F) : horner_mx M (k *: p) = k *: horner_mx M p.
Proof. by rewrite linearZ. Qed.

Lemma pade_exact (M : 'M[F]_N) : M ^+ 13 = 0 ->
  horner_mx M (qD ploop) * etrunc 13 M = horner_mx M (qE ploop).
Proof.
  move=> nil. have [HE HD] := ploop_scaled.
  have [l H] : exists l, horp pade_den 'X * horp exp_trunc 'X = K12%:P * horp pade_num 'X + 'X ^+ 13 * horp l 'X :> {poly F}.
    eexists; rewrite (pade_fact (comring_RT [comRingType of {poly F}])) pw_exp -nmpC. reflexivity.
  have := horner_mod nil H. rewrite -HE -HD -fact_scaled !horner_scale -scalerAr -scalerAl !scalerA => E.
  apply: (scalerI (mulf_neq0 K12_neq0 K_neq0)). exact: E.
Qed.

Lemma square_exact (M : 'M[F]_N) : M ^+ 13 = 0 -> etrunc 13 M * etrunc 13 M = etrunc 13 (2%:R *: M).
Proof.
  move=> nil.
  have [l H] : exists l, horp exp_trunc 'X * horp exp_trunc 'X = K12%:P * horp exp_trunc2 'X + 'X ^+ 13 * horp l 'X :> {poly F}.
    eexists; rewrite (square_fact (comring_RT [comRingType of {poly F}])) pw_exp -nmpC. reflexivity.
  have := horner_mod nil H.
  have -> : horner_mx M (horp exp_trunc2 'X) = horner_mx (2%:R *: M) (horp exp_trunc 'X).
    rewrite !hor_sum. apply: eq_bigr => k _. rewrite exprZn scalerA. congr (_ *: _).
    rewrite nm_nat. have kn := ltn_ord k; move: (nat_of_ord k) kn => {}k.
    do 13 (case: k => [|k]; first by rewrite /= ?exprS ?expr0 ?mulr1 -?nmM). by [].
  rewrite -!fact_scaled -scalerAr -scalerAl !scalerA => E.
  apply: (scalerI (mulf_neq0 K12_neq0 K12_neq0)). exact: E.
Qed.

Lemma pade_den_unit (M : 'M[F]_N) : M ^+ 13 = 0 -> \det (horner_mx M (qD ploop)) != 0.
Proof.
  move=> nil. have [_ HD] := ploop_scaled.
  have [p Hp] : exists p, K *: qD ploop = K%:P - 'X * p.
    rewrite HD hor_cons nmpC. by exists (- horp (List.tl pade_den) 'X); rewrite mulrN opprK.
  have {Hp} Hq : qD ploop = 1 - 'X * (K^-1 *: p).
    apply: (scalerI K_neq0). by rewrite Hp scalerBr scalerAr scalerA divff ?K_neq0 // scale1r alg_polyC.
  rewrite Hq rmorphB rmorph1 /=. set Y := horner_mx M _.
  have nY : Y ^+ 13 = 0 by rewrite /Y -rmorphX exprMn rmorphM rmorphX /= horner_mx_X nil mul0r.
  have U : (1 - Y) *m (\sum_(i < 13) Y ^+ i) = 1%:M.
    have := subrX1 Y 13. rewrite nY sub0r => E. apply: oppr_inj. by rewrite -mulNmx opprB -[_ *m _]E.
  have := congr1 (fun Z : 'M[F]_N => \det Z) U. rewrite det_mulmx det1 => E. apply/eqP => D0.
  by move: E; rewrite D0 mul0r => /eqP; rewrite eq_sym oner_eq0.
Qed.

(** exponential(A) = sum of A^k/k! when A^13 = 0, whatever number of squarings is chosen *)
Theorem exp_nilpotent (junk : mat F) dbg s_of A : M_ A ^+ 13 = 0 -> M_ A != 0 ->
  exists P, exponential junk dbg s_of N A = Ok P /\ M_ P = etrunc 13 (M_ A).
Proof.
  move=> nil nz. rewrite /exponential.
  have -> : (infinity_norm N A == 0) = false.
    apply/negP => /eqP /infinity_norm_eq0 Z. move/negP: nz; apply.
    by apply/eqP/matrixP => i j; rewrite !mxE Z.
  set s := s_of _. set A1 := mdiv A _.
  have E1 : M_ A1 = (2%:R ^+ s)^-1 *: M_ A by rewrite mx_mdiv.
  have nil1 : M_ A1 ^+ 13 = 0 by rewrite E1 exprZn nil scaler0.
  have [HE HD _] := pade_poly A1. move: (pade_loop N A1) HE HD => p HE HD.
  have dn : \det (M_ (pD p)) != 0 by rewrite HD pade_den_unit.
  have [B [-> HB]] := inverse_ok junk dbg dn.
  eexists; split; first reflexivity.
  have HB' : M_ B * M_ (pD p) = 1 by move/mulmx1C: HB.
  have base : M_ (matrix_multiply N N N B (pE p)) = etrunc 13 (M_ A1).
    by rewrite mx_mmul HE -(pade_exact nil1) mulrA -HD HB' mul1r.
  have sq : forall k, M_ (for_ k (fun _ E => matrix_multiply N N N E E) (matrix_multiply N N N B (pE p))) =
      etrunc 13 (2%:R ^+ k *: M_ A1).
    elim=> [|k IH] /=; first by rewrite expr0 scale1r.
    rewrite mx_mmul IH square_exact; first by rewrite scalerA exprS.
    by rewrite exprZn nil1 scaler0.
  rewrite sq E1 scalerA divff ?scale1r //. by rewrite expf_neq0 // pnatr_eq0.
Qed.
End Exp.
