(** The standard library's real numbers as an archimedean real field of mathcomp, so that the theorems
    of MatrixProps stated for every real field apply to them. The choice structure mathcomp asks for
    comes from [Coq.Logic.Epsilon] and [FunctionalExtensionality]. *)
From Coq Require Import Reals Lra Epsilon FunctionalExtensionality.
From mathcomp Require Import all_ssreflect all_algebra.
Set Implicit Arguments. Unset Strict Implicit. Unset Printing Implicit Defensive.
Import Order.TTheory GRing.Theory Num.Theory.

Definition Req_bool (x y : R) : bool := if Req_EM_T x y then true else false.
Lemma Req_boolP : Equality.axiom Req_bool.
Proof. move=> x y. rewrite /Req_bool. by case: Req_EM_T; constructor. Qed.
Canonical R_eqType := EqType R (EqMixin Req_boolP).
Definition Rle_bool (x y : R) : bool := if Rle_dec x y then true else false.
Lemma Rle_boolP x y : reflect (Rle x y) (Rle_bool x y).
Proof. rewrite /Rle_bool. by case: Rle_dec; constructor. Qed.
Definition Rlt_bool (x y : R) : bool := (y != x) && Rle_bool x y.

Definition pickR (P : pred R) (n : nat) : option R :=
  let x := epsilon (inhabits R0) (fun x => P x = true) in if P x then Some x else None.
Fact pickR_some P n x : pickR P n = Some x -> P x.
Proof. rewrite /pickR. case: ifP => // H [<-]. exact: H. Qed.
Fact pickR_ex (P : pred R) : (exists x : R, P x) -> exists n, pickR P n.
Proof.
  move=> H. exists 0%N. rewrite /pickR. have E := epsilon_spec (inhabits R0) (fun x => P x = true) H. by rewrite E.
Qed.
Fact pickR_ext (P Q : pred R) : P =1 Q -> pickR P =1 pickR Q.
Proof. by move=> E n; rewrite (functional_extensionality _ _ E). Qed.
Canonical R_choiceType := ChoiceType R (Choice.Mixin pickR_some pickR_ex pickR_ext).

Fact RplusA : associative Rplus. Proof. by move=> *; rewrite Rplus_assoc. Qed.
Canonical R_zmodType := ZmodType R (ZmodMixin RplusA Rplus_comm Rplus_0_l Rplus_opp_l).
Fact RmultA : associative Rmult. Proof. by move=> *; rewrite Rmult_assoc. Qed.
Fact RmultDl : left_distributive Rmult Rplus. Proof. by move=> *; rewrite Rmult_plus_distr_r. Qed.
Fact R1_neq0 : (R1 : R_eqType) != R0.
Proof. by apply/eqP/R1_neq_R0. Qed.
Definition R_ringMixin := ComRingMixin RmultA Rmult_comm Rmult_1_l RmultDl R1_neq0.
Canonical R_ringType := RingType R R_ringMixin.
Canonical R_comRingType := ComRingType R Rmult_comm.
Definition Rinvx (x : R) : R := if x == R0 then R0 else Rinv x.
Fact RmulVx (x : R) : (x != 0)%R -> (Rinvx x * x = 1)%R.
Proof. move=> x0. rewrite /Rinvx (negbTE x0). apply: Rinv_l. exact/eqP. Qed.
Fact Rinvx0 : Rinvx R0 = R0. Proof. by rewrite /Rinvx eqxx. Qed.
Definition R_unitRingMixin := FieldUnitMixin RmulVx Rinvx0.
Canonical R_unitRingType := UnitRingType R R_unitRingMixin.
Canonical R_comUnitRingType := [comUnitRingType of R].
Fact R_field_axiom : GRing.Field.mixin_of R_unitRingType. Proof. by []. Qed.
Canonical R_idomainType := IdomainType R (FieldIdomainMixin R_field_axiom).
Canonical R_fieldType := FieldType R R_field_axiom.

Fact R_le0D (x y : R) : Rle_bool 0 x -> Rle_bool 0 y -> Rle_bool 0 (x + y)%R.
Proof. by move=> /Rle_boolP ? /Rle_boolP ?; apply/Rle_boolP/Rplus_le_le_0_compat. Qed.
Fact R_le0M (x y : R) : Rle_bool 0 x -> Rle_bool 0 y -> Rle_bool 0 (x * y)%R.
Proof. by move=> /Rle_boolP ? /Rle_boolP ?; apply/Rle_boolP/Rmult_le_pos. Qed.
Fact R_le0_anti (x : R) : Rle_bool 0 x -> Rle_bool x 0 -> x = R0.
Proof. by move=> /Rle_boolP ? /Rle_boolP ?; apply: Rle_antisym. Qed.
Fact R_sub_ge0 (x y : R) : Rle_bool 0 (y - x)%R = Rle_bool x y.
Proof.
  change (y - x)%R with (Rplus y (Ropp x)).
  apply/Rle_boolP/Rle_boolP => H; [|]; move: H; rewrite /GRing.zero /=; lra.
Qed.
Fact R_le0_total (x : R) : Rle_bool 0 x || Rle_bool x 0.
Proof. by case: (Rle_dec R0 x) => H; apply/orP; [left|right]; apply/Rle_boolP => //; lra. Qed.
Fact R_normN (x : R) : Rabs (- x)%R = Rabs x. Proof. exact: Rabs_Ropp. Qed.
Fact R_ge0_norm (x : R) : Rle_bool 0 x -> Rabs x = x.
Proof. move=> /Rle_boolP H. by apply: Rabs_pos_eq. Qed.
Fact R_lt_def (x y : R) : Rlt_bool x y = (y != x) && Rle_bool x y. Proof. by []. Qed.
Definition R_leMixin : realLeMixin R_idomainType :=
  RealLeMixin R_le0D R_le0M R_le0_anti R_sub_ge0 R_le0_total R_normN R_ge0_norm R_lt_def.
Canonical R_porderType := POrderType ring_display R R_leMixin.
Canonical R_latticeType := LatticeType R R_leMixin.
Canonical R_distrLatticeType := DistrLatticeType R R_leMixin.
Fact R_le_total : totalPOrderMixin R_latticeType.
Proof.
  move=> x y. apply/orP. case: (Rle_dec x y) => H; [left|right]; apply/Rle_boolP => //.
  exact/Rlt_le/Rnot_le_lt.
Qed.
Canonical R_orderType := OrderType R R_le_total.
Canonical R_numDomainType := NumDomainType R R_leMixin.
Canonical R_normedZmodType := NormedZmodType R R R_leMixin.
Canonical R_numFieldType := [numFieldType of R].
Canonical R_realDomainType := [realDomainType of R].
Canonical R_realFieldType := [realFieldType of R].

Lemma RleP (x y : R) : reflect (Rle x y) (x <= y)%R. Proof. exact: Rle_boolP. Qed.
Lemma RltP (x y : R) : reflect (Rlt x y) (x < y)%R.
Proof.
  rewrite lt_neqAle. apply: (iffP andP) => [[/eqP ne /RleP [H|H]] //|H].
  by split; [apply/eqP/Rlt_not_eq|apply/RleP/Rlt_le].
Qed.
Lemma RnatE (k : nat) : (k%:R)%R = INR k :> R.
Proof. elim: k => [|k IH] //. by rewrite S_INR -IH -addn1 natrD. Qed.
Lemma RpowE (x : R) k : (x ^+ k)%R = pow x k.
Proof. elim: k => [|k IH] //. by rewrite exprS IH. Qed.
Lemma RinvE (x : R) : x <> R0 -> (x^-1)%R = Rinv x.
Proof. move=> /eqP H. by rewrite /GRing.inv /= /Rinvx (negbTE H). Qed.
Fact R_archimedean : Num.archimedean_axiom R_numDomainType.
Proof.
  move=> x. exists (Z.to_nat (up (Rabs x))). apply/RltP. rewrite RnatE INR_IZR_INZ.
  have [H _] := archimed (Rabs x). have p := Rabs_pos x. rewrite Z2Nat.id //. apply: le_IZR. lra.
Qed.
Canonical R_archiFieldType := ArchiFieldType R R_archimedean.
Lemma horner_cont (p : {poly R}) : continuity (fun x => horner p x).
Proof.
  elim/poly_ind: p => [|p c IH] x.
    have -> : (fun x => horner (0 : {poly R})%R x) = (fun _ => R0) by apply: functional_extensionality => y; rewrite horner0.
    by apply: continuity_pt_const.
  have -> : (fun x => horner (p * 'X + c%:P)%R x) = (fun y => Rplus (Rmult (horner p y) y) c).
    by apply: functional_extensionality => y; rewrite hornerMXaddC.
  apply: (continuity_pt_plus (fun y => Rmult (horner p y) y) (fun _ => c)); last by apply: continuity_pt_const.
  apply: (continuity_pt_mult (fun y => horner p y) (fun y => y)); first exact: IH.
  by apply: derivable_continuous_pt; apply: derivable_pt_id.
Qed.
Fact R_closed : Num.real_closed_axiom R_numDomainType.
Proof.
  move=> p a b /RleP ab /andP [/RleP pa /RleP pb].
  have [z [[az zb] pz]] : {z | (Rle a z /\ Rle z b) /\ horner p z = R0}.
    apply: (IVT_cor (fun x => horner p x)) => //; first exact: horner_cont.
    have := Rmult_le_compat_neg_l _ _ _ pa pb. by rewrite Rmult_0_r.
  exists z; last exact/eqP. by apply/andP; split; apply/RleP.
Qed.
Canonical R_rcfType := RcfType R R_closed.
