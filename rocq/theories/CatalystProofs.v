(** imageCompare in floating point: the share of differing bytes, rounded to float, against 0.02. *)
From Coq Require Import ZArith Reals Lra Lia SpecFloat.
From Verif Require Import FloatModel FloatRound FloatProofs StringModel CatalystModel.
Local Open Scope R_scope.

Lemma pw_neg k : (0 <= k)%Z -> pw (- k) = / IZR (2 ^ k).
Proof. intros H. rewrite (pw_Z k H). pose proof (pw_inv k). pose proof (pw_pos k). apply (Rmult_eq_reg_r (pw k)); [|lra]. rewrite Rinv_l; lra. Qed.
Lemma widen_exact x : fin x = true -> valid_binary 24 128 x = true ->
  fin (widen x) = true /\ valid_binary 53 1024 (widen x) = true /\ FR (widen x) = FR x.
Proof.
  intros F V. destruct x as [s|s| |s m e]; try discriminate; [repeat split|].
  destruct (valid_finite 24 128 _ _ _ V) as [C B]. unfold emin in B.
  destruct (digits_bounds (Z.pos m) ltac:(lia)) as (D0 & D1 & _).
  assert (M : (0 < Z.pos m < 2 ^ 53)%Z).
  { split; [lia|]. apply Z.lt_le_trans with (2 ^ Zdigits2 (Z.pos m))%Z; [exact D1|]. apply Z.pow_le_mono_r; [lia|]. unfold fexp, emin in C. lia. }
  pose proof (isfl_scaled 53 1024 ltac:(lia) ltac:(lia) (Z.pos m) e M ltac:(unfold emin; lia)) as I.
  pose proof (normalize_correct 53 1024 ltac:(lia) ltac:(lia) (if s then Z.neg m else Z.pos m) e s ltac:(unfold emin; lia)) as A.
  cbn [widen FR].
  assert (E : IZR (if s then Z.neg m else Z.pos m) * pw e = (if s then -1 else 1) * (IZR (Z.pos m) * pw e)).
  { destruct s; [change (Z.neg m) with (- Z.pos m)%Z; rewrite opp_IZR|]; ring. }
  rewrite E in A. destruct (approx_exact 53 1024 _ _ _ A) as [F' E'].
  { destruct s; [replace (-1 * (IZR (Z.pos m) * pw e)) with (- (IZR (Z.pos m) * pw e)) by ring; apply isfl_opp, I|rewrite Rmult_1_l; exact I]. }
  split; [exact F'|]. split; [exact (approx_valid 53 1024 _ _ _ A)|exact E'].
Qed.
Lemma two_percent_is : fin two_percent = true /\ valid_binary 53 1024 two_percent = true /\ FR two_percent = 5764607523034235 * pw (-58).
Proof. change two_percent with (S754_finite false 5764607523034235 (-58)). repeat split. cbn [FR]. ring. Qed.
Lemma share_rounds d n z : (0 < d <= n)%Z -> (n < 2 ^ 24)%Z -> z = SFdiv 24 128 (of_int 24 128 d) (of_int 24 128 n) ->
  fin z = true /\ valid_binary 24 128 z = true /\ (FR two_percent < FR z <-> (n < 50 * d)%Z).
Proof.
  intros Hd Hn ->.
  destruct (of_int_exact 24 128 ltac:(lia) ltac:(lia) d ltac:(lia)) as (F1 & V1 & E1).
  destruct (of_int_exact 24 128 ltac:(lia) ltac:(lia) n ltac:(lia)) as (F2 & V2 & E2).
  assert (Nn : 0 < IZR n) by (apply (IZR_lt 0); lia). assert (Dd : 0 < IZR d) by (apply (IZR_lt 0); lia).
  pose proof (div_correct 24 128 ltac:(lia) ltac:(lia) _ _ F1 F2 V1 V2 ltac:(rewrite E2; lra)) as A. rewrite E1, E2 in A.
  set (z := SFdiv 24 128 (of_int 24 128 d) (of_int 24 128 n)) in *. clearbody z. set (v := IZR d / IZR n) in *.
  assert (Ev : IZR d = v * IZR n) by (unfold v; field; lra). assert (V0 : 0 < v) by (apply Rdiv_lt_0_compat; assumption).
  assert (Vle : v <= 1). { apply (Rmult_le_reg_r (IZR n)); [exact Nn|]. rewrite <- Ev, Rmult_1_l. apply IZR_le. lia. }
  assert (I1 : isfl 24 128 1) by (apply (isfl_int 24 128 ltac:(lia) ltac:(lia) 1); lia).
  assert (Fz : fin z = true).
  { destruct A as [_ [A|(s & -> & _ & A)]]; [apply A|exfalso]. destruct s; cbn [sgnR] in A.
    - specialize (A _ (isfl_opp _ _ _ I1)). lra.
    - specialize (A _ I1). lra. }
  split; [exact Fz|]. split; [exact (approx_valid 24 128 _ _ _ A)|].
  destruct two_percent_is as (_ & _ & ->).
  assert (P58 : pw (-58) = / 288230376151711744) by (apply (pw_neg 58); lia).
  pose proof (isfl_scaled 24 128 ltac:(lia) ltac:(lia) 1 (-6) ltac:(lia) ltac:(unfold emin; lia)) as I6.
  pose proof (isfl_scaled 24 128 ltac:(lia) ltac:(lia) 1 (-5) ltac:(lia) ltac:(unfold emin; lia)) as I5.
  assert (P6 : pw (-6) = / 64) by (apply (pw_neg 6); lia). assert (P5 : pw (-5) = / 32) by (apply (pw_neg 5); lia).
  assert (P29 : pw (-29) = / 536870912) by (apply (pw_neg 29); lia).
  rewrite P6, Rmult_1_l in I6. rewrite P5, Rmult_1_l in I5.
  pose proof (approx_le 24 128 _ _ _ _ A Fz I6) as [_ L6]. pose proof (approx_le 24 128 _ _ _ _ A Fz I5) as [L5 _].
  assert (Mid : / 64 <= v < / 32 -> exists r, FR z = IZR r / 536870912 /\ Rabs (IZR r - v * 536870912) <= / 2).
  { intros B. destruct A as [(s & w & f & r & W0 & Ew & (Ef & Hw & Hl & Hr & _) & C) _].
    destruct s; cbn [sgnR] in Ew; [exfalso; lra|]. rewrite Rmult_1_l in Ew. subst w.
    assert (f = -29)%Z as ->.
    { unfold emin in *. assert (f < -28)%Z.
      { destruct Hl as [->|Hl]; [lia|]. destruct (Z.lt_ge_cases f (-28)) as [|G]; [assumption|exfalso].
        pose proof (pw_le (-5) (24 - 1 + f) ltac:(lia)). lra. }
      destruct (Z.lt_ge_cases f (-29)) as [G|G]; [exfalso|lia]. pose proof (pw_le (24 + f) (-6) ltac:(lia)). lra. }
    exists r. change (- -29)%Z with 29%Z in Hr. assert (P : pw 29 = 536870912) by (symmetry; apply (pw_Z 29); lia). rewrite P in Hr. split; [|exact Hr].
    destruct C as [[-> EQ]|[(m & e & -> & _ & EQ)|[-> _]]]; [|cbn [FR]; rewrite Rmult_1_l, <- EQ|discriminate]; rewrite P29 in EQ; unfold Rdiv.
    - cbn [FR]. lra.
    - rewrite P29. reflexivity. }
  rewrite P58. split.
  - intros L. destruct (Z.lt_ge_cases n (50 * d)) as [|G]; [assumption|exfalso]. apply IZR_le in G. rewrite mult_IZR, Ev in G.
    assert (v <= / 50) by (apply (Rmult_le_reg_r (IZR n)); lra).
    destruct (Rlt_le_dec v (/ 64)) as [B|B]; [specialize (L6 ltac:(lra)); lra|].
    destruct (Mid ltac:(lra)) as (r & Er & Hr). unfold Rabs in Hr; destruct (Rcase_abs _) in Hr.
    all: assert (IZR r < 10737419) as R1 by lra; apply lt_IZR in R1; assert (R2 : (r <= 10737418)%Z) by lia; apply IZR_le in R2; lra.
  - intros G. assert (G1 : (n + 1 <= 50 * d)%Z) by lia. apply IZR_le in G1. rewrite mult_IZR, plus_IZR, Ev in G1.
    assert (Nb : IZR n < 16777216) by (apply IZR_lt; lia).
    assert (/ 50 + / 838860800 < v).
    { apply (Rmult_lt_reg_r (IZR n)); [exact Nn|]. rewrite Rmult_plus_distr_r. lra. }
    destruct (Rle_lt_dec (/ 32) v) as [B|B]; [specialize (L5 ltac:(lra)); lra|].
    destruct (Mid ltac:(lra)) as (r & Er & Hr). unfold Rabs in Hr; destruct (Rcase_abs _) in Hr.
    all: assert (10737418 < IZR r) as R1 by lra; apply lt_IZR in R1; assert (R2 : (10737419 <= r)%Z) by lia; apply IZR_le in R2; lra.
Qed.
(** below 2^24 bytes the comparison is exact *)
Theorem too_different_exact d n : (0 <= d <= n)%Z -> (n < 2 ^ 24)%Z -> too_different d n = true <-> (n < 50 * d)%Z.
Proof.
  intros Hd Hn. unfold too_different. destruct (Z.eq_dec d 0) as [->|Nd].
  - split; [|lia]. destruct (Z.eq_dec n 0) as [->|Nz]; [discriminate|].
    destruct (of_int_exact 24 128 ltac:(lia) ltac:(lia) n ltac:(lia)) as (F2 & V2 & E2).
    assert (Nn : 0 < IZR n) by (apply (IZR_lt 0); lia).
    destruct (of_int 24 128 n) as [s|s| |s m e]; try discriminate.
  - destruct (share_rounds d n _ ltac:(lia) Hn eq_refl) as (F & V & C).
    destruct (widen_exact _ F V) as (F1 & V1 & E1). destruct two_percent_is as (F2 & V2 & _).
    rewrite (compare_correct 53 1024 _ _ F1 F2 V1 V2), E1, <- C.
    destruct (Rlt_dec _ _); [split; [discriminate|lra]|]. destruct (Rlt_dec _ _); split; intros; try discriminate; try reflexivity; lra.
Qed.
