(** The number of squarings computed by exponential (matrix.h 574-585), over the real numbers. *)
From Coq Require Import Reals Lra Lia ZArith.
Local Open Scope R_scope.

(** static_cast<int> truncates towards zero *)
Definition to_int (x : R) : Z := if Rle_dec 0 x then Int_part x else (- Int_part (- x))%Z.
(** 575-585: log(norm)/log(2) + 1, truncated, plus one, not below 0. The conversion to int is taken to
    be in range, and the logarithm exact. *)
Definition squarings (norm : R) : nat :=
  Z.to_nat (Z.max 0 (to_int (ln norm / ln 2 + 1) + 1)).

Lemma to_int_gt x : x < IZR (to_int x) + 1.
Proof.
  unfold to_int. destruct (Rle_dec 0 x) as [p|p].
  - destruct (base_Int_part x). lra.
  - rewrite opp_IZR. destruct (base_Int_part (- x)). lra.
Qed.
Lemma to_int_le x : 0 <= x -> IZR (to_int x) <= x.
Proof. intro p. unfold to_int. destruct (Rle_dec 0 x) as [_|q]; [|lra]. destruct (base_Int_part x). lra. Qed.
Lemma to_int_neg x : x < 0 -> IZR (to_int x) < x + 1 /\ x <= IZR (to_int x).
Proof.
  intro p. unfold to_int. destruct (Rle_dec 0 x) as [q|_]; [lra|].
  rewrite opp_IZR. destruct (base_Int_part (- x)). lra.
Qed.

Lemma pow2_log x : 0 < x -> x = Rpower 2 (ln x / ln 2).
Proof.
  intro p. unfold Rpower. assert (0 < ln 2) by (rewrite <- ln_1; apply ln_increasing; lra).
  replace (ln x / ln 2 * ln 2) with (ln x) by (field; lra). symmetry. apply exp_ln, p.
Qed.
Lemma pow2_mono a b : a <= b -> Rpower 2 a <= Rpower 2 b.
Proof. intro H. apply Rle_Rpower; lra. Qed.
Lemma pow2_smono a b : a < b -> Rpower 2 a < Rpower 2 b.
Proof. intro H. apply Rpower_lt; lra. Qed.

(** after the scaling the norm is below 1/2 *)
Theorem squarings_enough norm : 0 < norm -> 2 * norm < 2 ^ squarings norm.
Proof.
  intro p. set (y := ln norm / ln 2 + 1).
  assert (E : 2 * norm = Rpower 2 y).
  { unfold y. rewrite Rpower_plus, <- pow2_log, Rpower_1 by lra. ring. }
  rewrite E, <- Rpower_pow by lra. apply pow2_smono.
  unfold squarings. fold y. rewrite INR_IZR_INZ, Z2Nat.id by lia.
  pose proof (to_int_gt y). apply Rlt_le_trans with (IZR (to_int y + 1)).
  - rewrite plus_IZR. lra.
  - apply IZR_le. lia.
Qed.
(** and no more squarings than that: 2^s is 1 or at most 8 norm *)
Theorem squarings_bound norm : 0 < norm -> squarings norm = 0%nat \/ 2 ^ squarings norm <= 8 * norm.
Proof.
  intro p. set (y := ln norm / ln 2 + 1).
  destruct (Z_le_gt_dec (to_int y + 1) 0) as [H|H].
  - left. unfold squarings. fold y. rewrite Z.max_l by lia. reflexivity.
  - right. assert (E : 8 * norm = Rpower 2 (y + 2)).
    { unfold y. replace (ln norm / ln 2 + 1 + 2) with (ln norm / ln 2 + 3) by ring.
      rewrite Rpower_plus, <- pow2_log by lra.
      replace 3 with (INR 3) by (simpl; ring). rewrite Rpower_pow by lra. simpl. ring. }
    rewrite E, <- Rpower_pow by lra. apply pow2_mono.
    unfold squarings. fold y. rewrite INR_IZR_INZ, Z2Nat.id by lia. rewrite Z.max_r by lia. rewrite plus_IZR.
    destruct (Rle_dec 0 y) as [q|q].
    + pose proof (to_int_le y q). lra.
    + destruct (to_int_neg y); [lra|]. lra.
Qed.
(** a matrix of norm at most 1/4 is not scaled *)
Theorem squarings_small norm : 0 < norm <= 1 / 4 -> squarings norm = 0%nat.
Proof.
  intros [p q]. set (y := ln norm / ln 2 + 1).
  assert (L : 0 < ln 2) by (rewrite <- ln_1; apply ln_increasing; lra).
  assert (H : y <= -1).
  { unfold y. assert (ln norm <= - (2 * ln 2)).
    { replace (2 * ln 2) with (ln 4).
      - rewrite <- ln_Rinv by lra. destruct q as [q|q].
        + left. apply ln_increasing; lra.
        + right. f_equal. lra.
      - replace 4 with (2 * 2) by lra. rewrite ln_mult by lra. ring. }
    apply Rmult_le_reg_r with (ln 2); [exact L|].
    replace ((ln norm / ln 2 + 1) * ln 2) with (ln norm + ln 2) by (field; lra). lra. }
  unfold squarings. fold y. rewrite Z.max_l; [reflexivity|].
  destruct (to_int_neg y) as [a b]; [lra|]. assert (IZR (to_int y) < 0) by lra. apply lt_IZR in H0. lia.
Qed.

(** ** the error bound in a simple form *)
Lemma bernoulli_upper h k : 0 <= h -> 2 * (INR k * h) <= 1 -> (1 + h) ^ k <= 1 + 2 * (INR k * h).
Proof.
  intro h0. induction k as [|k IH]; intro H; [simpl; lra|]. rewrite S_INR in *.
  assert (K := pos_INR k). assert (H' : 2 * (INR k * h) <= 1) by lra. specialize (IH H').
  change ((1 + h) ^ S k) with ((1 + h) * (1 + h) ^ k).
  apply Rle_trans with ((1 + h) * (1 + 2 * (INR k * h))).
  - apply Rmult_le_compat_l; lra.
  - assert (h * (2 * (INR k * h)) <= h * 1) by (apply Rmult_le_compat_l; lra). lra.
Qed.
Lemma exp_simple a eta : 0 < a <= 1000000000000000 -> 0 <= eta -> eta * 20000000000000000 <= 1 ->
  exp a * ((1 + eta) ^ Nat.pow 2 (squarings a) - 1) <= 1 / 1000000000000000 * Rmax 1 a * exp a.
Proof.
  intros [a0 a15] h0 h1. set (m := Nat.pow 2 (squarings a)).
  assert (M1 := Rmax_l 1 a). assert (M2 := Rmax_r 1 a).
  assert (m8 : INR m <= 8 * Rmax 1 a).
  { unfold m. rewrite pow_INR. change (INR 2) with (1 + 1). replace (1 + 1) with 2 by ring.
    destruct (squarings_bound a a0) as [E|E]; [rewrite E; simpl; lra|lra]. }
  assert (Mx : Rmax 1 a <= 1000000000000000) by (apply Rmax_lub; lra).
  assert (hm : 2 * (INR m * eta) <= 1 / 1000000000000000 * Rmax 1 a).
  { assert (INR m * eta <= (8 * Rmax 1 a) * (1 / 20000000000000000)); [|lra].
    apply Rmult_le_compat; [apply pos_INR|exact h0|exact m8|lra]. }
  assert (B : (1 + eta) ^ m <= 1 + 2 * (INR m * eta)) by (apply bernoulli_upper; lra).
  rewrite Rmult_comm. apply Rmult_le_compat_r; [left; apply exp_pos|lra].
Qed.
