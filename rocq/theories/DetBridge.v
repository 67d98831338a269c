(** The textbook expansion of determinants over Coq's reals agrees with mathcomp's determinant, so that Cramer's rule
    holds for it: a left inverse of a matrix consists of its signed minors divided by its determinant. *)
From Coq Require Import ZArith Reals.
From mathcomp Require Import all_ssreflect all_algebra.
From Verif Require Import FloatProofs FloatDetProps RealInst.
Set Implicit Arguments. Unset Strict Implicit. Unset Printing Implicit Defensive.
Import GRing.Theory.
Local Open Scope ring_scope.

Definition mxR (n m : nat) (a : nat -> nat -> R) : 'M[R]_(n, m) := \matrix_(i < n, j < m) a i j.
Lemma sumR_big (f : nat -> R) n : sumR (List.map f (List.seq 0 n)) = \sum_(i < n) f i.
Proof.
  elim: n => [|n IH]; first by rewrite big_ord0.
  rewrite big_ord_recr -IH List.seq_S List.map_app sumR_app /=. by rewrite Rplus_0_r.
Qed.
Lemma bumpE c j : (if Nat.ltb j c then j else S j) = bump c j.
Proof.
  rewrite /bump. case: (PeanoNat.Nat.ltb_spec j c) => H.
    by rewrite leqNgt; move/ltP: H => ->.
  by move/leP: H => ->.
Qed.
Lemma signE c : pow (IZR (Zneg xH)) c = (-1) ^+ c :> R.
Proof. rewrite -RpowE. by []. Qed.
Lemma detR_det n : forall a, detR n a = \det (mxR n n a).
Proof.
  elim: n => [|n IH] a; first by rewrite det_mx00.
  rewrite (expand_det_row _ ord0). change (detR n.+1 a) with (sumR (List.map (fun c => Rmult (Rmult (pow (IZR (Zneg xH)) c) (a 0%N c)) (detR n (minor a c))) (List.seq 0 n.+1))).
  rewrite sumR_big. apply: eq_bigr => i _. rewrite mxE /cofactor add0n IH signE.
  change (Rmult ?x ?y) with (x * y). rewrite mulrA (mulrC (a _ _)). congr (_ * _ * \det _).
  apply/matrixP => p q. rewrite !mxE /minor bumpE. by [].
Qed.
(** X a = 1, entry by entry *)
Definition left_inverse (n : nat) (X a : nat -> nat -> R) : Prop := forall i j, lt i n -> lt j n ->
  sumR (List.map (fun k => Rmult (X i k) (a k j)) (List.seq 0 n)) = if Nat.eqb i j then IZR (Zpos xH) else IZR Z0.
Lemma left_inverse_mx n X a : left_inverse n X a <-> mxR n n X *m mxR n n a = 1%:M.
Proof.
  split=> H.
    apply/matrixP => i j. rewrite !mxE. have := H i j (ltP (ltn_ord i)) (ltP (ltn_ord j)). rewrite sumR_big => E.
    transitivity (\sum_(k < n) X i k * a k j); first by apply: eq_bigr => k _; rewrite !mxE.
    transitivity (if Nat.eqb i j then 1 else 0 : R); first exact: E.
    case: (PeanoNat.Nat.eqb_spec i j) => [/val_inj ->|N]; first by rewrite eqxx.
    by case: eqP => // M; rewrite M in N.
  move=> i j /ltP Hi /ltP Hj. rewrite sumR_big. have := congr1 (fun m : 'M_n => m (Ordinal Hi) (Ordinal Hj)) H. rewrite !mxE => E.
  transitivity (\sum_k mxR n n X (Ordinal Hi) k * mxR n n a k (Ordinal Hj)); first by apply: eq_bigr => k _; rewrite !mxE.
  rewrite E. case: (PeanoNat.Nat.eqb_spec i j) => [M|N].
    by have -> : (Ordinal Hi == Ordinal Hj) = true by apply/eqP/val_inj.
  have -> //: (Ordinal Hi == Ordinal Hj) = false by apply/eqP => M; apply: N; have := congr1 val M.
Qed.
Theorem cramer n X a : left_inverse n X a -> detR n a <> IZR Z0 /\ forall i j, lt i n -> lt j n ->
  X i j = Rdiv (Rmult (pow (IZR (Zneg xH)) (Nat.add i j)) (detR (Nat.sub n 1) (without a j i))) (detR n a).
Proof.
  move=> /left_inverse_mx H. have D : \det (mxR n n a) != 0.
    apply/eqP => D. have := congr1 determinant H. rewrite det_mulmx D mulr0 det1 => /eqP. by rewrite eq_sym oner_eq0.
  split; first by rewrite detR_det; exact/eqP.
  case: n H D => [|n] H D i j /ltP Hi /ltP Hj //.
  have E : mxR n.+1 n.+1 X = (\det (mxR n.+1 n.+1 a))^-1 *: \adj (mxR n.+1 n.+1 a).
    have M : mxR n.+1 n.+1 a *m ((\det (mxR n.+1 n.+1 a))^-1 *: \adj (mxR n.+1 n.+1 a)) = 1%:M by rewrite -scalemxAr mul_mx_adj scale_scalar_mx mulVf.
    by rewrite -[LHS]mulmx1 -{1}M mulmxA H mul1mx.
  change (Nat.add i j) with (i + j)%N. change (Nat.sub n.+1 1) with (n.+1 - 1)%N. rewrite !detR_det signE addnC. have := congr1 (fun m : 'M_n.+1 => m (Ordinal Hi) (Ordinal Hj)) E. rewrite !mxE /= => ->.
  rewrite /cofactor subn1 /=. rewrite RinvE; last exact/eqP.
  rewrite /Rdiv. change (Rmult ?x ?y) with (x * y). rewrite mulrC. congr (_ * _ * _).
  congr (\det _). apply/matrixP => p q. by rewrite !mxE /without !bumpE.
Qed.
Theorem regular n a : detR n a <> IZR Z0 -> exists X, left_inverse n X a.
Proof.
  rewrite detR_det => /eqP D. exists (fun i j => if (insub i : option 'I_n, insub j : option 'I_n) is (Some p, Some q) then (invmx (mxR n n a)) p q else 0).
  apply/left_inverse_mx. have -> : mxR n n (fun i j => if (insub i : option 'I_n, insub j : option 'I_n) is (Some p, Some q) then (invmx (mxR n n a)) p q else 0) = invmx (mxR n n a).
    by apply/matrixP => i j; rewrite mxE !valK.
  by rewrite mulVmx // unitmxE unitfE.
Qed.
(** a left inverse applied to the right hand side is the only solution *)
Theorem solution n X a y b : left_inverse n X a -> (forall i, lt i n -> sumR (List.map (fun j => Rmult (a i j) (y j)) (List.seq 0 n)) = b i) ->
  forall i, lt i n -> y i = sumR (List.map (fun j => Rmult (X i j) (b j)) (List.seq 0 n)).
Proof.
  move=> /left_inverse_mx H S i /ltP Hi. pose Y := mxR n 1 (fun i _ => y i). pose B := mxR n 1 (fun i _ => b i).
  have E : mxR n n a *m Y = B.
    apply/matrixP => p q. rewrite !mxE. rewrite -(S p (ltP (ltn_ord p))) sumR_big. by apply: eq_bigr => k _; rewrite !mxE.
  have F : Y = mxR n n X *m B by rewrite -E mulmxA H mul1mx.
  have := congr1 (fun m : 'cV_n => m (Ordinal Hi) ord0) F. rewrite !mxE /= => ->. rewrite sumR_big. by apply: eq_bigr => k _; rewrite !mxE.
Qed.
