(** C127-C136: vector, matrix and geometry functions in floating-point arithmetic.

    Every theorem holds for every binary format (float: 24, 128; double: 53, 1024), for vectors of any
    length and any values of the format. u is half the distance from 1 to the next number, 2^-prec, and
    eta half the smallest positive number; FR is the real value of a finite number. *)
From Coq Require Import ZArith Reals Lia Lra Psatz Bool List SpecFloat.
From Verif Require Import FloatRound FloatModel FloatProofs.
Import ListNotations.
Local Open Scope R_scope.

Definition format (prec emax : Z) : Prop := (1 < prec)%Z /\ (prec + 3 <= emax)%Z.
Definition number (prec emax : Z) (x : spec_float) : Prop := valid_binary prec emax x = true.
Definition numbers (prec emax : Z) (a : list spec_float) : Prop := Forall (number prec emax) a.
(** the exact values that the loops compute *)
Definition dotR (a b : list spec_float) : R := sumR (map (fun p => FR (fst p) * FR (snd p)) (combine a b)).
Definition dotabsR (a b : list spec_float) : R := sumR (map (fun p => Rabs (FR (fst p) * FR (snd p))) (combine a b)).
Definition sqR (a : list spec_float) : R := sumR (map (fun x => FR x * FR x) a).

(** doubles used in the examples *)
Definition d_1em200 : spec_float := (S754_finite false 6894565328877484 (-717)).
Definition d_1e200 : spec_float := (S754_finite false 5883593420661338 (612)).
Definition d_tenth : spec_float := (S754_finite false 7205759403792794 (-56)).
Definition d_04 : spec_float := (S754_finite false 7205759403792794 (-54)).
Definition d_06 : spec_float := (S754_finite false 5404319552844595 (-53)).
Definition d_21 : spec_float := (S754_finite false 4728779608739021 (-51)).
Definition d_05 : spec_float := (S754_finite false 4503599627370496 (-53)).
Definition d_02 : spec_float := (S754_finite false 7205759403792794 (-55)).
Definition d_09 : spec_float := (S754_finite false 8106479329266893 (-53)).
Definition d_07 : spec_float := (S754_finite false 6305039478318694 (-53)).
Definition d_03 : spec_float := (S754_finite false 5404319552844595 (-54)).
Definition d_max : spec_float := (S754_finite false 9007199254740991 (971)).
Definition d_1 : spec_float := (S754_finite false 4503599627370496 (-52)).
Definition d_2 : spec_float := (S754_finite false 4503599627370496 (-51)).
Definition d_3 : spec_float := (S754_finite false 6755399441055744 (-51)).
Definition d_4 : spec_float := (S754_finite false 4503599627370496 (-50)).
Definition d_5 : spec_float := (S754_finite false 5629499534213120 (-50)).
Definition d_c : spec_float := (S754_finite false 4503599627370496 (-25)).
Definition d_c1 : spec_float := (S754_finite false 4503599660924928 (-25)).
Definition d_min : spec_float := (S754_finite false 1 (-1074)).
Definition d_tiny : spec_float := (S754_finite false 5423052085799557 (-589)).
Lemma double : format 53 1024. Proof. split; reflexivity || (compute; discriminate). Qed.

(** ** C127: inner products *)
Lemma eta_pos' prec emax : 0 < eta prec emax. Proof. apply eta_pos. Qed.
Lemma pow_up u n : 0 <= u -> 1 <= (1 + u) ^ n.
Proof. intros. apply pow_R1_Rle. lra. Qed.
Lemma pow_step u n : 0 <= u -> (n > 0)%nat -> (1 + u) ^ (n - 1) * (1 + u) = (1 + u) ^ n.
Proof. intros _ H. destruct n; [lia|]. replace (S n - 1)%nat with n by lia. cbn [pow]. ring. Qed.
Lemma dotabs_nonneg a b : 0 <= dotabsR a b.
Proof. apply sumR_nonneg, Forall_map, Forall_forall. intros; apply Rabs_pos. Qed.
Section Inner.
Variables prec emax : Z.
Hypothesis Hf : format prec emax.
Let Hprec : (1 < prec)%Z. Proof. apply Hf. Qed.
Let Hemax : (prec + 3 <= emax)%Z. Proof. apply Hf. Qed.
Let Hem : (prec < emax)%Z. Proof. lia. Qed.
Notation u := (uu prec).
Notation eta := (eta prec emax).
Notation add := (SFadd prec emax).
Notation mul := (SFmul prec emax).
Notation valid := (valid_binary prec emax).

Lemma fold_terms {A} (f g : A -> spec_float) (l : list A) :
  (forall p, In p l -> valid (f p) = true /\ valid (g p) = true) ->
  let z := fold_left (fun s p => add s (mul (f p) (g p))) l f0 in
  fin z = true ->
  Rabs (FR z - sumR (map (fun p => FR (f p) * FR (g p)) l)) <=
    ((1 + u) ^ length l - 1) * sumR (map (fun p => Rabs (FR (f p) * FR (g p))) l) + (1 + u) ^ length l * (INR (length l) * eta).
Proof.
  intros V z F. unfold z in *. rewrite (fold_map_add prec emax (fun p => mul (f p) (g p))) in *.
  pose proof (u_pos prec) as U. pose proof (eta_pos prec emax) as E0.
  pose proof (sum_terms prec emax Hprec Hemax (fun p => mul (f p) (g p)) (fun p => FR (f p) * FR (g p)) (fun p => Rabs (FR (f p) * FR (g p))) l u eta
    ltac:(lra) ltac:(lra)) as S.
  specialize (S ltac:(intros p Hp; apply valid_mul; try assumption; apply V; exact Hp)).
  specialize (S ltac:(intros p Hp Fp; apply mul_near'; try assumption; apply V; exact Hp)).
  specialize (S ltac:(intros p Hp; apply Rle_refl) F).
  eapply Rle_trans; [exact S|]. destruct l as [|p l]; [cbn; lra|]. rewrite pow_step by (cbn; lra || lia).
  apply Rplus_le_compat_l. apply Rmult_le_compat_r; [apply Rmult_le_pos; [apply pos_INR|lra]|].
  apply Rle_pow; [lra|lia].
Qed.
Lemma fold_terms_normal {A} (f g : A -> spec_float) (l : list A) :
  (forall p, In p l -> valid (f p) = true /\ valid (g p) = true) ->
  (forall p, In p l -> FR (f p) * FR (g p) = 0 \/ pw (emin prec emax + prec - 1) <= Rabs (FR (f p) * FR (g p))) ->
  let z := fold_left (fun s p => add s (mul (f p) (g p))) l f0 in
  fin z = true ->
  Rabs (FR z - sumR (map (fun p => FR (f p) * FR (g p)) l)) <=
    ((1 + u) ^ length l - 1) * sumR (map (fun p => Rabs (FR (f p) * FR (g p))) l).
Proof.
  intros V N z F. unfold z in *. rewrite (fold_map_add prec emax (fun p => mul (f p) (g p))) in *.
  pose proof (u_pos prec) as U.
  pose proof (sum_terms prec emax Hprec Hemax (fun p => mul (f p) (g p)) (fun p => FR (f p) * FR (g p)) (fun p => Rabs (FR (f p) * FR (g p))) l u 0
    ltac:(lra) ltac:(lra)) as S.
  specialize (S ltac:(intros p Hp; apply valid_mul; try assumption; apply V; exact Hp)).
  assert (T : forall p, In p l -> fin (mul (f p) (g p)) = true -> Rabs (FR (mul (f p) (g p)) - FR (f p) * FR (g p)) <= u * Rabs (FR (f p) * FR (g p)) + 0).
  { intros p Hp Fp. destruct (V p Hp) as [V1 V2]. rewrite Rplus_0_r. destruct (N p Hp) as [Z|G].
    - destruct (mul_fin _ _ _ _ Fp) as [F1 F2]. pose proof (mul_correct prec emax Hprec Hem _ _ F1 F2 V1 V2) as Ap. rewrite Z in *.
      destruct (approx_exact _ _ _ _ _ Ap (isfl_0 prec emax)) as [_ ->]. rewrite Rminus_0_r, Rabs_R0. lra.
    - destruct (mul_near prec emax Hprec Hemax (f p) (g p) V1 V2 Fp) as [_ E]. eapply Rle_trans; [exact E|]. apply Rmax_lub; [lra|].
      apply Rle_trans with (u * pw (emin prec emax + prec - 1)); [|apply Rmult_le_compat_l; lra]. unfold FloatRound.eta, uu. rewrite <- pw_add. apply pw_le. lia. }
  specialize (S T ltac:(intros p Hp; apply Rle_refl) F). rewrite !Rmult_0_r, Rplus_0_r in S.
  eapply Rle_trans; [exact S|]. destruct l as [|p l]; [cbn; lra|]. rewrite pow_step by (cbn; lra || lia). lra.
Qed.
Lemma fold_terms_fin {A} (f g : A -> spec_float) (l : list A) :
  (forall p, In p l -> valid (f p) = true /\ valid (g p) = true /\ fin (f p) = true /\ fin (g p) = true) ->
  (1 + u) ^ S (length l) * (sumR (map (fun p => Rabs (FR (f p) * FR (g p))) l) + INR (length l) * eta) < pw emax ->
  fin (fold_left (fun s p => add s (mul (f p) (g p))) l f0) = true.
Proof.
  intros V B. rewrite (fold_map_add prec emax (fun p => mul (f p) (g p))). pose proof (u_pos prec) as U. pose proof (eta_pos prec emax) as E0.
  set (H := fun p => Rabs (FR (f p) * FR (g p))) in *.
  assert (L1 : forall p, In p l -> H p <= sumR (map H l) /\ 1 <= INR (length l)).
  { assert (H0 : forall p, 0 <= H p) by (intros; apply Rabs_pos). clear - H0. induction l as [|q l IH]; [intros p []|].
    intros p [->|Hp]; cbn [map]; rewrite sumR_cons; change (INR (length (p :: l))) with (INR (S (length l))) || change (INR (length (q :: l))) with (INR (S (length l))); rewrite S_INR; pose proof (pos_INR (length l)).
    - assert (0 <= sumR (map H l)) by (apply sumR_nonneg, Forall_map, Forall_forall; intros; apply H0). lra.
    - specialize (IH p Hp). specialize (H0 q). lra. }
  assert (S0 : 0 <= sumR (map H l) + INR (length l) * eta).
  { assert (0 <= sumR (map H l)) by (apply sumR_nonneg, Forall_map, Forall_forall; intros; apply Rabs_pos). pose proof (pos_INR (length l)). nra. }
  assert (T : forall p, In p l -> fin (mul (f p) (g p)) = true).
  { intros p Hp. destruct (V p Hp) as (V1 & V2 & F1 & F2). destruct (L1 p Hp) as [L2 L3].
    destruct (mul_correct prec emax Hprec Hem _ _ F1 F2 V1 V2) as [_ [(F & _)|(s & _ & O & _)]]; [exact F|exfalso].
    assert (X : sgnR s * (FR (f p) * FR (g p)) <= H p).
    { unfold H. pose proof (Rle_abs (FR (f p) * FR (g p))). pose proof (Rle_abs (- (FR (f p) * FR (g p)))) as N. rewrite Rabs_Ropp in N. destruct s; unfold sgnR; lra. }
    assert (Y : Rmax (u * Rabs (FR (f p) * FR (g p))) eta <= u * H p + eta) by (fold (H p); assert (0 <= H p) by apply Rabs_pos; apply Rmax_lub; nra).
    assert (Z : (1 + u) * (sumR (map H l) + INR (length l) * eta) <= (1 + u) ^ S (length l) * (sumR (map H l) + INR (length l) * eta)).
    { apply Rmult_le_compat_r; [exact S0|]. cbn [pow]. pose proof (pow_up u (length l) ltac:(lra)). nra. }
    assert (W : eta <= INR (length l) * eta) by nra. assert (W2 : (1 + u) * (H p + eta) <= (1 + u) * (sumR (map H l) + INR (length l) * eta)) by (apply Rmult_le_compat_l; lra).
    assert (W3 : 0 <= u * eta) by nra. lra. }
  apply fold_no_overflow; try assumption; try reflexivity.
  - apply Forall_map, Forall_forall. intros p Hp. destruct (V p Hp) as (V1 & V2 & _). apply valid_mul; assumption.
  - apply Forall_map, Forall_forall. exact T.
  - rewrite map_length, map_map. cbn [FR f0]. rewrite Rabs_R0, Rplus_0_l. eapply Rle_lt_trans; [|exact B]. cbn [pow]. rewrite (Rmult_comm (1 + u)), Rmult_assoc.
    apply Rmult_le_compat_l; [apply pow_le; lra|].
    assert (Q : sumR (map (fun p => Rabs (FR (mul (f p) (g p)))) l) <= (1 + u) * sumR (map H l) + INR (length l) * eta); [|nra || (pose proof (pos_INR (length l)); assert (0 <= INR (length l) * eta) by nra; nra)].
    clear - V T Hprec Hemax Hem. induction l as [|p l IH]; [cbn; lra|]. cbn [map]. rewrite !sumR_cons. change (INR (length (p :: l))) with (INR (S (length l))). rewrite S_INR.
    specialize (IH ltac:(intros; apply V; right; assumption) ltac:(intros; apply T; right; assumption)).
    destruct (V p (or_introl eq_refl)) as (V1 & V2 & _). pose proof (mul_near' prec emax Hprec Hemax (f p) (g p) V1 V2 (T p (or_introl eq_refl))) as E.
    assert (Rabs (FR (mul (f p) (g p))) <= Rabs (FR (mul (f p) (g p)) - FR (f p) * FR (g p)) + H p).
    { unfold H. replace (FR (mul (f p) (g p))) with ((FR (mul (f p) (g p)) - FR (f p) * FR (g p)) + FR (f p) * FR (g p)) at 1 by ring. apply Rabs_triang. }
    fold (H p) in E. lra.
Qed.
End Inner.

Lemma in_combine_numbers prec emax a b p : numbers prec emax a -> numbers prec emax b -> In p (combine a b) ->
  valid_binary prec emax (fst p) = true /\ valid_binary prec emax (snd p) = true.
Proof.
  intros Va Vb Hp. destruct p as [x y]. unfold numbers in *. rewrite Forall_forall in Va, Vb. split; [apply Va|apply Vb]; [eapply in_combine_l|eapply in_combine_r]; exact Hp.
Qed.
Theorem C127_dot prec emax a b : format prec emax -> numbers prec emax a -> numbers prec emax b -> length a = length b ->
  fin (fdot prec emax a b) = true ->
  Rabs (FR (fdot prec emax a b) - dotR a b) <=
    ((1 + uu prec) ^ length a - 1) * dotabsR a b + (1 + uu prec) ^ length a * (INR (length a) * eta prec emax).
Proof.
  intros Hf Va Vb L F. pose proof (fold_terms prec emax Hf fst snd (combine a b) (fun p => in_combine_numbers _ _ _ _ p Va Vb) F) as E.
  rewrite combine_length, <- L, Nat.min_id in E. exact E.
Qed.
(** without underflow the absolute term disappears *)
Theorem C127_dot_normal prec emax a b : format prec emax -> numbers prec emax a -> numbers prec emax b -> length a = length b ->
  fin (fdot prec emax a b) = true ->
  (forall x y, In (x, y) (combine a b) -> FR x * FR y = 0 \/ pw (emin prec emax + prec - 1) <= Rabs (FR x * FR y)) ->
  Rabs (FR (fdot prec emax a b) - dotR a b) <= ((1 + uu prec) ^ length a - 1) * dotabsR a b.
Proof.
  intros Hf Va Vb L F N. pose proof (fold_terms_normal prec emax Hf fst snd (combine a b) (fun p => in_combine_numbers _ _ _ _ p Va Vb)) as E.
  specialize (E ltac:(intros [x y] Hp; exact (N x y Hp)) F). rewrite combine_length, <- L, Nat.min_id in E. exact E.
Qed.
(** and the result is finite when the exact sum of magnitudes is well within the range *)
Theorem C127_dot_finite prec emax a b : format prec emax -> numbers prec emax a -> numbers prec emax b -> length a = length b ->
  Forall (fun x => fin x = true) a -> Forall (fun x => fin x = true) b ->
  (1 + uu prec) ^ S (length a) * (dotabsR a b + INR (length a) * eta prec emax) < pw emax ->
  fin (fdot prec emax a b) = true.
Proof.
  intros Hf Va Vb L Fa Fb B. apply (fold_terms_fin prec emax Hf fst snd (combine a b)).
  - intros [x y] Hp. destruct (in_combine_numbers _ _ _ _ _ Va Vb Hp). rewrite Forall_forall in Fa, Fb.
    repeat split; try assumption; [apply Fa; eapply in_combine_l; exact Hp|apply Fb; eapply in_combine_r; exact Hp].
  - rewrite combine_length, <- L, Nat.min_id. exact B.
Qed.
(** rows of a matrix times a vector, and elements of a product of matrices *)
Theorem C127_matvec prec emax n A x i : format prec emax -> (forall j, (j < n)%nat -> number prec emax (A i j) /\ number prec emax (x j)) ->
  fin (fmatvec prec emax n A x i) = true ->
  Rabs (FR (fmatvec prec emax n A x i) - sumR (map (fun j => FR (A i j) * FR (x j)) (seq 0 n))) <=
    ((1 + uu prec) ^ n - 1) * sumR (map (fun j => Rabs (FR (A i j) * FR (x j))) (seq 0 n)) + (1 + uu prec) ^ n * (INR n * eta prec emax).
Proof.
  intros Hf V F. pose proof (fold_terms prec emax Hf (fun j => A i j) x (seq 0 n)) as E. rewrite seq_length in E. apply E; [|exact F].
  intros j Hj. apply in_seq in Hj. apply V. lia.
Qed.
Theorem C127_matmul prec emax n A B i j : format prec emax -> (forall k, (k < n)%nat -> number prec emax (A i k) /\ number prec emax (B k j)) ->
  fin (fmatmul prec emax n A B i j) = true ->
  Rabs (FR (fmatmul prec emax n A B i j) - sumR (map (fun k => FR (A i k) * FR (B k j)) (seq 0 n))) <=
    ((1 + uu prec) ^ n - 1) * sumR (map (fun k => Rabs (FR (A i k) * FR (B k j))) (seq 0 n)) + (1 + uu prec) ^ n * (INR n * eta prec emax).
Proof.
  intros Hf V F. unfold fmatmul in *. destruct (add_0 prec emax (fold_left (fun sum k => SFadd prec emax sum (SFmul prec emax (A i k) (B k j))) (seq 0 n) f0)) as [E0 F0].
  rewrite F0 in F. rewrite E0. pose proof (fold_terms prec emax Hf (fun k => A i k) (fun k => B k j) (seq 0 n)) as E. rewrite seq_length in E. apply E; [|exact F].
  intros k Hk. apply in_seq in Hk. apply V. lia.
Qed.
(** sqr and cube *)
Theorem C127_sqr prec emax x : format prec emax -> number prec emax x -> fin (fsqr prec emax x) = true ->
  0 <= FR (fsqr prec emax x) /\ Rabs (FR (fsqr prec emax x) - FR x * FR x) <= uu prec * (FR x * FR x) + eta prec emax.
Proof.
  intros [Hp He] V F. split; [apply square_nonneg; assumption|]. pose proof (mul_near' prec emax Hp He x x V V F) as E. rewrite (Rabs_pos_eq (FR x * FR x)) in E by nra. exact E.
Qed.
Theorem C127_cube prec emax x : format prec emax -> number prec emax x -> fin (fcube prec emax x) = true ->
  Rabs (FR (fcube prec emax x) - FR x * FR x * FR x) <= ((1 + uu prec) ^ 2 - 1) * Rabs (FR x * FR x * FR x) + ((1 + uu prec) * Rabs (FR x) + 1) * eta prec emax.
Proof.
  intros Hf V F. pose proof Hf as [Hp He]. unfold fcube in *. destruct (mul_fin _ _ _ _ F) as [F1 F2].
  destruct (C127_sqr prec emax x Hf V F1) as [_ E1]. unfold fsqr in E1. assert (V1 : number prec emax (SFmul prec emax x x)) by (apply valid_mul; assumption).
  pose proof (mul_near' prec emax Hp He _ x V1 V F) as E2. set (p := FR (SFmul prec emax x x)) in *. set (z := FR (SFmul prec emax (SFmul prec emax x x) x)) in *. set (v := FR x) in *.
  pose proof (u_pos prec) as U. pose proof (eta_pos prec emax) as E0. pose proof (Rabs_pos v) as P.
  assert (B : Rabs (p * v - v * v * v) <= uu prec * Rabs (v * v * v) + Rabs v * eta prec emax).
  { replace (p * v - v * v * v) with ((p - v * v) * v) by ring. rewrite Rabs_mult, (Rabs_mult (v * v) v), (Rabs_pos_eq (v * v)) by nra. pose proof (Rmult_le_compat_r _ _ _ P E1). lra. }
  assert (B2 : Rabs (p * v) <= Rabs (p * v - v * v * v) + Rabs (v * v * v)) by (replace (p * v) with ((p * v - v * v * v) + v * v * v) at 1 by ring; apply Rabs_triang).
  replace (z - v * v * v) with ((z - p * v) + (p * v - v * v * v)) by ring. eapply Rle_trans; [apply Rabs_triang|].
  assert (B3 : uu prec * Rabs (p * v) <= uu prec * ((1 + uu prec) * Rabs (v * v * v) + Rabs v * eta prec emax)) by (apply Rmult_le_compat_l; lra).
  replace (((1 + uu prec) ^ 2 - 1) * Rabs (v * v * v) + ((1 + uu prec) * Rabs v + 1) * eta prec emax) with
    (uu prec * ((1 + uu prec) * Rabs (v * v * v) + Rabs v * eta prec emax) + eta prec emax + (uu prec * Rabs (v * v * v) + Rabs v * eta prec emax)) by ring. lra.
Qed.
Example C127_ex : numbers 53 1024 [d_tenth; d_02; d_03] /\ fin (fdot 53 1024 [d_tenth; d_02; d_03] [d_04; d_05; d_06]) = true /\
  SFeqb (fdot 53 1024 [d_tenth; d_02; d_03] [d_04; d_05; d_06]) (S754_finite false 5764607523034235 (-54)) = true.
Proof. repeat split; repeat constructor. Qed.
(** cancellation can leave nothing of the exact value: the bound is relative to the magnitudes, not to the result *)
Example C127_cancellation : fdot 53 1024 [d_1e200; d_1; d_1e200] [d_1; d_1; SFopp d_1] = S754_zero false /\
  dotR [d_1e200; d_1; d_1e200] [d_1; d_1; SFopp d_1] = 1.
Proof.
  split; [vm_compute; reflexivity|]. unfold dotR. cbn [combine map fst snd]. rewrite !sumR_cons, sumR_nil.
  assert (E : FR d_1 = 1) by (cbn [FR d_1]; unfold pw; simpl; lra). assert (E2 : FR (SFopp d_1) = -1) by (rewrite FR_opp, E; ring). rewrite E, E2. ring.
Qed.
Print Assumptions C127_dot. Print Assumptions C127_dot_normal. Print Assumptions C127_dot_finite. Print Assumptions C127_matvec. Print Assumptions C127_matmul. Print Assumptions C127_sqr. Print Assumptions C127_cube.

(** ** C128: symmetries that hold to the last bit *)
Theorem C128_dot_comm prec emax a b : fdot prec emax a b = fdot prec emax b a.
Proof.
  unfold fdot. generalize f0. revert b. induction a as [|x a IH]; intros [|y b] s; try reflexivity. cbn [combine fold_left fst snd]. rewrite (mul_comm prec emax x y). apply IH.
Qed.
Theorem C128_distance_sym prec emax a b : fdistance prec emax a b = fdistance prec emax b a.
Proof.
  unfold fdistance. f_equal. generalize f0. revert b. induction a as [|x a IH]; intros [|y b] s; try reflexivity. cbn [combine fold_left fst snd]. rewrite (sub_square prec emax x y). apply IH.
Qed.
(** the two ways of writing the distance agree, whatever the arguments *)
Theorem C128_delta_is_distance prec emax a b : fdelta_magnitude prec emax a b = fdistance prec emax a b.
Proof. reflexivity. Qed.
Theorem C128_magnitude_is_sqrt_dot prec emax a : fmagnitude prec emax a = SFsqrt prec emax (fdot prec emax a a).
Proof.
  unfold fmagnitude, fdot. f_equal. generalize f0. induction a as [|x a IH]; intros s; [reflexivity|]. cbn [combine fold_left fst snd]. apply IH.
Qed.
Lemma mul_opp_opp prec emax x : SFmul prec emax (SFopp x) (SFopp x) = SFmul prec emax x x.
Proof. destruct x as [[]|[]| |[] m e]; reflexivity. Qed.
Theorem C128_magnitude_opp prec emax a : fmagnitude prec emax (map SFopp a) = fmagnitude prec emax a.
Proof.
  unfold fmagnitude. f_equal. generalize f0. induction a as [|x a IH]; intros s; [reflexivity|]. cbn [map fold_left]. rewrite mul_opp_opp. apply IH.
Qed.
Theorem C128_transpose_product prec emax n A B i j :
  fmatmul prec emax n (ftranspose B) (ftranspose A) i j = ftranspose (fmatmul prec emax n A B) i j.
Proof.
  unfold fmatmul, ftranspose. f_equal. generalize (seq 0 n), f0. induction l as [|k l IH]; intros s; [reflexivity|]. cbn [fold_left]. rewrite (mul_comm prec emax (B k i)). apply IH.
Qed.
(** swapping the factors of a cross product changes its sign, except that a zero may keep it *)
Theorem C128_cross2_anti prec emax a b : same (fcross2 prec emax b a) (SFopp (fcross2 prec emax a b)).
Proof.
  unfold fcross2. rewrite (mul_comm prec emax (fst b)), (mul_comm prec emax (snd b)).
  destruct (sub_anti prec emax (SFmul prec emax (fst a) (snd b)) (SFmul prec emax (snd a) (fst b))) as [E|(s1 & s2 & E1 & E2)].
  - left. exact E.
  - right. exists s1, (negb s2). rewrite E1, E2. split; reflexivity.
Qed.
Definition same3 (x y : spec_float * spec_float * spec_float) : Prop :=
  same (fst (fst x)) (fst (fst y)) /\ same (snd (fst x)) (snd (fst y)) /\ same (snd x) (snd y).
Theorem C128_cross3_anti prec emax a b :
  let '(x, y, z) := fcross3 prec emax a b in same3 (fcross3 prec emax b a) (SFopp x, SFopp y, SFopp z).
Proof.
  destruct a as [[a0 a1] a2], b as [[b0 b1] b2]. cbn [fcross3]. unfold same3. cbn [fst snd]. repeat split.
  - exact (C128_cross2_anti prec emax (a1, a2) (b1, b2)).
  - exact (C128_cross2_anti prec emax (a2, a0) (b2, b0)).
  - exact (C128_cross2_anti prec emax (a0, a1) (b0, b1)).
Qed.
(** the normal of an edge: turned the other way when its end points are swapped *)
Theorem C128_normal2_anti prec emax a b :
  same (fst (fnormal2 prec emax b a)) (SFopp (fst (fnormal2 prec emax a b))) /\ same (snd (fnormal2 prec emax b a)) (SFopp (snd (fnormal2 prec emax a b))).
Proof.
  assert (S : forall x y, same (SFsub prec emax y x) (SFopp (SFsub prec emax x y))).
  { intros x y. destruct (sub_anti prec emax x y) as [E|(s1 & s2 & E1 & E2)]; [left; exact E|]. right. exists s1, (negb s2). rewrite E1, E2. split; reflexivity. }
  split; apply S.
Qed.
Theorem C128_normal2 prec emax a b : format prec emax -> Forall (number prec emax) [fst a; snd a; fst b; snd b] ->
  fin (fst (fnormal2 prec emax a b)) = true -> fin (snd (fnormal2 prec emax a b)) = true ->
  let ex := FR (fst b) - FR (fst a) in let ey := FR (snd b) - FR (snd a) in
  Rabs (FR (fst (fnormal2 prec emax a b)) - - ey) <= uu prec * Rabs ey /\ Rabs (FR (snd (fnormal2 prec emax a b)) - ex) <= uu prec * Rabs ex.
Proof.
  intros [Hp He] V F1 F2 ex ey. repeat match goal with H : Forall _ (_ :: _) |- _ => inversion H; clear H; subst end.
  cbn [fnormal2 fst snd] in *. destruct (sub_near prec emax Hp He (snd a) (snd b) ltac:(assumption) ltac:(assumption) F1) as [_ E1]. destruct (sub_near prec emax Hp He (fst b) (fst a) ltac:(assumption) ltac:(assumption) F2) as [_ E2].
  split; [|exact E2]. unfold ey. rewrite (Rabs_minus_sym (FR (snd b))). replace (- (FR (snd b) - FR (snd a))) with (FR (snd a) - FR (snd b)) by ring. exact E1.
Qed.
Lemma sub_self prec emax x : fin x = true -> exists s, SFsub prec emax x x = S754_zero s.
Proof.
  destruct x as [s| | |s m e]; try discriminate; intros _.
  - destruct s; eexists; reflexivity.
  - cbn [SFsub]. rewrite Z.sub_diag. eexists; reflexivity.
Qed.
Theorem C128_cross2_self prec emax a : fin (SFmul prec emax (fst a) (snd a)) = true -> exists s, fcross2 prec emax a a = S754_zero s.
Proof. intros F. unfold fcross2. rewrite (mul_comm prec emax (snd a)). apply sub_self. exact F. Qed.
Example C128_ex : fcross2 53 1024 (d_tenth, d_02) (d_03, d_07) = (S754_finite false 5764607523034232 (-59)) /\
  fcross2 53 1024 (d_03, d_07) (d_tenth, d_02) = (S754_finite true 5764607523034232 (-59)) /\
  fcross2 53 1024 (d_1, d_1) (d_1, d_1) = S754_zero false.
Proof. vm_compute. repeat split. Qed.
(** the sign of a zero cross product does not change: the exception is needed *)
Example C128_zero_sign : fcross2 53 1024 (d_1, d_1) (d_1, d_1) <> SFopp (fcross2 53 1024 (d_1, d_1) (d_1, d_1)).
Proof. vm_compute. discriminate. Qed.
Print Assumptions C128_dot_comm. Print Assumptions C128_distance_sym. Print Assumptions C128_delta_is_distance. Print Assumptions C128_magnitude_is_sqrt_dot.
Print Assumptions C128_magnitude_opp. Print Assumptions C128_transpose_product. Print Assumptions C128_cross2_anti. Print Assumptions C128_cross3_anti. Print Assumptions C128_cross2_self. Print Assumptions C128_normal2_anti. Print Assumptions C128_normal2.

(** ** C129: the length of a vector *)
Lemma Rabs_le_inv x a : Rabs x <= a -> - a <= x <= a.
Proof. intros H. pose proof (Rle_abs x). pose proof (Rle_abs (- x)) as N. rewrite Rabs_Ropp in N. lra. Qed.
Section Length.
Variables prec emax : Z.
Hypothesis Hf : format prec emax.
Let Hprec : (1 < prec)%Z. Proof. apply Hf. Qed.
Let Hemax : (prec + 3 <= emax)%Z. Proof. apply Hf. Qed.
Let Hem : (prec < emax)%Z. Proof. lia. Qed.
Notation u := (uu prec).
Notation eta := (eta prec emax).
Notation add := (SFadd prec emax).
Notation mul := (SFmul prec emax).
Notation valid := (valid_binary prec emax).
Notation normal x := (FR x = 0 \/ pw (emin prec emax + prec - 1) <= FR x * FR x).

Lemma mag_fin a : numbers prec emax a -> fin (fmagnitude prec emax a) = true ->
  let s := fold_left add (map (fun x => mul x x) a) f0 in
  fmagnitude prec emax a = SFsqrt prec emax s /\ fin s = true /\ valid s = true /\ 0 <= FR s /\
  Forall (fun x => fin x = true /\ fin (mul x x) = true) a.
Proof.
  intros V F s. unfold fmagnitude in *. rewrite (fold_map_add prec emax (fun x => mul x x)) in *. fold s in F |- *.
  assert (Vs : Forall (fun x => valid x = true) (map (fun x => mul x x) a)).
  { apply Forall_map. eapply Forall_impl; [|exact V]. intros x Vx. apply valid_mul; assumption. }
  destruct (sqrt_fin prec emax s F) as [F1 F2]. split; [reflexivity|]. split; [exact F1|]. split; [apply valid_fold; try assumption; reflexivity|]. split; [exact F2|].
  pose proof (sum0_fin prec emax _ F1) as F3. rewrite Forall_map in F3. eapply Forall_impl; [|exact F3]. intros x Fx. cbv beta in Fx. split; [|exact Fx]. apply (mul_fin prec emax x x Fx).
Qed.
Lemma mag_sq a e : numbers prec emax a -> fin (fmagnitude prec emax a) = true -> 0 <= e ->
  (forall x, In x a -> fin (mul x x) = true -> Rabs (FR (mul x x) - FR x * FR x) <= u * (FR x * FR x) + e) ->
  (1 - u) ^ (length a + 3) * sqR a - INR (length a) * e <= FR (fmagnitude prec emax a) ^ 2 <= (1 + u) ^ (length a + 3) * (sqR a + INR (length a) * e).
Proof.
  intros V F He T. destruct (mag_fin a V F) as (E & Fs & Vs & Ps & Fa). rewrite E. clear E F. set (n := length a).
  set (s := fold_left add (map (fun x => mul x x) a) f0) in *. pose proof (u_pos prec) as U. pose proof (u_le prec Hprec) as U2.
  assert (Vm : Forall (fun x => valid x = true) (map (fun x => mul x x) a)).
  { apply Forall_map. eapply Forall_impl; [|exact V]. intros x Vx. apply valid_mul; assumption. }
  assert (P : Forall (fun x => 0 <= FR x) (map (fun x => mul x x) a)).
  { apply Forall_map, Forall_forall. intros x Hx. unfold numbers in V. rewrite Forall_forall in V, Fa. apply square_nonneg; try assumption; [apply V; exact Hx|apply Fa; exact Hx]. }
  destruct (fold_pos prec emax Hprec Hemax (map (fun x => mul x x) a) f0 eq_refl Vm Fs (Rle_refl 0) P) as (_ & _ & B). rewrite map_length, map_map in B. cbn [FR f0] in B. fold s n in B.
  rewrite Rplus_0_l in B.
  assert (Q : (1 - u) * sqR a - INR n * e <= sumR (map (fun x => FR (mul x x)) a) <= (1 + u) * sqR a + INR n * e).
  { unfold sqR, n. clear - T Fa U. induction a as [|x a IH]; [cbn; lra|]. cbn [map]. rewrite !sumR_cons. change (INR (length (x :: a))) with (INR (S (length a))). rewrite S_INR.
    inversion Fa; subst. specialize (IH ltac:(intros; apply T; [right|]; assumption) ltac:(assumption)).
    specialize (T x (or_introl eq_refl) ltac:(tauto)). apply Rabs_le_inv in T. lra. }
  pose proof (sqrt_sq prec emax Hprec Hemax s Vs Fs Ps) as Q2.
  assert (A0 : 0 <= sqR a). { apply sumR_nonneg, Forall_map, Forall_forall. intros; nra. }
  assert (N0 : 0 <= INR n * e) by (apply Rmult_le_pos; [apply pos_INR|exact He]).
  assert (M0 : 0 < (1 - u) ^ n <= 1) by (apply mu_bounds; exact Hprec).
  assert (M1 : 1 <= (1 + u) ^ n) by (apply pow_up; lra).
  replace ((1 - u) ^ (n + 3)) with ((1 - u) ^ 2 * ((1 - u) ^ n * (1 - u))) by (rewrite pow_add; ring).
  replace ((1 + u) ^ (n + 3)) with ((1 + u) ^ 2 * ((1 + u) ^ n * (1 + u))) by (rewrite pow_add; ring).
  assert (M2 : 0 < (1 - u) ^ 2 <= 1) by (split; nra). assert (M3 : 1 <= (1 + u) ^ 2) by nra.
  split.
  - eapply Rle_trans; [|apply Q2]. assert (L : (1 - u) ^ n * (1 - u) * sqR a - INR n * e <= FR s).
    { eapply Rle_trans; [|apply B]. apply Rle_trans with ((1 - u) ^ n * ((1 - u) * sqR a - INR n * e)); [|apply Rmult_le_compat_l; lra]. nra. }
    assert ((1 - u) ^ 2 * ((1 - u) ^ n * (1 - u) * sqR a - INR n * e) <= (1 - u) ^ 2 * FR s) by (apply Rmult_le_compat_l; lra). nra.
  - eapply Rle_trans; [apply Q2|]. rewrite (Rmult_assoc ((1 + u) ^ 2)). apply Rmult_le_compat_l; [lra|]. eapply Rle_trans; [apply B|]. rewrite Rmult_assoc. apply Rmult_le_compat_l; [lra|].
    nra.
Qed.
Lemma square_near x : valid x = true -> fin (mul x x) = true -> Rabs (FR (mul x x) - FR x * FR x) <= u * (FR x * FR x) + eta.
Proof.
  intros V F. pose proof (mul_near' prec emax Hprec Hemax x x V V F) as E. rewrite (Rabs_pos_eq (FR x * FR x)) in E by nra. exact E.
Qed.
Lemma square_near_normal x : valid x = true -> fin (mul x x) = true -> normal x -> Rabs (FR (mul x x) - FR x * FR x) <= u * (FR x * FR x) + 0.
Proof.
  intros V F [Z|G]; rewrite Rplus_0_r; pose proof (u_pos prec) as U.
  - destruct (mul_fin _ _ _ _ F) as [F1 _]. pose proof (mul_correct prec emax Hprec Hem x x F1 F1 V V) as Ap. rewrite Z, Rmult_0_r in *.
    destruct (approx_exact _ _ _ _ _ Ap (isfl_0 prec emax)) as [_ ->]. rewrite Rminus_0_r, Rabs_R0. lra.
  - destruct (mul_near prec emax Hprec Hemax x x V V F) as [_ E]. eapply Rle_trans; [exact E|]. rewrite (Rabs_pos_eq (FR x * FR x)) by nra. apply Rmax_lub; [lra|].
    apply Rle_trans with (u * pw (emin prec emax + prec - 1)); [|apply Rmult_le_compat_l; lra]. unfold FloatRound.eta, uu. rewrite <- pw_add. apply pw_le. lia.
Qed.
(** rounding is monotone *)
Lemma approx_mono z1 v1 e1 z2 v2 e2 : approx prec emax z1 v1 e1 -> approx prec emax z2 v2 e2 -> fin z1 = true -> fin z2 = true -> v1 <= v2 -> FR z1 <= FR z2.
Proof.
  intros [R1 C1] [R2 C2] F1 F2 H. destruct (Rle_lt_or_eq_dec _ _ H) as [L|Eq]; [|subst v2; destruct (same_FR _ _ (rnd_unique prec emax _ _ _ R1 R2)); lra].
  destruct C1 as [(_ & V1 & _ & N1)|(s & -> & _)]; [|discriminate]. destruct C2 as [(_ & V2 & _ & N2)|(s & -> & _)]; [|discriminate].
  specialize (N1 _ (isfl_FR prec emax _ F2 V2)). specialize (N2 _ (isfl_FR prec emax _ F1 V1)).
  destruct (Rle_dec (FR z1) (FR z2)) as [|G]; [assumption|exfalso].
  unfold Rabs in N1, N2. repeat destruct Rcase_abs; lra.
Qed.
(** a component is at most the length *)
Lemma mag_component a x : numbers prec emax a -> fin (fmagnitude prec emax a) = true -> In x a -> normal x ->
  Rabs (FR x) <= FR (fmagnitude prec emax a).
Proof.
  intros V F Hx N. destruct (mag_fin a V F) as (E & Fs & Vs & Ps & Fa). rewrite E in *. set (s := fold_left add (map (fun x => mul x x) a) f0) in *.
  destruct (sqrt_near prec emax Hprec Hemax s Vs Fs Ps) as (F2 & V2 & P2 & _ & R2).
  destruct N as [Z|G]; [rewrite Z, Rabs_R0; exact P2|].
  rewrite Forall_forall in Fa. destruct (Fa x Hx) as [Fx Fm]. assert (Vx : valid x = true) by (unfold numbers in V; rewrite Forall_forall in V; apply V; exact Hx).
  assert (Vm : Forall (fun x => valid x = true) (map (fun x => mul x x) a)).
  { apply Forall_map. eapply Forall_impl; [|exact V]. intros y Vy. apply valid_mul; assumption. }
  assert (P : Forall (fun x => 0 <= FR x) (map (fun x => mul x x) a)).
  { apply Forall_map, Forall_forall. intros y Hy. unfold numbers in V. rewrite Forall_forall in V. apply square_nonneg; try assumption; [apply V; exact Hy|apply Fa; exact Hy]. }
  destruct (fold_pos prec emax Hprec Hemax (map (fun x => mul x x) a) f0 eq_refl Vm Fs (Rle_refl 0) P) as (_ & B & _). fold s in B. rewrite Forall_map, Forall_forall in B. specialize (B x Hx). cbv beta in B.
  pose proof (sqrt_square_exact prec emax Hprec Hemax x Vx Fm G) as SE. rewrite <- FR_abs.
  assert (Vmx : valid (mul x x) = true) by (apply valid_mul; assumption). pose proof (square_nonneg prec emax Hprec Hemax x Vx Fm) as Pm.
  pose proof (sqrt_correct prec emax Hprec Hem s Hemax Fs Vs Ps) as C2.
  pose proof (sqrt_correct prec emax Hprec Hem (mul x x) Hemax Fm Vmx Pm) as C1.
  destruct SE as [SE _]. rewrite FR_abs, <- SE. destruct C1 as [F3 C1], C2 as [F4 C2]. apply (approx_mono _ _ _ _ _ _ C1 C2 F3 F4). apply sqrt_le_1; lra.
Qed.
End Length.

Definition normal_square (prec emax : Z) (x : spec_float) : Prop := FR x = 0 \/ pw (emin prec emax + prec - 1) <= FR x * FR x.
Lemma sqR_nonneg a : 0 <= sqR a.
Proof. apply sumR_nonneg, Forall_map, Forall_forall. intros; nra. Qed.
Theorem C129_nonneg prec emax a : format prec emax -> numbers prec emax a -> fin (fmagnitude prec emax a) = true -> 0 <= FR (fmagnitude prec emax a).
Proof.
  intros Hf V F. destruct (mag_fin prec emax Hf a V F) as (E & Fs & Vs & Ps & _). rewrite E. destruct Hf. apply sqrt_near; assumption.
Qed.
(** the square of the computed length, against the exact sum of squares *)
Theorem C129_length prec emax a : format prec emax -> numbers prec emax a -> fin (fmagnitude prec emax a) = true ->
  (1 - uu prec) ^ (length a + 3) * sqR a - INR (length a) * eta prec emax <= FR (fmagnitude prec emax a) ^ 2
    <= (1 + uu prec) ^ (length a + 3) * (sqR a + INR (length a) * eta prec emax).
Proof.
  intros Hf V F. apply mag_sq; try assumption; [pose proof (eta_pos prec emax); lra|]. intros x Hx Fx. unfold numbers in V. rewrite Forall_forall in V. apply square_near; try assumption. apply V; exact Hx.
Qed.
Theorem C129_length_normal prec emax a : format prec emax -> numbers prec emax a -> fin (fmagnitude prec emax a) = true -> Forall (normal_square prec emax) a ->
  (1 - uu prec) ^ (length a + 3) * sqR a <= FR (fmagnitude prec emax a) ^ 2 <= (1 + uu prec) ^ (length a + 3) * sqR a.
Proof.
  intros Hf V F N. pose proof (mag_sq prec emax Hf a 0 V F (Rle_refl 0)) as B. rewrite Rmult_0_r, Rminus_0_r, Rplus_0_r in B. apply B. intros x Hx Fx.
  unfold numbers in V. rewrite Forall_forall in V, N. apply square_near_normal; try assumption; [apply V; exact Hx|apply N; exact Hx].
Qed.
Lemma sq_dotabs a : dotabsR a a = sqR a.
Proof.
  unfold dotabsR, sqR. induction a as [|x a IH]; [reflexivity|]. cbn [combine map fst snd]. rewrite !sumR_cons, IH, Rabs_pos_eq by nra. reflexivity.
Qed.
Theorem C129_finite prec emax a : format prec emax -> numbers prec emax a -> Forall (fun x => fin x = true) a ->
  (1 + uu prec) ^ S (length a) * (sqR a + INR (length a) * eta prec emax) < pw emax -> fin (fmagnitude prec emax a) = true.
Proof.
  intros Hf V F B. rewrite C128_magnitude_is_sqrt_dot. rewrite <- sq_dotabs in B. pose proof (C127_dot_finite prec emax a a Hf V V eq_refl F F B) as Fd.
  assert (E : fdot prec emax a a = fold_left (SFadd prec emax) (map (fun x => SFmul prec emax x x) a) f0).
  { unfold fdot. generalize f0. clear. induction a as [|x a IH]; intros s; [reflexivity|]. cbn [combine map fold_left fst snd]. apply IH. }
  rewrite E in *. destruct Hf as [Hp He].
  assert (Vm : Forall (fun x => valid_binary prec emax x = true) (map (fun x => SFmul prec emax x x) a)).
  { apply Forall_map. eapply Forall_impl; [|exact V]. intros y Vy. apply valid_mul; assumption. }
  pose proof (sum0_fin prec emax _ Fd) as Fm. rewrite Forall_map in Fm.
  assert (P : Forall (fun x => 0 <= FR x) (map (fun x => SFmul prec emax x x) a)).
  { apply Forall_map, Forall_forall. intros y Hy. unfold numbers in V. rewrite Forall_forall in V, Fm. apply square_nonneg; try assumption; [apply V; exact Hy|apply Fm; exact Hy]. }
  destruct (fold_pos prec emax Hp He _ f0 eq_refl Vm Fd (Rle_refl 0) P) as (B0 & _).
  apply (sqrt_near prec emax Hp He); [apply valid_fold; try assumption; reflexivity|exact Fd|exact B0].
Qed.
(** no component exceeds the computed length *)
Theorem C129_component prec emax a x : format prec emax -> numbers prec emax a -> fin (fmagnitude prec emax a) = true -> In x a -> normal_square prec emax x ->
  Rabs (FR x) <= FR (fmagnitude prec emax a).
Proof. intros Hf V F Hx N. apply mag_component; assumption. Qed.
(** the length of a vector of finite numbers that is not zero is not always a positive number *)
Theorem C129_refuted :
  (exists a, numbers 53 1024 a /\ Forall (fun x => fin x = true) a /\ fmagnitude 53 1024 a = S754_infinity false) /\
  (exists a, numbers 53 1024 a /\ Forall (fun x => fin x = true) a /\ sqR a <> 0 /\ fmagnitude 53 1024 a = S754_zero false) /\
  (exists a x, numbers 53 1024 a /\ In x a /\ fin (fmagnitude 53 1024 a) = true /\ SFltb (fmagnitude 53 1024 a) (SFabs x) = true).
Proof.
  split; [exists [d_1e200; d_1]; repeat split; repeat constructor|]. split.
  - exists [d_1em200; d_1em200]. repeat split; repeat constructor. unfold sqR. cbn [map]. rewrite !sumR_cons, sumR_nil.
    assert (P : 0 < FR d_1em200) by (unfold d_1em200; cbn [FR]; unfold sgnR; rewrite ?Rmult_1_l; apply FR_finite_pos || (apply Rmult_lt_0_compat; [apply IZR_lt; reflexivity|apply pw_pos])). nra.
  - exists [d_tiny], d_tiny. repeat split; repeat constructor.
Qed.
Example C129_ex : numbers 53 1024 [d_3; d_4] /\ fmagnitude 53 1024 [d_3; d_4] = d_5.
Proof. split; [repeat constructor|vm_compute; reflexivity]. Qed.
Print Assumptions C129_nonneg. Print Assumptions C129_length. Print Assumptions C129_length_normal. Print Assumptions C129_finite. Print Assumptions C129_component. Print Assumptions C129_refuted.

(** ** C130: unit vectors *)
Section Unit.
Variables prec emax : Z.
Hypothesis Hf : format prec emax.
Let Hprec : (1 < prec)%Z. Proof. apply Hf. Qed.
Let Hemax : (prec + 3 <= emax)%Z. Proof. apply Hf. Qed.
Let Hem : (prec < emax)%Z. Proof. lia. Qed.
Notation u := (uu prec).
Notation eta := (eta prec emax).
Notation div := (SFdiv prec emax).
Notation valid := (valid_binary prec emax).
Lemma isfl_1 : isfl prec emax 1.
Proof. replace 1 with (IZR 1) by reflexivity. apply isfl_int; try assumption. split; [lia|]. apply Z.pow_gt_1; lia. Qed.
Notation mul := (SFmul prec emax).
Notation one := (of_int prec emax 1).
Lemma one_exact : fin one = true /\ valid one = true /\ FR one = 1.
Proof. apply of_int_exact; try assumption. split; [lia|]. apply Z.pow_gt_1; lia. Qed.
(** what is at most 1 + u rounds to at most 1 *)
Lemma round_one v z : rnd prec emax v z -> fin z = true -> Rabs v <= 1 + u -> Rabs (FR z) <= 1.
Proof.
  intros (s & w & f & r & W & E & (Hf1 & Hf2 & Hf3 & Hn & Ht) & C) F B.
  assert (Bw : w <= 1 + u). { subst v. rewrite Rabs_mult in B. replace (Rabs (sgnR s)) with 1 in B by (destruct s; unfold sgnR, Rabs; destruct Rcase_abs; lra). rewrite Rmult_1_l, Rabs_pos_eq in B by exact W. exact B. }
  assert (Q : IZR r * pw f <= 1).
  { assert (Pf : 0 < pw f) by apply pw_pos. assert (Pm : pw (- f) * pw f = 1) by (rewrite <- pw_add; replace (- f + f)%Z with 0%Z by lia; apply pw_0).
    apply Rabs_le_inv in Hn as Hn'.
    destruct (Rle_dec w 1) as [L|G].
    - (* at most one: the integer nearest to w / 2^f is at most 1 / 2^f, an integer or more than one half *)
      destruct (Z_le_gt_dec f 0) as [Nf|Pf0].
      + assert (I : pw (- f) = IZR (2 ^ (- f))) by (symmetry; apply pw_Z; lia).
        assert (r <= 2 ^ (- f))%Z. { apply Z.lt_succ_r, lt_IZR. rewrite succ_IZR, <- I. assert (w * pw (- f) <= 1 * pw (- f)) by (apply Rmult_le_compat_r; [left; apply pw_pos|exact L]). lra. }
        rewrite <- Pm, I. apply Rmult_le_compat_r; [lra|]. apply IZR_le; assumption.
      + destruct Hf3 as [->|Hf3]; [unfold emin in Pf0; lia|]. assert (pw 1 <= pw (prec - 1 + f)) by (apply pw_le; lia). rewrite pw_1 in *. lra.
    - apply Rnot_le_lt in G. assert (F0 : f = (1 - prec)%Z).
      { assert (1 <= prec + f)%Z. { destruct (Z_lt_ge_dec (prec + f) 1) as [X|X]; [exfalso|lia]. assert (pw (prec + f) <= pw 0) by (apply pw_le; lia). rewrite pw_0 in *. lra. }
        destruct Hf3 as [->|Hf3]; [unfold emin in *; lia|].
        destruct (Z_lt_ge_dec 0 (prec - 1 + f)) as [X|X]; [exfalso|lia]. assert (pw 1 <= pw (prec - 1 + f)) by (apply pw_le; lia). rewrite pw_1 in *. pose proof (u_le prec Hprec). lra. }
      subst f. replace (- (1 - prec))%Z with (prec - 1)%Z in * by lia.
      assert (I : pw (prec - 1) = IZR (2 ^ (prec - 1))) by (symmetry; apply pw_Z; lia).
      assert (X : w * pw (prec - 1) <= pw (prec - 1) + / 2).
      { apply Rle_trans with ((1 + u) * pw (prec - 1)); [apply Rmult_le_compat_r; [left; apply pw_pos|exact Bw]|]. rewrite Rmult_plus_distr_r, Rmult_1_l. apply Rplus_le_compat_l. unfold uu. rewrite <- pw_add. replace (- prec + (prec - 1))%Z with (-1)%Z by lia. right. unfold pw; simpl; lra. }
      assert (L : (r <= 2 ^ (prec - 1))%Z).
      { destruct (Z_le_gt_dec r (2 ^ (prec - 1))) as [Y|Y]; [exact Y|exfalso]. assert (K : IZR (2 ^ (prec - 1) + 1) <= IZR r) by (apply IZR_le; lia). rewrite plus_IZR, <- I in K.
        assert (T : Rabs (IZR r - w * pw (prec - 1)) = / 2) by (rewrite Rabs_pos_eq; lra). specialize (Ht T).
        assert (r = 2 ^ (prec - 1) + 1)%Z. { apply Z.le_antisymm; [|lia]. apply Z.lt_succ_r, lt_IZR. rewrite succ_IZR, plus_IZR, <- I. lra. }
        subst r. rewrite Z.even_add, Z.even_pow in Ht by lia. discriminate. }
      rewrite <- Pm, I. apply Rmult_le_compat_r; [lra|]. apply IZR_le; assumption. }
  destruct C as [[-> _]|[(m & e & -> & _ & E2)|[-> _]]]; [cbn [FR]; rewrite Rabs_R0; lra| |discriminate]. rewrite E2 in Q. cbn [FR]. pose proof (FR_finite_pos m e).
  apply Rabs_le. destruct s; lra.
Qed.
(** the reciprocal of a number far from the ends of the range has a small relative error *)
Lemma recip y : fin y = true -> valid y = true -> pw (2 - emax) <= FR y <= pw (emax - 2) ->
  fin (div one y) = true /\ valid (div one y) = true /\ Rabs (FR (div one y) - / FR y) <= u * / FR y.
Proof.
  intros Fy Vy [B1 B2]. destruct one_exact as (F1 & V1 & E1). assert (P : 0 < FR y) by (pose proof (pw_pos (2 - emax)); lra).
  pose proof (div_correct prec emax Hprec Hem one y F1 Fy V1 Vy ltac:(lra)) as A. rewrite E1 in A. replace (1 / FR y) with (/ FR y) in A by (unfold Rdiv; ring).
  assert (I0 : 0 < / FR y) by (apply Rinv_0_lt_compat; exact P). rewrite (Rabs_pos_eq (/ FR y)) in A by lra.
  assert (I1 : pw (2 - emax) <= / FR y).
  { apply Rmult_le_reg_r with (FR y); [exact P|]. rewrite Rinv_l by lra. apply Rle_trans with (pw (2 - emax) * pw (emax - 2)); [apply Rmult_le_compat_l; [left; apply pw_pos|exact B2]|]. rewrite <- pw_add. replace (2 - emax + (emax - 2))%Z with 0%Z by lia. rewrite pw_0. lra. }
  assert (I2 : / FR y <= pw (emax - 2)).
  { apply Rmult_le_reg_r with (FR y); [exact P|]. rewrite Rinv_l by lra. apply Rle_trans with (pw (emax - 2) * pw (2 - emax)); [rewrite <- pw_add; replace (emax - 2 + (2 - emax))%Z with 0%Z by lia; rewrite pw_0; lra|]. apply Rmult_le_compat_l; [left; apply pw_pos|exact B1]. }
  assert (M : Rmax (u * / FR y) eta = u * / FR y).
  { apply Rmax_left. apply Rle_trans with (u * pw (2 - emax)); [|apply Rmult_le_compat_l; [left; apply u_pos|exact I1]]. unfold FloatRound.eta, uu. rewrite <- pw_add. apply pw_le. unfold emin. lia. }
  rewrite M in A. destruct A as [_ [(F & V & E & _)|(s & _ & O & _)]]; [split; [exact F|split; [exact V|exact E]]|exfalso].
  pose proof (u_le prec Hprec). pose proof (u_pos prec). assert (K : u * / FR y <= / FR y) by (rewrite <- (Rmult_1_l (/ FR y)) at 2; apply Rmult_le_compat_r; lra).
  assert (T : pw emax = 4 * pw (emax - 2)) by (replace emax with (2 + (emax - 2))%Z at 1 by lia; rewrite pw_add; f_equal; unfold pw; simpl; lra).
  pose proof (pw_pos (emax - 2)). destruct s; unfold sgnR in O; lra.
Qed.
(** the product with a reciprocal, of magnitude at most one *)
Lemma recip_mul x y : fin x = true -> fin y = true -> valid x = true -> valid y = true -> pw (2 - emax) <= FR y <= pw (emax - 2) -> Rabs (FR x) <= FR y ->
  fin (mul x (div one y)) = true /\ valid (mul x (div one y)) = true /\ Rabs (FR (mul x (div one y))) <= 1 /\
  (1 - u) ^ 2 * Rabs (FR x / FR y) - eta <= Rabs (FR (mul x (div one y))) <= (1 + u) ^ 2 * Rabs (FR x / FR y) + eta.
Proof.
  intros Fx Fy Vx Vy B L. destruct (recip y Fy Vy B) as (Fi & Vi & Ei). assert (P : 0 < FR y) by (pose proof (pw_pos (2 - emax)); lra).
  assert (I0 : 0 < / FR y) by (apply Rinv_0_lt_compat; exact P). pose proof (u_le prec Hprec) as U2. pose proof (u_pos prec) as U1.
  set (i := FR (div one y)) in *. apply Rabs_le_inv in Ei.
  assert (J : (1 - u) * / FR y <= i <= (1 + u) * / FR y) by lra. assert (J0 : 0 <= i) by (assert (0 <= (1 - u) * / FR y) by (apply Rmult_le_pos; lra); lra).
  set (v := FR x * i). assert (Q : Rabs (FR x / FR y) = Rabs (FR x) * / FR y) by (unfold Rdiv; rewrite Rabs_mult, (Rabs_pos_eq (/ FR y)) by lra; reflexivity).
  assert (Av : Rabs v = Rabs (FR x) * i) by (unfold v; rewrite Rabs_mult, (Rabs_pos_eq i) by exact J0; reflexivity).
  assert (X0 := Rabs_pos (FR x)).
  assert (V1 : (1 - u) * Rabs (FR x / FR y) <= Rabs v <= (1 + u) * Rabs (FR x / FR y)).
  { rewrite Q, Av. split; [apply Rle_trans with (Rabs (FR x) * ((1 - u) * / FR y)); [right; ring|]|apply Rle_trans with (Rabs (FR x) * ((1 + u) * / FR y)); [|right; ring]]; apply Rmult_le_compat_l; lra. }
  assert (V2 : Rabs v <= 1 + u).
  { rewrite Av. apply Rle_trans with (FR y * ((1 + u) * / FR y)); [apply Rmult_le_compat; lra|]. right. field. lra. }
  pose proof (mul_correct prec emax Hprec Hem x (div one y) Fx Fi Vx Vi) as A. fold i in A. fold v in A.
  assert (F : fin (mul x (div one y)) = true).
  { destruct A as [_ [(F & _)|(s & _ & O & _)]]; [exact F|exfalso]. assert (T : 4 <= pw emax) by (replace 4 with (pw 2) by (unfold pw; simpl; lra); apply pw_le; lia).
    assert (Ms : Rmax (u * Rabs v) eta <= 1). { apply Rmax_lub; [rewrite <- (Rmult_1_r 1); apply Rle_trans with (/ 4 * (1 + / 4)); [apply Rmult_le_compat; try lra; apply Rabs_pos|lra]|]. unfold FloatRound.eta. rewrite <- pw_0. apply pw_le. unfold emin. lia. }
    apply Rabs_le_inv in V2. destruct s; unfold sgnR in O; lra. }
  split; [exact F|]. split; [eapply approx_valid; exact A|]. split; [exact (round_one v _ (proj1 A) F V2)|].
  destruct A as [_ [(_ & _ & E & _)|(s & Z & _)]]; [|rewrite Z in F; discriminate].
  set (c := FR (mul x (div one y))) in *. pose proof (eta_pos prec emax) as E0.
  assert (E' : Rabs (c - v) <= u * Rabs v + eta). { eapply Rle_trans; [exact E|]. assert (0 <= u * Rabs v) by (apply Rmult_le_pos; [lra|apply Rabs_pos]). apply Rmax_lub; lra. }
  pose proof (Rabs_triang (c - v) v) as T1. replace (c - v + v) with c in T1 by ring. pose proof (Rabs_triang (v - c) c) as T2. replace (v - c + c) with v in T2 by ring. rewrite (Rabs_minus_sym v c) in T2.
  set (t := Rabs (FR x / FR y)) in *. split.
  - apply Rle_trans with ((1 - u) * Rabs v - eta); [|lra]. apply Rplus_le_compat_r. apply Rle_trans with ((1 - u) * ((1 - u) * t)); [right; ring|]. apply Rmult_le_compat_l; lra.
  - apply Rle_trans with ((1 + u) * Rabs v + eta); [lra|]. apply Rplus_le_compat_r. apply Rle_trans with ((1 + u) * ((1 + u) * t)); [|right; ring]. apply Rmult_le_compat_l; lra.
Qed.
Lemma eta_small : eta <= / 4.
Proof. unfold FloatRound.eta. replace (/ 4) with (pw (-2)) by (unfold pw; simpl; lra). apply pw_le. unfold emin. lia. Qed.
Lemma square_of_near c v : Rabs v <= 1 -> (1 - u) ^ 2 * Rabs v - eta <= Rabs c <= (1 + u) ^ 2 * Rabs v + eta ->
  (1 - u) ^ 4 * (v * v) - 2 * eta <= c * c <= (1 + u) ^ 4 * (v * v) + 4 * eta.
Proof.
  intros V L. pose proof (u_pos prec) as U. pose proof (u_le prec Hprec) as U2. pose proof (eta_pos prec emax) as P. pose proof eta_small as P2.
  assert (C : forall z, z * z = Rabs z * Rabs z) by (intros z; rewrite <- Rabs_mult, Rabs_pos_eq by nra; reflexivity). rewrite (C c), (C v).
  pose proof (Rabs_pos c). pose proof (Rabs_pos v). set (t := Rabs v) in *. set (k := Rabs c) in *. clearbody t k.
  assert (A0 : 0 <= (1 - u) ^ 2 <= 1) by (split; [apply pow_le; lra|rewrite <- (pow1 2); apply pow_incr; lra]).
  assert (A1 : 0 <= (1 + u) ^ 2 <= 25 / 16) by (split; [apply pow_le; lra|apply Rle_trans with ((5 / 4) ^ 2); [apply pow_incr; lra|lra]]).
  split.
  - replace ((1 - u) ^ 4 * (t * t)) with ((1 - u) ^ 2 * t * ((1 - u) ^ 2 * t)) by ring.
    assert (W : 0 <= (1 - u) ^ 2 * t <= 1) by (split; [apply Rmult_le_pos; lra|rewrite <- (Rmult_1_l 1); apply Rmult_le_compat; lra]).
    destruct L as [L _]. set (w := (1 - u) ^ 2 * t) in *. clearbody w. destruct (Rle_dec eta w).
    + assert (K : (w - eta) * (w - eta) <= k * k) by (apply Rmult_le_compat; lra). assert (K2 : w * eta <= 1 * eta) by (apply Rmult_le_compat_r; lra). nra.
    + assert (K : w * w <= eta * eta) by (apply Rmult_le_compat; lra). nra.
  - replace ((1 + u) ^ 4 * (t * t)) with ((1 + u) ^ 2 * t * ((1 + u) ^ 2 * t)) by ring.
    assert (W : 0 <= (1 + u) ^ 2 * t <= 25 / 16) by (split; [apply Rmult_le_pos; lra|rewrite <- (Rmult_1_r (25 / 16)); apply Rmult_le_compat; lra]).
    destruct L as [_ L]. set (w := (1 + u) ^ 2 * t) in *. clearbody w.
    assert (K : k * k <= (w + eta) * (w + eta)) by (apply Rmult_le_compat; lra). assert (K2 : w * eta <= 25 / 16 * eta) by (apply Rmult_le_compat_r; lra). nra.
Qed.
End Unit.
Lemma mag_range prec emax a : format prec emax -> numbers prec emax a -> fin (fmagnitude prec emax a) = true -> FR (fmagnitude prec emax a) <> 0 ->
  Forall (normal_square prec emax) a -> pw (2 - emax) <= FR (fmagnitude prec emax a) <= pw (emax - 2).
Proof.
  intros Hf V F Z N. pose proof (C129_nonneg prec emax a Hf V F) as P. destruct (mag_fin prec emax Hf a V F) as (E & Fs & Vs & Ps & Fa). destruct Hf as [Hp He].
  set (m := FR (fmagnitude prec emax a)) in *. split.
  - assert (X : exists x, In x a /\ FR x <> 0).
    { destruct (Exists_dec (fun x => FR x <> 0) a) as [D|D].
      - intros x. destruct (Req_EM_T (FR x) 0); [right; tauto|left; assumption].
      - apply Exists_exists in D. exact D.
      - exfalso. apply Z. assert (A0 : sqR a = 0).
        { unfold sqR. rewrite <- Forall_Exists_neg in D. clear -D. induction D as [|x l D _ IH]; cbn [map]; [reflexivity|]. rewrite sumR_cons, IH. assert (FR x = 0) as -> by (destruct (Req_dec (FR x) 0); tauto). ring. }
        pose proof (C129_length_normal prec emax a (conj Hp He) V F N) as B. rewrite A0, !Rmult_0_r in B. fold m in B. cbn [pow] in B. nra. }
    destruct X as (x & Hx & Nx). rewrite Forall_forall in N. pose proof (C129_component prec emax a x (conj Hp He) V F Hx (N x Hx)) as C. fold m in C.
    destruct (N x Hx) as [Y|Y]; [contradiction|]. unfold emin in Y. replace (3 - emax - prec + prec - 1)%Z with (2 - emax)%Z in Y by lia.
    assert (L1 : pw (2 - emax) <= 1) by (rewrite <- pw_0; apply pw_le; lia). assert (C0 : FR x * FR x = Rabs (FR x) * Rabs (FR x)) by (rewrite <- Rabs_mult, Rabs_pos_eq by nra; reflexivity).
    rewrite C0 in Y. pose proof (Rabs_pos (FR x)). destruct (Rle_dec 1 (Rabs (FR x))); [lra|]. assert (Rabs (FR x) * Rabs (FR x) <= 1 * Rabs (FR x)) by (apply Rmult_le_compat_r; lra). lra.
  - pose proof (sqrt_sq prec emax Hp He _ Vs Fs Ps) as [_ Q]. rewrite <- E in Q. fold m in Q.
    set (s := fold_left (SFadd prec emax) (map (fun x => SFmul prec emax x x) a) f0) in *. clearbody s. set (q := FR s) in *.
    assert (S : q < pw emax) by (apply (isfl_lt prec emax); try assumption; exists s; split; [assumption|split; [assumption|reflexivity]]).
    pose proof (u_pos prec). pose proof (u_le prec Hp). assert (A1 : 0 <= (1 + uu prec) ^ 2 <= 25 / 16) by (split; [apply pow_le; lra|apply Rle_trans with ((5 / 4) ^ 2); [apply pow_incr; lra|lra]]).
    assert (M : m ^ 2 <= pw (emax - 2) ^ 2).
    { eapply Rle_trans; [exact Q|]. apply Rle_trans with (2 * pw emax); [apply Rmult_le_compat; lra|]. cbn [pow]. rewrite Rmult_1_r, <- pw_add, <- pw_1, <- pw_add. apply pw_le. lia. }
    apply Rnot_lt_le. intros G. pose proof (pw_pos (emax - 2)). assert (pw (emax - 2) * pw (emax - 2) < m * m) by (apply Rmult_le_0_lt_compat; lra). cbn [pow] in M. lra.
Qed.
Theorem C130_in_range prec emax a : format prec emax -> numbers prec emax a -> fin (fmagnitude prec emax a) = true -> FR (fmagnitude prec emax a) <> 0 ->
  Forall (normal_square prec emax) a ->
  Forall (fun c => fin c = true /\ number prec emax c /\ -1 <= FR c <= 1) (funit prec emax a).
Proof.
  intros Hf V F Z N. pose proof (mag_range prec emax a Hf V F Z N) as P. unfold funit. apply Forall_map, Forall_forall. intros x Hx.
  destruct (mag_fin prec emax Hf a V F) as (E & Fs & Vs & Ps & Fa). rewrite Forall_forall in Fa, N. destruct (Fa x Hx) as [Fx _].
  assert (Vx : number prec emax x) by (unfold numbers in V; rewrite Forall_forall in V; apply V; exact Hx).
  assert (Vm : number prec emax (fmagnitude prec emax a)) by (rewrite E; destruct Hf; apply sqrt_near; assumption).
  destruct (recip_mul prec emax Hf x _ Fx F Vx Vm P (C129_component prec emax a x Hf V F Hx (N x Hx))) as (F1 & V1 & B & _).
  apply Rabs_le_inv in B. split; [exact F1|]. split; [exact V1|]. lra.
Qed.
Theorem C130_length prec emax a : format prec emax -> numbers prec emax a -> fin (fmagnitude prec emax a) = true -> FR (fmagnitude prec emax a) <> 0 ->
  Forall (normal_square prec emax) a ->
  (1 - uu prec) ^ 4 / (1 + uu prec) ^ (length a + 3) - 2 * INR (length a) * eta prec emax <= sqR (funit prec emax a)
    <= (1 + uu prec) ^ 4 / (1 - uu prec) ^ (length a + 3) + 4 * INR (length a) * eta prec emax.
Proof.
  intros Hf V F Z N. pose proof (C129_nonneg prec emax a Hf V F) as P. pose proof (mag_range prec emax a Hf V F Z N) as Rg. pose proof (C129_length_normal prec emax a Hf V F N) as B.
  set (m := FR (fmagnitude prec emax a)) in *. pose proof (u_pos prec) as U. pose proof (u_le prec (proj1 Hf)) as U2. pose proof (eta_pos prec emax) as E0.
  assert (Vm : number prec emax (fmagnitude prec emax a)) by (destruct (mag_fin prec emax Hf a V F) as (E & Fs & Vs & Ps & _); rewrite E; destruct Hf; apply sqrt_near; assumption).
  assert (S : forall l, incl l a -> (1 - uu prec) ^ 4 * (sqR l / m ^ 2) - 2 * INR (length l) * eta prec emax <= sqR (map (fun c => SFmul prec emax c (SFdiv prec emax (of_int prec emax 1) (fmagnitude prec emax a))) l)
    <= (1 + uu prec) ^ 4 * (sqR l / m ^ 2) + 4 * INR (length l) * eta prec emax).
  { induction l as [|x l IH]; intros I; [cbn; lra|]. specialize (IH (fun y Hy => I y (or_intror Hy))). unfold sqR in *. cbn [map]. rewrite !sumR_cons.
    change (INR (length (x :: l))) with (INR (S (length l))). rewrite S_INR. assert (Hx : In x a) by (apply I; left; reflexivity).
    destruct (mag_fin prec emax Hf a V F) as (E & _ & _ & _ & Fa). rewrite Forall_forall in Fa, N. destruct (Fa x Hx) as [Fx _].
    assert (Vx : number prec emax x) by (unfold numbers in V; rewrite Forall_forall in V; apply V; exact Hx).
    assert (Cx : Rabs (FR x) <= m) by (apply (C129_component prec emax a x Hf V F Hx); apply N; exact Hx).
    destruct (recip_mul prec emax Hf x _ Fx F Vx Vm Rg Cx) as (_ & _ & _ & Er). fold m in Er.
    assert (Q : Rabs (FR x / m) <= 1). { unfold Rdiv. rewrite Rabs_mult, (Rabs_pos_eq (/ m)) by (left; apply Rinv_0_lt_compat; lra). apply Rmult_le_reg_r with m; [lra|]. rewrite Rmult_assoc, Rinv_l by lra. lra. }
    pose proof (square_of_near prec emax Hf _ _ Q Er) as K. replace (FR x / m * (FR x / m)) with (FR x * FR x / m ^ 2) in K by (field; lra).
    replace ((FR x * FR x + sumR (map (fun x0 => FR x0 * FR x0) l)) / m ^ 2) with (FR x * FR x / m ^ 2 + sumR (map (fun x0 => FR x0 * FR x0) l) / m ^ 2) by (field; lra). lra. }
  specialize (S a (incl_refl a)). fold (funit prec emax a) in S.
  assert (M2 : 0 < m ^ 2) by (cbn [pow]; nra). assert (A0 : 0 <= sqR a) by apply sqR_nonneg.
  assert (P1 : 0 < (1 + uu prec) ^ (length a + 3)) by (apply pow_lt; lra). assert (P2 : 0 < (1 - uu prec) ^ (length a + 3)) by (apply pow_lt; lra).
  assert (L1 : / (1 + uu prec) ^ (length a + 3) <= sqR a / m ^ 2).
  { apply Rmult_le_reg_r with (m ^ 2 * (1 + uu prec) ^ (length a + 3)); [nra|]. replace (sqR a / m ^ 2 * (m ^ 2 * (1 + uu prec) ^ (length a + 3))) with ((1 + uu prec) ^ (length a + 3) * sqR a) by (field; lra).
    replace (/ (1 + uu prec) ^ (length a + 3) * (m ^ 2 * (1 + uu prec) ^ (length a + 3))) with (m ^ 2) by (field; lra). apply B. }
  assert (L2 : sqR a / m ^ 2 <= / (1 - uu prec) ^ (length a + 3)).
  { apply Rmult_le_reg_r with (m ^ 2 * (1 - uu prec) ^ (length a + 3)); [nra|]. replace (sqR a / m ^ 2 * (m ^ 2 * (1 - uu prec) ^ (length a + 3))) with ((1 - uu prec) ^ (length a + 3) * sqR a) by (field; lra).
    replace (/ (1 - uu prec) ^ (length a + 3) * (m ^ 2 * (1 - uu prec) ^ (length a + 3))) with (m ^ 2) by (field; lra). apply B. }
  assert (Q1 : 0 <= (1 - uu prec) ^ 4) by (apply pow_le; lra). assert (Q2 : 0 <= (1 + uu prec) ^ 4) by (apply pow_le; lra).
  pose proof (Rmult_le_compat_l _ _ _ Q1 L1) as G1. pose proof (Rmult_le_compat_l _ _ _ Q2 L2) as G2. change ((1 - uu prec) ^ 4 * / (1 + uu prec) ^ (length a + 3)) with ((1 - uu prec) ^ 4 / (1 + uu prec) ^ (length a + 3)) in G1. change ((1 + uu prec) ^ 4 * / (1 - uu prec) ^ (length a + 3)) with ((1 + uu prec) ^ 4 / (1 - uu prec) ^ (length a + 3)) in G2. split; [eapply Rle_trans; [|apply S]; lra|eapply Rle_trans; [apply S|]; lra].
Qed.
(** a vector of finite numbers that is not zero need not become a unit vector: it can become zero, infinite,
    or have a component of 1.2 *)
Theorem C130_refuted :
  funit 53 1024 [d_1e200; d_1e200] = [S754_zero false; S754_zero false] /\
  funit 53 1024 [d_1em200; d_1em200] = [S754_infinity false; S754_infinity false] /\
  funit 53 1024 [d_tiny] = [S754_finite false 5423052085799557 (-52)] /\ SFltb d_1 (S754_finite false 5423052085799557 (-52)) = true.
Proof. vm_compute. repeat split. Qed.
(** 3 times the rounded reciprocal of 5 is the number after 0.6: the code multiplies by the reciprocal *)
Example C130_ex : numbers 53 1024 [d_3; d_4] /\ Forall (normal_square 53 1024) [d_3; d_4] /\ funit 53 1024 [d_3; d_4] = [S754_finite false 5404319552844596 (-53); S754_finite false 7205759403792794 (-53)].
Proof.
  split; [repeat constructor|]. split; [|vm_compute; reflexivity].
  assert (B : pw (emin 53 1024 + 53 - 1) <= 1) by (rewrite <- pw_0; apply pw_le; vm_compute; discriminate).
  assert (E3 : FR d_3 = 3) by (unfold d_3; cbn [FR]; unfold pw; simpl; lra). assert (E4 : FR d_4 = 4) by (unfold d_4; cbn [FR]; unfold pw; simpl; lra).
  constructor; [right; rewrite E3; lra|constructor; [right; rewrite E4; lra|constructor]].
Qed.
Print Assumptions C130_in_range. Print Assumptions C130_length. Print Assumptions C130_refuted.
