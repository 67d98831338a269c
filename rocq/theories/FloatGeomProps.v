(** C131-C137: averages, extrema, areas, distances, inverses and matrix products in floating-point
    arithmetic. Every theorem that is not a refutation holds for every binary format. *)
From Coq Require Import ZArith Reals Lia Lra Psatz Bool List SpecFloat.
From Verif Require Import FloatRound FloatModel FloatProofs FloatProps.
Import ListNotations.
Local Open Scope R_scope.

Section Basics.
Variables prec emax : Z.
Hypothesis Hf : format prec emax.
Let Hprec : (1 < prec)%Z. Proof. apply Hf. Qed.
Let Hemax : (prec + 3 <= emax)%Z. Proof. apply Hf. Qed.
Let Hem : (prec < emax)%Z. Proof. lia. Qed.
Notation u := (uu prec).
Notation eta := (eta prec emax).
Notation add := (SFadd prec emax).
Notation sub := (SFsub prec emax).
Notation mul := (SFmul prec emax).
Notation div := (SFdiv prec emax).
Notation valid := (valid_binary prec emax).

(** a value that rounds to a finite number is below 2^emax *)
Lemma rnd_fin_lt v z : rnd prec emax v z -> fin z = true -> Rabs v < pw emax.
Proof.
  intros (s & w & f & r & W & -> & (Hfe & Lt & Ge & Near & _) & C) F.
  assert (A : Rabs (sgnR s * w) = w) by (apply sgn_abs; exact W). rewrite A.
  destruct (Rlt_dec w (pw emax)) as [|G]; [assumption|exfalso]. apply Rnot_lt_le in G.
  assert (E : (emax < prec + f)%Z). { destruct (Z_lt_le_dec emax (prec + f)); [assumption|]. pose proof (pw_le _ _ l). lra. }
  destruct Ge as [->|Ge]; [unfold emin in E; lia|].
  assert (K : (2 ^ (prec - 1) <= r)%Z).
  { apply (int_near r _ (w * pw (- f)) Near). rewrite pw_Z by lia. apply Rmult_le_reg_r with (pw f); [apply pw_pos|]. rewrite Rmult_assoc, pw_inv, Rmult_1_r, <- pw_add. exact Ge. }
  assert (Q : pw emax <= IZR r * pw f).
  { apply Rle_trans with (pw (prec - 1) * pw f); [rewrite <- pw_add; apply pw_le; lia|]. apply Rmult_le_compat_r; [left; apply pw_pos|]. rewrite <- pw_Z by lia. apply IZR_le. exact K. }
  destruct C as [(_ & Z)|[(m & e & Ez & B & Eq)|(-> & _)]]; [pose proof (pw_pos emax); lra| |discriminate].
  assert (I : isfl prec emax (IZR (Z.pos m) * pw e)).
  { exists (S754_finite false m e). split; [reflexivity|]. split; [exact B|]. cbn [FR]. ring. }
  apply isfl_lt in I. lra.
Qed.
Lemma div_fin x y : fin y = true -> fin (div x y) = true -> fin x = true.
Proof. destruct x as [[]|[]| |[] m e], y as [[]|[]| |[] m' e']; intros F; cbn; congruence. Qed.
Lemma pos_lt : (0 < 1 < 2 ^ prec)%Z.
Proof. split; [lia|]. apply Z.pow_gt_1; lia. Qed.
(** a finite number over an exact integer *)
Lemma div_int x k : valid x = true -> (0 < k < 2 ^ prec)%Z -> fin (div x (of_int prec emax k)) = true ->
  fin x = true /\ approx prec emax (div x (of_int prec emax k)) (FR x / IZR k) (Rmax (u * Rabs (FR x / IZR k)) eta).
Proof.
  intros V K F. destruct (of_int_exact prec emax Hprec Hemax k K) as (F2 & V2 & E2). pose proof (div_fin _ _ F2 F) as F1. split; [exact F1|].
  rewrite <- E2. apply div_correct; try assumption. rewrite E2. apply not_0_IZR. lia.
Qed.
Lemma approx_near z v e : approx prec emax z v e -> fin z = true -> Rabs (FR z - v) <= e.
Proof. intros [_ [(_ & _ & E & _)|(s & -> & _)]] F; [exact E|discriminate]. Qed.
Lemma max_le v : Rmax (u * Rabs v) eta <= u * Rabs v + eta.
Proof. pose proof (uabs prec v). pose proof (eta_pos prec emax). apply Rmax_lub; lra. Qed.

(** the average of two numbers *)
Lemma halve x : fin x = true -> valid x = true -> fin (div x (of_int prec emax 2)) = true.
Proof.
  intros F V. destruct (of_int_exact prec emax Hprec Hemax 2 (two_lt prec Hprec)) as (F2 & V2 & E2).
  pose proof (div_correct prec emax Hprec Hem x _ F F2 V V2 ltac:(rewrite E2; lra)) as A. rewrite E2 in A.
  destruct A as [_ [(H & _)|(s & _ & _ & G)]]; [exact H|exfalso].
  pose proof (G _ (isfl_FR prec emax x F V)) as G1. pose proof (G _ (isfl_0 prec emax)) as G2. destruct s; unfold sgnR in *; lra.
Qed.
Lemma double_bounds x z v e : fin x = true -> valid x = true -> approx prec emax z v e -> fin z = true ->
  (v <= 2 * FR x -> FR z <= 2 * FR x) /\ (2 * FR x <= v -> 2 * FR x <= FR z).
Proof.
  intros Fx Vx A F. pose proof (rnd_fin_lt _ _ (proj1 A) F) as B. pose proof (approx_valid prec emax _ _ _ A) as Vz.
  pose proof (isfl_lt prec emax _ (isfl_FR prec emax z F Vz)) as L1. pose proof (isfl_lt prec emax _ (isfl_opp _ _ _ (isfl_FR prec emax z F Vz))) as L2.
  destruct (isfl_double prec emax Hprec Hemax x Fx Vx) as [I|G].
  - destruct (approx_le _ _ _ _ _ _ A F I) as [A1 A2]. split; assumption.
  - unfold Rabs in B, G. split; intros H; repeat destruct Rcase_abs; lra.
Qed.
End Basics.

(** ** C131: averages *)
Theorem C131_two prec emax t v : format prec emax -> number prec emax t -> number prec emax v -> fin (SFadd prec emax t v) = true ->
  fin (faverage2 prec emax t v) = true /\ Rmin (FR t) (FR v) <= FR (faverage2 prec emax t v) <= Rmax (FR t) (FR v).
Proof.
  intros Hf Vt Vv F. destruct Hf as [Hp He] eqn:Hfe. clear Hfe. pose proof (conj Hp He : format prec emax) as Hf'. unfold faverage2.
  destruct (add_fin prec emax t v F) as [Ft Fv]. pose proof (add_correct prec emax Hp ltac:(lia) t v Ft Fv Vt Vv) as A.
  pose proof (approx_valid prec emax _ _ _ A) as Vz. pose proof (halve prec emax Hf' _ F Vz) as F2. split; [exact F2|].
  destruct (div_int prec emax Hf' _ 2 Vz (two_lt prec Hp) F2) as [_ D].
  destruct (double_bounds prec emax Hf' t _ _ _ Ft Vt A F) as [T1 T2]. destruct (double_bounds prec emax Hf' v _ _ _ Fv Vv A F) as [V1 V2].
  destruct (approx_le _ _ _ _ _ _ D F2 (isfl_FR prec emax t Ft Vt)) as [D1 D2]. destruct (approx_le _ _ _ _ _ _ D F2 (isfl_FR prec emax v Fv Vv)) as [D3 D4].
  change (IZR 2) with 2 in *. unfold Rmin, Rmax. destruct (Rle_dec (FR t) (FR v)); split.
  - apply D1. lra.
  - apply D4. lra.
  - apply D3. lra.
  - apply D2. lra.
Qed.
Theorem C131_same prec emax t : format prec emax -> number prec emax t -> fin (SFadd prec emax t t) = true ->
  FR (faverage2 prec emax t t) = FR t.
Proof.
  intros Hf V F. destruct (C131_two prec emax t t Hf V V F) as [_ B]. unfold Rmin, Rmax in B. destruct Rle_dec; lra.
Qed.
(** the average of any number of values, against the exact mean *)
Theorem C131_mean prec emax xs : format prec emax -> numbers prec emax xs -> (0 < Z.of_nat (length xs) < 2 ^ prec)%Z -> fin (faverage prec emax xs) = true ->
  Rabs (FR (faverage prec emax xs) - sumR (map FR xs) / INR (length xs)) <=
    ((1 + uu prec) ^ length xs - 1) * (sumR (map (fun x => Rabs (FR x)) xs) / INR (length xs)) + eta prec emax.
Proof.
  intros Hf V K F. pose proof Hf as [Hp He]. unfold faverage in *. set (z := fold_left (SFadd prec emax) xs f0) in *.
  assert (Vz : valid_binary prec emax z = true) by (apply valid_fold; try assumption; reflexivity).
  destruct (div_int prec emax Hf z _ Vz K F) as [Fz D]. apply (approx_near prec emax) in D; [|exact F]. rewrite <- INR_IZR_INZ in D.
  pose proof (sum0_err prec emax Hp He xs V Fz) as S. fold z in S. set (n := INR (length xs)) in *. assert (N : 0 < n) by (unfold n; apply lt_0_INR; lia).
  pose proof (Rle_trans _ _ _ D (max_le prec emax (FR z / n))) as D'. clear D. set (H := sumR (map (fun x => Rabs (FR x)) xs)) in *. set (S0 := sumR (map FR xs)) in *.
  pose proof (u_pos prec) as U. pose proof (eta_pos prec emax) as E0. pose proof (pow_step (uu prec) (length xs) ltac:(lra) ltac:(lia)) as Ps. rewrite <- Ps. set (p := (1 + uu prec) ^ (length xs - 1)) in *.
  assert (H1 : Rabs S0 <= H) by (apply sumR_abs).
  assert (Z1 : Rabs (FR z) <= p * H). { replace (FR z) with ((FR z - S0) + S0) by ring. eapply Rle_trans; [apply Rabs_triang|]. lra. }
  assert (Dn : forall x, Rabs (x / n) = Rabs x / n). { intros x. unfold Rdiv. rewrite Rabs_mult, (Rabs_pos_eq (/ n)); [reflexivity|]. left. apply Rinv_0_lt_compat. exact N. }
  rewrite Dn in D'. replace (FR (SFdiv prec emax z (of_int prec emax (Z.of_nat (length xs)))) - S0 / n) with
    ((FR (SFdiv prec emax z (of_int prec emax (Z.of_nat (length xs)))) - FR z / n) + (FR z - S0) / n) by (field; lra).
  eapply Rle_trans; [apply Rabs_triang|]. rewrite (Dn (FR z - S0)).
  assert (I : 0 < / n) by (apply Rinv_0_lt_compat; exact N).
  assert (Q1 : Rabs (FR z) / n <= p * H / n) by (unfold Rdiv; apply Rmult_le_compat_r; lra). assert (Q2 : Rabs (FR z - S0) / n <= (p - 1) * H / n) by (unfold Rdiv; apply Rmult_le_compat_r; lra).
  assert (Q3 : uu prec * (Rabs (FR z) / n) <= uu prec * (p * H / n)) by (apply Rmult_le_compat_l; lra).
  replace ((p * (1 + uu prec) - 1) * (H / n)) with (uu prec * (p * H / n) + (p - 1) * H / n) by (field; lra). lra.
Qed.
Theorem C131_mean_args prec emax t args : format prec emax -> numbers prec emax (t :: args) -> (0 < Z.of_nat (length args) + 1 < 2 ^ prec)%Z -> fin (faverage_args prec emax t args) = true ->
  let n := INR (S (length args)) in
  Rabs (FR (faverage_args prec emax t args) - sumR (map FR (t :: args)) / n) <=
    ((1 + uu prec) ^ S (length args) - 1) * (sumR (map (fun x => Rabs (FR x)) (t :: args)) / n) + eta prec emax.
Proof.
  intros Hf V K F n. pose proof Hf as [Hp He]. inversion V as [|? ? Vt Va]; subst. unfold faverage_args in *. set (z := fold_left (SFadd prec emax) args t) in *.
  assert (Vz : valid_binary prec emax z = true) by (apply valid_fold; assumption).
  destruct (div_int prec emax Hf z _ Vz K F) as [Fz D]. apply (approx_near prec emax) in D; [|exact F].
  replace (IZR (Z.of_nat (length args) + 1)) with n in D by (unfold n; rewrite INR_IZR_INZ; f_equal; lia).
  pose proof (fold_err prec emax Hp He args t Vt Va Fz) as S. fold z in S. assert (N : 0 < n) by (unfold n; apply lt_0_INR; lia).
  pose proof (Rle_trans _ _ _ D (max_le prec emax (FR z / n))) as D'. clear D. cbn [map]. rewrite !sumR_cons. set (H := Rabs (FR t) + sumR (map (fun x => Rabs (FR x)) args)) in *. set (S0 := FR t + sumR (map FR args)) in *.
  pose proof (u_pos prec) as U. pose proof (eta_pos prec emax) as E0. cbn [pow]. set (p := (1 + uu prec) ^ length args) in *.
  assert (H1 : Rabs S0 <= H) by (unfold S0, H; eapply Rle_trans; [apply Rabs_triang|]; apply Rplus_le_compat_l, sumR_abs).
  assert (Z1 : Rabs (FR z) <= p * H). { replace (FR z) with ((FR z - S0) + S0) by ring. eapply Rle_trans; [apply Rabs_triang|]. lra. }
  assert (Dn : forall x, Rabs (x / n) = Rabs x / n). { intros x. unfold Rdiv. rewrite Rabs_mult, (Rabs_pos_eq (/ n)); [reflexivity|]. left. apply Rinv_0_lt_compat. exact N. }
  rewrite Dn in D'. set (q := FR (SFdiv prec emax z (of_int prec emax (Z.of_nat (length args) + 1)))) in *. replace (q - S0 / n) with ((q - FR z / n) + (FR z - S0) / n) by (field; lra).
  eapply Rle_trans; [apply Rabs_triang|]. rewrite (Dn (FR z - S0)).
  assert (I : 0 < / n) by (apply Rinv_0_lt_compat; exact N).
  assert (Q1 : Rabs (FR z) / n <= p * H / n) by (unfold Rdiv; apply Rmult_le_compat_r; lra). assert (Q2 : Rabs (FR z - S0) / n <= (p - 1) * H / n) by (unfold Rdiv; apply Rmult_le_compat_r; lra).
  assert (Q3 : uu prec * (Rabs (FR z) / n) <= uu prec * (p * H / n)) by (apply Rmult_le_compat_l; lra).
  replace (((1 + uu prec) * p - 1) * (H / n)) with (uu prec * (p * H / n) + (p - 1) * H / n) by (field; lra). lra.
Qed.
(** an average is not always between the extremes of its arguments, even when they are all equal, and can be infinite *)
Theorem C131_refuted :
  SFltb d_tenth (faverage 53 1024 (repeat d_tenth 3)) = true /\ SFltb (faverage 53 1024 (repeat d_tenth 10)) d_tenth = true /\
  SFltb d_tenth (faverage_args 53 1024 d_tenth [d_tenth; d_tenth]) = true /\
  faverage2 53 1024 d_max d_max = S754_infinity false.
Proof. vm_compute. repeat split. Qed.
Example C131_ex : numbers 53 1024 [d_tenth; d_02; d_06] /\ fin (faverage 53 1024 [d_tenth; d_02; d_06]) = true /\ fin (SFadd 53 1024 d_tenth d_02) = true.
Proof. repeat split; repeat constructor. Qed.
Print Assumptions C131_two. Print Assumptions C131_same. Print Assumptions C131_mean. Print Assumptions C131_mean_args. Print Assumptions C131_refuted.

(** ** C132: minimum, maximum and sign *)
Lemma ltb_spec prec emax x y : fin x = true -> fin y = true -> number prec emax x -> number prec emax y ->
  SFltb x y = if Rlt_dec (FR x) (FR y) then true else false.
Proof.
  intros Fx Fy Vx Vy. unfold SFltb. rewrite (compare_correct prec emax x y Fx Fy Vx Vy). destruct (Rlt_dec (FR x) (FR y)); [reflexivity|]. destruct (Rlt_dec (FR y) (FR x)); reflexivity.
Qed.
Definition finites (a : list spec_float) : Prop := Forall (fun x => fin x = true) a.
Theorem C132_min prec emax x y : fin x = true -> fin y = true -> number prec emax x -> number prec emax y -> FR (std_min x y) = Rmin (FR x) (FR y).
Proof. intros. unfold std_min. rewrite (ltb_spec prec emax) by assumption. unfold Rmin. destruct Rlt_dec, Rle_dec; lra. Qed.
Theorem C132_max prec emax x y : fin x = true -> fin y = true -> number prec emax x -> number prec emax y -> FR (std_max x y) = Rmax (FR x) (FR y).
Proof. intros. unfold std_max. rewrite (ltb_spec prec emax) by assumption. unfold Rmax. destruct Rlt_dec, Rle_dec; lra. Qed.
Theorem C132_elementwise prec emax a b : finites a -> finites b -> numbers prec emax a -> numbers prec emax b ->
  map FR (fmin a b) = map (fun p => Rmin (fst p) (snd p)) (combine (map FR a) (map FR b)) /\
  map FR (fmax a b) = map (fun p => Rmax (fst p) (snd p)) (combine (map FR a) (map FR b)).
Proof.
  unfold fmin, fmax. revert b. induction a as [|x a IH]; intros [|y b] Fa Fb Va Vb; try (split; reflexivity). inversion Fa; inversion Fb; inversion Va; inversion Vb; subst.
  destruct (IH b) as [I1 I2]; try assumption. cbn [combine map fst snd]. rewrite I1, I2, (C132_min prec emax), (C132_max prec emax) by assumption. split; reflexivity.
Qed.
Theorem C132_sgn prec emax v : fin v = true -> number prec emax v ->
  fsgn v = (if Rlt_dec 0 (FR v) then 1 else if Rlt_dec (FR v) 0 then -1 else 0)%Z.
Proof.
  intros F V. unfold fsgn. rewrite !(ltb_spec prec emax) by (assumption || reflexivity). cbn [FR f0]. destruct (Rlt_dec 0 (FR v)), (Rlt_dec (FR v) 0); try reflexivity. lra.
Qed.
(** with a NaN the order of the arguments decides, a NaN has sign 0 like a zero, and the two zeros are not told apart *)
Theorem C132_refuted :
  std_min S754_nan d_1 = S754_nan /\ std_min d_1 S754_nan = d_1 /\ std_max S754_nan d_1 = S754_nan /\ std_max d_1 S754_nan = d_1 /\
  fsgn S754_nan = 0%Z /\ std_min (S754_zero false) (S754_zero true) <> std_min (S754_zero true) (S754_zero false).
Proof. repeat split. discriminate. Qed.
Example C132_ex : std_min d_3 d_2 = d_2 /\ std_max d_3 d_2 = d_3 /\ fsgn (SFopp d_3) = (-1)%Z /\ fmin [d_1; d_4] [d_2; d_3] = [d_1; d_3].
Proof. repeat split. Qed.
Print Assumptions C132_min. Print Assumptions C132_max. Print Assumptions C132_elementwise. Print Assumptions C132_sgn. Print Assumptions C132_refuted.

(** ** C133: areas *)
Section Area.
Variables prec emax : Z.
Hypothesis Hf : format prec emax.
Let Hprec : (1 < prec)%Z. Proof. apply Hf. Qed.
Let Hemax : (prec + 3 <= emax)%Z. Proof. apply Hf. Qed.
Let Hem : (prec < emax)%Z. Proof. lia. Qed.
Notation u := (uu prec).
Notation eta := (eta prec emax).
Notation add := (SFadd prec emax).
Notation sub := (SFsub prec emax).
Notation mul := (SFmul prec emax).
Notation div := (SFdiv prec emax).
Notation valid := (valid_binary prec emax).
(** a difference of two products *)
Lemma cross_near a b c d : valid a = true -> valid b = true -> valid c = true -> valid d = true -> fin (sub (mul a b) (mul c d)) = true ->
  Rabs (FR (sub (mul a b) (mul c d)) - (FR a * FR b - FR c * FR d)) <=
    ((1 + u) ^ 2 - 1) * (Rabs (FR a * FR b) + Rabs (FR c * FR d)) + 2 * (1 + u) * eta.
Proof.
  intros Va Vb Vc Vd F. destruct (sub_fin prec emax _ _ F) as [F1 F2].
  pose proof (mul_near' prec emax Hprec Hemax a b Va Vb F1) as E1. pose proof (mul_near' prec emax Hprec Hemax c d Vc Vd F2) as E2.
  assert (V1 : valid (mul a b) = true) by (apply valid_mul; assumption). assert (V2 : valid (mul c d) = true) by (apply valid_mul; assumption).
  destruct (sub_near prec emax Hprec Hemax _ _ V1 V2 F) as [_ E3]. pose proof (u_pos prec) as U. pose proof (eta_pos prec emax) as P.
  set (p := FR (mul a b)) in *. set (q := FR (mul c d)) in *. set (z := FR (sub (mul a b) (mul c d))) in *. set (x := FR a * FR b) in *. set (y := FR c * FR d) in *.
  assert (T : Rabs (p - q) <= Rabs (p - x) + Rabs x + (Rabs (q - y) + Rabs y)).
  { replace (p - q) with ((p - x + x) + - (q - y + y)) by ring. eapply Rle_trans; [apply Rabs_triang|]. rewrite Rabs_Ropp. apply Rplus_le_compat; apply Rabs_triang. }
  replace (z - (x - y)) with ((z - (p - q)) + ((p - x) + - (q - y))) by ring. eapply Rle_trans; [apply Rabs_triang|].
  pose proof (Rabs_triang (p - x) (- (q - y))) as T2. rewrite Rabs_Ropp in T2.
  assert (T3 : u * Rabs (p - q) <= u * ((1 + u) * (Rabs x + Rabs y) + 2 * eta)) by (apply Rmult_le_compat_l; lra).
  replace (((1 + u) ^ 2 - 1) * (Rabs x + Rabs y) + 2 * (1 + u) * eta) with (u * ((1 + u) * (Rabs x + Rabs y) + 2 * eta) + (u * (Rabs x + Rabs y) + 2 * eta)) by ring. lra.
Qed.
Lemma fin_cross a b c d : fin (sub (mul a b) (mul c d)) = true -> fin a = true /\ fin b = true /\ fin c = true /\ fin d = true.
Proof.
  intros F. destruct (sub_fin prec emax _ _ F) as [F1 F2]. destruct (mul_fin _ _ _ _ F1), (mul_fin _ _ _ _ F2). repeat split; assumption.
Qed.
Notation point := (spec_float * spec_float)%type.
Definition pvalid (p : point) : Prop := valid (fst p) = true /\ valid (snd p) = true.
Definition edge (e : point * point) : spec_float := sub (mul (fst (fst e)) (snd (snd e))) (mul (fst (snd e)) (snd (fst e))).
Lemma loop_fold pts : forall a po, farea_loop prec emax a po pts = fold_left add (map edge (combine (po :: pts) pts)) a.
Proof.
  induction pts as [|pn pts IH]; intros a po; [reflexivity|]. cbn [farea_loop]. rewrite IH. reflexivity.
Qed.
End Area.
(** the exact signed double area, and the sum of the magnitudes of its terms *)
Definition edges (po : spec_float * spec_float) (pts : list (spec_float * spec_float)) := combine (po :: pts) pts.
Definition shoelaceR (l : list (spec_float * spec_float * (spec_float * spec_float))) : R :=
  sumR (map (fun e => FR (fst (fst e)) * FR (snd (snd e)) - FR (fst (snd e)) * FR (snd (fst e))) l).
Definition shoelace_absR (l : list (spec_float * spec_float * (spec_float * spec_float))) : R :=
  sumR (map (fun e => Rabs (FR (fst (fst e)) * FR (snd (snd e))) + Rabs (FR (fst (snd e)) * FR (snd (fst e)))) l).
Lemma edges_length po pts : length (edges po pts) = length pts.
Proof. unfold edges. rewrite combine_length. cbn [length]. lia. Qed.
Lemma area_error prec emax po pts : format prec emax -> (0 < length pts)%nat -> Forall (pvalid prec emax) (po :: pts) ->
  let z := SFabs (SFdiv prec emax (farea_loop prec emax f0 po pts) (of_int prec emax 2)) in
  fin z = true ->
  let n := length pts in
  Rabs (FR z - Rabs (shoelaceR (edges po pts)) / 2) <=
    ((1 + uu prec) ^ (n + 2) - 1) * (shoelace_absR (edges po pts) / 2) + ((1 + uu prec) ^ (n + 1) * INR n + 1) * eta prec emax.
Proof.
  intros Hf N V z F n. pose proof Hf as [Hp He]. unfold z in *. rewrite fin_abs in F. rewrite FR_abs. rewrite loop_fold in *. fold (edges po pts) in *.
  set (l := edges po pts) in *. set (s := fold_left (SFadd prec emax) (map (edge prec emax) l) f0) in *.
  pose proof (u_pos prec) as U. pose proof (eta_pos prec emax) as E0.
  assert (Vl : forall e, In e l -> valid_binary prec emax (fst (fst e)) = true /\ valid_binary prec emax (snd (fst e)) = true /\ valid_binary prec emax (fst (snd e)) = true /\ valid_binary prec emax (snd (snd e)) = true).
  { intros [p q] He'. rewrite Forall_forall in V. destruct (V p (in_combine_l _ _ _ _ He')). destruct (V q (or_intror (in_combine_r _ _ _ _ He'))). repeat split; assumption. }
  assert (Ve : forall e, In e l -> valid_binary prec emax (edge prec emax e) = true).
  { intros e He'. destruct (Vl e He') as (V1 & V2 & V3 & V4). apply valid_sub; try assumption; apply valid_mul; assumption. }
  assert (Vs : valid_binary prec emax s = true) by (apply valid_fold; try assumption; [reflexivity|apply Forall_map, Forall_forall; exact Ve]).
  destruct (div_int prec emax Hf s 2 Vs (two_lt prec Hp) F) as [Fs D]. apply (approx_near prec emax) in D; [|exact F]. pose proof (Rle_trans _ _ _ D (max_le prec emax _)) as D'. clear D.
  pose proof (sum_terms prec emax Hp He (edge prec emax) (fun e => FR (fst (fst e)) * FR (snd (snd e)) - FR (fst (snd e)) * FR (snd (fst e)))
    (fun e => Rabs (FR (fst (fst e)) * FR (snd (snd e))) + Rabs (FR (fst (snd e)) * FR (snd (fst e)))) l ((1 + uu prec) ^ 2 - 1) (2 * (1 + uu prec) * eta prec emax) ltac:(nra) ltac:(nra) Ve) as S.
  specialize (S ltac:(intros e He' Fe; destruct (Vl e He') as (V1 & V2 & V3 & V4); apply cross_near; assumption)).
  specialize (S ltac:(intros e He'; unfold Rminus; rewrite <- (Rabs_Ropp (FR (fst (snd e)) * FR (snd (fst e)))); apply Rabs_triang) Fs).
  fold s (shoelaceR l) (shoelace_absR l) in S. assert (Ln : length l = n) by (apply edges_length). rewrite Ln in S.
  assert (H0 : 0 <= shoelace_absR l). { apply sumR_nonneg, Forall_map, Forall_forall. intros e _. apply Rplus_le_le_0_compat; apply Rabs_pos. }
  assert (H1 : Rabs (shoelaceR l) <= shoelace_absR l).
  { eapply Rle_trans; [apply sumR_abs|]. apply sumR_le. intros e _. unfold Rminus. eapply Rle_trans; [apply Rabs_triang|]. rewrite Rabs_Ropp. lra. }
  set (S0 := shoelaceR l) in *. set (H := shoelace_absR l) in *. set (d := FR (SFdiv prec emax s (of_int prec emax 2))) in *. change (IZR 2) with 2 in *.
  assert (R1 : Rabs (Rabs d - Rabs S0 / 2) <= Rabs (d - S0 / 2)).
  { replace (Rabs S0 / 2) with (Rabs (S0 / 2)) by (unfold Rdiv; rewrite Rabs_mult, (Rabs_pos_eq (/ 2)) by lra; reflexivity). apply Rabs_triang_inv2. }
  eapply Rle_trans; [exact R1|]. replace (d - S0 / 2) with ((d - FR s / 2) + (FR s - S0) / 2) by lra. eapply Rle_trans; [apply Rabs_triang|].
  assert (Half : forall x, Rabs (x / 2) = Rabs x / 2) by (intros x; unfold Rdiv; rewrite Rabs_mult, (Rabs_pos_eq (/ 2)) by lra; reflexivity). rewrite (Half (FR s - S0)). rewrite Half in D'.
  assert (Z1 : Rabs (FR s) <= Rabs (FR s - S0) + H). { replace (FR s) with ((FR s - S0) + S0) at 1 by ring. eapply Rle_trans; [apply Rabs_triang|]. lra. }
  set (p := (1 + uu prec) ^ (n - 1)) in *. set (X := Rabs (FR s - S0)) in *.
  assert (B : uu prec * (Rabs (FR s) / 2) <= uu prec * ((X + H) / 2)) by (apply Rmult_le_compat_l; lra).
  apply Rle_trans with (((1 + uu prec) * (X + H) - H) / 2 + eta prec emax); [lra|].
  assert (C : (1 + uu prec) * (X + H) <= (1 + uu prec) * ((p * (1 + ((1 + uu prec) ^ 2 - 1)) - 1) * H + p * (INR n * (2 * (1 + uu prec) * eta prec emax)) + H)) by (apply Rmult_le_compat_l; lra).
  assert (G1 : (1 + uu prec) ^ (n + 2) = p * (1 + uu prec) ^ 3) by (unfold p; rewrite <- pow_add; f_equal; unfold n; lia).
  assert (G2 : (1 + uu prec) ^ (n + 1) = p * (1 + uu prec) ^ 2) by (unfold p; rewrite <- pow_add; f_equal; unfold n; lia).
  rewrite G1, G2. apply Rle_trans with ((1 + uu prec) * ((p * (1 + ((1 + uu prec) ^ 2 - 1)) - 1) * H + p * (INR n * (2 * (1 + uu prec) * eta prec emax)) + H) / 2 - H / 2 + eta prec emax); [lra|].
  right. field.
Qed.
Theorem C133_area prec emax pts : format prec emax -> (0 < length pts)%nat -> Forall (pvalid prec emax) pts -> fin (farea_2d prec emax pts) = true ->
  let l := edges (last pts (f0, f0)) pts in let n := length pts in
  Rabs (FR (farea_2d prec emax pts) - Rabs (shoelaceR l) / 2) <=
    ((1 + uu prec) ^ (n + 2) - 1) * (shoelace_absR l / 2) + ((1 + uu prec) ^ (n + 1) * INR n + 1) * eta prec emax.
Proof.
  intros Hf N V F l n. apply area_error; try assumption. constructor; [|exact V].
  destruct pts as [|q pts] using rev_ind; [cbn in N; lia|]. rewrite last_last. apply Forall_app in V. destruct V as [_ V]. inversion V; assumption.
Qed.
Theorem C133_area_args prec emax t args : format prec emax -> Forall (pvalid prec emax) (t :: args) -> fin (farea_2d_args prec emax t args) = true ->
  let l := edges t (args ++ [t]) in let n := S (length args) in
  Rabs (FR (farea_2d_args prec emax t args) - Rabs (shoelaceR l) / 2) <=
    ((1 + uu prec) ^ (n + 2) - 1) * (shoelace_absR l / 2) + ((1 + uu prec) ^ (n + 1) * INR n + 1) * eta prec emax.
Proof.
  intros Hf V F l n. pose proof (area_error prec emax t (args ++ [t]) Hf) as E. rewrite app_length, Nat.add_1_r in E. apply E; [lia| |exact F].
  inversion V; subst. constructor; [assumption|]. apply Forall_app. split; [assumption|repeat constructor; apply H1].
Qed.
(** the triangle: the corner is subtracted first, so that moving the points by an exact amount changes nothing *)
Definition pfin (p : spec_float * spec_float) : Prop := fin (fst p) = true /\ fin (snd p) = true.
Theorem C133_triangle_translation prec emax p0 p1 p2 q0 q1 q2 : format prec emax ->
  Forall (fun p => pvalid prec emax p /\ pfin p) [p0; p1; p2; q0; q1; q2] ->
  FR (fst p1) - FR (fst p0) = FR (fst q1) - FR (fst q0) -> FR (snd p1) - FR (snd p0) = FR (snd q1) - FR (snd q0) ->
  FR (fst p2) - FR (fst p0) = FR (fst q2) - FR (fst q0) -> FR (snd p2) - FR (snd p0) = FR (snd q2) - FR (snd q0) ->
  ftriangle_area prec emax p0 p1 p2 = ftriangle_area prec emax q0 q1 q2.
Proof.
  intros [Hp He] V E1 E2 E3 E4. unfold ftriangle_area, fcross2. cbn [fst snd]. f_equal.
  repeat match goal with H : Forall _ (_ :: _) |- _ => inversion H; clear H; subst end.
  repeat match goal with H : _ /\ _ |- _ => destruct H | H : pvalid _ _ _ |- _ => destruct H | H : pfin _ |- _ => destruct H end.
  apply same_abs. apply same_sub; apply same_mul; apply sub_same; assumption.
Qed.
Theorem C133_triangle prec emax p0 p1 p2 : format prec emax -> Forall (pvalid prec emax) [p0; p1; p2] -> fin (ftriangle_area prec emax p0 p1 p2) = true ->
  let ux := FR (fst p1) - FR (fst p0) in let uy := FR (snd p1) - FR (snd p0) in
  let vx := FR (fst p2) - FR (fst p0) in let vy := FR (snd p2) - FR (snd p0) in
  Rabs (FR (ftriangle_area prec emax p0 p1 p2) - Rabs (ux * vy - uy * vx) / 2) <=
    ((1 + uu prec) ^ 5 - 1) * ((Rabs (ux * vy) + Rabs (uy * vx)) / 2) + ((1 + uu prec) ^ 2 + 1) * eta prec emax.
Proof.
  intros Hf V F ux uy vx vy. pose proof Hf as [Hp He]. pose proof (u_pos prec) as U. pose proof (eta_pos prec emax) as E0.
  repeat match goal with H : Forall _ (_ :: _) |- _ => inversion H; clear H; subst end.
  repeat match goal with H : pvalid _ _ _ |- _ => destruct H end.
  unfold ftriangle_area in *. unfold fcross2 in *. cbn [fst snd] in *.
  set (fux := SFsub prec emax (fst p1) (fst p0)) in *. set (fuy := SFsub prec emax (snd p1) (snd p0)) in *. set (fvx := SFsub prec emax (fst p2) (fst p0)) in *. set (fvy := SFsub prec emax (snd p2) (snd p0)) in *.
  destruct (mul_fin _ _ _ _ F) as [Fh Fc]. rewrite fin_abs in Fc. destruct (fin_cross prec emax _ _ _ _ Fc) as (F1 & F2 & F3 & F4).
  destruct (sub_near prec emax Hp He (fst p1) (fst p0) ltac:(assumption) ltac:(assumption) F1) as [V1 N1]. destruct (sub_near prec emax Hp He (snd p2) (snd p0) ltac:(assumption) ltac:(assumption) F2) as [V2 N2].
  destruct (sub_near prec emax Hp He (snd p1) (snd p0) ltac:(assumption) ltac:(assumption) F3) as [V3 N3]. destruct (sub_near prec emax Hp He (fst p2) (fst p0) ltac:(assumption) ltac:(assumption) F4) as [V4 N4].
  fold fux fuy fvx fvy ux uy vx vy in V1, V2, V3, V4, N1, N2, N3, N4.
  pose proof (cross_near prec emax Hf fux fvy fuy fvx V1 V2 V3 V4 Fc) as C. set (c := SFsub prec emax (SFmul prec emax fux fvy) (SFmul prec emax fuy fvx)) in *.
  assert (Vc : valid_binary prec emax c = true) by (apply valid_sub; try assumption; apply valid_mul; assumption).
  assert (PR : forall x x' y y', Rabs (x' - x) <= uu prec * Rabs x -> Rabs (y' - y) <= uu prec * Rabs y ->
     Rabs (x' * y' - x * y) <= ((1 + uu prec) ^ 2 - 1) * Rabs (x * y) /\ Rabs (x' * y') <= (1 + uu prec) ^ 2 * Rabs (x * y)).
  { intros x x' y y' A B. assert (Q : Rabs (x' * y' - x * y) <= ((1 + uu prec) ^ 2 - 1) * Rabs (x * y)).
    { replace (x' * y' - x * y) with ((x' - x) * (y' - y) + ((x' - x) * y + x * (y' - y))) by ring. eapply Rle_trans; [apply Rabs_triang|]. pose proof (Rabs_triang ((x' - x) * y) (x * (y' - y))) as T. rewrite !Rabs_mult in *.
      pose proof (Rabs_pos x). pose proof (Rabs_pos y). pose proof (Rabs_pos (x' - x)). pose proof (Rabs_pos (y' - y)).
      assert (Rabs (x' - x) * Rabs (y' - y) <= (uu prec * Rabs x) * (uu prec * Rabs y)) by (apply Rmult_le_compat; assumption).
      assert (Rabs (x' - x) * Rabs y <= uu prec * Rabs x * Rabs y) by (apply Rmult_le_compat_r; assumption). assert (Rabs x * Rabs (y' - y) <= Rabs x * (uu prec * Rabs y)) by (apply Rmult_le_compat_l; assumption). nra. }
    split; [exact Q|]. replace (x' * y') with ((x' * y' - x * y) + x * y) by ring. eapply Rle_trans; [apply Rabs_triang|]. lra. }
  destruct (PR _ _ _ _ N1 N2) as [A1 A2]. destruct (PR _ _ _ _ N3 N4) as [B1 B2]. clear PR.
  set (P := Rabs (ux * vy) + Rabs (uy * vx)) in *.
  assert (P0 : 0 <= P) by (apply Rplus_le_le_0_compat; apply Rabs_pos).
  assert (C2 : Rabs (FR c - (ux * vy - uy * vx)) <= ((1 + uu prec) ^ 4 - 1) * P + 2 * (1 + uu prec) * eta prec emax).
  { replace (FR c - (ux * vy - uy * vx)) with ((FR c - (FR fux * FR fvy - FR fuy * FR fvx)) + ((FR fux * FR fvy - ux * vy) + - (FR fuy * FR fvx - uy * vx))) by ring.
    eapply Rle_trans; [apply Rabs_triang|]. pose proof (Rabs_triang (FR fux * FR fvy - ux * vy) (- (FR fuy * FR fvx - uy * vx))) as T. rewrite Rabs_Ropp in T.
    assert (K : ((1 + uu prec) ^ 2 - 1) * (Rabs (FR fux * FR fvy) + Rabs (FR fuy * FR fvx)) <= ((1 + uu prec) ^ 2 - 1) * ((1 + uu prec) ^ 2 * P)) by (apply Rmult_le_compat_l; [nra|unfold P; lra]).
    replace (((1 + uu prec) ^ 4 - 1) * P) with (((1 + uu prec) ^ 2 - 1) * ((1 + uu prec) ^ 2 * P) + ((1 + uu prec) ^ 2 - 1) * P) by ring. assert (Pe : Rabs (ux * vy) + Rabs (uy * vx) = P) by reflexivity. assert (K2 : ((1 + uu prec) ^ 2 - 1) * Rabs (ux * vy) + ((1 + uu prec) ^ 2 - 1) * Rabs (uy * vx) = ((1 + uu prec) ^ 2 - 1) * P) by (rewrite <- Pe; ring). lra. }
  assert (Hh : FR (SFdiv prec emax (of_int prec emax 1) (of_int prec emax 2)) = / 2 /\ number prec emax (SFdiv prec emax (of_int prec emax 1) (of_int prec emax 2))).
  { destruct (of_int_exact prec emax Hp He 1 (pos_lt prec emax Hf)) as (G1 & G2 & G3). destruct (div_int prec emax Hf _ 2 G2 (two_lt prec Hp) Fh) as [_ D]. rewrite G3 in D.
    assert (I : isfl prec emax (1 / 2)). { replace (1 / 2) with (IZR 1 * pw (-1)) by (rewrite pw_m1; lra). apply isfl_scaled; try assumption; [apply (pos_lt prec emax Hf)|unfold emin; lia]. }
    destruct (approx_exact _ _ _ _ _ D I) as [_ ->]. split; [lra|]. eapply approx_valid; exact D. }
  destruct Hh as [Hh1 Hh2]. pose proof (mul_near' prec emax Hp He _ (SFabs c) Hh2 ltac:(rewrite valid_abs; exact Vc) F) as M. rewrite FR_abs, Hh1 in M.
  set (z := FR (SFmul prec emax (SFdiv prec emax (of_int prec emax 1) (of_int prec emax 2)) (SFabs c))) in *. set (X := ux * vy - uy * vx) in *.
  assert (X1 : Rabs X <= P). { unfold X, P, Rminus. rewrite <- (Rabs_Ropp (uy * vx)). apply Rabs_triang. }
  pose proof (Rabs_triang_inv2 (FR c) X) as T. rewrite (Rabs_pos_eq (/ 2 * Rabs (FR c))) in M by (pose proof (Rabs_pos (FR c)); lra).
  assert (Z : Rabs (FR c) <= Rabs (FR c - X) + P) by (replace (FR c) with ((FR c - X) + X) at 1 by ring; eapply Rle_trans; [apply Rabs_triang|]; lra).
  replace (z - Rabs X / 2) with ((z - / 2 * Rabs (FR c)) + (Rabs (FR c) - Rabs X) / 2) by lra. eapply Rle_trans; [apply Rabs_triang|].
  assert (Half : Rabs ((Rabs (FR c) - Rabs X) / 2) = Rabs (Rabs (FR c) - Rabs X) / 2) by (unfold Rdiv; rewrite Rabs_mult, (Rabs_pos_eq (/ 2)) by lra; reflexivity). rewrite Half.
  assert (K : uu prec * (/ 2 * Rabs (FR c)) <= uu prec * (/ 2 * (((1 + uu prec) ^ 4 - 1) * P + 2 * (1 + uu prec) * eta prec emax + P))) by (apply Rmult_le_compat_l; lra).
  apply Rle_trans with (uu prec * (/ 2 * (((1 + uu prec) ^ 4 - 1) * P + 2 * (1 + uu prec) * eta prec emax + P)) + eta prec emax + (((1 + uu prec) ^ 4 - 1) * P + 2 * (1 + uu prec) * eta prec emax) / 2); [lra|].
  right. field.
Qed.
(** the area of a polygon is not invariant under exact translations, and depends on which point comes first *)
Theorem C133_refuted :
  farea_2d 53 1024 [(f0, f0); (d_1, f0); (d_1, d_1); (f0, d_1)] = d_1 /\
  farea_2d 53 1024 [(d_c, d_c); (d_c1, d_c); (d_c1, d_c1); (d_c, d_c1)] = S754_zero false /\
  FR d_c1 - FR d_c = FR d_1 - FR f0 /\
  let p := (f0, d_07) in let q := (d_04, d_03) in let r := (d_09, d_tenth) in let s := (d_05, f0) in
  SFltb (farea_2d 53 1024 [p; q; r; s]) (farea_2d_args 53 1024 p [q; r; s]) = true.
Proof.
  split; [vm_compute; reflexivity|]. split; [vm_compute; reflexivity|]. split; [|vm_compute; reflexivity].
  unfold d_c1, d_c, d_1, f0. cbn [FR]. unfold pw. simpl. lra.
Qed.
Example C133_ex : Forall (pvalid 53 1024) [(f0, f0); (d_1, f0); (d_1, d_1); (f0, d_1)] /\ ftriangle_area 53 1024 (d_c, d_c) (d_c1, d_c) (d_c1, d_c1) = d_05.
Proof. split; [repeat constructor|vm_compute; reflexivity]. Qed.
Print Assumptions C133_area. Print Assumptions C133_area_args. Print Assumptions C133_triangle_translation. Print Assumptions C133_triangle. Print Assumptions C133_refuted.

(** ** C134: distances *)
Definition diffs (prec emax : Z) (a b : list spec_float) : list spec_float := map (fun p => SFsub prec emax (fst p) (snd p)) (combine a b).
Definition dist2R (a b : list spec_float) : R := sumR (map (fun p => (FR (fst p) - FR (snd p)) * (FR (fst p) - FR (snd p))) (combine a b)).
Lemma distance_magnitude prec emax a b : fdistance prec emax a b = fmagnitude prec emax (diffs prec emax a b).
Proof.
  unfold fdistance, fmagnitude, diffs. f_equal. generalize f0. induction (combine a b) as [|p l IH]; intros s; [reflexivity|]. cbn [map fold_left]. apply IH.
Qed.
Lemma diffs_length prec emax a b : length a = length b -> length (diffs prec emax a b) = length a.
Proof. intros L. unfold diffs. rewrite map_length, combine_length, <- L, Nat.min_id. reflexivity. Qed.
Lemma diffs_numbers prec emax a b : format prec emax -> numbers prec emax a -> numbers prec emax b -> numbers prec emax (diffs prec emax a b).
Proof.
  intros [Hp He] Va Vb. apply Forall_map, Forall_forall. intros p Hx. destruct (in_combine_numbers _ _ _ _ _ Va Vb Hx). apply valid_sub; assumption.
Qed.
Theorem C134_nonneg prec emax a b : format prec emax -> numbers prec emax a -> numbers prec emax b -> fin (fdistance prec emax a b) = true -> 0 <= FR (fdistance prec emax a b).
Proof. intros Hf Va Vb F. rewrite distance_magnitude in *. apply C129_nonneg; try assumption. apply diffs_numbers; assumption. Qed.
Theorem C134_self prec emax a : finites a -> fdistance prec emax a a = S754_zero false.
Proof.
  intros F. unfold fdistance. replace (fold_left _ _ f0) with f0; [reflexivity|]. induction F as [|x a Fx F IH]; [reflexivity|]. cbn [combine fold_left fst snd].
  destruct (sub_self prec emax x Fx) as [s Es]. rewrite Es. destruct s; exact IH.
Qed.
(** points with a component apart by enough for its square not to underflow are at a positive distance, at least
    the difference of that component *)
Theorem C134_separated prec emax a b x y : format prec emax -> numbers prec emax a -> numbers prec emax b -> fin (fdistance prec emax a b) = true ->
  In (x, y) (combine a b) -> let d := FR (SFsub prec emax x y) in pw (emin prec emax + prec - 1) <= d * d -> 0 < Rabs d <= FR (fdistance prec emax a b).
Proof.
  intros Hf Va Vb F Hx d B. rewrite distance_magnitude in *. pose proof (pw_pos (emin prec emax + prec - 1)). split; [apply Rabs_pos_lt; intros Z; rewrite Z in B; lra|].
  apply C129_component; try assumption; [apply diffs_numbers; assumption| |right; exact B]. unfold diffs. apply in_map_iff. exists (x, y). split; [reflexivity|exact Hx].
Qed.
Lemma diffs_sq prec emax a b : format prec emax -> numbers prec emax a -> numbers prec emax b -> finites (diffs prec emax a b) ->
  (1 - uu prec) ^ 2 * dist2R a b <= sqR (diffs prec emax a b) <= (1 + uu prec) ^ 2 * dist2R a b.
Proof.
  intros Hf Va Vb F. pose proof Hf as [Hp He]. pose proof (u_pos prec) as U. pose proof (u_le prec Hp) as U2.
  unfold dist2R, sqR, diffs, finites in *. assert (I : forall p, In p (combine a b) -> valid_binary prec emax (fst p) = true /\ valid_binary prec emax (snd p) = true) by (intros p; apply in_combine_numbers; assumption).
  induction (combine a b) as [|p l IH]; [cbn; lra|]. cbn [map] in *. rewrite !sumR_cons. inversion F; subst. specialize (IH ltac:(assumption) ltac:(intros q Hq; apply I; right; exact Hq)).
  destruct (I p (or_introl eq_refl)) as [V1 V2]. destruct (sub_near prec emax Hp He _ _ V1 V2 H1) as [_ E]. set (c := FR (SFsub prec emax (fst p) (snd p))) in *. set (v := FR (fst p) - FR (snd p)) in *.
  assert (C : forall z, z * z = Rabs z * Rabs z) by (intros z; rewrite <- Rabs_mult, Rabs_pos_eq by nra; reflexivity).
  assert (L : (1 - uu prec) * Rabs v <= Rabs c <= (1 + uu prec) * Rabs v).
  { pose proof (Rabs_triang (c - v) v) as T. replace (c - v + v) with c in T by ring. pose proof (Rabs_triang (v - c) c) as T2. replace (v - c + c) with v in T2 by ring. rewrite (Rabs_minus_sym v c) in T2. lra. }
  pose proof (Rabs_pos v). pose proof (Rabs_pos c). assert (K0 : 0 <= (1 - uu prec) * Rabs v) by (apply Rmult_le_pos; lra).
  assert (K1 : (1 - uu prec) * Rabs v * ((1 - uu prec) * Rabs v) <= Rabs c * Rabs c) by (apply Rmult_le_compat; lra).
  assert (K2 : Rabs c * Rabs c <= (1 + uu prec) * Rabs v * ((1 + uu prec) * Rabs v)) by (apply Rmult_le_compat; lra).
  rewrite (C c), (C v). nra.
Qed.
Theorem C134_distance prec emax a b : format prec emax -> numbers prec emax a -> numbers prec emax b -> length a = length b -> fin (fdistance prec emax a b) = true ->
  (1 - uu prec) ^ (length a + 5) * dist2R a b - INR (length a) * eta prec emax <= FR (fdistance prec emax a b) ^ 2
    <= (1 + uu prec) ^ (length a + 5) * (dist2R a b + INR (length a) * eta prec emax).
Proof.
  intros Hf Va Vb L F. rewrite distance_magnitude in *. pose proof (diffs_numbers prec emax a b Hf Va Vb) as V. pose proof (C129_length prec emax _ Hf V F) as B. rewrite (diffs_length prec emax a b L) in B.
  assert (Fd : finites (diffs prec emax a b)). { destruct (mag_fin prec emax Hf _ V F) as (_ & _ & _ & _ & Fa). eapply Forall_impl; [|exact Fa]. intros x Hx. apply Hx. }
  pose proof (diffs_sq prec emax a b Hf Va Vb Fd) as D. pose proof Hf as [Hp _]. pose proof (u_pos prec) as U. pose proof (u_le prec Hp) as U2. pose proof (eta_pos prec emax) as E0.
  set (n := length a) in *. assert (N0 : 0 <= INR n * eta prec emax) by (apply Rmult_le_pos; [apply pos_INR|lra]).
  assert (D0 : 0 <= dist2R a b) by (apply sumR_nonneg, Forall_map, Forall_forall; intros; apply Rle_0_sqr).
  assert (P1 : 0 <= (1 - uu prec) ^ (n + 3)) by (apply pow_le; lra). assert (P2 : 0 <= (1 + uu prec) ^ (n + 3)) by (apply pow_le; lra).
  replace (n + 5)%nat with (n + 3 + 2)%nat by lia. rewrite !(pow_add _ (n + 3) 2). split.
  - eapply Rle_trans; [|apply B]. rewrite Rmult_assoc. pose proof (Rmult_le_compat_l _ _ _ P1 (proj1 D)). lra.
  - eapply Rle_trans; [apply B|]. rewrite Rmult_assoc. apply Rmult_le_compat_l; [exact P2|]. assert (1 <= (1 + uu prec) ^ 2) by nra. nra.
Qed.
(** the triangle inequality up to rounding *)
Lemma minkowski2 x X y Y : 0 <= X -> 0 <= Y -> sqrt ((x + y) * (x + y) + (X + Y) * (X + Y)) <= sqrt (x * x + X * X) + sqrt (y * y + Y * Y).
Proof.
  intros HX HY. set (P := sqrt (x * x + X * X)). set (Q := sqrt (y * y + Y * Y)).
  assert (P0 : 0 <= P) by apply sqrt_pos. assert (Q0 : 0 <= Q) by apply sqrt_pos.
  assert (P2 : P * P = x * x + X * X) by (apply sqrt_sqrt; nra). assert (Q2 : Q * Q = y * y + Y * Y) by (apply sqrt_sqrt; nra).
  assert (K : x * y + X * Y <= P * Q).
  { destruct (Rle_dec (x * y + X * Y) (P * Q)) as [|G]; [assumption|exfalso]. apply Rnot_le_lt in G. assert (0 <= P * Q) by nra.
    assert (L : P * Q * (P * Q) < (x * y + X * Y) * (x * y + X * Y)) by nra. replace (P * Q * (P * Q)) with ((P * P) * (Q * Q)) in L by ring. rewrite P2, Q2 in L.
    pose proof (Rle_0_sqr (x * Y - X * y)) as Sq. unfold Rsqr in Sq. nra. }
  rewrite <- (sqrt_square (P + Q)) by lra. apply sqrt_le_1_alt. replace ((P + Q) * (P + Q)) with (P * P + Q * Q + 2 * (P * Q)) by ring. rewrite P2, Q2. lra.
Qed.
Lemma minkowski (f g : list (R * R) -> R) l : (f = fun l => sumR (map (fun p => fst p * fst p) l)) -> (g = fun l => sumR (map (fun p => snd p * snd p) l)) ->
  sqrt (sumR (map (fun p => (fst p + snd p) * (fst p + snd p)) l)) <= sqrt (f l) + sqrt (g l).
Proof.
  intros -> ->. cbv beta. induction l as [|[x y] l IH]; [cbn; rewrite sqrt_0; lra|]. cbn [map fst snd]. rewrite !sumR_cons.
  set (S := sumR (map (fun p => (fst p + snd p) * (fst p + snd p)) l)) in *. set (X := sumR (map (fun p => fst p * fst p) l)) in *. set (Y := sumR (map (fun p => snd p * snd p) l)) in *.
  assert (S0 : 0 <= S) by (apply sumR_nonneg, Forall_map, Forall_forall; intros; apply Rle_0_sqr). assert (X0 : 0 <= X) by (apply sumR_nonneg, Forall_map, Forall_forall; intros; apply Rle_0_sqr). assert (Y0 : 0 <= Y) by (apply sumR_nonneg, Forall_map, Forall_forall; intros; apply Rle_0_sqr).
  pose proof (minkowski2 x (sqrt X) y (sqrt Y) (sqrt_pos X) (sqrt_pos Y)) as M. rewrite (sqrt_sqrt X X0), (sqrt_sqrt Y Y0) in M. eapply Rle_trans; [|exact M].
  pose proof (sqrt_pos S). pose proof (sqrt_pos X). pose proof (sqrt_pos Y). pose proof (sqrt_sqrt S S0) as SS.
  apply sqrt_le_1_alt, Rplus_le_compat_l. rewrite <- SS. apply Rmult_le_compat; lra.
Qed.
Lemma dist2_triangle a b c : length a = length b -> length b = length c -> sqrt (dist2R a c) <= sqrt (dist2R a b) + sqrt (dist2R b c).
Proof.
  intros L1 L2. set (l := map (fun p => (FR (fst (fst p)) - FR (snd (fst p)), FR (fst (snd p)) - FR (snd (snd p)))) (combine (combine a b) (combine b c))).
  pose proof (minkowski _ _ l eq_refl eq_refl) as M. cbv beta in M.
  assert (E : sumR (map (fun p => (fst p + snd p) * (fst p + snd p)) l) = dist2R a c /\ sumR (map (fun p => fst p * fst p) l) = dist2R a b /\ sumR (map (fun p => snd p * snd p) l) = dist2R b c).
  { unfold l, dist2R. clear M l. revert b c L1 L2. induction a as [|x a IH]; intros [|y b] [|z c] L1 L2; try discriminate; [repeat split|].
    destruct (IH b c) as (I1 & I2 & I3); try (cbn in L1, L2; lia). cbn [combine map fst snd]. rewrite !sumR_cons, I1, I2, I3. cbn [fst snd]. repeat split. f_equal. ring. }
  destruct E as (E1 & E2 & E3). rewrite E1, E2, E3 in M. exact M.
Qed.
Theorem C134_triangle_approximate prec emax a b c : format prec emax -> numbers prec emax a -> numbers prec emax b -> numbers prec emax c -> length a = length b -> length b = length c ->
  fin (fdistance prec emax a b) = true -> fin (fdistance prec emax b c) = true -> fin (fdistance prec emax a c) = true ->
  let k := sqrt ((1 + uu prec) ^ (length a + 5) / (1 - uu prec) ^ (length a + 5)) in
  FR (fdistance prec emax a c) <= k * (FR (fdistance prec emax a b) + FR (fdistance prec emax b c) + 3 * sqrt (INR (length a) * eta prec emax)).
Proof.
  intros Hf Va Vb Vc L1 L2 F1 F2 F3 k. pose proof (C134_distance prec emax a b Hf Va Vb L1 F1) as B1. pose proof (C134_distance prec emax b c Hf Vb Vc L2 F2) as B2. pose proof (C134_distance prec emax a c Hf Va Vc ltac:(congruence) F3) as B3.
  pose proof (C134_nonneg prec emax a b Hf Va Vb F1) as N1. pose proof (C134_nonneg prec emax b c Hf Vb Vc F2) as N2. pose proof (C134_nonneg prec emax a c Hf Va Vc F3) as N3.
  rewrite <- L1 in B2. pose proof Hf as [Hp _]. pose proof (u_pos prec) as U. pose proof (u_le prec Hp) as U2. pose proof (eta_pos prec emax) as E0.
  set (n := length a) in *. set (d1 := FR (fdistance prec emax a b)) in *. set (d2 := FR (fdistance prec emax b c)) in *. set (d3 := FR (fdistance prec emax a c)) in *.
  assert (M0 : 0 <= INR n * eta prec emax) by (apply Rmult_le_pos; [apply pos_INR|lra]). set (h := INR n * eta prec emax) in *.
  assert (Pl : 0 < (1 - uu prec) ^ (n + 5) <= 1) by (apply mu_bounds; exact Hp). assert (Pu : 1 <= (1 + uu prec) ^ (n + 5)) by (apply pow_up; lra).
  set (lo := (1 - uu prec) ^ (n + 5)) in *. set (up := (1 + uu prec) ^ (n + 5)) in *.
  assert (D1 : 0 <= dist2R a b) by (apply sumR_nonneg, Forall_map, Forall_forall; intros; apply Rle_0_sqr). assert (D2 : 0 <= dist2R b c) by (apply sumR_nonneg, Forall_map, Forall_forall; intros; apply Rle_0_sqr). assert (D3 : 0 <= dist2R a c) by (apply sumR_nonneg, Forall_map, Forall_forall; intros; apply Rle_0_sqr).
  assert (Sp : forall x y, 0 <= x -> 0 <= y -> sqrt (x + y) <= sqrt x + sqrt y).
  { intros x y Hx Hy. pose proof (sqrt_pos x). pose proof (sqrt_pos y). rewrite <- (sqrt_square (sqrt x + sqrt y)) by lra. pose proof (sqrt_sqrt x Hx). pose proof (sqrt_sqrt y Hy). apply sqrt_le_1; nra. }
  assert (Il : 0 < / lo) by (apply Rinv_0_lt_compat; lra).
  assert (R1 : forall d D, 0 <= d -> 0 <= D -> lo * D - h <= d ^ 2 -> sqrt D <= sqrt (/ lo) * (d + sqrt h)).
  { intros d D Hd HD Hl. apply Rle_trans with (sqrt (/ lo * (d * d + h))).
    - apply sqrt_le_1; [exact HD|nra|]. apply Rmult_le_reg_l with lo; [lra|]. rewrite <- Rmult_assoc, Rinv_r by lra. cbn [pow] in Hl. lra.
    - rewrite sqrt_mult by nra. apply Rmult_le_compat_l; [apply sqrt_pos|]. eapply Rle_trans; [apply Sp; nra|]. rewrite sqrt_square by exact Hd. lra. }
  assert (R3 : d3 <= sqrt up * (sqrt (dist2R a c) + sqrt h)).
  { rewrite <- (sqrt_square d3) by exact N3. apply Rle_trans with (sqrt (up * (dist2R a c + h))); [apply sqrt_le_1; [nra|nra|cbn [pow] in B3; lra]|]. rewrite sqrt_mult by lra. apply Rmult_le_compat_l; [apply sqrt_pos|]. apply Sp; lra. }
  pose proof (dist2_triangle a b c L1 L2) as T. pose proof (R1 d1 _ N1 D1 (proj1 B1)) as Q1. pose proof (R1 d2 _ N2 D2 (proj1 B2)) as Q2.
  assert (K : k = sqrt up * sqrt (/ lo)) by (unfold k, Rdiv; apply sqrt_mult; lra). rewrite K.
  assert (I1 : 1 <= sqrt (/ lo)). { rewrite <- sqrt_1. apply sqrt_le_1; [lra|lra|]. rewrite <- Rinv_1. apply Rinv_le_contravar; lra. }
  pose proof (sqrt_pos h) as Hh. pose proof (sqrt_pos up) as Hu. eapply Rle_trans; [exact R3|]. rewrite Rmult_assoc. apply Rmult_le_compat_l; [exact Hu|].
  assert (sqrt h <= sqrt (/ lo) * sqrt h) by nra. nra.
Qed.
(** the exact triangle inequality fails, and different points can be at distance zero *)
Theorem C134_refuted :
  SFltb (SFadd 53 1024 (fdistance 53 1024 [d_04] [d_06]) (fdistance 53 1024 [d_06] [d_21])) (fdistance 53 1024 [d_04] [d_21]) = true /\
  fdistance 53 1024 [d_1em200] [f0] = S754_zero false /\ FR d_1em200 <> FR f0.
Proof.
  split; [vm_compute; reflexivity|]. split; [vm_compute; reflexivity|]. unfold d_1em200, f0. cbn [FR]. match goal with |- ?k * (IZR (Z.pos ?m) * pw ?e) <> _ => pose proof (FR_finite_pos m e) end. lra.
Qed.
Example C134_ex : numbers 53 1024 [d_1; d_1] /\ fdistance 53 1024 [d_1; d_1] [d_4; d_5] = d_5 /\ fdistance 53 1024 [d_tenth; d_02] [d_tenth; d_02] = S754_zero false.
Proof. split; [repeat constructor|]. vm_compute. repeat split. Qed.
Print Assumptions C134_nonneg. Print Assumptions C134_self. Print Assumptions C134_separated. Print Assumptions C134_distance. Print Assumptions C134_triangle_approximate. Print Assumptions C134_refuted.

(** ** C135: inverses *)
Theorem C135_det prec emax a b c d : format prec emax -> number prec emax a -> number prec emax b -> number prec emax c -> number prec emax d -> fin (fdet2 prec emax a b c d) = true ->
  Rabs (FR (fdet2 prec emax a b c d) - (FR a * FR d - FR b * FR c)) <= ((1 + uu prec) ^ 2 - 1) * (Rabs (FR a * FR d) + Rabs (FR b * FR c)) + 2 * (1 + uu prec) * eta prec emax.
Proof. intros Hf Va Vb Vc Vd F. apply cross_near; assumption. Qed.
Lemma eqb_spec prec emax x y : fin x = true -> fin y = true -> number prec emax x -> number prec emax y -> SFeqb x y = if Req_EM_T (FR x) (FR y) then true else false.
Proof.
  intros Fx Fy Vx Vy. unfold SFeqb. rewrite (compare_correct prec emax x y Fx Fy Vx Vy). destruct (Rlt_dec (FR x) (FR y)), (Rlt_dec (FR y) (FR x)), (Req_EM_T (FR x) (FR y)); try reflexivity; lra.
Qed.
(** a matrix far enough from singular is inverted, with entries as accurate as the computed determinant *)
Theorem C135_regular prec emax a b c d : format prec emax -> number prec emax a -> number prec emax b -> number prec emax c -> number prec emax d -> fin (fdet2 prec emax a b c d) = true ->
  ((1 + uu prec) ^ 2 - 1) * (Rabs (FR a * FR d) + Rabs (FR b * FR c)) + 2 * (1 + uu prec) * eta prec emax < Rabs (FR a * FR d - FR b * FR c) ->
  FR (fdet2 prec emax a b c d) <> 0 /\ exists r, finverse2 prec emax a b c d = Some r.
Proof.
  intros Hf Va Vb Vc Vd F B. pose proof (C135_det prec emax a b c d Hf Va Vb Vc Vd F) as E.
  assert (N : FR (fdet2 prec emax a b c d) <> 0) by (intros Z; rewrite Z, Rminus_0_l, Rabs_Ropp in E; lra). split; [exact N|].
  unfold finverse2. rewrite (eqb_spec prec emax); [|exact F|reflexivity| |reflexivity].
  - cbn [FR f0]. destruct Req_EM_T; [contradiction|]. eexists; reflexivity.
  - destruct Hf. apply valid_sub; try assumption; apply valid_mul; assumption.
Qed.
(** an entry is the numerator times the reciprocal of the determinant: two roundings *)
Theorem C135_entries prec emax a b c d e11 e12 e21 e22 : format prec emax -> number prec emax a -> number prec emax b -> number prec emax c -> number prec emax d -> fin (fdet2 prec emax a b c d) = true ->
  finverse2 prec emax a b c d = Some (e11, e12, e21, e22) ->
  let D := FR (fdet2 prec emax a b c d) in
  D <> 0 /\ Forall (fun p => fin (fst p) = true ->
    Rabs (FR (fst p) - snd p / D) <= ((1 + uu prec) ^ 2 - 1) * Rabs (snd p / D) + eta prec emax * ((1 + uu prec) * Rabs (snd p) + 1)) [(e11, FR d); (e12, - FR b); (e21, - FR c); (e22, FR a)].
Proof.
  intros Hf Va Vb Vc Vd F E D. pose proof Hf as [Hp He]. assert (Vdet : number prec emax (fdet2 prec emax a b c d)) by (apply valid_sub; try assumption; apply valid_mul; assumption).
  unfold finverse2 in E. rewrite (eqb_spec prec emax) in E by (assumption || reflexivity). cbn [FR f0] in E. destruct Req_EM_T as [|N]; [discriminate|]. injection E as <- <- <- <-. split; [exact N|].
  destruct (fin_cross prec emax _ _ _ _ F) as (F1 & F2 & F3 & F4).
  assert (Q : forall x, fin x = true -> number prec emax x -> fin (SFmul prec emax x (SFdiv prec emax (of_int prec emax 1) (fdet2 prec emax a b c d))) = true ->
    Rabs (FR (SFmul prec emax x (SFdiv prec emax (of_int prec emax 1) (fdet2 prec emax a b c d))) - FR x / D) <= ((1 + uu prec) ^ 2 - 1) * Rabs (FR x / D) + eta prec emax * ((1 + uu prec) * Rabs (FR x) + 1)).
  { intros x Fx Vx Fe. destruct (one_exact prec emax Hf) as (O1 & O2 & O3). destruct (mul_fin _ _ _ _ Fe) as [_ Fi].
    pose proof (div_correct prec emax Hp ltac:(lia) _ _ O1 F O2 Vdet N) as A. rewrite O3 in A. fold D in A. pose proof (approx_valid _ _ _ _ _ A) as Vi.
    destruct A as [_ [(_ & _ & A & _)|(s & Z & _)]]; [|rewrite Z in Fi; discriminate].
    pose proof (mul_correct prec emax Hp ltac:(lia) _ _ Fx Fi Vx Vi) as B. destruct B as [_ [(_ & _ & B & _)|(s & Z & _)]]; [|rewrite Z in Fe; discriminate].
    set (r := FR (SFdiv prec emax (of_int prec emax 1) (fdet2 prec emax a b c d))) in *. set (e := FR (SFmul prec emax x _)) in *.
    pose proof (u_pos prec) as U. pose proof (u_le prec Hp) as U2. pose proof (eta_pos prec emax) as T.
    assert (A' : Rabs (r - 1 / D) <= uu prec * Rabs (1 / D) + eta prec emax) by (eapply Rle_trans; [exact A|]; assert (0 <= uu prec * Rabs (1 / D)) by (apply Rmult_le_pos; [lra|apply Rabs_pos]); apply Rmax_lub; lra).
    assert (B' : Rabs (e - FR x * r) <= uu prec * Rabs (FR x * r) + eta prec emax) by (eapply Rle_trans; [exact B|]; assert (0 <= uu prec * Rabs (FR x * r)) by (apply Rmult_le_pos; [lra|apply Rabs_pos]); apply Rmax_lub; lra).
    assert (G : Rabs (FR x * r - FR x / D) <= uu prec * Rabs (FR x / D) + Rabs (FR x) * eta prec emax).
    { replace (FR x * r - FR x / D) with (FR x * (r - 1 / D)) by (field; exact N). replace (FR x / D) with (FR x * (1 / D)) by (field; exact N). rewrite !Rabs_mult.
      pose proof (Rmult_le_compat_l _ _ _ (Rabs_pos (FR x)) A'). lra. }
    assert (H : Rabs (FR x * r) <= (1 + uu prec) * Rabs (FR x / D) + Rabs (FR x) * eta prec emax).
    { replace (FR x * r) with (FR x * r - FR x / D + FR x / D) by ring. eapply Rle_trans; [apply Rabs_triang|]. lra. }
    replace (e - FR x / D) with (e - FR x * r + (FR x * r - FR x / D)) by ring. eapply Rle_trans; [apply Rabs_triang|].
    pose proof (Rmult_le_compat_l _ _ _ (Rlt_le _ _ U) H). replace ((1 + uu prec) ^ 2 - 1) with (uu prec * (1 + uu prec) + uu prec) by ring. lra. }
  constructor; [apply Q; assumption|]. constructor; [cbn [fst snd]; rewrite <- FR_opp; apply Q; [rewrite fin_opp; assumption|unfold number; rewrite valid_opp; assumption]|].
  constructor; [cbn [fst snd]; rewrite <- FR_opp; apply Q; [rewrite fin_opp; assumption|unfold number; rewrite valid_opp; assumption]|]. constructor; [apply Q; assumption|constructor].
Qed.
(** a 2x2 matrix that is exactly singular is always rejected, when its products are finite *)
Theorem C135_singular prec emax a b c d : format prec emax -> number prec emax a -> number prec emax b -> number prec emax c -> number prec emax d ->
  fin (SFmul prec emax a d) = true -> fin (SFmul prec emax b c) = true -> FR a * FR d = FR b * FR c -> finverse2 prec emax a b c d = None.
Proof.
  intros [Hp He] Va Vb Vc Vd F1 F2 E. destruct (mul_fin _ _ _ _ F1), (mul_fin _ _ _ _ F2).
  pose proof (mul_same prec emax Hp He a d b c ltac:(assumption) ltac:(assumption) Va Vd ltac:(assumption) ltac:(assumption) Vb Vc E) as S.
  unfold finverse2, fdet2. destruct S as [->|(s1 & s2 & -> & ->)].
  - destruct (sub_self prec emax _ F2) as [s ->]. reflexivity.
  - destruct s1, s2; reflexivity.
Qed.
Definition det3R (a11 a12 a13 a21 a22 a23 a31 a32 a33 : R) : R :=
  a11 * (a22 * a33 - a23 * a32) - a12 * (a21 * a33 - a23 * a31) + a13 * (a21 * a32 - a22 * a31).
(** a regular matrix with a representable inverse can be rejected, and a singular 3x3 matrix accepted; the inverse of
    the diagonal matrix with entries 2^-537 is accepted but, because the reciprocal of the determinant overflows,
    consists of infinities and values that are not numbers, although 2^537 and 0 are representable *)
Theorem C135_refuted :
  (let t := S754_finite false 4503599627370496 (-589) in
   finverse2 53 1024 t f0 f0 t = Some (S754_infinity false, S754_nan, S754_nan, S754_infinity false) /\
   SFdiv 53 1024 t (fdet2 53 1024 t f0 f0 t) = S754_finite false 4503599627370496 485 /\
   SFdiv 53 1024 f0 (fdet2 53 1024 t f0 f0 t) = S754_zero false) /\
  finverse2 53 1024 d_1em200 f0 f0 d_1em200 = None /\ FR d_1em200 * FR d_1em200 - FR f0 * FR f0 <> 0 /\ fin (SFdiv 53 1024 d_1 d_1em200) = true /\
  det3R (FR d_05) (FR d_02) (FR d_06) (FR d_09) (FR d_07) (FR d_09) (FR d_05) (FR d_02) (FR d_06) = 0 /\
  SFeqb (fdet3 53 1024 d_05 d_02 d_06 d_09 d_07 d_09 d_05 d_02 d_06) f0 = false.
Proof.
  split; [vm_compute; repeat split|].
  split; [vm_compute; reflexivity|]. split; [|split; [vm_compute; reflexivity|split; [unfold det3R; ring|vm_compute; reflexivity]]].
  assert (P : 0 < FR d_1em200). { unfold d_1em200. cbn [FR]. match goal with |- _ < ?k * (IZR (Z.pos ?m) * pw ?e) => pose proof (FR_finite_pos m e) end. lra. }
  cbn [FR f0]. nra.
Qed.
Example C135_ex : finverse2 53 1024 d_2 f0 f0 d_4 = Some (d_05, S754_zero true, S754_zero true, S754_finite false 4503599627370496 (-54)) /\ finverse2 53 1024 d_1 d_2 d_2 d_4 = None.
Proof. vm_compute. split; reflexivity. Qed.
Print Assumptions C135_det. Print Assumptions C135_regular. Print Assumptions C135_entries. Print Assumptions C135_singular. Print Assumptions C135_refuted.

(** ** C136: laws of the matrix product *)
Section Product.
Variables prec emax : Z.
Hypothesis Hf : format prec emax.
Let Hprec : (1 < prec)%Z. Proof. apply Hf. Qed.
Let Hemax : (prec + 3 <= emax)%Z. Proof. apply Hf. Qed.
Let Hem : (prec < emax)%Z. Proof. lia. Qed.
Notation add := (SFadd prec emax).
Notation mul := (SFmul prec emax).
Notation valid := (valid_binary prec emax).
Lemma add_exact x y : fin x = true -> fin y = true -> valid x = true -> valid y = true -> FR x = 0 \/ FR y = 0 ->
  fin (add x y) = true /\ valid (add x y) = true /\ FR (add x y) = FR x + FR y.
Proof.
  intros Fx Fy Vx Vy Z. pose proof (add_correct prec emax Hprec Hem x y Fx Fy Vx Vy) as A.
  assert (I : isfl prec emax (FR x + FR y)) by (destruct Z as [Z|Z]; rewrite Z, ?Rplus_0_l, ?Rplus_0_r; apply isfl_FR; assumption).
  destruct (approx_exact _ _ _ _ _ A I) as [F E]. split; [exact F|]. split; [apply valid_add; assumption|exact E].
Qed.
Lemma mul_exact x y : fin x = true -> fin y = true -> valid x = true -> valid y = true -> isfl prec emax (FR x * FR y) ->
  fin (mul x y) = true /\ valid (mul x y) = true /\ FR (mul x y) = FR x * FR y.
Proof.
  intros Fx Fy Vx Vy I. pose proof (mul_correct prec emax Hprec Hem x y Fx Fy Vx Vy) as A. destruct (approx_exact _ _ _ _ _ A I) as [F E]. split; [exact F|]. split; [apply valid_mul; assumption|exact E].
Qed.
(** a sum with at most one term that is not zero *)
Lemma fold_single (f : nat -> spec_float) (j : nat) l : NoDup l -> (forall k, In k l -> fin (f k) = true /\ valid (f k) = true /\ (k <> j -> FR (f k) = 0)) ->
  forall s, fin s = true -> valid s = true -> (In j l -> FR s = 0) ->
  let z := fold_left (fun s k => add s (f k)) l s in
  fin z = true /\ valid z = true /\ FR z = if in_dec Nat.eq_dec j l then FR (f j) else FR s.
Proof.
  induction l as [|k l IH]; intros ND H s Fs Vs Z; [repeat split; assumption|]. cbn [fold_left]. inversion ND; subst. destruct (H k (or_introl eq_refl)) as (Fk & Vk & Zk).
  assert (C : FR s = 0 \/ FR (f k) = 0) by (destruct (Nat.eq_dec k j) as [->|Nk]; [left; apply Z; left; reflexivity|right; apply Zk; exact Nk]).
  destruct (add_exact s (f k) Fs Fk Vs Vk C) as (Fa & Va & Ea).
  destruct (IH ltac:(assumption) ltac:(intros i Hi; apply H; right; exact Hi) (add s (f k)) Fa Va) as (Fz & Vz & Ez).
  { intros Hj. rewrite Ea, Z by (right; exact Hj). rewrite Zk by (intros ->; contradiction). ring. }
  split; [exact Fz|]. split; [exact Vz|]. rewrite Ez. destruct (in_dec Nat.eq_dec j l) as [I|NI], (in_dec Nat.eq_dec j (k :: l)) as [I'|NI'].
  - reflexivity.
  - exfalso; apply NI'; right; exact I.
  - destruct I' as [->|I']; [|contradiction]. rewrite Ea, Z by (left; reflexivity). ring.
  - rewrite Ea, Zk by (intros ->; apply NI'; left; reflexivity). ring.
Qed.
Lemma identity_spec i j : fin (fidentity prec emax i j) = true /\ valid (fidentity prec emax i j) = true /\ FR (fidentity prec emax i j) = if Nat.eqb i j then 1 else 0.
Proof.
  unfold fidentity. destruct (Nat.eqb i j); [|repeat split; reflexivity]. exact (of_int_exact prec emax Hprec Hemax 1 (pos_lt prec emax Hf)).
Qed.
End Product.
Lemma in_seq_dec {T} j n (x y : T) : (j < n)%nat -> (if in_dec Nat.eq_dec j (seq 0 n) then x else y) = x.
Proof. intros L. destruct in_dec as [|N]; [reflexivity|]. exfalso. apply N, in_seq. lia. Qed.
Theorem C136_identity_right prec emax n A i j : format prec emax -> (j < n)%nat -> (forall k, (k < n)%nat -> fin (A i k) = true /\ number prec emax (A i k)) ->
  fin (fmatmul prec emax n A (fidentity prec emax) i j) = true /\ FR (fmatmul prec emax n A (fidentity prec emax) i j) = FR (A i j).
Proof.
  intros Hf L H. unfold fmatmul. destruct (add_0 prec emax (fold_left (fun sum k => SFadd prec emax sum (SFmul prec emax (A i k) (fidentity prec emax k j))) (seq 0 n) f0)) as [E0 F0]. rewrite E0, F0.
  assert (T : forall k, (k < n)%nat -> let t := SFmul prec emax (A i k) (fidentity prec emax k j) in fin t = true /\ valid_binary prec emax t = true /\ FR t = if Nat.eqb k j then FR (A i k) else 0).
  { intros k Hk t. destruct (H k Hk) as [Fk Vk]. destruct (identity_spec prec emax Hf k j) as (Fi & Vi & Ei).
    destruct (mul_exact prec emax Hf _ _ Fk Fi Vk Vi) as (Ft & Vt & Et). { rewrite Ei. destruct (Nat.eqb k j); [rewrite Rmult_1_r; apply isfl_FR; assumption|rewrite Rmult_0_r; apply isfl_0]. }
    split; [exact Ft|]. split; [exact Vt|]. unfold t. rewrite Et, Ei. destruct (Nat.eqb k j); ring. }
  destruct (fold_single prec emax Hf (fun k => SFmul prec emax (A i k) (fidentity prec emax k j)) j (seq 0 n) (seq_NoDup n 0)) with (s := f0) as (Fz & _ & Ez); try reflexivity.
  - intros k Hk. apply in_seq in Hk. destruct (T k ltac:(lia)) as (F1 & V1 & E1). split; [exact F1|]. split; [exact V1|]. intros N. rewrite E1. apply Nat.eqb_neq in N. rewrite N. reflexivity.
  - split; [exact Fz|]. rewrite Ez, in_seq_dec by exact L. destruct (T j L) as (_ & _ & E1). rewrite E1, Nat.eqb_refl. reflexivity.
Qed.
Theorem C136_identity_left prec emax n A i j : format prec emax -> (i < n)%nat -> (forall k, (k < n)%nat -> fin (A k j) = true /\ number prec emax (A k j)) ->
  fin (fmatmul prec emax n (fidentity prec emax) A i j) = true /\ FR (fmatmul prec emax n (fidentity prec emax) A i j) = FR (A i j).
Proof.
  intros Hf L H. pose proof (C136_identity_right prec emax n (ftranspose A) j i Hf L H) as R.
  pose proof (C128_transpose_product prec emax n (fidentity prec emax) A j i) as T. change (ftranspose (fmatmul prec emax n (fidentity prec emax) A) j i) with (fmatmul prec emax n (fidentity prec emax) A i j) in T. rewrite <- T.
  replace (fmatmul prec emax n (ftranspose A) (ftranspose (fidentity prec emax)) j i) with (fmatmul prec emax n (ftranspose A) (fidentity prec emax) j i); [exact R|].
  unfold fmatmul. f_equal. generalize (seq 0 n), f0. induction l as [|k l IH]; intros s; [reflexivity|]. cbn [fold_left]. rewrite IH. change (ftranspose (fidentity prec emax) k i) with (fidentity prec emax i k). unfold fidentity. rewrite (Nat.eqb_sym i k). reflexivity.
Qed.
Definition mat1 (x : spec_float) : nat -> nat -> spec_float := fun _ _ => x.
(** the product is neither associative nor distributive, and the identity is not neutral for infinite elements *)
Theorem C136_refuted :
  SFeqb (fmatmul 53 1024 1 (mat1 (fmatmul 53 1024 1 (mat1 d_07) (mat1 d_07) 0 0)) (mat1 d_03) 0 0)
        (fmatmul 53 1024 1 (mat1 d_07) (mat1 (fmatmul 53 1024 1 (mat1 d_07) (mat1 d_03) 0 0)) 0 0) = false /\
  SFeqb (fmatmul 53 1024 1 (mat1 d_06) (mat1 (SFadd 53 1024 d_03 d_06)) 0 0)
        (SFadd 53 1024 (fmatmul 53 1024 1 (mat1 d_06) (mat1 d_03) 0 0) (fmatmul 53 1024 1 (mat1 d_06) (mat1 d_06) 0 0)) = false /\
  fmatmul 53 1024 2 (fun i j => if (Nat.eqb i 0 && Nat.eqb j 0)%bool then S754_infinity false else d_1) (fidentity 53 1024) 0 1 = S754_nan.
Proof. vm_compute. repeat split. Qed.
Example C136_ex : fmatmul 53 1024 2 (fun i j => if Nat.eqb i j then d_tenth else d_07) (fidentity 53 1024) 0 1 = d_07.
Proof. vm_compute. reflexivity. Qed.
Print Assumptions C136_identity_right. Print Assumptions C136_identity_left. Print Assumptions C136_refuted.

(** ** C137: the infinity norm *)
Definition rowR (n : nat) (A : nat -> nat -> spec_float) (i : nat) : R := sumR (map (fun j => Rabs (FR (A i j))) (seq 0 n)).
Definition normR (n : nat) (A : nat -> nat -> spec_float) : R := fold_left Rmax (map (rowR n A) (seq 0 n)) 0.
Lemma row_bounds prec emax n A i : format prec emax -> (forall j, (j < n)%nat -> fin (A i j) = true /\ number prec emax (A i j)) -> (1 + uu prec) ^ n * rowR n A i < pw emax ->
  let z := fold_left (fun s j => SFadd prec emax s (SFabs (A i j))) (seq 0 n) f0 in
  fin z = true /\ number prec emax z /\ (1 - uu prec) ^ n * rowR n A i <= FR z <= (1 + uu prec) ^ n * rowR n A i.
Proof.
  intros [Hp He] H B z. unfold z. rewrite (fold_map_add prec emax (fun j => SFabs (A i j))). set (xs := map (fun j => SFabs (A i j)) (seq 0 n)).
  assert (V : Forall (fun x => valid_binary prec emax x = true) xs) by (apply Forall_map, Forall_forall; intros j Hj; apply in_seq in Hj; rewrite valid_abs; apply H; lia).
  assert (F : Forall (fun x => fin x = true) xs) by (apply Forall_map, Forall_forall; intros j Hj; apply in_seq in Hj; rewrite fin_abs; apply H; lia).
  assert (P : Forall (fun x => 0 <= FR x) xs) by (apply Forall_map, Forall_forall; intros j _; rewrite FR_abs; apply Rabs_pos).
  assert (E : map FR xs = map (fun j => Rabs (FR (A i j))) (seq 0 n)) by (unfold xs; rewrite map_map; apply map_ext; intros; apply FR_abs).
  assert (L : length xs = n) by (unfold xs; rewrite map_length, seq_length; reflexivity).
  assert (Fz : fin (fold_left (SFadd prec emax) xs f0) = true).
  { apply fold_no_overflow; try assumption; try reflexivity. rewrite L. cbn [FR f0]. rewrite Rabs_R0, Rplus_0_l. replace (map (fun x => Rabs (FR x)) xs) with (map (fun j => Rabs (FR (A i j))) (seq 0 n)); [exact B|].
    unfold xs. rewrite map_map. apply map_ext. intros j. rewrite FR_abs, Rabs_Rabsolu. reflexivity. }
  split; [exact Fz|]. split; [apply valid_fold; try assumption; reflexivity|].
  destruct (fold_pos prec emax Hp He xs f0 eq_refl V Fz (Rle_refl 0) P) as (_ & _ & Q). rewrite L, E in Q. cbn [FR f0] in Q. rewrite Rplus_0_l in Q. exact Q.
Qed.
Theorem C137_norm prec emax n A : format prec emax -> (forall i j, (i < n)%nat -> (j < n)%nat -> fin (A i j) = true /\ number prec emax (A i j)) ->
  (forall i, (i < n)%nat -> (1 + uu prec) ^ n * rowR n A i < pw emax) ->
  fin (finf_norm prec emax n A) = true /\ (1 - uu prec) ^ n * normR n A <= FR (finf_norm prec emax n A) <= (1 + uu prec) ^ n * normR n A.
Proof.
  intros Hf H B. pose proof Hf as [Hp He]. pose proof (u_pos prec) as U. pose proof (mu_bounds prec Hp n) as M. pose proof (pu_ge1 prec n) as P. unfold finf_norm, normR.
  assert (G : forall l, (forall i, In i l -> (i < n)%nat) -> forall s v, fin s = true -> number prec emax s -> (1 - uu prec) ^ n * v <= FR s <= (1 + uu prec) ^ n * v ->
    let z := fold_left (fun norm i => std_max norm (fold_left (fun s j => SFadd prec emax s (SFabs (A i j))) (seq 0 n) f0)) l s in
    fin z = true /\ (1 - uu prec) ^ n * fold_left Rmax (map (rowR n A) l) v <= FR z <= (1 + uu prec) ^ n * fold_left Rmax (map (rowR n A) l) v).
  { induction l as [|i l IH]; intros Hl s v Fs Vs Q; [split; assumption|]. cbn [fold_left map].
    destruct (row_bounds prec emax n A i Hf ltac:(intros j Hj; apply H; [apply Hl; left; reflexivity|exact Hj]) (B i (Hl i (or_introl eq_refl)))) as (Fr & Vr & Qr).
    set (r := fold_left (fun s j => SFadd prec emax s (SFabs (A i j))) (seq 0 n) f0) in *. apply IH; [intros k Hk; apply Hl; right; exact Hk| | |].
    - unfold std_max. destruct (SFltb s r); assumption.
    - unfold std_max. destruct (SFltb s r); assumption.
    - rewrite (C132_max prec emax) by assumption. rewrite <- !RmaxRmult by lra. split; [apply Rmax_lub; [eapply Rle_trans; [apply Q|apply Rmax_l]|eapply Rle_trans; [apply Qr|apply Rmax_r]]|].
      apply Rmax_lub; [eapply Rle_trans; [apply Q|apply Rmax_l]|eapply Rle_trans; [apply Qr|apply Rmax_r]]. }
  apply G; [intros i Hi; apply in_seq in Hi; lia|reflexivity|reflexivity|]. cbn [FR f0]. rewrite !Rmult_0_r. lra.
Qed.
(** a NaN in the matrix does not reach the norm: the row that holds it is ignored *)
Theorem C137_refuted :
  finf_norm 53 1024 2 (fun i j => if Nat.eqb i 1 then S754_nan else d_1) = d_2 /\ finf_norm 53 1024 1 (mat1 S754_nan) = S754_zero false.
Proof. vm_compute. split; reflexivity. Qed.
Example C137_ex : finf_norm 53 1024 2 (fun i j => if Nat.eqb i j then d_1 else SFopp d_2) = d_3.
Proof. vm_compute. reflexivity. Qed.
Print Assumptions C137_norm. Print Assumptions C137_refuted.

(** ** C138: reflections *)
Definition reflectR (v n : list spec_float) (c m : spec_float) : R := FR c - FR m * (2 * dotR v n).
Theorem C138_reflect prec emax v n c m : format prec emax -> numbers prec emax v -> numbers prec emax n -> length v = length n -> In (c, m) (combine v n) ->
  let dot := fdot prec emax v n in
  let r := SFsub prec emax c (SFmul prec emax m (SFmul prec emax (of_int prec emax 2) dot)) in
  fin r = true ->
  let k := length v in let e := ((1 + uu prec) ^ k - 1) * dotabsR v n + (1 + uu prec) ^ k * (INR k * eta prec emax) in
  In r (freflect prec emax v n) /\
  Rabs (FR r - reflectR v n c m) <= uu prec * Rabs (reflectR v n c m) + (1 + uu prec) * (2 * Rabs (FR m) * ((1 + uu prec) * e + uu prec * Rabs (dotR v n)) + eta prec emax).
Proof.
  intros Hf Vv Vn L Hin dot r F k e. pose proof Hf as [Hp He]. split; [unfold freflect; apply in_map_iff; exists (c, m); split; [reflexivity|exact Hin]|].
  destruct (in_combine_numbers _ _ _ _ _ Vv Vn Hin) as [Vc Vm]. cbn [fst snd] in Vc, Vm. destruct (sub_fin prec emax _ _ F) as [Fc F1]. destruct (mul_fin _ _ _ _ F1) as [Fm F2]. destruct (mul_fin _ _ _ _ F2) as [F3 Fd].
  destruct (of_int_exact prec emax Hp He 2 (two_lt prec Hp)) as (_ & V2 & E2).
  assert (Vd : number prec emax dot).
  { unfold dot, fdot. rewrite (fold_map_add prec emax (fun p => SFmul prec emax (fst p) (snd p))). apply valid_fold; try assumption; [reflexivity|]. apply Forall_map, Forall_forall. intros p Hx. destruct (in_combine_numbers _ _ _ _ _ Vv Vn Hx). apply valid_mul; assumption. }
  pose proof (C127_dot prec emax v n Hf Vv Vn L Fd) as Ed. fold k e dot in Ed.
  pose proof (mul_correct prec emax Hp ltac:(lia) _ _ F3 Fd V2 Vd) as A2. rewrite E2 in A2. change (IZR 2) with 2 in A2.
  assert (Et : FR (SFmul prec emax (of_int prec emax 2) dot) = 2 * FR dot).
  { destruct (isfl_double prec emax Hp He dot Fd Vd) as [I|G]; [apply (approx_exact _ _ _ _ _ A2 I)|]. pose proof (rnd_fin_lt prec emax Hf _ _ (proj1 A2) F2). lra. }
  set (t := SFmul prec emax (of_int prec emax 2) dot) in *. assert (Vt : number prec emax t) by (apply valid_mul; assumption).
  pose proof (mul_near' prec emax Hp He m t Vm Vt F1) as E3. assert (Vmt : number prec emax (SFmul prec emax m t)) by (apply valid_mul; assumption).
  destruct (sub_near prec emax Hp He c _ Vc Vmt F) as [_ E4]. fold r in E4. unfold reflectR. rewrite Et in E3.
  set (D := dotR v n) in *. set (d := FR dot) in *. set (q := FR (SFmul prec emax m t)) in *. pose proof (u_pos prec) as U. pose proof (eta_pos prec emax) as E0. pose proof (Rabs_pos (FR m)) as Pm.
  set (x := FR c - FR m * (2 * D)).
  assert (B1 : Rabs (q - FR m * (2 * D)) <= 2 * Rabs (FR m) * ((1 + uu prec) * e + uu prec * Rabs D) + eta prec emax).
  { replace (q - FR m * (2 * D)) with ((q - FR m * (2 * d)) + FR m * (2 * (d - D))) by ring. eapply Rle_trans; [apply Rabs_triang|].
    assert (K1 : Rabs (FR m * (2 * (d - D))) = 2 * Rabs (FR m) * Rabs (d - D)) by (rewrite !Rabs_mult, (Rabs_pos_eq 2) by lra; ring).
    assert (K2 : Rabs (FR m * (2 * d)) = 2 * Rabs (FR m) * Rabs d) by (rewrite !Rabs_mult, (Rabs_pos_eq 2) by lra; ring).
    assert (K3 : Rabs d <= e + Rabs D) by (replace d with ((d - D) + D) by ring; eapply Rle_trans; [apply Rabs_triang|]; lra).
    rewrite K1. rewrite K2 in E3. assert (K4 : 2 * Rabs (FR m) * Rabs (d - D) <= 2 * Rabs (FR m) * e) by (apply Rmult_le_compat_l; lra).
    assert (K5 : 2 * Rabs (FR m) * Rabs d <= 2 * Rabs (FR m) * (e + Rabs D)) by (apply Rmult_le_compat_l; lra).
    assert (K6 : uu prec * (2 * Rabs (FR m) * Rabs d) <= uu prec * (2 * Rabs (FR m) * (e + Rabs D))) by (apply Rmult_le_compat_l; lra). lra. }
  assert (B2 : Rabs (FR c - q) <= Rabs x + Rabs (q - FR m * (2 * D))).
  { unfold x. replace (FR c - q) with ((FR c - FR m * (2 * D)) + - (q - FR m * (2 * D))) by ring. eapply Rle_trans; [apply Rabs_triang|]. rewrite Rabs_Ropp. lra. }
  unfold x in *. replace (FR r - (FR c - FR m * (2 * D))) with ((FR r - (FR c - q)) + - (q - FR m * (2 * D))) by ring. eapply Rle_trans; [apply Rabs_triang|]. rewrite Rabs_Ropp.
  assert (B3 : uu prec * Rabs (FR c - q) <= uu prec * (Rabs (FR c - FR m * (2 * D)) + Rabs (q - FR m * (2 * D)))) by (apply Rmult_le_compat_l; lra).
  assert (B4 : (1 + uu prec) * Rabs (q - FR m * (2 * D)) <= (1 + uu prec) * (2 * Rabs (FR m) * ((1 + uu prec) * e + uu prec * Rabs D) + eta prec emax)) by (apply Rmult_le_compat_l; lra). lra.
Qed.
(** every component of the result is of this form *)
Theorem C138_all prec emax v n r : In r (freflect prec emax v n) ->
  exists c m, In (c, m) (combine v n) /\ r = SFsub prec emax c (SFmul prec emax m (SFmul prec emax (of_int prec emax 2) (fdot prec emax v n))).
Proof. unfold freflect. intros H. apply in_map_iff in H. destruct H as ([c m] & <- & H). exists c, m. split; [exact H|reflexivity]. Qed.
(** a vector in the plane is not moved *)
Theorem C138_in_plane prec emax v n : format prec emax -> numbers prec emax v -> numbers prec emax n -> finites v -> finites n -> length v = length n -> fin (fdot prec emax v n) = true -> FR (fdot prec emax v n) = 0 ->
  map FR (freflect prec emax v n) = map FR v.
Proof.
  intros Hf Vv Vn Fv Fn L Fd Z. pose proof Hf as [Hp He]. unfold freflect. set (dot := fdot prec emax v n) in *.
  destruct (of_int_exact prec emax Hp He 2 (two_lt prec Hp)) as (F2 & V2 & E2).
  assert (Vd : number prec emax dot).
  { unfold dot, fdot. rewrite (fold_map_add prec emax (fun p => SFmul prec emax (fst p) (snd p))). apply valid_fold; try assumption; [reflexivity|]. apply Forall_map, Forall_forall. intros p Hx. destruct (in_combine_numbers _ _ _ _ _ Vv Vn Hx). apply valid_mul; assumption. }
  destruct (mul_exact prec emax Hf _ _ F2 Fd V2 Vd) as (F3 & V3 & E3); [rewrite Z, Rmult_0_r; apply isfl_0|]. rewrite Z, Rmult_0_r in E3. set (t := SFmul prec emax (of_int prec emax 2) dot) in *. clearbody t. clear dot Fd Z Vd.
  revert n Vn Fn L. induction v as [|c v IH]; intros [|m n] Vn Fn L; try discriminate; [reflexivity|]. cbn [combine map fst snd]. inversion Vv; inversion Fv; inversion Vn; inversion Fn; subst. rewrite IH by (assumption || (cbn in L; lia)). f_equal.
  destruct (mul_exact prec emax Hf m t ltac:(assumption) F3 ltac:(assumption) V3) as (F4 & V4 & E4); [rewrite E3, Rmult_0_r; apply isfl_0|]. rewrite E3, Rmult_0_r in E4.
  rewrite sub_opp. destruct (add_exact prec emax Hf c (SFopp (SFmul prec emax m t))) as (_ & _ & E5); [assumption|rewrite fin_opp; assumption|assumption|rewrite valid_opp; assumption|right; rewrite FR_opp, E4; ring|]. rewrite E5, FR_opp, E4. ring.
Qed.
(** reflecting twice does not give back the vector, even in a unit plane *)
Theorem C138_refuted : let n := [d_06; S754_finite false 7205759403792794 (-53)] in
  map (fun p => SFeqb (fst p) (snd p)) (combine (freflect 53 1024 (freflect 53 1024 [d_07; d_07] n) n) [d_07; d_07]) = [false; false].
Proof. vm_compute. reflexivity. Qed.
Example C138_ex : freflect 53 1024 [d_3; d_4] [d_1; f0] = [SFopp d_3; d_4] /\ freflect 53 1024 [f0; d_4] [d_1; f0] = [f0; d_4].
Proof. vm_compute. split; reflexivity. Qed.
Print Assumptions C138_reflect. Print Assumptions C138_all. Print Assumptions C138_in_plane. Print Assumptions C138_refuted.
