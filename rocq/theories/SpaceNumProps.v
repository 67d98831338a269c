(** C173: space vectors of floating-point numbers and of integers. *)
From Coq Require Import ZArith Reals Lia Lra Psatz Bool List SpecFloat.
From Verif Require Import Outcome FloatRound FloatModel FloatProofs FloatProps FloatGeomProps AtomicsTypesModel AtomicsTypesProps SpaceNumModel.
Import ListNotations.
Local Open Scope R_scope.

(** ** floating point: the functions agree to the last bit with those of math *)
Lemma opp_mul_l prec emax x y : SFmul prec emax (SFopp x) y = SFopp (SFmul prec emax x y).
Proof.
  destruct x as [sx|sx| |sx mx ex], y as [sy|sy| |sy my ey]; cbn [SFopp SFmul]; rewrite <- ?negb_xorb_l; try reflexivity.
  apply round_aux_opp.
Qed.
Lemma second_component prec emax a0 a2 b0 b2 :
  SFadd prec emax (SFmul prec emax (SFopp a0) b2) (SFmul prec emax a2 b0) = SFsub prec emax (SFmul prec emax a2 b0) (SFmul prec emax a0 b2).
Proof. rewrite opp_mul_l, add_comm, sub_opp. reflexivity. Qed.
Theorem C173_agree : forall prec emax,
  (forall a b, fsv_dot prec emax a b = fdot prec emax a b) /\ (forall a, fsv_magnitude prec emax a = fmagnitude prec emax a) /\
  (forall a b, fcross_magnitude2 prec emax a b = SFabs (fcross2 prec emax a b)) /\
  (forall a b, let '(x, y, z) := fcross3 prec emax a b in fcross_magnitude3 prec emax a b = fmagnitude prec emax [x; y; z]) /\
  (forall a b, fsv_normal2 prec emax a b = fnormal2 prec emax a b) /\ (forall a b, fsv_normal3 prec emax a b = fcross3 prec emax a b) /\
  (forall v s, fsv_scale prec emax v s = map (fun x => SFmul prec emax x s) v) /\ (forall a b, fcross_magnitude1 a b = S754_zero false).
Proof.
  intros prec emax. repeat split.
  - intros [[a0 a1] a2] [[b0 b1] b2]. cbn [fcross3]. unfold fcross_magnitude3. rewrite second_component. reflexivity.
  - intros v s. apply map_ext. intros x. apply mul_comm.
Qed.
(** ** symmetry *)
Lemma square_abs prec emax x : SFmul prec emax x x = SFmul prec emax (SFabs x) (SFabs x).
Proof. destruct x as [s|s| |s m e]; cbn [SFabs SFmul]; rewrite ?xorb_nilpotent; reflexivity. Qed.
Lemma mag_abs prec emax l l' : map SFabs l = map SFabs l' -> fsv_magnitude prec emax l = fsv_magnitude prec emax l'.
Proof.
  intros H. unfold fsv_magnitude. f_equal. generalize f0. revert l' H. induction l as [|x l IH]; intros [|y l'] H s; try discriminate H; [reflexivity|].
  cbn [map fold_left] in *. injection H as Hx Hl. rewrite (square_abs _ _ x), (square_abs _ _ y), Hx. apply IH. exact Hl.
Qed.
Lemma abs_opp x : SFabs (SFopp x) = SFabs x. Proof. destruct x; reflexivity. Qed.
Lemma abs_sub_swap prec emax x y : SFabs (SFsub prec emax x y) = SFabs (SFsub prec emax y x).
Proof. destruct (sub_anti prec emax x y) as [E|(s1 & s2 & E1 & E2)]; [rewrite E, abs_opp; reflexivity|rewrite E1, E2; reflexivity]. Qed.
Definition opp2 (a : spec_float * spec_float) := (SFopp (fst a), SFopp (snd a)).
Definition opp3 (a : spec_float * spec_float * spec_float) := let '(x, y, z) := a in (SFopp x, SFopp y, SFopp z).
Lemma same_sub_opp prec emax x y : SFabs (SFsub prec emax (SFopp x) (SFopp y)) = SFabs (SFsub prec emax x y).
Proof. rewrite (sub_opp prec emax (SFopp x)), add_comm. replace (SFopp (SFopp y)) with y by (destruct y; cbn; rewrite ?negb_involutive; reflexivity). rewrite <- sub_opp. apply abs_sub_swap. Qed.
(** swapping the vectors, or turning one round, changes no bit *)
Theorem C173_symmetric : forall prec emax,
  (forall a b, fcross_magnitude2 prec emax a b = fcross_magnitude2 prec emax b a /\ fcross_magnitude2 prec emax (opp2 a) b = fcross_magnitude2 prec emax a b) /\
  (forall a b, fcross_magnitude3 prec emax a b = fcross_magnitude3 prec emax b a /\ fcross_magnitude3 prec emax (opp3 a) b = fcross_magnitude3 prec emax a b).
Proof.
  intros prec emax. split.
  - intros [a0 a1] [b0 b1]. unfold fcross_magnitude2, opp2. cbn [fst snd]. split.
    + rewrite (mul_comm _ _ b0 a1), (mul_comm _ _ b1 a0). apply abs_sub_swap.
    + rewrite !opp_mul_l. apply same_sub_opp.
  - intros [[a0 a1] a2] [[b0 b1] b2]. unfold opp3, fcross_magnitude3. rewrite !second_component. split.
    + rewrite (mul_comm _ _ b1 a2), (mul_comm _ _ b2 a1), (mul_comm _ _ b2 a0), (mul_comm _ _ b0 a2), (mul_comm _ _ b0 a1), (mul_comm _ _ b1 a0).
      apply mag_abs. cbn [map]. f_equal; [|f_equal; [|f_equal]]; apply abs_sub_swap.
    + rewrite !opp_mul_l. apply mag_abs. cbn [map]. rewrite !same_sub_opp. reflexivity.
Qed.
(** ** accuracy *)
Definition cross_err (prec emax : Z) (x y : R) : R := ((1 + uu prec) ^ 2 - 1) * (Rabs x + Rabs y) + 2 * (1 + uu prec) * eta prec emax.
Definition pair_ok (prec emax : Z) (a : spec_float * spec_float) := number prec emax (fst a) /\ number prec emax (snd a).
Theorem C173_area2 : forall prec emax a b, format prec emax -> pair_ok prec emax a -> pair_ok prec emax b ->
  fin (fcross_magnitude2 prec emax a b) = true ->
  let x := FR (fst a) * FR (snd b) in let y := FR (snd a) * FR (fst b) in
  0 <= FR (fcross_magnitude2 prec emax a b) /\ Rabs (FR (fcross_magnitude2 prec emax a b) - Rabs (x - y)) <= cross_err prec emax x y.
Proof.
  intros prec emax [a0 a1] [b0 b1] Hf [Va0 Va1] [Vb0 Vb1] F x y. unfold fcross_magnitude2 in *. cbn [fst snd] in *. rewrite fin_abs in F. rewrite FR_abs.
  split; [apply Rabs_pos|]. pose proof (C135_det prec emax a0 a1 b0 b1 Hf Va0 Va1 Vb0 Vb1 F) as B. eapply Rle_trans; [apply Rabs_triang_inv2|]. exact B.
Qed.
(** parallel vectors span nothing: exactly zero, whatever was rounded *)
Lemma det_zero prec emax a b c d : format prec emax -> number prec emax a -> number prec emax b -> number prec emax c -> number prec emax d ->
  fin (SFsub prec emax (SFmul prec emax a d) (SFmul prec emax b c)) = true -> FR a * FR d = FR b * FR c ->
  exists s, SFsub prec emax (SFmul prec emax a d) (SFmul prec emax b c) = S754_zero s.
Proof.
  intros [Hp He] Va Vb Vc Vd F E. assert (Hem : (prec < emax)%Z) by lia. destruct (sub_fin prec emax _ _ F) as [F1 F2].
  destruct (mul_fin prec emax _ _ F1) as [Fa Fd]. destruct (mul_fin prec emax _ _ F2) as [Fb Fc].
  pose proof (mul_same prec emax Hp He a d b c Fa Fd Va Vd Fb Fc Vb Vc E) as S. 
  destruct S as [S|(s1 & s2 & S1 & S2)]; [rewrite S; apply sub_self; exact F2|]. rewrite S1, S2. cbn [SFsub]. destruct (Bool.eqb s1 (negb s2)); eexists; reflexivity.
Qed.
Definition triple_ok (prec emax : Z) (a : spec_float * spec_float * spec_float) := let '(x, y, z) := a in number prec emax x /\ number prec emax y /\ number prec emax z.
Lemma mag3_fin prec emax x y z : fin (fsv_magnitude prec emax [x; y; z]) = true -> fin x = true /\ fin y = true /\ fin z = true.
Proof.
  unfold fsv_magnitude. intros F. apply sqrt_fin in F. destruct F as [F _]. cbn [fold_left] in F. apply add_fin in F. destruct F as [F Fz]. apply add_fin in F. destruct F as [F Fy]. apply add_fin in F. destruct F as [_ Fx].
  apply mul_fin in Fx, Fy, Fz. tauto.
Qed.
Theorem C173_parallel : forall prec emax, format prec emax ->
  (forall a b, pair_ok prec emax a -> pair_ok prec emax b -> fin (fcross_magnitude2 prec emax a b) = true ->
     FR (fst a) * FR (snd b) = FR (snd a) * FR (fst b) -> fcross_magnitude2 prec emax a b = S754_zero false) /\
  (forall a b, triple_ok prec emax a -> triple_ok prec emax b -> fin (fcross_magnitude3 prec emax a b) = true ->
     (let '(a0, a1, a2) := a in let '(b0, b1, b2) := b in
      FR a1 * FR b2 = FR a2 * FR b1 /\ FR a2 * FR b0 = FR a0 * FR b2 /\ FR a0 * FR b1 = FR a1 * FR b0) ->
     fcross_magnitude3 prec emax a b = S754_zero false).
Proof.
  intros prec emax Hf. split.
  - intros [a0 a1] [b0 b1] [Va0 Va1] [Vb0 Vb1] F E. unfold fcross_magnitude2 in *. cbn [fst snd] in *. rewrite fin_abs in F.
    destruct (det_zero prec emax a0 a1 b0 b1 Hf Va0 Va1 Vb0 Vb1 F E) as [s ->]. reflexivity.
  - intros [[a0 a1] a2] [[b0 b1] b2] (Va0 & Va1 & Va2) (Vb0 & Vb1 & Vb2) F (E0 & E1 & E2). unfold fcross_magnitude3 in *. rewrite second_component in *.
    destruct (mag3_fin _ _ _ _ _ F) as (F0 & F1 & F2).
    destruct (det_zero prec emax a1 a2 b1 b2 Hf Va1 Va2 Vb1 Vb2 F0 E0) as [s0 ->]. destruct (det_zero prec emax a2 a0 b2 b0 Hf Va2 Va0 Vb2 Vb0 F1 E1) as [s1 ->].
    destruct (det_zero prec emax a0 a1 b0 b1 Hf Va0 Va1 Vb0 Vb1 F2 E2) as [s2 ->].
    unfold fsv_magnitude. cbn [fold_left SFmul]. rewrite !xorb_nilpotent. reflexivity.
Qed.
Lemma norm_near w0 w1 w2 c0 c1 c2 e0 e1 e2 : Rabs (w0 - c0) <= e0 -> Rabs (w1 - c1) <= e1 -> Rabs (w2 - c2) <= e2 ->
  sqrt (w0 * w0 + w1 * w1 + w2 * w2) <= sqrt (c0 * c0 + c1 * c1 + c2 * c2) + (e0 + e1 + e2).
Proof.
  intros H0 H1 H2. pose proof (Rabs_pos (w0 - c0)). pose proof (Rabs_pos (w1 - c1)). pose proof (Rabs_pos (w2 - c2)).
  set (L := sqrt (c0 * c0 + c1 * c1 + c2 * c2)). assert (L0 : 0 <= L) by apply sqrt_pos.
  assert (LL : L * L = c0 * c0 + c1 * c1 + c2 * c2) by (apply sqrt_sqrt; nra).
  assert (C : forall c, c * c <= L * L -> Rabs c <= L) by (intros c Hc; apply Rsqr_incr_0_var; [unfold Rsqr; rewrite <- Rabs_mult, Rabs_pos_eq by nra; exact Hc|exact L0]).
  pose proof (C c0 ltac:(nra)). pose proof (C c1 ltac:(nra)). pose proof (C c2 ltac:(nra)). 
  assert (Q : forall w c e, Rabs (w - c) <= e -> 0 <= e -> Rabs c <= L -> w * w <= c * c + 2 * L * e + e * e).
  { intros w c e Hw He Hc. assert (A : Rabs ((w - c) * c) <= e * L) by (rewrite Rabs_mult; apply Rmult_le_compat; try apply Rabs_pos; assumption).
    assert (B : Rabs ((w - c) * (w - c)) <= e * e) by (rewrite Rabs_mult; apply Rmult_le_compat; try apply Rabs_pos; assumption).
    pose proof (Rle_abs ((w - c) * c)). pose proof (Rle_abs ((w - c) * (w - c))). nra. }
  pose proof (Q w0 c0 e0 H0 ltac:(lra) ltac:(assumption)). pose proof (Q w1 c1 e1 H1 ltac:(lra) ltac:(assumption)). pose proof (Q w2 c2 e2 H2 ltac:(lra) ltac:(assumption)).
  rewrite <- (sqrt_square (L + (e0 + e1 + e2))) by lra. apply sqrt_le_1; [nra|nra|].
  assert (0 <= e0) by lra. assert (0 <= e1) by lra. assert (0 <= e2) by lra.
  pose proof (Rmult_le_pos e0 e1 ltac:(assumption) ltac:(assumption)). pose proof (Rmult_le_pos e0 e2 ltac:(assumption) ltac:(assumption)). pose proof (Rmult_le_pos e1 e2 ltac:(assumption) ltac:(assumption)). nra.
Qed.
Lemma sqrt_sum_le x y : 0 <= x -> 0 <= y -> sqrt (x + y) <= sqrt x + sqrt y.
Proof.
  intros X Y. pose proof (sqrt_pos x). pose proof (sqrt_pos y). pose proof (sqrt_sqrt x X). pose proof (sqrt_sqrt y Y).
  rewrite <- (sqrt_square (sqrt x + sqrt y)) by lra. apply sqrt_le_1; nra.
Qed.
(** L is the exact area of the parallelogram, E bounds the error of the components *)
Theorem C173_area3 : forall prec emax a b, format prec emax -> triple_ok prec emax a -> triple_ok prec emax b ->
  fin (fcross_magnitude3 prec emax a b) = true ->
  let '(a0, a1, a2) := a in let '(b0, b1, b2) := b in
  let c0 := FR a1 * FR b2 - FR a2 * FR b1 in let c1 := FR a2 * FR b0 - FR a0 * FR b2 in let c2 := FR a0 * FR b1 - FR a1 * FR b0 in
  let L := sqrt (c0 * c0 + c1 * c1 + c2 * c2) in
  let E := cross_err prec emax (FR a1 * FR b2) (FR a2 * FR b1) + cross_err prec emax (FR a2 * FR b0) (FR a0 * FR b2) + cross_err prec emax (FR a0 * FR b1) (FR a1 * FR b0) in
  0 <= FR (fcross_magnitude3 prec emax a b) /\
  (1 - uu prec) ^ 3 * (L - E) - sqrt (3 * eta prec emax) <= FR (fcross_magnitude3 prec emax a b) <= (1 + uu prec) ^ 3 * (L + E + sqrt (3 * eta prec emax)).
Proof.
  intros prec emax [[a0 a1] a2] [[b0 b1] b2] Hf (Va0 & Va1 & Va2) (Vb0 & Vb1 & Vb2) F c0 c1 c2 L E. unfold fcross_magnitude3 in *. rewrite second_component in *.
  destruct (mag3_fin _ _ _ _ _ F) as (F0 & F1 & F2).
  pose proof (C135_det prec emax a1 a2 b1 b2 Hf Va1 Va2 Vb1 Vb2 F0) as B0. pose proof (C135_det prec emax a2 a0 b2 b0 Hf Va2 Va0 Vb2 Vb0 F1) as B1. pose proof (C135_det prec emax a0 a1 b0 b1 Hf Va0 Va1 Vb0 Vb1 F2) as B2.
  unfold fdet2 in *. set (w0 := SFsub prec emax (SFmul prec emax a1 b2) (SFmul prec emax a2 b1)) in *. set (w1 := SFsub prec emax (SFmul prec emax a2 b0) (SFmul prec emax a0 b2)) in *. set (w2 := SFsub prec emax (SFmul prec emax a0 b1) (SFmul prec emax a1 b0)) in *.
  destruct Hf as [Hp He] eqn:EHf. assert (V : numbers prec emax [w0; w1; w2]).
  { repeat constructor; apply valid_sub; try assumption; apply valid_mul; assumption. }
  change (fsv_magnitude prec emax [w0; w1; w2]) with (fmagnitude prec emax [w0; w1; w2]) in *.
  pose proof (C129_nonneg prec emax _ Hf V F) as P. pose proof (C129_length prec emax _ Hf V F) as [Q1 Q2]. set (m := FR (fmagnitude prec emax [w0; w1; w2])) in *.
  split; [exact P|]. unfold sqR in *. cbn [map length] in *. rewrite !sumR_cons, sumR_nil in *. change (3 + 3)%nat with 6%nat in *.
  replace (INR 3) with 3 in * by (cbn; lra). set (S := FR w0 * FR w0 + (FR w1 * FR w1 + (FR w2 * FR w2 + 0))) in *.
  assert (S0 : 0 <= S) by (unfold S; nra). pose proof (uu_pos prec) as U0. pose proof (uu_le prec Hp) as U1. pose proof (eta_pos prec emax) as T0.
  assert (N1 : sqrt S <= L + E).
  { unfold S, L, E. replace (FR w0 * FR w0 + (FR w1 * FR w1 + (FR w2 * FR w2 + 0))) with (FR w0 * FR w0 + FR w1 * FR w1 + FR w2 * FR w2) by ring. apply norm_near; assumption. }
  assert (N2 : L <= sqrt S + E).
  { unfold S, L, E. replace (FR w0 * FR w0 + (FR w1 * FR w1 + (FR w2 * FR w2 + 0))) with (FR w0 * FR w0 + FR w1 * FR w1 + FR w2 * FR w2) by ring. apply norm_near; rewrite Rabs_minus_sym; assumption. }
  assert (Mm : m = sqrt (m ^ 2)) by (rewrite <- (sqrt_square m P) at 1; f_equal; ring).
  assert (Pos1 : 0 <= (1 - uu prec) ^ 3) by (apply pow_le; lra). assert (Pos2 : 0 <= (1 + uu prec) ^ 3) by (apply pow_le; lra).
  split.
  - assert (A : (1 - uu prec) ^ 3 * sqrt S <= m + sqrt (3 * eta prec emax)).
    { replace ((1 - uu prec) ^ 3 * sqrt S) with (sqrt ((1 - uu prec) ^ 6 * S)).
      2:{ rewrite sqrt_mult by (try exact S0; apply pow_le; lra). f_equal. replace ((1 - uu prec) ^ 6) with ((1 - uu prec) ^ 3 * (1 - uu prec) ^ 3) by ring. apply sqrt_square; exact Pos1. }
      rewrite Mm. eapply Rle_trans; [|apply sqrt_sum_le; [apply pow2_ge_0|lra]]. apply sqrt_le_1; [apply Rmult_le_pos; [apply pow_le; lra|exact S0]|pose proof (pow2_ge_0 m); lra|lra]. }
    assert ((1 - uu prec) ^ 3 * (L - E) <= (1 - uu prec) ^ 3 * sqrt S) by (apply Rmult_le_compat_l; [exact Pos1|lra]). lra.
  - rewrite Mm. apply Rle_trans with (sqrt ((1 + uu prec) ^ 6 * (S + 3 * eta prec emax))); [apply sqrt_le_1; [apply pow2_ge_0|apply Rmult_le_pos; [apply pow_le; lra|lra]|exact Q2]|].
    rewrite sqrt_mult by (try apply pow_le; lra). replace (sqrt ((1 + uu prec) ^ 6)) with ((1 + uu prec) ^ 3).
    2:{ replace ((1 + uu prec) ^ 6) with ((1 + uu prec) ^ 3 * (1 + uu prec) ^ 3) by ring. symmetry. apply sqrt_square; exact Pos2. }
    apply Rmult_le_compat_l; [exact Pos2|]. eapply Rle_trans; [apply sqrt_sum_le; lra|lra].
Qed.
(** ** vectors of the plane, in two and in three dimensions *)
Theorem C173_plane : forall prec emax a b, format prec emax -> pair_ok prec emax a -> pair_ok prec emax b ->
  let z := S754_zero false in let c := fcross_magnitude2 prec emax a b in
  fin (fst a) = true -> fin (snd a) = true -> fin (fst b) = true -> fin (snd b) = true -> 
  fin (SFmul prec emax c c) = true -> pw (emin prec emax + prec - 1) <= FR c * FR c ->
  fin (fcross_magnitude3 prec emax (a, z) (b, z)) = true /\ FR (fcross_magnitude3 prec emax (a, z) (b, z)) = FR c.
Proof.
  intros prec emax [a0 a1] [b0 b1] Hf [Va0 Va1] [Vb0 Vb1] z c Fa0 Fa1 Fb0 Fb1 Fc Nc. cbn [fst snd] in *.
  assert (Z : forall x, fin x = true -> (exists s, SFmul prec emax x z = S754_zero s) /\ exists s, SFmul prec emax z x = S754_zero s).
  { intros x Fx. destruct x; try discriminate Fx; cbn; split; eexists; reflexivity. }
  assert (D : forall x y, (exists s, x = S754_zero s) -> (exists s, y = S754_zero s) -> exists s, SFsub prec emax x y = S754_zero s).
  { intros x y [s ->] [s' ->]. cbn [SFsub]. destruct (Bool.eqb s (negb s')); eexists; reflexivity. }
  unfold fcross_magnitude3. rewrite second_component.
  destruct (D (SFmul prec emax a1 z) (SFmul prec emax z b1)) as [s0 E0]; [apply Z; assumption|apply Z; assumption|].
  destruct (D (SFmul prec emax z b0) (SFmul prec emax a0 z)) as [s1 E1]; [apply Z; assumption|apply Z; assumption|].
  rewrite E0, E1. unfold fsv_magnitude. cbn [fold_left SFmul]. rewrite !xorb_nilpotent. 
  set (w := SFsub prec emax (SFmul prec emax a0 b1) (SFmul prec emax a1 b0)) in *. assert (Ec : c = SFabs w) by reflexivity.
  assert (W : SFmul prec emax w w = SFmul prec emax c c) by (rewrite Ec; apply square_abs). rewrite W.
  assert (Vc : valid_binary prec emax c = true).
  { rewrite Ec, valid_abs. destruct Hf. apply valid_sub; try assumption; apply valid_mul; assumption. }
  destruct Hf as [Hp He]. 
  assert (A0 : SFadd prec emax (SFadd prec emax (SFadd prec emax f0 (S754_zero false)) (S754_zero false)) (SFmul prec emax c c) = SFmul prec emax c c \/ exists s s', SFadd prec emax (SFadd prec emax (SFadd prec emax f0 (S754_zero false)) (S754_zero false)) (SFmul prec emax c c) = S754_zero s /\ SFmul prec emax c c = S754_zero s').
  { clear. generalize (SFmul prec emax c c). intros [s|s| |s m e]; try (left; reflexivity). right. destruct s; do 2 eexists; split; reflexivity. }
  destruct A0 as [A0|(s & s' & _ & A0)].
  - rewrite A0. destruct (sqrt_square_exact prec emax Hp He c Vc Fc Nc) as [E F]. split; [exact F|]. rewrite E. rewrite Ec, FR_abs. apply Rabs_Rabsolu.
  - exfalso. destruct (sqrt_square_exact prec emax Hp He c Vc Fc Nc) as [E F]. rewrite A0 in E. cbn in E. pose proof (pw_pos (emin prec emax + prec - 1)). assert (FR c = 0) by (destruct (Req_dec (FR c) 0) as [Q|Q]; [exact Q|apply Rabs_pos_lt in Q; lra]). nra.
Qed.

(** REFUTED: vectors that are not parallel can span nothing (the area underflows, or its two products round to the same number),
    and the area of two vectors of the plane depends on the dimension they are stored in *)
Theorem C173_refuted :
  (exists a b, pair_ok 53 1024 a /\ pair_ok 53 1024 b /\ FR (fst a) * FR (snd b) <> FR (snd a) * FR (fst b) /\ fcross_magnitude2 53 1024 a b = S754_zero false) /\
  (exists a b, pair_ok 53 1024 a /\ pair_ok 53 1024 b /\ fin (fcross_magnitude2 53 1024 a b) = true /\
     fcross_magnitude3 53 1024 (a, S754_zero false) (b, S754_zero false) = S754_infinity false) /\
  (exists a b, pair_ok 53 1024 a /\ pair_ok 53 1024 b /\ fin (fcross_magnitude2 53 1024 a b) = true /\ FR (fcross_magnitude2 53 1024 a b) <> 0 /\
     fcross_magnitude3 53 1024 (a, S754_zero false) (b, S754_zero false) = S754_zero false).
Proof.
  set (one := S754_finite false (2 ^ 52) (-52)). set (next := S754_finite false (2 ^ 52 + 1) (-52)). set (next2 := S754_finite false (2 ^ 52 + 2) (-52)).
  assert (P1 : forall m e, FR (S754_finite false m e) = IZR (Z.pos m) * pw e) by (intros; cbn [FR]; ring).
  split; [|split].
  - (* (1 + e)(1 + e) = 1 + 2e + e^2 rounds to 1 + 2e *)
    exists (next, one), (next2, next). repeat split; try reflexivity.
    unfold one, next, next2. cbn [fst snd]. rewrite !P1. pose proof (pw_pos (-52)). intros E.
    assert (IZR (2 ^ 52 + 1) * IZR (2 ^ 52 + 1) = IZR (2 ^ 52) * IZR (2 ^ 52 + 2)).
    { apply Rmult_eq_reg_r with (pw (-52) * pw (-52)); [|nra]. change (Z.pos (2 ^ 52)) with (2 ^ 52)%Z in E. change (Z.pos (2 ^ 52 + 1)) with (2 ^ 52 + 1)%Z in E. change (Z.pos (2 ^ 52 + 2)) with (2 ^ 52 + 2)%Z in E. lra. }
    rewrite <- !mult_IZR in H0. apply eq_IZR in H0. discriminate H0.
  - exists (d_1e200, f0), (f0, d_1). repeat split; try reflexivity.
  - exists (d_1em200, f0), (f0, d_1). repeat split; try reflexivity.
    assert (Ev : fcross_magnitude2 53 1024 (d_1em200, f0) (f0, d_1) = d_1em200) by (vm_compute; reflexivity). rewrite Ev. unfold d_1em200. rewrite P1.
    pose proof (FR_finite_pos 6894565328877484 (-717)). lra.
Qed.
Example C173_float_ex : format 53 1024 /\ triple_ok 53 1024 (d_3, d_4, f0) /\ triple_ok 53 1024 (f0, f0, d_1) /\ pair_ok 53 1024 (d_tenth, d_03) /\
  fin (SFmul 53 1024 d_5 d_5) = true /\ fcross_magnitude2 53 1024 (d_3, f0) (f0, d_4) = fcross_magnitude3 53 1024 (d_3, f0, f0) (f0, d_4, f0) /\  fcross_magnitude2 53 1024 (d_tenth, d_02) (d_03, d_07) = S754_finite false 5764607523034232 (-59) /\
  fcross_magnitude2 53 1024 (d_tenth, d_03) (d_02, d_06) = S754_zero false /\ fcross_magnitude3 53 1024 (d_3, d_4, f0) (f0, f0, d_1) = d_5.
Proof. vm_compute. repeat split; discriminate. Qed.
Print Assumptions C173_agree. Print Assumptions C173_symmetric. Print Assumptions C173_area2. Print Assumptions C173_parallel. Print Assumptions C173_area3. Print Assumptions C173_plane. Print Assumptions C173_refuted.

(** ** integers *)
Local Open Scope Z_scope.
Lemma trunc_floor z n : fin z = true -> (0 <= FR z)%R -> (IZR n <= FR z < IZR n + 1)%R -> trunc z = Some n.
Proof.
  intros F P [B1 B2]. destruct z as [s|s| |s m e]; try discriminate F; cbn [FR trunc] in *.
  - f_equal. assert (n < 1) by (apply lt_IZR; lra). assert (-1 < n) by (apply lt_IZR; lra). lia.
  - pose proof (FR_finite_pos m e) as Q. destruct s; [lra|]. rewrite Rmult_1_l in *. f_equal. destruct e as [|k|k].
    + change (pw 0) with 1%R in *. rewrite Rmult_1_r in *. rewrite Z.mul_1_r. rewrite <- plus_IZR in B2. apply le_IZR in B1. apply lt_IZR in B2. lia.
    + rewrite <- (pw_Z (Z.pos k)), <- mult_IZR in * by lia. rewrite <- plus_IZR in B2. apply le_IZR in B1. apply lt_IZR in B2. lia.
    + assert (K : 0 < 2 ^ Z.pos k) by (apply Z.pow_pos_nonneg; lia). symmetry. apply Z.div_unique_pos with (Z.pos m - 2 ^ Z.pos k * n); [|lia].
      assert (R1 : (IZR (2 ^ Z.pos k) * (IZR (Z.pos m) * pw (Z.neg k)) = IZR (Z.pos m))%R).
      { rewrite (pw_Z (Z.pos k)) by lia. replace (pw (Z.pos k) * (IZR (Z.pos m) * pw (Z.neg k)))%R with (IZR (Z.pos m) * (pw (Z.neg k) * pw (Z.pos k)))%R by ring.
        rewrite <- pw_add. replace (Z.neg k + Z.pos k) with 0 by lia. rewrite pw_0. ring. }
      assert (K' : (0 < IZR (2 ^ Z.pos k))%R) by (apply IZR_lt; exact K).
      assert (A1 : (IZR (2 ^ Z.pos k * n) <= IZR (Z.pos m))%R) by (rewrite mult_IZR, <- R1; apply Rmult_le_compat_l; lra).
      assert (A2 : (IZR (Z.pos m) < IZR (2 ^ Z.pos k * (n + 1)))%R) by (rewrite mult_IZR, plus_IZR, <- R1; apply Rmult_lt_compat_l; lra).
      apply le_IZR in A1. apply lt_IZR in A2. lia.
Qed.
(** the square root in double of an integer below 2^52, truncated, is the integer square root *)
Lemma root_floor n : 0 <= n < 2 ^ 52 -> trunc (SFsqrt 53 1024 (of_int 53 1024 n)) = Some (Z.sqrt n).
Proof.
  intros H. destruct (of_int_whole n ltac:(lia)) as (F & V & E). set (z := of_int 53 1024 n) in *.
  assert (N0 : (0 <= FR z)%R) by (rewrite E; apply (IZR_le 0); lia).
  destruct (sqrt_correct 53 1024 ltac:(lia) ltac:(lia) z ltac:(lia) F V N0) as [F1 A]. rewrite E in A.
  pose proof (Z.sqrt_spec n ltac:(lia)) as [S1 S2]. pose proof (Z.sqrt_nonneg n) as S0. set (s := Z.sqrt n) in *.
  assert (K : s + 1 <= 2 ^ 26) by (apply Z.nlt_ge; intros G; assert (2 ^ 26 * 2 ^ 26 <= s * s) by nia; lia).
  assert (Q0 : (0 <= IZR n)%R) by (apply (IZR_le 0); lia).
  assert (L1 : (IZR s <= sqrt (IZR n))%R).
  { rewrite <- (sqrt_square (IZR s)) by (apply (IZR_le 0); lia). apply sqrt_le_1; [apply Rle_0_sqr|exact Q0|]. rewrite <- mult_IZR. apply IZR_le. exact S1. }
  pose proof (proj1 (approx_le 53 1024 _ _ _ _ A F1 (whole s ltac:(lia))) L1) as G1.
  (* the largest double below s + 1 that matters *)
  set (g := (IZR ((s + 1) * 2 ^ 27 - 1) * pw (-27))%R).
  assert (I27 : (pw (-27) * pw 27 = 1)%R) by exact (pw_inv 27). assert (P27 : (0 < pw 27)%R) by apply pw_pos.
  assert (Pg : pw (-27) = (/ IZR (2 ^ 27))%R).
  { rewrite (pw_Z 27) by lia. apply Rmult_eq_reg_r with (pw 27); [rewrite I27, Rinv_l; [reflexivity|]|]; lra. }
  assert (Ig : isfl 53 1024 g).
  { unfold g. apply (isfl_scaled 53 1024 ltac:(lia) ltac:(lia)); [change (2 ^ 53) with (2 ^ 26 * 2 ^ 27); nia|unfold emin; lia]. }
  assert (Eg : g = (IZR s + 1 - / IZR (2 ^ 27))%R).
  { unfold g. rewrite Pg, minus_IZR, mult_IZR, plus_IZR. field. apply not_0_IZR. lia. }
  assert (D : (0 < / IZR (2 ^ 27))%R) by (apply Rinv_0_lt_compat, IZR_lt; lia).
  assert (L2 : (sqrt (IZR n) <= g)%R).
  { assert (0 <= g)%R. { rewrite Eg. assert (/ IZR (2 ^ 27) <= 1)%R by (rewrite <- Rinv_1; apply Rinv_le_contravar; [lra|apply IZR_le; lia]). assert (0 <= IZR s)%R by (apply (IZR_le 0); lia). lra. }
    rewrite <- (sqrt_square g) by assumption. apply sqrt_le_1; [exact Q0|nra|].
    assert (N : (IZR n <= IZR (s + 1) * IZR (s + 1) - 1)%R) by (rewrite <- mult_IZR, <- minus_IZR; apply IZR_le; lia). rewrite plus_IZR in N.
    assert (Ks : (IZR s + 1 <= IZR (2 ^ 26))%R) by (rewrite <- plus_IZR; apply IZR_le; exact K).
    assert (T : (2 * (IZR s + 1) * / IZR (2 ^ 27) <= 1)%R).
    { apply Rmult_le_reg_r with (IZR (2 ^ 27)); [apply IZR_lt; lia|]. rewrite Rmult_assoc, Rinv_l by (apply not_0_IZR; lia). change (2 ^ 27) with (2 * 2 ^ 26). rewrite mult_IZR. lra. }
    rewrite Eg. nra. }
  pose proof (proj2 (approx_le 53 1024 _ _ _ _ A F1 Ig) L2) as G2.
  assert (0 <= IZR s)%R by (apply (IZR_le 0); lia). apply trunc_floor; [exact F1|lra|lra].
Qed.

(** *** arithmetic in the promoted type *)
Lemma promote_wide t : bits (wid t) <= bits (wid (promote t)) /\ lo (promote t) <= lo t /\ hi t <= hi (promote t).
Proof. destruct t as [[] []]; cbv; repeat split; discriminate. Qed.
Lemma promote_holds t v : holds t v = true -> holds (promote t) v = true.
Proof. apply range_incl; apply promote_wide. Qed.
(** an operation whose exact result fits gives it *)
Lemma arith_mod p r : (signed p = false \/ holds p r = true) -> exists v, arith p r = Ok v /\ v mod 2 ^ bits (wid p) = r mod 2 ^ bits (wid p).
Proof.
  intros H. unfold arith. destruct (signed p); [destruct H as [H|H]; [discriminate|]; rewrite H; eexists; split; reflexivity|].
  eexists. split; [reflexivity|apply wrap_mod].
Qed.
Lemma arith_holds p r : holds p r = true -> arith p r = Ok r.
Proof. intros H. unfold arith. rewrite H, wrap_id by exact H. destruct (signed p); reflexivity. Qed.
Lemma wrap_to p v w : v mod 2 ^ bits (wid p) = w mod 2 ^ bits (wid p) -> holds p w = true -> wrap p v = w.
Proof. intros E H. rewrite (wrap_eq p v w E). apply wrap_id, H. Qed.
Lemma lo_neg t : lo t <= 0 <= hi t. Proof. destruct t as [[] []]; cbv; split; discriminate. Qed.
Lemma sq_le x : x <= x * x. Proof. nia. Qed.
(** a difference and its square, computed in the promoted type: unsigned differences wrap, but their squares are right *)
Lemma square_diff t x y : holds t x = true -> holds t y = true -> (x - y) * (x - y) <= hi t ->
  bind (isub t x y) (fun d => imul t d d) = Ok ((x - y) * (x - y)).
Proof.
  intros Hx Hy Hs. set (p := promote t). pose proof (promote_wide t) as (W1 & W2 & W3). fold p in W1, W2, W3.
  pose proof (lo_neg t). pose proof (lo_neg p). pose proof (Z.square_nonneg (x - y)) as Sq. assert (Hq : holds p ((x - y) * (x - y)) = true) by (apply holds_spec; lia).
  unfold isub, imul. fold p. rewrite (wrap_id p x), (wrap_id p y) by (apply promote_holds; assumption).
  destruct (signed p) eqn:S.
  - assert (Hd : holds p (x - y) = true).
    { apply holds_spec. assert (hi p <= - lo p /\ lo p <= - hi p) by (unfold lo, hi; rewrite S; lia). pose proof (sq_le (x - y)). pose proof (sq_le (y - x)) as Sq2. replace ((y - x) * (y - x)) with ((x - y) * (x - y)) in Sq2 by ring. lia. }
    rewrite (arith_holds p _ Hd). cbn [bind]. rewrite (wrap_id p _ Hd). apply arith_holds, Hq.
  - unfold arith. rewrite S. cbn [bind]. f_equal. apply wrap_to; [|exact Hq]. pose proof (mod_pos p).
    rewrite (wrap_id p (wrap p _)) by apply wrap_holds. rewrite Zmult_mod, wrap_mod, <- Zmult_mod. reflexivity.
Qed.
Lemma iacc_ok t s x : holds t s = true -> 0 <= s -> 0 <= x -> s + x <= hi t -> iacc t s x = Ok (s + x).
Proof.
  intros Hs S0 X0 Hh. pose proof (lo_neg t). pose proof (promote_wide t) as (_ & _ & W3). assert (Ht : holds t (s + x) = true) by (apply holds_spec; lia).
  unfold iacc, iadd. rewrite (wrap_id (promote t) s), (wrap_id (promote t) x) by (apply promote_holds, holds_spec; lia).
  rewrite (arith_holds _ _ (promote_holds _ _ Ht)). cbn [bind]. rewrite wrap_id by exact Ht. reflexivity.
Qed.
Lemma iroot_ok t n : 0 <= n <= hi t -> n < 2 ^ 52 -> iroot t n = Ok (Z.sqrt n).
Proof.
  intros H B. unfold iroot, to_int. rewrite root_floor by lia. pose proof (lo_neg t). pose proof (Z.sqrt_nonneg n). pose proof (Z.sqrt_le_lin n ltac:(lia)).
  replace (holds t (Z.sqrt n)) with true; [reflexivity|]. symmetry. apply holds_spec. lia.
Qed.
Definition total (l : list Z) : Z := fold_right Z.add 0 l.
Lemma total_nonneg {A} (f : A -> Z) l : (forall x, 0 <= f x) -> 0 <= total (map f l).
Proof. intros H. induction l as [|x l IH]; [cbn; lia|]. change (0 <= f x + total (map f l)). specialize (H x). lia. Qed.
(** The distance of two points with integer coordinates of any type, signed or not, is the exact one rounded down, whenever the sum
    of squares fits in the type and is below 2^52. *)
Theorem C173_distance : forall t a b, length a = length b -> Forall (fun x => holds t x = true) a -> Forall (fun x => holds t x = true) b ->
  let n := total (map (fun q => (fst q - snd q) * (fst q - snd q)) (combine a b)) in
  n <= hi t -> n < 2 ^ 52 -> exists r, idistance t a b = Ok r /\ 0 <= r /\ r * r <= n < (r + 1) * (r + 1).
Proof.
  intros t a b Hl Ha Hb n Hn Hb52. assert (N0 : 0 <= n).
  { apply total_nonneg. intros q. apply Z.square_nonneg. }
  exists (Z.sqrt n). split; [|split; [apply Z.sqrt_nonneg|apply Z.sqrt_spec; exact N0]].
  unfold idistance.
  assert (G : forall a b s, length a = length b -> Forall (fun x => holds t x = true) a -> Forall (fun x => holds t x = true) b -> 0 <= s ->
    s + total (map (fun q => (fst q - snd q) * (fst q - snd q)) (combine a b)) <= hi t ->
    fold_left (fun acc q => bind acc (fun sum => bind (isub t (fst q) (snd q)) (fun d => bind (imul t d d) (iacc t sum)))) (combine a b) (Ok s)
      = Ok (s + total (map (fun q => (fst q - snd q) * (fst q - snd q)) (combine a b)))
    /\ 0 <= total (map (fun q => (fst q - snd q) * (fst q - snd q)) (combine a b))).
  { clear. induction a as [|x a IH]; intros [|y b] s Hl Ha Hb S0 Hs; try discriminate Hl; [cbn; split; [f_equal|]; lia|].
    inversion Ha; subst. inversion Hb; subst. cbn [combine map fold_left fst snd] in *. cbn [total fold_right] in *. fold (total (map (fun q => (fst q - snd q) * (fst q - snd q)) (combine a b))) in *.
    set (r := total (map (fun q => (fst q - snd q) * (fst q - snd q)) (combine a b))) in *. assert (R0 : 0 <= r).
    { apply total_nonneg. intros q. apply Z.square_nonneg. }
    pose proof (Z.square_nonneg (x - y)) as D0. pose proof (lo_neg t).
    assert (St : bind (isub t x y) (fun d => bind (imul t d d) (iacc t s)) = Ok (s + (x - y) * (x - y))).
    { pose proof (square_diff t x y ltac:(assumption) ltac:(assumption) ltac:(lia)) as Q. destruct (isub t x y) as [d| | |]; try discriminate Q. cbn [bind] in *. rewrite Q. cbn [bind].
      apply iacc_ok; [apply holds_spec; lia|lia|lia|lia]. }
    cbn [bind]. rewrite St. destruct (IH b (s + (x - y) * (x - y)) ltac:(injection Hl; tauto) ltac:(assumption) ltac:(assumption) ltac:(lia) ltac:(fold r; lia)) as [E _].
    rewrite E. fold r. split; [f_equal; lia|lia]. }
  destruct (G a b 0 Hl Ha Hb ltac:(lia) ltac:(fold n; lia)) as [E _]. rewrite E. cbn [bind]. fold n. rewrite Z.add_0_l. apply iroot_ok; lia.
Qed.
(** so is the magnitude of a vector *)
Theorem C173_magnitude : forall t a, Forall (fun x => holds t x = true) a -> let n := total (map (fun x => x * x) a) in
  n <= hi t -> n < 2 ^ 52 -> exists r, imagnitude t a = Ok r /\ 0 <= r /\ r * r <= n < (r + 1) * (r + 1).
Proof.
  intros t a Ha n Hn H52.
  assert (R0 : forall l, 0 <= total (map (fun x => x * x) l)) by (intros l; apply total_nonneg; intros x; apply Z.square_nonneg).
  exists (Z.sqrt n). split; [|split; [apply Z.sqrt_nonneg|apply Z.sqrt_spec; apply R0]]. unfold imagnitude.
  assert (G : forall a s, Forall (fun x => holds t x = true) a -> 0 <= s -> s + total (map (fun x => x * x) a) <= hi t ->
    fold_left (fun acc x => bind acc (fun sum => bind (imul t x x) (iacc t sum))) a (Ok s) = Ok (s + total (map (fun x => x * x) a))).
  { clear - R0. induction a as [|x a IH]; intros s Ha S0 Hs; [cbn; f_equal; lia|]. inversion Ha; subst. cbn [map fold_left] in *. cbn [total fold_right] in *. fold (total (map (fun x => x * x) a)) in *.
    pose proof (R0 a). pose proof (Z.square_nonneg x). pose proof (lo_neg t).
    assert (M : imul t x x = Ok (x * x)).
    { unfold imul. rewrite wrap_id by (apply promote_holds; assumption). apply arith_holds, promote_holds, holds_spec. lia. }
    rewrite M. cbn [bind]. rewrite iacc_ok by first [lia | apply holds_spec; lia]. rewrite IH by (try assumption; lia). f_equal. lia. }
  rewrite (G a 0 Ha ltac:(lia) ltac:(fold n; lia)). cbn [bind]. fold n. rewrite Z.add_0_l. apply iroot_ok; [|exact H52]. split; [apply R0|exact Hn].
Qed.
(** the area of two vectors of a signed type is exact while its two products and it fit in the type and it is below 2^53 *)
Theorem C173_area_int : forall t a b, signed t = true -> holds t (fst a) = true -> holds t (snd a) = true -> holds t (fst b) = true -> holds t (snd b) = true ->
  holds t (fst a * snd b) = true -> holds t (snd a * fst b) = true ->
  let n := Z.abs (fst a * snd b - snd a * fst b) in n <= hi t -> n < 2 ^ 53 -> icross_magnitude2 t a b = Ok n.
Proof.
  intros t [a0 a1] [b0 b1] S H0 H1 H2 H3 M1 M2 n Hn H53. cbn [fst snd] in *. unfold icross_magnitude2, imul, isub. cbn [fst snd].
  rewrite !(wrap_id (promote t) a0), !(wrap_id (promote t) a1), !(wrap_id (promote t) b0), !(wrap_id (promote t) b1) by (apply promote_holds; assumption).
  rewrite (arith_holds _ _ (promote_holds _ _ M1)), (arith_holds _ _ (promote_holds _ _ M2)). cbn [bind].
  rewrite (wrap_id (promote t) (a0 * b1)), (wrap_id (promote t) (a1 * b0)) by (apply promote_holds; assumption).
  assert (L : lo t <= - hi t) by (unfold lo, hi; rewrite S; lia).
  rewrite arith_holds by (apply promote_holds, holds_spec; lia). cbn [bind]. unfold ifabs, to_int.
  destruct (of_int_whole (a0 * b1 - a1 * b0) ltac:(fold n; exact H53)) as (F & V & E).
  rewrite (trunc_exact _ n); [|rewrite fin_abs; exact F|rewrite FR_abs, E; unfold n; rewrite abs_IZR; reflexivity].
  replace (holds t n) with true; [reflexivity|]. symmetry. apply holds_spec. pose proof (lo_neg t). lia.
Qed.
Definition long := llong.
Definition ulong := mk_ity false W64.
(** REFUTED beyond: fabs and sqrt go through double. Areas of long vectors lose their last digit or become undefined, those of
    unsigned vectors are wrong as soon as the difference is negative, and the length of a long vector can be rounded up *)
Theorem C173_int_refuted :
  icross_magnitude2 long (2 ^ 53 + 1, 0) (0, 1) = Ok (2 ^ 53) /\ icross_magnitude2 long (2 ^ 63 - 1, 0) (0, 1) = UB /\
  icross_magnitude2 uint (0, 1) (1, 0) = Ok (2 ^ 32 - 1) /\ icross_magnitude2 ulong (0, 1) (1, 0) = UB /\
  (imagnitude long [67280000; 11600] = Ok 67280001 /\ 67280000 * 67280000 + 11600 * 11600 < 67280001 * 67280001) /\
  imagnitude int [46341] = UB.
Proof. vm_compute. repeat split. Qed.
Example C173_int_ex : idistance uint [1; 10] [4; 6] = Ok 5 /\ idistance (mk_ity true W8) [-4; 2] [2; -6] = Ok 10 /\ imagnitude int [3; -4] = Ok 5 /\
  imagnitude int [1; 1] = Ok 1 /\ icross_magnitude2 int (2, 3) (5, -7) = Ok 29.
Proof. vm_compute. repeat split. Qed.
Print Assumptions C173_distance. Print Assumptions C173_magnitude. Print Assumptions C173_area_int. Print Assumptions C173_int_refuted.
