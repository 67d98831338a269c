(** Properties of FloatSolveModel.v: matrices whose entries are whole numbers, of every size and in every format. *)
From Coq Require Import ZArith List Bool Lia Reals Lra Psatz Arith Factorial.
From Verif Require Import FloatModel FloatShapeModel FloatSolveModel FloatRound FloatProofs FloatProps FloatGeomProps FloatExpr FloatShapeProps FloatDetProps DetBridge.
From Coq Require Import SpecFloat.
Import ListNotations.
Local Open Scope R_scope.

Definition whole_number prec emax M (x : spec_float) : Prop := number prec emax x /\ fin x = true /\ whole (FR x) /\ Rabs (FR x) <= M.
(** z is x up to two relative rounding errors *)
Definition near2 prec emax (z : spec_float) (x : R) : Prop := number prec emax z /\ fin z = true /\ Rabs (FR z - x) <= ((1 + uu prec) ^ 2 - 1) * Rabs x.

Lemma whole_recip prec emax d : format prec emax -> number prec emax d -> fin d = true -> whole (FR d) -> FR d <> 0 -> Rabs (FR d) < pw prec ->
  near2 prec emax (SFdiv prec emax (of_int prec emax 1) d) (1 / FR d).
Proof.
  intros Hf Vd Fd [zd Wd] N Ld. pose proof Hf as [Hp He]. destruct (one_exact prec emax Hf) as (O1 & O2 & O3).
  pose proof (u_pos prec) as U. pose proof (u_le prec Hp) as U2. pose proof (eta_pos prec emax) as T.
  assert (D1 : 1 <= Rabs (FR d)). { rewrite Wd, <- abs_IZR. apply IZR_le. assert (zd <> 0)%Z by (intros ->; apply N; exact Wd). lia. }
  assert (I1 : pw (- prec) <= Rabs (1 / FR d)).
  { unfold Rdiv. rewrite Rabs_mult, Rabs_R1, Rmult_1_l, Rabs_inv. apply Rmult_le_reg_r with (Rabs (FR d)); [lra|]. rewrite Rinv_l by lra.
    apply Rle_trans with (pw (- prec) * pw prec); [apply Rmult_le_compat_l; [left; apply pw_pos|lra]|]. rewrite <- pw_add, Z.add_opp_diag_l, pw_0. lra. }
  assert (I2 : Rabs (1 / FR d) <= 1).
  { unfold Rdiv. rewrite Rabs_mult, Rabs_R1, Rmult_1_l, Rabs_inv. rewrite <- Rinv_1. apply Rinv_le_contravar; lra. }
  assert (E1 : eta prec emax <= pw (- prec) * pw (- prec) * / 2).
  { replace (/ 2) with (pw (-1)) by (unfold pw; simpl; lra). rewrite <- !pw_add. unfold eta. apply pw_le. unfold emin. lia. }
  pose proof (div_correct prec emax Hp ltac:(lia) _ _ O1 Fd O2 Vd N) as A. rewrite O3 in A.
  assert (Uu : uu prec = pw (- prec)) by reflexivity. pose proof (pw_pos (- prec)) as P0.
  assert (M1 : Rmax (uu prec * Rabs (1 / FR d)) (eta prec emax) = uu prec * Rabs (1 / FR d)) by (apply Rmax_left; rewrite Uu; pose proof (Rmult_le_compat_l _ _ _ (Rlt_le _ _ P0) I1); pose proof (Rmult_lt_0_compat _ _ P0 P0); lra).
  rewrite M1 in A. assert (L4 : 4 <= pw prec) by (replace 4 with (pw 2) by (unfold pw; simpl; lra); apply pw_le; lia).
  assert (L5 : pw prec * 8 <= pw emax) by (replace 8 with (pw 3) by (unfold pw; simpl; lra); rewrite <- pw_add; apply pw_le; lia).
  set (i := SFdiv prec emax (of_int prec emax 1) d) in *. assert (Fi : fin i = true).
  { apply (approx_fin prec emax _ _ _ A). assert (uu prec * Rabs (1 / FR d) <= / 4 * 1) by (apply Rmult_le_compat; try lra; apply Rabs_pos). lra. }
  split; [exact (approx_valid _ _ _ _ _ A)|]. split; [exact Fi|]. destruct A as [_ [(_ & _ & A & _)|(s & Z & _)]]; [|rewrite Z in Fi; discriminate].
  eapply Rle_trans; [exact A|]. apply Rmult_le_compat_r; [apply Rabs_pos|]. nra.
Qed.
Lemma whole_quot2 prec emax d x r : format prec emax -> number prec emax d -> number prec emax x -> fin d = true -> fin x = true -> whole (FR d) -> whole (FR x) -> FR d <> 0 -> Rabs (FR d) < pw prec -> Rabs (FR x) < pw prec ->
  r = FR x / FR d -> near2 prec emax (SFmul prec emax x (SFdiv prec emax (of_int prec emax 1) d)) r.
Proof.
  intros Hf Vd Vx Fd Fx Wd Wx N Ld Lx ->. rewrite mul_comm. destruct (whole_quot prec emax d x Hf Vd Vx Fd Fx Wd Wx N Ld Lx) as [F E].
  split; [|split; assumption]. destruct (whole_recip prec emax d Hf Vd Fd Wd N Ld) as (V & _). destruct Hf. apply valid_mul; try assumption.
Qed.
(** differences of products of small whole numbers are exact *)
Lemma det2_exact prec emax M a b c d : format prec emax -> 1 <= M -> whole_number prec emax M a -> whole_number prec emax M b -> whole_number prec emax M c -> whole_number prec emax M d -> 2 * M ^ 2 < pw prec ->
  let z := SFsub prec emax (SFmul prec emax a b) (SFmul prec emax c d) in
  number prec emax z /\ fin z = true /\ whole (FR z) /\ FR z = FR a * FR b - FR c * FR d /\ Rabs (FR z) < pw prec.
Proof.
  intros Hf HM (Va & Fa & Wa & La) (Vb & Fb & Wb & Lb) (Vc & Fc & Wc & Lc) (Vd & Fd & Wd & Ld) L z.
  set (v := fun i => nth i [a; b; c; d] f0). pose (e := ESub (EMul (EVar 0) (EVar 1)) (EMul (EVar 2) (EVar 3))). change z with (feval prec emax v e).
  assert (V : numbers prec emax [a; b; c; d]) by (repeat apply Forall_cons; try apply Forall_nil; try split; assumption).
  assert (B2 : Forall (fun x => Rabs (FR x) <= M) [a; b; c; d]) by (repeat apply Forall_cons; try apply Forall_nil; try split; assumption).
  assert (B1 : Forall (fun x => fin x = true /\ whole (FR x)) [a; b; c; d]) by (repeat apply Forall_cons; try apply Forall_nil; try split; assumption).
  assert (T : INR (terms e) * M ^ degree e < pw prec) by (change (terms e) with 2%nat; change (degree e) with 2%nat; rewrite INR_IZR_INZ; exact L).
  destruct (feval_exact_bounded prec emax Hf v (env_number prec emax _ V) M e HM (env_bound M _ HM B2) ltac:(repeat split) (env_whole _ B1) T) as (F & E & W).
  split; [apply feval_valid; [exact Hf|apply env_number, V|repeat split]|]. split; [exact F|]. split; [rewrite E; exact W|]. split; [exact E|]. rewrite E. 
  eapply Rle_lt_trans; [apply (reval_aeval prec); repeat split|]. eapply Rle_lt_trans; [|exact T]. apply (aeval_terms prec v M HM (env_bound M _ HM B2)). repeat split.
Qed.
Lemma Some_inj {T} (x y : T) : Some x = Some y -> x = y. Proof. intros E. injection E. auto. Qed.
Ltac det_eval := cbv [detR minor without sumR map seq fold_right Nat.ltb Nat.leb Nat.sub Nat.add pow].
Lemma detR_1 a : detR 1 a = a 0%nat 0%nat. Proof. det_eval. ring. Qed.
Lemma detR_2 a : detR 2 a = a 0%nat 0%nat * a 1%nat 1%nat - a 0%nat 1%nat * a 1%nat 0%nat. Proof. det_eval. ring. Qed.
Lemma detR_3 a : detR 3 a = det_rows (a 0%nat 0%nat) (a 0%nat 1%nat) (a 0%nat 2%nat) (a 1%nat 0%nat) (a 1%nat 1%nat) (a 1%nat 2%nat) (a 2%nat 0%nat) (a 2%nat 1%nat) (a 2%nat 2%nat). Proof. unfold det_rows. det_eval. ring. Qed.

Theorem inverse_entries prec emax M n A : format prec emax -> (1 <= n)%nat -> 1 <= M -> entries n (whole_number prec emax M) A -> INR (fact n) * M ^ n < pw prec ->
  let a := fun i j => FR (A i j) in
  (detR n a = 0 -> finverse_any prec emax n A = None) /\
  (detR n a <> 0 -> exists B, finverse_any prec emax n A = Some B /\ forall i j, (i < n)%nat -> (j < n)%nat ->
     near2 prec emax (B i j) ((-1) ^ (i + j) * detR (n - 1) (without a j i) / detR n a)).
Proof.
  intros Hf N HM V L a. pose proof Hf as [Hp He]. destruct n as [|[|[|[|n]]]]; [lia| | | |].
  - rewrite detR_1. destruct (V 0%nat 0%nat ltac:(lia) ltac:(lia)) as (Va & Fa & Wa & La). cbn [finverse_any]. unfold finverse1. rewrite (eqb_spec prec emax) by (assumption || reflexivity). cbn [FR f0].
    change (FR (A 0%nat 0%nat)) with (a 0%nat 0%nat). cbn in L. split; intros Z; destruct Req_EM_T as [E|E]; try contradiction; [reflexivity|]. eexists. split; [reflexivity|].
    intros i j Hi Hj. assert (i = 0%nat) as -> by lia. assert (j = 0%nat) as -> by lia. cbn [Nat.sub Nat.add detR pow]. rewrite Rmult_1_l. apply whole_recip; try assumption. lra.
  - rewrite detR_2. assert (L2 : 2 * M ^ 2 < pw prec) by (cbn in L |- *; lra).
    pose proof (V 0%nat 0%nat ltac:(lia) ltac:(lia)) as W00. pose proof (V 0%nat 1%nat ltac:(lia) ltac:(lia)) as W01. pose proof (V 1%nat 0%nat ltac:(lia) ltac:(lia)) as W10. pose proof (V 1%nat 1%nat ltac:(lia) ltac:(lia)) as W11.
    assert (Sm : forall x, Rabs x <= M -> Rabs x < pw prec) by (intros x Hx; nra).
    destruct (det2_exact prec emax M _ _ _ _ Hf HM W00 W11 W01 W10 L2) as (Vd & Fd & Wd & Ed & Ld). cbn [finverse_any]. unfold finverse2, fdet2. set (d := SFsub _ _ _ _) in *. clearbody d.
    rewrite (eqb_spec prec emax) by (assumption || reflexivity). cbn [FR f0]. fold (a 0%nat 0%nat) (a 0%nat 1%nat) (a 1%nat 0%nat) (a 1%nat 1%nat) in Ed |- *. rewrite <- Ed.
    split; intros Z; destruct Req_EM_T as [E|E]; try contradiction; [reflexivity|]. eexists. split; [reflexivity|]. cbn [Nat.sub].
    destruct W00 as (V00 & F00 & W00 & L00), W01 as (V01 & F01 & W01 & L01), W10 as (V10 & F10 & W10 & L10), W11 as (V11 & F11 & W11 & L11).
    assert (Op : forall x, whole (FR x) -> whole (FR (SFopp x))) by (intros x [k Hk]; rewrite FR_opp, Hk; exists (- k)%Z; rewrite opp_IZR; reflexivity).
    intros i j Hi Hj. rewrite detR_1. destruct i as [|[|i]]; [| |lia]; destruct j as [|[|j]]; try lia; cbn [nth].
    + apply whole_quot2; try assumption; [apply Sm; assumption|]. unfold without. cbn. unfold a. field. exact Z.
    + apply whole_quot2; try assumption; [unfold number; rewrite valid_opp; assumption|rewrite fin_opp; assumption|apply Op; assumption|rewrite FR_opp, Rabs_Ropp; apply Sm; assumption|]. rewrite FR_opp. unfold without. cbn. unfold a. field. exact Z.
    + apply whole_quot2; try assumption; [unfold number; rewrite valid_opp; assumption|rewrite fin_opp; assumption|apply Op; assumption|rewrite FR_opp, Rabs_Ropp; apply Sm; assumption|]. rewrite FR_opp. unfold without. cbn. unfold a. field. exact Z.
    + apply whole_quot2; try assumption; [apply Sm; assumption|]. unfold without. cbn. unfold a. field. exact Z.
  - pose proof (fun i j => V i j) as V'. assert (L6 : 6 * M ^ 3 < pw prec) by (cbn in L |- *; lra). assert (L2 : 2 * M ^ 2 < pw prec) by (cbn in L6 |- *; nra).
    destruct (C149_exact prec emax M 3 A Hf N HM V L) as (_ & _ & Wd).
    assert (All : Forall (whole_number prec emax M) [A 0%nat 0%nat; A 0%nat 1%nat; A 0%nat 2%nat; A 1%nat 0%nat; A 1%nat 1%nat; A 1%nat 2%nat; A 2%nat 0%nat; A 2%nat 1%nat; A 2%nat 2%nat]) by (repeat (apply Forall_cons; [apply V; lia|]); apply Forall_nil).
    assert (Vn : numbers prec emax [A 0%nat 0%nat; A 0%nat 1%nat; A 0%nat 2%nat; A 1%nat 0%nat; A 1%nat 1%nat; A 1%nat 2%nat; A 2%nat 0%nat; A 2%nat 1%nat; A 2%nat 2%nat]) by (eapply Forall_impl; [|exact All]; intros x Hx; apply Hx).
    assert (Bd : Forall (fun x => (fin x = true /\ whole (FR x)) /\ Rabs (FR x) <= M) [A 0%nat 0%nat; A 0%nat 1%nat; A 0%nat 2%nat; A 1%nat 0%nat; A 1%nat 1%nat; A 1%nat 2%nat; A 2%nat 0%nat; A 2%nat 1%nat; A 2%nat 2%nat]) by (eapply Forall_impl; [|exact All]; intros x (? & ? & ? & ?); tauto).
    destruct (C147_det3 prec emax M _ _ _ _ _ _ _ _ _ Hf HM Vn Bd L6) as [F E].
    assert (Vd : number prec emax (fdet3 prec emax (A 0%nat 0%nat) (A 0%nat 1%nat) (A 0%nat 2%nat) (A 1%nat 0%nat) (A 1%nat 1%nat) (A 1%nat 2%nat) (A 2%nat 0%nat) (A 2%nat 1%nat) (A 2%nat 2%nat))) by (rewrite <- feval_det3; apply feval_valid; [exact Hf|apply env_number, Vn|repeat split]).
    pose proof (detR_3 a) as D3. unfold a in D3 at 2 3 4 5 6 7 8 9 10. rewrite <- D3 in E. clear D3.
    pose proof (det_small prec emax M 2 A Hf HM V L) as Sd. fold a in Sd.
    destruct (C149_exact prec emax M 3 A Hf N HM V L) as (_ & Eg & Wg). fold a in Eg. rewrite Eg in Wg.
    cbn [finverse_any]. unfold finverse3. set (d := fdet3 _ _ _ _ _ _ _ _ _ _ _) in *. clearbody d.
    rewrite (eqb_spec prec emax) by (assumption || reflexivity). cbn [FR f0]. rewrite E. split; intros Z; destruct Req_EM_T as [Y|Y]; try contradiction; [reflexivity|]. eexists. split; [reflexivity|]. cbn [Nat.sub].
    rewrite <- E in *.
    assert (G : forall x y z w r, whole_number prec emax M x -> whole_number prec emax M y -> whole_number prec emax M z -> whole_number prec emax M w -> r = FR x * FR y - FR z * FR w ->
      near2 prec emax (SFmul prec emax (SFsub prec emax (SFmul prec emax x y) (SFmul prec emax z w)) (SFdiv prec emax (of_int prec emax 1) d)) (r / FR d)).
    { intros x y z w r Hx Hy Hz Hw ->. destruct (det2_exact prec emax M x y z w Hf HM Hx Hy Hz Hw L2) as (T1 & T2 & T3 & T4 & T5). apply whole_quot2; try assumption. rewrite T4. reflexivity. }
    intros i j Hi Hj. destruct i as [|[|[|i]]]; [| | |lia]; (destruct j as [|[|[|j]]]; [| | |lia]); cbn [map nth Nat.add Nat.mul]; apply G; try (apply V; lia); rewrite detR_2; unfold without; cbn; unfold a; ring.
  - destruct (C149_inverse prec emax M (S (S (S (S n)))) A Hf ltac:(lia) HM V L) as [I1 I2]. cbn [finverse_any]. split; [exact I1|]. intros Z. destruct (I2 Z) as (B & EB & HB). exists B. split; [exact EB|].
    intros i j Hi Hj. destruct (HB i j Hi Hj) as [Fb Q]. split; [|split; assumption].
    unfold finverse in EB. destruct SFltb; [|discriminate]. apply Some_inj in EB. rewrite <- EB. clear EB HB Fb Q I1 I2.
    assert (Vd : number prec emax (fdeterminant prec emax (S (S (S (S n)))) A)) by (apply det_number; [exact Hf|intros p q Hp' Hq; apply (V p q Hp' Hq)]).
    assert (Vx : number prec emax (fdeterminant prec emax (S (S (S (S n))) - 1) (fcofactor A j i))).
    { apply det_number; [exact Hf|]. intros p q Hp' Hq. unfold fcofactor. apply V; apply without_lt; assumption. }
    destruct (one_exact prec emax Hf) as (O1 & O2 & O3).
    assert (Vi : number prec emax (SFdiv prec emax (of_int prec emax 1) (fdeterminant prec emax (S (S (S (S n)))) A))) by (destruct (C149_exact prec emax M (S (S (S (S n)))) A Hf ltac:(lia) HM V L) as (Fd & Ed & _); eapply approx_valid; apply (div_correct prec emax Hp ltac:(lia) _ _ O1 Fd O2 Vd); rewrite Ed; exact Z).
    destruct Nat.eqb; [unfold number; rewrite valid_opp|]; apply valid_mul; assumption.
Qed.

(** * C156 *)
(** X times the matrix is the identity *)
Theorem C156_inverse prec emax M n A X : format prec emax -> (1 <= n)%nat -> 1 <= M -> entries n (whole_number prec emax M) A -> INR (fact n) * M ^ n < pw prec ->
  left_inverse n X (fun i j => FR (A i j)) ->
  exists B, finverse_any prec emax n A = Some B /\ forall i j, (i < n)%nat -> (j < n)%nat -> near2 prec emax (B i j) (X i j).
Proof.
  intros Hf N HM V L H. destruct (inverse_entries prec emax M n A Hf N HM V L) as [_ I]. destruct (cramer H) as [D E]. destruct (I D) as (B & EB & HB). exists B. split; [exact EB|].
  intros i j Hi Hj. rewrite (E i j Hi Hj). apply HB; assumption.
Qed.
Theorem C156_singular prec emax M n A : format prec emax -> (1 <= n)%nat -> 1 <= M -> entries n (whole_number prec emax M) A -> INR (fact n) * M ^ n < pw prec ->
  (finverse_any prec emax n A = None <-> ~ exists X, left_inverse n X (fun i j => FR (A i j))).
Proof.
  intros Hf N HM V L. split.
  - intros E [X H]. destruct (C156_inverse prec emax M n A X Hf N HM V L H) as (B & EB & _). rewrite E in EB. discriminate.
  - intros H. destruct (inverse_entries prec emax M n A Hf N HM V L) as [I _]. apply I. destruct (Req_EM_T (detR n (fun i j => FR (A i j))) 0) as [E|E]; [exact E|]. exfalso. apply H, regular, E.
Qed.
Lemma near2_abs prec emax z x : near2 prec emax z x -> Rabs (FR z) <= (1 + uu prec) ^ 2 * Rabs x.
Proof. intros (_ & _ & E). replace (FR z) with (FR z - x + x) by ring. eapply Rle_trans; [apply Rabs_triang|]. lra. Qed.
Lemma sum_le {T} (f g : T -> R) l : (forall x, In x l -> f x <= g x) -> sumR (map f l) <= sumR (map g l).
Proof. induction l as [|x l IH]; intros H; [apply Rle_refl|]. cbn [map]. rewrite !sumR_cons. apply Rplus_le_compat; [apply H; left; reflexivity|apply IH; intros; apply H; right; assumption]. Qed.
Lemma sum_scal {T} (f : T -> R) c l : sumR (map (fun x => c * f x) l) = c * sumR (map f l).
Proof. induction l as [|x l IH]; [unfold sumR; cbn; ring|]. cbn [map]. rewrite !sumR_cons, IH. ring. Qed.
Lemma sum_diff {T} (f g e : T -> R) l : (forall x, In x l -> Rabs (f x - g x) <= e x) -> Rabs (sumR (map f l) - sumR (map g l)) <= sumR (map e l).
Proof.
  induction l as [|x l IH]; intros H; [unfold sumR; cbn; rewrite Rminus_diag_eq, Rabs_R0 by reflexivity; lra|]. cbn [map]. rewrite !sumR_cons.
  replace (f x + sumR (map f l) - (g x + sumR (map g l))) with ((f x - g x) + (sumR (map f l) - sumR (map g l))) by ring.
  eapply Rle_trans; [apply Rabs_triang|]. apply Rplus_le_compat; [apply H; left; reflexivity|apply IH; intros; apply H; right; assumption].
Qed.
(** the error of the solution y against the magnitudes that enter the i-th component *)
Definition weight (n : nat) (X : nat -> nat -> R) (b : nat -> spec_float) (i : nat) : R := sumR (map (fun j => Rabs (X i j * FR (b j))) (seq 0 n)).
Section Solve.
Variables (prec emax : Z) (n : nat) (B : nat -> nat -> spec_float) (X : nat -> nat -> R) (b : nat -> spec_float).
Hypothesis Hf : format prec emax.
Hypothesis HB : forall i j, (i < n)%nat -> (j < n)%nat -> near2 prec emax (B i j) (X i j).
Hypothesis Hb : forall j, (j < n)%nat -> number prec emax (b j).
Lemma weight_B i : (i < n)%nat -> sumR (map (fun j => Rabs (FR (B i j) * FR (b j))) (seq 0 n)) <= (1 + uu prec) ^ 2 * weight n X b i.
Proof using HB.
  intros Hi. unfold weight. rewrite <- sum_scal. apply sum_le. intros j Hj. apply in_seq in Hj. rewrite !Rabs_mult. pose proof (near2_abs _ _ _ _ (HB i j Hi ltac:(lia))) as E.
  pose proof (Rmult_le_compat_r _ _ _ (Rabs_pos (FR (b j))) E). lra.
Qed.
Lemma exact_B i : (i < n)%nat -> Rabs (sumR (map (fun j => FR (B i j) * FR (b j)) (seq 0 n)) - sumR (map (fun j => X i j * FR (b j)) (seq 0 n))) <= ((1 + uu prec) ^ 2 - 1) * weight n X b i.
Proof using HB.
  intros Hi. unfold weight. rewrite <- sum_scal. apply sum_diff. intros j Hj. apply in_seq in Hj. destruct (HB i j Hi ltac:(lia)) as (_ & _ & E).
  replace (FR (B i j) * FR (b j) - X i j * FR (b j)) with ((FR (B i j) - X i j) * FR (b j)) by ring. rewrite !Rabs_mult. pose proof (Rmult_le_compat_r _ _ _ (Rabs_pos (FR (b j))) E). lra.
Qed.
Lemma product_near c i : (i < n)%nat ->
  Rabs (FR (fax_plus_y prec emax n B b (fun _ => f0) i) - sumR (map (fun j => FR (B i j) * FR (b j)) (seq 0 n))) <= ((1 + uu prec) ^ n - 1) * sumR (map (fun j => Rabs (FR (B i j) * FR (b j))) (seq 0 n)) + c ->
  Rabs (FR (fax_plus_y prec emax n B b (fun _ => f0) i) - sumR (map (fun j => X i j * FR (b j)) (seq 0 n))) <= ((1 + uu prec) ^ (n + 2) - 1) * weight n X b i + c.
Proof using HB.
  intros Hi E. pose proof (weight_B i Hi) as W. pose proof (exact_B i Hi) as Q. set (z := FR _) in *. set (s := sumR (map (fun j => FR (B i j) * FR (b j)) (seq 0 n))) in *. set (t := sumR (map (fun j => X i j * FR (b j)) (seq 0 n))) in *.
  set (w := sumR (map (fun j => Rabs (FR (B i j) * FR (b j))) (seq 0 n))) in *. replace (z - t) with ((z - s) + (s - t)) by ring. eapply Rle_trans; [apply Rabs_triang|].
  pose proof (u_pos prec). assert (P : 1 <= (1 + uu prec) ^ n) by (apply pow_R1_Rle; lra). pose proof (Rmult_le_compat_l ((1 + uu prec) ^ n - 1) _ _ ltac:(lra) W). rewrite pow_add. lra.
Qed.
Lemma product_error i : (i < n)%nat -> fin (fax_plus_y prec emax n B b (fun _ => f0) i) = true ->
  Rabs (FR (fax_plus_y prec emax n B b (fun _ => f0) i) - sumR (map (fun j => X i j * FR (b j)) (seq 0 n))) <= ((1 + uu prec) ^ (n + 2) - 1) * weight n X b i + (1 + uu prec) ^ n * (INR n * eta prec emax).
Proof using HB Hb Hf.
  intros Hi F. apply product_near; [exact Hi|]. pose proof (fold_terms prec emax Hf (fun j => B i j) b (seq 0 n)) as E. rewrite seq_length in E. apply E; [|exact F].
  intros j Hj. apply in_seq in Hj. split; [apply (HB i j Hi); lia|apply Hb; lia].
Qed.
Lemma product_finite i : (i < n)%nat -> (forall j, (j < n)%nat -> fin (b j) = true) -> (1 + uu prec) ^ (n + 3) * (weight n X b i + INR n * eta prec emax) < pw emax -> fin (fax_plus_y prec emax n B b (fun _ => f0) i) = true.
Proof using HB Hb Hf.
  intros Hi Fb L. apply (fold_terms_fin prec emax Hf (fun j => B i j) b (seq 0 n)).
  - intros j Hj. apply in_seq in Hj. destruct (HB i j Hi ltac:(lia)) as (? & ? & _). repeat split; try assumption; [apply Hb|apply Fb]; lia.
  - rewrite seq_length. eapply Rle_lt_trans; [|exact L]. replace (n + 3)%nat with (S n + 2)%nat by lia. rewrite pow_add. pose proof (weight_B i Hi) as W.
    pose proof (u_pos prec) as U. assert (P : 1 <= (1 + uu prec) ^ S n) by (apply pow_R1_Rle; lra). assert (P2 : 1 <= (1 + uu prec) ^ 2) by (apply pow_R1_Rle; lra).
    rewrite Rmult_assoc. apply Rmult_le_compat_l; [lra|]. pose proof (pos_INR n) as N0. pose proof (eta_pos prec emax) as T. pose proof (Rmult_le_pos _ _ N0 (Rlt_le _ _ T)) as Q.
    rewrite Rmult_plus_distr_l. apply Rplus_le_compat; [exact W|]. rewrite <- (Rmult_1_l (INR n * _)) at 1. apply Rmult_le_compat_r; assumption.
Qed.
End Solve.
(** every component of the solution carries n + 2 rounding errors relative to the magnitudes of the terms it is made of, and what underflow adds *)
Theorem C156_solve prec emax M n A b X y : format prec emax -> (1 <= n)%nat -> 1 <= M -> entries n (whole_number prec emax M) A -> INR (fact n) * M ^ n < pw prec ->
  (forall j, (j < n)%nat -> number prec emax (b j)) ->
  left_inverse n X (fun i j => FR (A i j)) -> (forall i, (i < n)%nat -> sumR (map (fun j => FR (A i j) * y j) (seq 0 n)) = FR (b i)) ->
  exists x, fsolve prec emax n A b = Some x /\ forall i, (i < n)%nat ->
    (fin (x i) = true -> Rabs (FR (x i) - y i) <= ((1 + uu prec) ^ (n + 2) - 1) * weight n X b i + (1 + uu prec) ^ n * (INR n * eta prec emax)) /\
    ((forall j, (j < n)%nat -> fin (b j) = true) -> (1 + uu prec) ^ (n + 3) * (weight n X b i + INR n * eta prec emax) < pw emax -> fin (x i) = true).
Proof.
  intros Hf N HM V L Hb H S. destruct (C156_inverse prec emax M n A X Hf N HM V L H) as (B & EB & HB). unfold fsolve. rewrite EB. eexists. split; [reflexivity|]. intros i Hi.
  change (of_int prec emax 0) with f0. rewrite (solution H S Hi). split; [intros F; apply product_error|intros Fb Lt; apply (product_finite prec emax n B X b)]; assumption.
Qed.
(** nothing underflows when the right hand side is whole as well *)
Lemma whole_entries prec emax M n A X i j : format prec emax -> (1 <= n)%nat -> 1 <= M -> entries n (whole_number prec emax M) A -> INR (fact n) * M ^ n < pw prec ->
  left_inverse n X (fun i j => FR (A i j)) -> (i < n)%nat -> (j < n)%nat -> X i j = 0 \/ pw (- prec) <= Rabs (X i j).
Proof.
  intros Hf N HM V L H Hi Hj. destruct (cramer H) as [D E]. rewrite (E i j Hi Hj). clear E. destruct n as [|n]; [lia|]. replace (S n - 1)%nat with n by lia.
  pose proof (det_small prec emax M n A Hf HM V L) as Sd. set (d := detR (S n) (fun i j => FR (A i j))) in *.
  assert (W : whole (detR n (without (fun i j => FR (A i j)) j i))).
  { destruct n as [|n]; [exists 1%Z; reflexivity|].
    assert (V2 : entries (S n) (whole_number prec emax M) (fcofactor A j i)) by (intros p q Hp Hq; unfold fcofactor; apply V; apply without_lt; assumption).
    assert (L2 : INR (fact (S n)) * M ^ S n < pw prec).
    { eapply Rle_lt_trans; [|exact L]. pose proof (pos_INR (fact (S n))). assert (1 <= M ^ S n) by (apply pow_R1_Rle; exact HM). apply Rmult_le_compat; try lra.
      - apply le_INR. change (fact (S (S n))) with (S (S n) * fact (S n))%nat. lia.
      - apply Rle_pow; [exact HM|lia]. }
    destruct (C149_exact prec emax M (S n) (fcofactor A j i) Hf ltac:(lia) HM V2 L2) as (F2 & E2 & W2). rewrite E2 in W2. exact W2. }
  destruct W as [k Hk]. rewrite Hk. destruct (Z.eq_dec k 0) as [->|Nk]; [left; unfold Rdiv; ring|]. right.
  unfold Rdiv. rewrite !Rabs_mult, pow_1_abs, Rmult_1_l, Rabs_inv. assert (1 <= Rabs (IZR k)) by (rewrite <- abs_IZR; apply IZR_le; lia).
  pose proof (Rabs_pos_lt _ D) as Pd. assert (I : pw (- prec) <= / Rabs d).
  { apply Rmult_le_reg_r with (Rabs d); [exact Pd|]. rewrite Rinv_l by lra. apply Rle_trans with (pw (- prec) * pw prec); [apply Rmult_le_compat_l; [left; apply pw_pos|lra]|]. rewrite <- pw_add, Z.add_opp_diag_l, pw_0. lra. }
  pose proof (pw_pos (- prec)). rewrite <- (Rmult_1_l (pw (- prec))). apply Rmult_le_compat; lra.
Qed.
Theorem C156_whole prec emax M n A b X y : format prec emax -> (3 <= prec)%Z -> (1 <= n)%nat -> 1 <= M -> entries n (whole_number prec emax M) A -> INR (fact n) * M ^ n < pw prec ->
  (forall j, (j < n)%nat -> number prec emax (b j) /\ whole (FR (b j))) ->
  left_inverse n X (fun i j => FR (A i j)) -> (forall i, (i < n)%nat -> sumR (map (fun j => FR (A i j) * y j) (seq 0 n)) = FR (b i)) ->
  exists x, fsolve prec emax n A b = Some x /\ forall i, (i < n)%nat -> fin (x i) = true -> Rabs (FR (x i) - y i) <= ((1 + uu prec) ^ (n + 2) - 1) * weight n X b i.
Proof.
  intros Hf Hp3 N HM V L Hb H S. destruct (C156_inverse prec emax M n A X Hf N HM V L H) as (B & EB & HB). unfold fsolve. rewrite EB. eexists. split; [reflexivity|]. intros i Hi F.
  change (of_int prec emax 0) with f0 in *. rewrite (solution H S Hi). rewrite <- (Rplus_0_r (_ * _)). apply product_near; [exact HB|exact Hi|]. rewrite Rplus_0_r.
  pose proof (fold_terms_normal prec emax Hf (fun j => B i j) b (seq 0 n)) as E. rewrite seq_length in E. apply E; [| |exact F].
  - intros j Hj. apply in_seq in Hj. split; [apply (HB i j Hi); lia|apply Hb; lia].
  - intros j Hj. apply in_seq in Hj. destruct (HB i j Hi ltac:(lia)) as (_ & _ & Q). destruct (Hb j ltac:(lia)) as (_ & k & Hk).
    destruct Hf as [Hp He]. pose proof (u_pos prec) as U. pose proof (u_le prec Hp) as U2.
    destruct (whole_entries prec emax M n A X i j (conj Hp He) N HM V L H Hi ltac:(lia)) as [Z|P].
    + left. rewrite Z, Rabs_R0, Rmult_0_r, Rminus_0_r in Q. pose proof (Rabs_pos (FR (B i j))). assert (Z' : Rabs (FR (B i j)) = 0) by lra. destruct (Req_EM_T (FR (B i j)) 0) as [->|X']; [ring|]. apply Rabs_no_R0 in X'. contradiction.
    + destruct (Z.eq_dec k 0) as [->|Nk]; [left; rewrite Hk; ring|right]. assert (1 <= Rabs (FR (b j))) by (rewrite Hk, <- abs_IZR; apply IZR_le; lia).
      assert (Lo : pw (- prec) * pw (-1) <= Rabs (FR (B i j))).
      { assert (pw (-1) = / 2) as -> by (unfold pw; simpl; lra). pose proof (Rabs_triang_inv (X i j) (X i j - FR (B i j))) as T. replace (X i j - (X i j - FR (B i j))) with (FR (B i j)) in T by ring. rewrite (Rabs_minus_sym (FR (B i j))) in Q.
        assert ((1 + uu prec) ^ 2 - 1 <= 1 / 2) by (assert (uu prec <= / 8) by (replace (/ 8) with (pw (-3)) by (unfold pw; simpl; lra); apply pw_le; lia); cbn; nra). pose proof (Rmult_le_compat_r _ _ _ (Rabs_pos (X i j)) H1). lra. }
      rewrite Rabs_mult. apply Rle_trans with (pw (- prec) * pw (-1) * 1).
      * rewrite Rmult_1_r, <- pw_add. apply pw_le. unfold emin. lia.
      * apply Rmult_le_compat; try lra. rewrite <- pw_add. left. apply pw_pos.
Qed.
Definition ex_a : nat -> nat -> spec_float := from_rows [[2; 1]; [1; 3]]%Z.
Definition ex_b : nat -> spec_float := fun i => nth i [d_3; d_5] f0.
Definition ex_X (i j : nat) : R := nth j (nth i [[3 / 5; - 1 / 5]; [- 1 / 5; 2 / 5]] []) 0.
Lemma from_rows_whole M k l i j : (0 < nth j (nth i l []) 0 <= k)%Z -> (k < 2 ^ 53)%Z -> IZR k = M -> whole_number 53 1024 M (from_rows l i j).
Proof.
  intros H K <-. unfold from_rows. set (z := nth j (nth i l []) 0%Z) in *. clearbody z. destruct (of_int_exact 53 1024 eq_refl ltac:(lia) z ltac:(lia)) as (F & V & E).
  split; [exact V|]. split; [exact F|]. rewrite E. split; [exists z; reflexivity|]. rewrite <- abs_IZR. apply IZR_le. lia.
Qed.
Example C156_ex : format 53 1024 /\ entries 2 (whole_number 53 1024 3) ex_a /\ INR (fact 2) * 3 ^ 2 < pw 53 /\ left_inverse 2 ex_X (fun i j => FR (ex_a i j)) /\
  (forall i, (i < 2)%nat -> sumR (map (fun j => FR (ex_a i j) * nth j [4 / 5; 7 / 5] 0) (seq 0 2)) = FR (ex_b i)) /\
  (exists x, fsolve 53 1024 2 ex_a ex_b = Some x /\ x 1%nat = S754_finite false 6305039478318694 (-52)) /\ fsolve 53 1024 2 (from_rows [[2; 1]; [4; 2]]%Z) ex_b = None /\
  (exists B, finverse_any 53 1024 3 (from_rows [[1; 2; 0]; [0; 1; 0]; [0; 0; 2]]%Z) = Some B /\ map (fun i => map (fun j => SFadd 53 1024 (B i j) f0) (seq 0 3)) (seq 0 3) = [[d_1; SFopp d_2; f0]; [f0; d_1; f0]; [f0; f0; d_05]]).
Proof.
  assert (E2 : FR d_2 = 2) by (replace d_2 with (of_int 53 1024 2) by (vm_compute; reflexivity); apply (of_int_exact 53 1024 eq_refl ltac:(lia) 2 ltac:(lia))). assert (E1 : FR d_1 = 1) by (replace d_1 with (of_int 53 1024 1) by (vm_compute; reflexivity); apply (of_int_exact 53 1024 eq_refl ltac:(lia) 1 ltac:(lia))). assert (E3 : FR d_3 = 3) by (replace d_3 with (of_int 53 1024 3) by (vm_compute; reflexivity); apply (of_int_exact 53 1024 eq_refl ltac:(lia) 3 ltac:(lia))). assert (E5 : FR d_5 = 5) by (replace d_5 with (of_int 53 1024 5) by (vm_compute; reflexivity); apply (of_int_exact 53 1024 eq_refl ltac:(lia) 5 ltac:(lia))).
  assert (A00 : ex_a 0 0 = d_2) by (vm_compute; reflexivity). assert (A01 : ex_a 0 1 = d_1) by (vm_compute; reflexivity). assert (A10 : ex_a 1 0 = d_1) by (vm_compute; reflexivity). assert (A11 : ex_a 1 1 = d_3) by (vm_compute; reflexivity).
  split; [split; lia|]. split.
  { intros i j Hi Hj. apply (from_rows_whole 3 3); [|lia|reflexivity]. destruct i as [|[|i]], j as [|[|j]]; try lia; cbn; lia. }
  split; [replace (INR (fact 2)) with 2 by (cbn; lra); rewrite <- pw_Z by lia; change (2 ^ 53)%Z with 9007199254740992%Z; lra|]. split.
  { intros i j Hi Hj. destruct i as [|[|i]], j as [|[|j]]; try lia; cbn [seq map sumR fold_right Nat.eqb]; unfold sumR, ex_X; cbn [nth fold_right]; rewrite ?A00, ?A01, ?A10, ?A11, ?E1, ?E2, ?E3; field. }
  split.
  { intros i Hi. destruct i as [|[|i]]; try lia; unfold sumR, ex_b; cbn [seq map fold_right nth]; rewrite ?A00, ?A01, ?A10, ?A11, ?E1, ?E2, ?E3, ?E5; field. }
  split; [eexists; split; [reflexivity|vm_compute; reflexivity]|]. split; [vm_compute; reflexivity|]. eexists. split; [reflexivity|]. vm_compute. reflexivity.
Qed.
Print Assumptions C156_inverse. Print Assumptions C156_singular. Print Assumptions C156_solve. Print Assumptions C156_whole.

(** * C157 *)
(** one_norm and infinity_norm of the transposed matrix are the same number *)
Theorem C157_one_transpose prec emax n A : fone_norm prec emax n A = finf_norm prec emax n (fun i j => A j i) /\ finf_norm prec emax n A = fone_norm prec emax n (fun i j => A j i).
Proof. split; reflexivity. Qed.
(** the largest sum of magnitudes of a column *)
Definition columnR (n : nat) (A : nat -> nat -> spec_float) (j : nat) : R := sumR (map (fun i => Rabs (FR (A i j))) (seq 0 n)).
Definition largest (n : nat) (f : nat -> R) (m : R) : Prop := (forall j, (j < n)%nat -> f j <= m) /\ (n = 0%nat /\ m = 0 \/ exists j, (j < n)%nat /\ f j = m).
Lemma fold_max_largest f n : (forall j, 0 <= f j) -> largest n f (fold_left Rmax (map f (seq 0 n)) 0).
Proof.
  intros P. induction n as [|n [I1 I2]]; [split; [lia|left; split; reflexivity]|]. rewrite seq_S, map_app, fold_left_app. cbn [map fold_left Nat.add].
  set (m := fold_left Rmax (map f (seq 0 n)) 0) in *. split.
  - intros j Hj. destruct (Nat.eq_dec j n) as [->|N]; [apply Rmax_r|]. eapply Rle_trans; [apply I1; lia|apply Rmax_l].
  - right. unfold Rmax. destruct Rle_dec as [L|L]; [exists n; split; [lia|reflexivity]|]. destruct I2 as [[-> Z]|(j & Hj & E)]; [rewrite Z in L; pose proof (P 0%nat); lra|exists j; split; [lia|exact E]].
Qed.
Theorem C157_one prec emax n A m : format prec emax -> (forall i j, (i < n)%nat -> (j < n)%nat -> fin (A i j) = true /\ number prec emax (A i j)) ->
  largest n (columnR n A) m -> (1 + uu prec) ^ n * m < pw emax ->
  fin (fone_norm prec emax n A) = true /\ (1 - uu prec) ^ n * m <= FR (fone_norm prec emax n A) <= (1 + uu prec) ^ n * m.
Proof.
  intros Hf H [M1 M2] L. assert (E : normR n (fun i j => A j i) = m).
  { destruct (fold_max_largest (columnR n A) n) as [N1 N2]; [intros; unfold columnR; apply sumR_nonneg, Forall_map, Forall_forall; intros; apply Rabs_pos|].
    change (normR n (fun i j => A j i)) with (fold_left Rmax (map (columnR n A) (seq 0 n)) 0). set (k := fold_left _ _ _) in *. clearbody k.
    destruct M2 as [[-> ->]|(j & Hj & Ej)], N2 as [[Z Zk]|(i & Hi & Ei)]; try lia; [exact Zk|]. subst k m. apply Rle_antisym; [apply M1|apply N1]; assumption. }
  rewrite <- E. apply (C137_norm prec emax n (fun i j => A j i)); [exact Hf|intros; apply H; assumption|].
  intros j Hj. change (rowR n (fun i j => A j i) j) with (columnR n A j). pose proof (u_pos prec) as U. assert (P : 0 <= (1 + uu prec) ^ n) by (apply pow_le; lra).
  eapply Rle_lt_trans; [apply Rmult_le_compat_l; [exact P|apply M1; exact Hj]|exact L].
Qed.
(** nested loops run over the elements row by row *)
Definition elements (n m : nat) (A : nat -> nat -> spec_float) : list spec_float := flat_map (fun i => map (A i) (seq 0 m)) (seq 0 n).
Lemma elements_length n m A : length (elements n m A) = (n * m)%nat.
Proof.
  unfold elements. rewrite <- (seq_length n 0) at 2. generalize (seq 0 n) as l. induction l as [|i l IH]; [reflexivity|]. cbn [flat_map length Nat.mul]. rewrite app_length, IH, map_length, seq_length. reflexivity.
Qed.
Lemma elements_forall (P : spec_float -> Prop) n m A : (forall i j, (i < n)%nat -> (j < m)%nat -> P (A i j)) -> Forall P (elements n m A).
Proof. intros H. apply Forall_forall. intros x Hx. apply in_flat_map in Hx as (i & Hi & Hx). apply in_map_iff in Hx as (j & <- & Hj). apply in_seq in Hi, Hj. apply H; lia. Qed.
Lemma nested_fold {S} (h : S -> nat -> nat -> S) l k s : fold_left (fun s i => fold_left (fun s j => h s i j) k s) l s = fold_left (fun s p => h s (fst p) (snd p)) (list_prod l k) s.
Proof.
  assert (G : forall i t, fold_left (fun s j => h s i j) k t = fold_left (fun s p => h s (fst p) (snd p)) (map (fun y => (i, y)) k) t).
  { intros i. induction k as [|j k IHk]; intros t; [reflexivity|]. cbn [map fold_left fst snd]. apply IHk. }
  revert s. induction l as [|i l IH]; intros s; [reflexivity|]. cbn [fold_left list_prod]. rewrite fold_left_app, IH, G. reflexivity.
Qed.
Lemma sum_nested (f : nat -> nat -> R) n m : sumR (map (fun i => sumR (map (f i) (seq 0 m))) (seq 0 n)) = sumR (map (fun p => f (fst p) (snd p)) (list_prod (seq 0 n) (seq 0 m))).
Proof.
  generalize (seq 0 n) as l. induction l as [|i l IH]; [reflexivity|]. cbn [map list_prod]. rewrite sumR_cons, map_app, sumR_app, IH, map_map. reflexivity.
Qed.
Definition double_sum (n m : nat) (f : nat -> nat -> R) : R := sumR (map (fun i => sumR (map (f i) (seq 0 m))) (seq 0 n)).
Theorem C157_doubledot prec emax n m A B : format prec emax -> (forall i j, (i < n)%nat -> (j < m)%nat -> number prec emax (A i j) /\ number prec emax (B i j)) -> fin (fdoubledot prec emax n m A B) = true ->
  Rabs (FR (fdoubledot prec emax n m A B) - double_sum n m (fun i j => FR (A i j) * FR (B i j))) <=
    ((1 + uu prec) ^ (n * m) - 1) * double_sum n m (fun i j => Rabs (FR (A i j) * FR (B i j))) + (1 + uu prec) ^ (n * m) * (INR (n * m) * eta prec emax).
Proof.
  intros Hf V F. unfold double_sum, fdoubledot in *. rewrite (sum_nested (fun i j => FR (A i j) * FR (B i j))), (sum_nested (fun i j => Rabs (FR (A i j) * FR (B i j)))).
  rewrite (nested_fold (fun dd i j => SFadd prec emax dd (SFmul prec emax (A i j) (B i j)))) in *.
  pose proof (fold_terms prec emax Hf (fun p => A (fst p) (snd p)) (fun p => B (fst p) (snd p)) (list_prod (seq 0 n) (seq 0 m))) as E. rewrite prod_length, !seq_length in E. apply E; [|exact F].
  intros [i j] Hp. apply in_prod_iff in Hp as [Hi Hj]. apply in_seq in Hi, Hj. apply V; cbn; lia.
Qed.
Lemma two_norm_magnitude prec emax n A : ftwo_norm prec emax n A = fmagnitude prec emax (elements n n A).
Proof.
  assert (G : forall i k t, fold_left (fun s j => SFadd prec emax s (SFmul prec emax (A i j) (A i j))) k t = fold_left (fun s x => SFadd prec emax s (SFmul prec emax x x)) (map (A i) k) t).
  { intros i. induction k as [|j k IHk]; intros t; [reflexivity|]. cbn [map fold_left]. apply IHk. }
  assert (H : forall k l s, fold_left (fun s i => fold_left (fun s j => SFadd prec emax s (SFmul prec emax (A i j) (A i j))) k s) l s =
    fold_left (fun s x => SFadd prec emax s (SFmul prec emax x x)) (flat_map (fun i => map (A i) k) l) s).
  { intros k. induction l as [|i l IH]; intros s; [reflexivity|]. cbn [fold_left flat_map]. rewrite fold_left_app, IH, G. reflexivity. }
  unfold ftwo_norm, fmagnitude, elements. rewrite H. reflexivity.
Qed.
Lemma elements_sq n m A : sqR (elements n m A) = double_sum n m (fun i j => FR (A i j) * FR (A i j)).
Proof.
  unfold sqR, double_sum, elements. generalize (seq 0 n) as l. induction l as [|i l IH]; [reflexivity|]. cbn [flat_map map]. rewrite sumR_cons, map_app, sumR_app, IH, map_map. reflexivity.
Qed.
Theorem C157_two prec emax n A : format prec emax -> (forall i j, (i < n)%nat -> (j < n)%nat -> number prec emax (A i j)) -> fin (ftwo_norm prec emax n A) = true ->
  let s := double_sum n n (fun i j => FR (A i j) * FR (A i j)) in
  0 <= FR (ftwo_norm prec emax n A) /\
  (1 - uu prec) ^ (n * n + 3) * s - INR (n * n) * eta prec emax <= FR (ftwo_norm prec emax n A) ^ 2 <= (1 + uu prec) ^ (n * n + 3) * (s + INR (n * n) * eta prec emax).
Proof.
  intros Hf V F s. rewrite two_norm_magnitude in *. assert (N : numbers prec emax (elements n n A)) by (apply elements_forall; exact V).
  split; [apply C129_nonneg; assumption|]. pose proof (C129_length prec emax _ Hf N F) as E. rewrite elements_length, elements_sq in E. exact E.
Qed.
Theorem C157_two_finite prec emax n A : format prec emax -> (forall i j, (i < n)%nat -> (j < n)%nat -> number prec emax (A i j) /\ fin (A i j) = true) ->
  (1 + uu prec) ^ S (n * n) * (double_sum n n (fun i j => FR (A i j) * FR (A i j)) + INR (n * n) * eta prec emax) < pw emax -> fin (ftwo_norm prec emax n A) = true.
Proof.
  intros Hf V L. rewrite two_norm_magnitude. apply C129_finite; [exact Hf|apply elements_forall; intros; apply V; assumption|apply elements_forall; intros; apply V; assumption|]. rewrite elements_length, elements_sq. exact L.
Qed.
Theorem C157_trace prec emax n A : format prec emax -> (forall i, (i < n)%nat -> number prec emax (A i i)) -> fin (ftrace prec emax n A) = true ->
  Rabs (FR (ftrace prec emax n A) - sumR (map (fun i => FR (A i i)) (seq 0 n))) <= ((1 + uu prec) ^ (n - 1) - 1) * sumR (map (fun i => Rabs (FR (A i i))) (seq 0 n)).
Proof.
  intros [Hp He] V F. unfold ftrace in *. rewrite (fold_map_add prec emax (fun i => A i i)) in *.
  pose proof (sum_terms prec emax Hp He (fun i => A i i) (fun i => FR (A i i)) (fun i => Rabs (FR (A i i))) (seq 0 n) 0 0) as E. rewrite seq_length, Rplus_0_r, !Rmult_0_r, Rplus_0_r, Rmult_1_r in E.
  apply E; [apply Rle_refl|apply Rle_refl|intros i Hi; apply in_seq in Hi; apply V; lia| |intros; apply Rle_refl|exact F]. intros i Hi Fi. rewrite Rminus_diag_eq, Rabs_R0 by reflexivity. lra.
Qed.
(** symmetric, bit for bit *)
Theorem C157_symmetric prec emax n i j : freflection prec emax n i j = freflection prec emax n j i /\ fprojection prec emax n i j = fprojection prec emax n j i.
Proof.
  unfold freflection, fprojection, fadd_diag, fouter. rewrite (mul_comm prec emax (n i) (n j)), (Nat.eqb_sym i j). split; reflexivity.
Qed.
Lemma minus_two prec emax : format prec emax -> number prec emax (of_int prec emax (-2)) /\ FR (of_int prec emax (-2)) = -2.
Proof.
  intros [Hp He]. pose proof (normalize_correct prec emax Hp ltac:(lia) (-2) 0 false ltac:(unfold emin; lia)) as A. rewrite pw_0, Rmult_1_r in A.
  assert (I : isfl prec emax 2) by (apply (isfl_int prec emax Hp He 2); split; [lia|]; pose proof (Z.pow_le_mono_r 2 2 prec); lia). apply isfl_opp in I.
  destruct (approx_exact prec emax _ _ _ A I) as [X Y]. split; [exact (approx_valid _ _ _ _ _ A)|exact Y].
Qed.
Definition delta (i j : nat) : R := if Nat.eqb i j then 1 else 0.
Theorem C157_reflection prec emax n i j : format prec emax -> number prec emax (n i) -> number prec emax (n j) -> fin (freflection prec emax n i j) = true ->
  Rabs (FR (freflection prec emax n i j) - (delta i j - 2 * FR (n i) * FR (n j))) <=
    ((1 + uu prec) ^ 3 - 1) * (delta i j + 2 * Rabs (FR (n i) * FR (n j))) + 3 * (1 + uu prec) ^ 3 * eta prec emax.
Proof.
  intros Hf Vi Vj F. destruct (minus_two prec emax Hf) as [V2 E2]. set (v := fun k => nth k [n i; n j; of_int prec emax (-2)] f0).
  assert (V : forall k, number prec emax (v k)) by (apply env_number; repeat (apply Forall_cons; [assumption|]); apply Forall_nil).
  pose proof (u_pos prec) as U. pose proof (eta_pos prec emax) as T. unfold freflection, fadd_diag, fouter in *. unfold delta. destruct (Nat.eqb i j).
  - pose proof (feval_error' prec emax Hf v V (EAdd (EMul (EVar 2) (EMul (EVar 0) (EVar 1))) (EUnit false)) ltac:(repeat split) F) as E. cbn [reval aeval lost depth feval Nat.max Nat.add] in E. unfold v in E. cbn [nth] in E. rewrite E2 in E.
    replace (Rabs (-2)) with 2 in E by (rewrite Rabs_left; lra). change (sgnR false) with 1 in E. rewrite Rabs_mult.
    match type of E with Rabs (?a - ?b) <= _ => replace b with (1 - 2 * FR (n i) * FR (n j)) in E by ring end. eapply Rle_trans; [exact E|]. apply Req_le. ring.
  - pose proof (feval_error' prec emax Hf v V (EMul (EVar 2) (EMul (EVar 0) (EVar 1))) ltac:(repeat split) F) as E. cbn [reval aeval lost depth feval Nat.max Nat.add] in E. unfold v in E. cbn [nth] in E. rewrite E2 in E.
    replace (Rabs (-2)) with 2 in E by (rewrite Rabs_left; lra). rewrite Rabs_mult.
    match type of E with Rabs (?a - ?b) <= _ => replace b with (0 - 2 * FR (n i) * FR (n j)) in E by ring end. eapply Rle_trans; [exact E|].
    set (p := Rabs (FR (n i)) * Rabs (FR (n j))). assert (P : 0 <= p) by (unfold p; apply Rmult_le_pos; apply Rabs_pos). set (w := (1 + uu prec) ^ 2).
    assert (W : 1 <= w) by (unfold w; apply pow_R1_Rle; lra). replace ((1 + uu prec) ^ 3) with (w * (1 + uu prec)) by (unfold w; ring). 
    assert (W2 : w <= w * (1 + uu prec)) by nra. apply Rplus_le_compat; [rewrite Rplus_0_l; apply Rmult_le_compat; lra|]. pose proof (Rmult_le_compat_r _ _ _ (Rlt_le _ _ T) W2). nra.
Qed.
Theorem C157_projection prec emax n i j : format prec emax -> number prec emax (n i) -> number prec emax (n j) -> fin (fprojection prec emax n i j) = true ->
  Rabs (FR (fprojection prec emax n i j) - (delta i j - FR (n i) * FR (n j))) <=
    ((1 + uu prec) ^ 2 - 1) * (delta i j + Rabs (FR (n i) * FR (n j))) + (1 + uu prec) ^ 2 * eta prec emax.
Proof.
  intros Hf Vi Vj F. set (v := fun k => nth k [n i; n j] f0).
  assert (V : forall k, number prec emax (v k)) by (apply env_number; repeat (apply Forall_cons; [assumption|]); apply Forall_nil).
  pose proof (u_pos prec) as U. pose proof (eta_pos prec emax) as T. unfold fprojection, fadd_diag, fouter in *. unfold delta. destruct (Nat.eqb i j).
  - pose proof (feval_error' prec emax Hf v V (EAdd (ENeg (EMul (EVar 0) (EVar 1))) (EUnit false)) ltac:(repeat split) F) as E. cbn [reval aeval lost depth feval Nat.max Nat.add] in E. unfold v in E. cbn [nth] in E.
    change (sgnR false) with 1 in E. rewrite Rabs_mult.
    match type of E with Rabs (?a - ?b) <= _ => replace b with (1 - FR (n i) * FR (n j)) in E by ring end. eapply Rle_trans; [exact E|]. apply Req_le. ring.
  - pose proof (feval_error' prec emax Hf v V (ENeg (EMul (EVar 0) (EVar 1))) ltac:(repeat split) F) as E. cbn [reval aeval lost depth feval Nat.max Nat.add] in E. unfold v in E. cbn [nth] in E. rewrite Rabs_mult.
    match type of E with Rabs (?a - ?b) <= _ => replace b with (0 - FR (n i) * FR (n j)) in E by ring end. eapply Rle_trans; [exact E|].
    set (p := Rabs (FR (n i)) * Rabs (FR (n j))). assert (P : 0 <= p) by (unfold p; apply Rmult_le_pos; apply Rabs_pos). cbn [pow]. rewrite !Rmult_1_r. nra.
Qed.
Example C157_ex : let A := from_rows [[3; -4]; [0; 12]]%Z in
  fone_norm 53 1024 2 A = of_int 53 1024 16 /\ finf_norm 53 1024 2 A = of_int 53 1024 12 /\ ftwo_norm 53 1024 2 A = of_int 53 1024 13 /\ ftrace 53 1024 2 A = of_int 53 1024 15 /\
  fdoubledot 53 1024 2 2 A (from_rows [[1; 1]; [1; 1]]%Z) = of_int 53 1024 11 /\ freflection 53 1024 (fun i => nth i [d_1; f0] f0) 0 0 = SFopp d_1 /\ fprojection 53 1024 (fun i => nth i [d_1; f0] f0) 1 1 = d_1.
Proof. vm_compute. repeat split. Qed.
Print Assumptions C157_one. Print Assumptions C157_two. Print Assumptions C157_two_finite. Print Assumptions C157_trace. Print Assumptions C157_doubledot. Print Assumptions C157_symmetric. Print Assumptions C157_reflection. Print Assumptions C157_projection. Print Assumptions C157_one_transpose.
