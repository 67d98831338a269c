(** Centroids of polygons in floating-point arithmetic. *)
From Coq Require Import ZArith List Bool Lia Reals Lra Psatz Arith.
From Verif Require Import FloatModel FloatShapeModel FloatRound FloatProofs FloatProps FloatGeomProps FloatExpr FloatShapeProps FloatDetProps.
From Coq Require Import SpecFloat.
Import ListNotations.
Local Open Scope R_scope.

(** sums over the edges of a path and of a polygon with whole coordinates *)
Fixpoint path (f : Z * Z -> Z * Z -> Z) (p : Z * Z) (l : list (Z * Z)) : Z := match l with [] => 0%Z | q :: r => (f p q + path f q r)%Z end.
Definition around (f : Z * Z -> Z * Z -> Z) (pts : list (Z * Z)) : Z := match pts with [] => 0%Z | t :: args => path f t (args ++ [t]) end.
(** twice the area, and the textbook numerators of the centroid *)
Definition crossZ (p q : Z * Z) : Z := (fst p * snd q - fst q * snd p)%Z.
Definition area2 (pts : list (Z * Z)) : Z := around crossZ pts.
Definition momx (pts : list (Z * Z)) : Z := around (fun p q => (fst p + fst q) * crossZ p q)%Z pts.
Definition momy (pts : list (Z * Z)) : Z := around (fun p q => (snd p + snd q) * crossZ p q)%Z pts.

(** a number that is a given whole number *)
Definition is (prec emax : Z) (x : spec_float) (k : Z) : Prop := number prec emax x /\ fin x = true /\ FR x = IZR k.
Definition is2 (prec emax : Z) (p : spec_float * spec_float) (q : Z * Z) : Prop := is prec emax (fst p) (fst q) /\ is prec emax (snd p) (snd q).
Definition small (M : Z) (q : Z * Z) : Prop := (Z.abs (fst q) <= M /\ Z.abs (snd q) <= M)%Z.
Section Exact.
Variables prec emax : Z.
Hypothesis Hf : format prec emax.
Lemma is_isfl k : (Z.abs k < 2 ^ prec)%Z -> isfl prec emax (IZR k).
Proof. intros H. apply (isfl_whole prec emax Hf); [exists k; reflexivity|]. rewrite <- abs_IZR, <- pw_Z by (destruct Hf; lia). apply IZR_lt. exact H. Qed.
Lemma is_add x y a b : is prec emax x a -> is prec emax y b -> (Z.abs (a + b) < 2 ^ prec)%Z -> is prec emax (SFadd prec emax x y) (a + b).
Proof.
  intros (V1 & F1 & E1) (V2 & F2 & E2) B. destruct Hf as [Hp He]. pose proof (add_correct prec emax Hp ltac:(lia) x y F1 F2 V1 V2) as A. rewrite E1, E2, <- plus_IZR in A.
  destruct (approx_exact prec emax _ _ _ A (is_isfl _ B)). split; [exact (approx_valid _ _ _ _ _ A)|]. split; assumption.
Qed.
Lemma is_sub x y a b : is prec emax x a -> is prec emax y b -> (Z.abs (a - b) < 2 ^ prec)%Z -> is prec emax (SFsub prec emax x y) (a - b).
Proof.
  intros (V1 & F1 & E1) (V2 & F2 & E2) B. destruct Hf as [Hp He]. pose proof (sub_correct prec emax Hp ltac:(lia) x y F1 F2 V1 V2) as A. rewrite E1, E2, <- minus_IZR in A.
  destruct (approx_exact prec emax _ _ _ A (is_isfl _ B)). split; [exact (approx_valid _ _ _ _ _ A)|]. split; assumption.
Qed.
Lemma is_mul x y a b : is prec emax x a -> is prec emax y b -> (Z.abs (a * b) < 2 ^ prec)%Z -> is prec emax (SFmul prec emax x y) (a * b).
Proof.
  intros (V1 & F1 & E1) (V2 & F2 & E2) B. destruct Hf as [Hp He]. pose proof (mul_correct prec emax Hp ltac:(lia) x y F1 F2 V1 V2) as A. rewrite E1, E2, <- mult_IZR in A.
  destruct (approx_exact prec emax _ _ _ A (is_isfl _ B)). split; [exact (approx_valid _ _ _ _ _ A)|]. split; assumption.
Qed.
Lemma is_0 : is prec emax f0 0. Proof. repeat split. Qed.
Variable M : Z.
Hypothesis HM : (2 <= M)%Z.
Lemma cross_small p q : small M p -> small M q -> (Z.abs (crossZ p q) <= 2 * M ^ 2)%Z.
Proof. intros [A1 A2] [B1 B2]. unfold crossZ. assert (Z.abs (fst p * snd q) <= M * M)%Z by (rewrite Z.abs_mul; nia). assert (Z.abs (fst q * snd p) <= M * M)%Z by (rewrite Z.abs_mul; nia). lia. Qed.
Lemma mom_small a b p q : (Z.abs a <= M)%Z -> (Z.abs b <= M)%Z -> small M p -> small M q -> (Z.abs ((a + b) * crossZ p q) <= 4 * M ^ 3)%Z.
Proof. intros A B P Q. pose proof (cross_small p q P Q). rewrite Z.abs_mul. replace (4 * M ^ 3)%Z with ((2 * M) * (2 * M ^ 2))%Z by ring. apply Z.mul_le_mono_nonneg; lia. Qed.
(** one edge of either loop *)
Lemma is_cross p q v w : is2 prec emax v p -> is2 prec emax w q -> small M p -> small M q -> (4 * M ^ 3 < 2 ^ prec)%Z ->
  is prec emax (SFsub prec emax (SFmul prec emax (fst v) (snd w)) (SFmul prec emax (fst w) (snd v))) (crossZ p q).
Proof.
  intros [V1 V2] [W1 W2] P Q L. pose proof (cross_small p q P Q) as C. assert (B : (M * M <= 4 * M ^ 3 /\ 2 * M ^ 2 <= 4 * M ^ 3)%Z) by (replace (M ^ 3)%Z with (M * (M * M))%Z by ring; replace (M ^ 2)%Z with (M * M)%Z by ring; nia).
  destruct B as [B1 B2]. apply is_sub; [apply is_mul; [assumption|assumption|]|apply is_mul; [assumption|assumption|]|exact (Z.le_lt_trans _ _ _ C (Z.le_lt_trans _ _ _ B2 L))]; apply (Z.le_lt_trans _ (M * M)); try lia; rewrite Z.abs_mul; apply Z.mul_le_mono_nonneg; try apply Z.abs_nonneg; first [apply P|apply Q].
Qed.
Lemma abs_step x t k b : (Z.abs x <= k * b -> Z.abs t <= b -> Z.abs (x + t) <= (k + 1) * b)%Z. Proof. intros. pose proof (Z.abs_triangle x t). lia. Qed.
Lemma abs_sum a b : (Z.abs a <= M -> Z.abs b <= M -> Z.abs (a + b) <= 2 * M)%Z. Proof. intros. pose proof (Z.abs_triangle a b). lia. Qed.
Lemma pow_bounds : (1 <= M ^ 2 /\ M <= M ^ 2 /\ 2 * M ^ 2 <= M ^ 3)%Z.
Proof. assert (E : (M ^ 3 = M * M ^ 2)%Z) by ring. assert (E2 : (M ^ 2 = M * M)%Z) by ring. assert (4 <= M ^ 2)%Z by (rewrite E2; nia). split; [lia|]. split; [rewrite E2; nia|]. rewrite E. apply Z.mul_le_mono_nonneg_r; lia. Qed.
Lemma bounds_M k : (0 <= k -> 4 * M ^ 3 <= 4 * (k + 1) * M ^ 3 /\ 2 * M <= 4 * (k + 1) * M ^ 3 /\ 2 * M ^ 2 <= 4 * (k + 1) * M ^ 3 /\ (k + 1) * (2 * M ^ 2) <= 4 * (k + 1) * M ^ 3)%Z.
Proof. intros K. destruct pow_bounds as (A & B & C). set (s := (M ^ 2)%Z) in *. set (c := (M ^ 3)%Z) in *. clearbody s c. nia. Qed.
Definition step (s : spec_float * spec_float * spec_float) (v w : spec_float * spec_float) : spec_float * spec_float * spec_float :=
  let '(c0, c1, a) := s in let t := SFsub prec emax (SFmul prec emax (fst v) (snd w)) (SFmul prec emax (fst w) (snd v)) in
  (SFadd prec emax c0 (SFmul prec emax (SFadd prec emax (fst v) (fst w)) t), SFadd prec emax c1 (SFmul prec emax (SFadd prec emax (snd v) (snd w)) t), SFadd prec emax a t).
Definition is3 (s : spec_float * spec_float * spec_float) (x y a : Z) : Prop := is prec emax (fst (fst s)) x /\ is prec emax (snd (fst s)) y /\ is prec emax (snd s) a.
Lemma is_step s v w p q x y a k : is3 s x y a -> is2 prec emax v p -> is2 prec emax w q -> small M p -> small M q ->
  (0 <= k -> 4 * (k + 1) * M ^ 3 < 2 ^ prec -> Z.abs x <= k * (4 * M ^ 3) -> Z.abs y <= k * (4 * M ^ 3) -> Z.abs a <= k * (2 * M ^ 2) ->
  let x' := x + (fst p + fst q) * crossZ p q in let y' := y + (snd p + snd q) * crossZ p q in let a' := a + crossZ p q in
  is3 (step s v w) x' y' a' /\ Z.abs x' <= (k + 1) * (4 * M ^ 3) /\ Z.abs y' <= (k + 1) * (4 * M ^ 3) /\ Z.abs a' <= (k + 1) * (2 * M ^ 2))%Z.
Proof.
  intros (S1 & S2 & S3) V W P Q K L X Y A x' y' a'. destruct s as [[c0 c1] c2]. cbn [fst snd] in *.
  destruct (bounds_M k K) as (B1 & B2 & B3 & B4). pose proof (is_cross p q v w V W P Q (Z.le_lt_trans _ _ _ B1 L)) as C. pose proof (cross_small p q P Q) as C1.
  pose proof (mom_small (fst p) (fst q) p q (proj1 P) (proj1 Q) P Q) as M1. pose proof (mom_small (snd p) (snd q) p q (proj2 P) (proj2 Q) P Q) as M2.
  destruct V as [V1 V2], W as [W1 W2]. pose proof (abs_step _ _ _ _ X M1) as X2. pose proof (abs_step _ _ _ _ Y M2) as Y2. pose proof (abs_step _ _ _ _ A C1) as A2.
  pose proof (abs_sum _ _ (proj1 P) (proj1 Q)) as T1. pose proof (abs_sum _ _ (proj2 P) (proj2 Q)) as T2. fold x' in X2. fold y' in Y2. fold a' in A2.
  replace (4 * (k + 1) * M ^ 3)%Z with ((k + 1) * (4 * M ^ 3))%Z in L by ring. replace (4 * (k + 1) * M ^ 3)%Z with ((k + 1) * (4 * M ^ 3))%Z in * by ring.
  split; [|auto]. unfold step, is3. cbn [fst snd].
  split; [apply is_add; [exact S1|apply is_mul; [apply is_add; [exact V1|exact W1|eauto using Z.le_lt_trans]|exact C|eauto using Z.le_lt_trans]|eapply Z.le_lt_trans; [exact X2|exact L]]|].
  split; [apply is_add; [exact S2|apply is_mul; [apply is_add; [exact V2|exact W2|eauto using Z.le_lt_trans]|exact C|eauto using Z.le_lt_trans]|eapply Z.le_lt_trans; [exact Y2|exact L]]|].
  apply is_add; [exact S3|exact C|eapply Z.le_lt_trans; [exact A2|eapply Z.le_lt_trans; [exact B4|exact L]]].
Qed.
Fixpoint walk (s : spec_float * spec_float * spec_float) (v : spec_float * spec_float) (l : list (spec_float * spec_float)) := match l with [] => s | w :: r => walk (step s v w) w r end.
Lemma is_walk l : forall s v p x y a k lz, is3 s x y a -> is2 prec emax v p -> small M p -> Forall2 (is2 prec emax) l lz -> Forall (small M) lz ->
  (0 <= k -> 4 * (k + Z.of_nat (length l)) * M ^ 3 < 2 ^ prec -> Z.abs x <= k * (4 * M ^ 3) -> Z.abs y <= k * (4 * M ^ 3) -> Z.abs a <= k * (2 * M ^ 2) ->
  let x' := x + path (fun p q => (fst p + fst q) * crossZ p q) p lz in let y' := y + path (fun p q => (snd p + snd q) * crossZ p q) p lz in let a' := a + path crossZ p lz in
  is3 (walk s v l) x' y' a' /\ Z.abs x' <= (k + Z.of_nat (length l)) * (4 * M ^ 3) /\ Z.abs y' <= (k + Z.of_nat (length l)) * (4 * M ^ 3) /\ Z.abs a' <= (k + Z.of_nat (length l)) * (2 * M ^ 2))%Z.
Proof.
  induction l as [|w l IH]; intros s v p x y a k lz S V P W Q K L X Y A; inversion W as [|? q ? lz' W1 W2]; subst.
  - cbn [path walk length Z.of_nat]. cbv zeta. rewrite !Z.add_0_r. auto.
  - apply Forall_cons_iff in Q as [Q1 Q2]. cbn [length] in L. rewrite Nat2Z.inj_succ in L.
    assert (L1 : (4 * (k + 1) * M ^ 3 < 2 ^ prec)%Z). { assert (4 * (k + 1) * M ^ 3 <= 4 * (k + Z.succ (Z.of_nat (length l))) * M ^ 3)%Z by (apply Z.mul_le_mono_nonneg_r; [apply Z.pow_nonneg; lia|lia]). lia. }
    destruct (is_step s v w p q x y a k S V W1 P Q1 K L1 X Y A) as (S' & X' & Y' & A').
    specialize (IH _ _ _ _ _ _ (k + 1)%Z _ S' W1 Q1 W2 Q2 ltac:(lia) ltac:(replace (k + 1 + Z.of_nat (length l))%Z with (k + Z.succ (Z.of_nat (length l)))%Z by lia; exact L) X' Y' A').
    cbn [path walk length]. rewrite Nat2Z.inj_succ. replace (k + Z.succ (Z.of_nat (length l)))%Z with (k + 1 + Z.of_nat (length l))%Z by lia. cbv zeta in *. rewrite !Z.add_assoc. exact IH.
Qed.
Lemma args_walk l : forall s v, fcentroid_args_loop prec emax s v l = walk s v l.
Proof. induction l as [|w l IH]; intros [[c0 c1] a] v; [reflexivity|]. cbn [fcentroid_args_loop walk]. rewrite IH. reflexivity. Qed.
Lemma loop_walk l : forall s v, fcentroid_loop prec emax s v l = walk s v l.
Proof.
  induction l as [|w l IH]; intros [[c0 c1] a] v; [reflexivity|]. cbn [fcentroid_loop walk]. rewrite IH. unfold step.
  rewrite !(mul_comm prec emax (SFsub _ _ _ _)). reflexivity.
Qed.
End Exact.
Lemma last_any {A} (l : list A) : forall x d d', last (x :: l) d = last (x :: l) d'.
Proof. induction l as [|y l IH]; intros x d d'; [reflexivity|]. exact (IH y d d'). Qed.
Lemma path_snoc f x l : forall p, path f p (l ++ [x]) = (path f p l + f (last (p :: l) p) x)%Z.
Proof. induction l as [|q l IH]; intros p; [cbn; lia|]. cbn [app path]. rewrite IH. change (last (p :: q :: l) p) with (last (q :: l) p). rewrite (last_any l q q p). lia. Qed.
Lemma around_last f pts d : pts <> [] -> path f (last pts d) pts = around f pts.
Proof. intros N. destruct pts as [|t args]; [contradiction|]. unfold around. rewrite path_snoc. cbn [path]. rewrite (last_any args t d t). lia. Qed.
(** the quotient by three times the area *)
Lemma is_end prec emax M s x y a n : format prec emax -> (3 <= prec)%Z -> (2 <= M)%Z -> is3 prec emax s x y a -> (1 <= n -> 4 * n * M ^ 3 < 2 ^ prec -> Z.abs x <= n * (4 * M ^ 3) -> Z.abs y <= n * (4 * M ^ 3) -> Z.abs a <= n * (2 * M ^ 2))%Z ->
  (1 <= n -> 4 * n * M ^ 3 < 2 ^ prec -> Z.abs x <= n * (4 * M ^ 3) -> Z.abs y <= n * (4 * M ^ 3) ->
  let c := fcentroid_end prec emax s in
  (a <> 0 -> fin (fst c) = true /\ fin (snd c) = true /\
    (Rabs (FR (fst c) - IZR x / (3 * IZR a)) <= ((1 + uu prec) ^ 2 - 1) * Rabs (IZR x / (3 * IZR a)))%R /\
    (Rabs (FR (snd c) - IZR y / (3 * IZR a)) <= ((1 + uu prec) ^ 2 - 1) * Rabs (IZR y / (3 * IZR a)))%R) /\
  (a = 0 -> fin (fst c) = false /\ fin (snd c) = false))%Z.
Proof.
  intros Hf H3 HM (S1 & S2 & S3) A' N L X Y. pose proof (A' N L X Y) as A. clear A'. destruct s as [[c0 c1] c2]. cbn [fst snd] in S1, S2, S3.
  pose proof (pow_bounds M HM) as (P1 & P2 & P3).
  assert (L3 : (Z.abs (3 * a) < 2 ^ prec)%Z). { rewrite Z.abs_mul. change (Z.abs 3) with 3%Z. assert (n * (2 * M ^ 2) <= n * M ^ 3)%Z by (apply Z.mul_le_mono_nonneg_l; lia). lia. }
  assert (T3 : is prec emax (of_int prec emax 3) 3). { destruct Hf as [Hp He]. destruct (of_int_exact prec emax Hp He 3) as (? & ? & ?); [split; [lia|]; pose proof (Z.pow_le_mono_r 2 3 prec); lia|]. repeat split; assumption. }
  pose proof (is_mul prec emax Hf _ _ _ _ T3 S3 L3) as D. unfold fcentroid_end. set (d := SFmul prec emax (of_int prec emax 3) c2) in *. clearbody d. destruct D as (Dv & Df & De).
  destruct S1 as (X1 & X2 & X3). destruct S2 as (Y1 & Y2 & Y3). cbn [fst snd]. split; intros Z.
  - assert (Wd : FR d <> 0) by (rewrite De; apply IZR_neq; lia).
    assert (Q : forall c k, number prec emax c -> fin c = true -> FR c = IZR k -> (Z.abs k <= n * (4 * M ^ 3))%Z -> fin (SFmul prec emax c (SFdiv prec emax (of_int prec emax 1) d)) = true /\
      Rabs (FR (SFmul prec emax c (SFdiv prec emax (of_int prec emax 1) d)) - IZR k / (3 * IZR a)) <= ((1 + uu prec) ^ 2 - 1) * Rabs (IZR k / (3 * IZR a))).
    { intros c k C1 C2 C3 C4. rewrite (mul_comm prec emax c). destruct (whole_quot prec emax d c Hf Dv C1 Df C2) as [F E]; try assumption.
      - exists (3 * a)%Z. exact De.
      - exists k. exact C3.
      - rewrite De, <- abs_IZR, <- pw_Z by lia. apply IZR_lt. exact L3.
      - rewrite C3, <- abs_IZR, <- pw_Z by lia. apply IZR_lt. lia.
      - split; [exact F|]. rewrite C3, De, mult_IZR in E. exact E. }
    destruct (Q c0 x X1 X2 X3 X), (Q c1 y Y1 Y2 Y3 Y). auto.
  - assert (Z0 : exists t, d = S754_zero t). { subst a. destruct d as [t| | |t m e]; try discriminate; [exists t; reflexivity|]. exfalso. cbn [FR] in De. pose proof (FR_finite_pos m e). rewrite Z.mul_0_r in De. destruct t; unfold sgnR in De; lra. }
    destruct Z0 as [t ->]. assert (I : exists r, SFdiv prec emax (of_int prec emax 1) (S754_zero t) = S754_infinity r).
    { destruct (one_exact prec emax Hf) as (O1 & _ & O3). destruct (of_int prec emax 1) as [r| | |r m e]; try discriminate; [cbn in O3; lra|]. eexists. reflexivity. }
    destruct I as [r ->]. destruct c0, c1; try discriminate; split; reflexivity.
Qed.
Lemma state prec emax M pts zs : format prec emax -> (2 <= M)%Z -> pts <> [] -> Forall2 (is2 prec emax) pts zs -> Forall (small M) zs -> (4 * Z.of_nat (length pts) * M ^ 3 < 2 ^ prec)%Z ->
  forall c, c = fcentroid_2d prec emax pts \/ c = fcentroid_args prec emax (hd (f0, f0) pts) (tl pts) -> let n := Z.of_nat (length pts) in
  exists s, c = fcentroid_end prec emax s /\ is3 prec emax s (momx zs) (momy zs) (area2 zs) /\ (1 <= n /\ Z.abs (momx zs) <= n * (4 * M ^ 3) /\ Z.abs (momy zs) <= n * (4 * M ^ 3) /\ Z.abs (area2 zs) <= n * (2 * M ^ 2))%Z.
Proof.
  intros Hf HM N W S L c Hc n. destruct pts as [|t args]; [contradiction|]. inversion W as [|? z ? zs' W1 W2]; subst. clear N. fold n in L.
  assert (N : (1 <= n)%Z) by (unfold n; cbn [length]; lia).
  assert (B : exists s, c = fcentroid_end prec emax s /\ is3 prec emax s (momx (z :: zs')) (momy (z :: zs')) (area2 (z :: zs')) /\ (Z.abs (momx (z :: zs')) <= n * (4 * M ^ 3) /\ Z.abs (momy (z :: zs')) <= n * (4 * M ^ 3) /\ Z.abs (area2 (z :: zs')) <= n * (2 * M ^ 2))%Z).
  { assert (I0 : is3 prec emax (f0, f0, f0) 0 0 0) by (repeat split). destruct Hc as [-> | ->].
    - eexists. split; [reflexivity|]. rewrite loop_walk.
      assert (V : is2 prec emax (last (t :: args) (f0, f0)) (last (z :: zs') (0, 0)%Z) /\ small M (last (z :: zs') (0, 0)%Z)).
      { clear - W S HM. revert W S. generalize (t :: args), (z :: zs'). intros l lz W. induction W as [|a b l lz W1 W IH]; intros S; [repeat split; cbn; lia|]. apply Forall_cons_iff in S as [S1 S2]. specialize (IH S2). destruct W; [split; assumption|exact IH]. }
      destruct V as [V1 V2]. pose proof (is_walk prec emax Hf M HM (t :: args) (f0, f0, f0) _ _ 0 0 0 0 _ I0 V1 V2 W S ltac:(lia) L ltac:(lia) ltac:(lia) ltac:(lia)) as I.
      cbv zeta in I. rewrite !around_last in I by discriminate. exact I.
    - eexists. split; [reflexivity|]. cbn [hd tl]. rewrite args_walk. apply Forall_cons_iff in S as [S1 S2].
      assert (W3 : Forall2 (is2 prec emax) (args ++ [t]) (zs' ++ [z])) by (apply Forall2_app; [exact W2|constructor; [exact W1|constructor]]).
      assert (S3 : Forall (small M) (zs' ++ [z])) by (apply Forall_app; split; [exact S2|constructor; [exact S1|constructor]]).
      assert (E : n = (0 + Z.of_nat (length (args ++ [t])))%Z) by (unfold n; rewrite app_length; cbn [length]; lia). rewrite E in *.
      exact (is_walk prec emax Hf M HM (args ++ [t]) (f0, f0, f0) t z 0 0 0 0 _ I0 W1 S1 W3 S3 ltac:(lia) L ltac:(lia) ltac:(lia) ltac:(lia)). }
  destruct B as (s & -> & I & B). exists s. auto.
Qed.
Lemma end_same prec emax s s' x y a : format prec emax -> (3 <= prec)%Z -> (Z.abs (3 * a) < 2 ^ prec)%Z -> a <> 0%Z -> is3 prec emax s x y a -> is3 prec emax s' x y a ->
  let c := fcentroid_end prec emax s in let c' := fcentroid_end prec emax s' in
  fin (fst c) = true -> fin (snd c) = true -> fin (fst c') = true -> fin (snd c') = true -> same (fst c) (fst c') /\ same (snd c) (snd c').
Proof.
  intros Hf H3 L N (S1 & S2 & S3) (T1 & T2 & T3) c c'. destruct s as [[c0 c1] c2], s' as [[d0 d1] d2]. cbn [fst snd] in S1, S2, S3, T1, T2, T3. unfold c, c', fcentroid_end. cbn [fst snd]. clear c c'.
  assert (Th : is prec emax (of_int prec emax 3) 3). { destruct Hf as [Hp He]. destruct (of_int_exact prec emax Hp He 3) as (? & ? & ?); [split; [lia|]; pose proof (Z.pow_le_mono_r 2 3 prec); lia|]. repeat split; assumption. }
  pose proof (is_mul prec emax Hf _ _ _ _ Th S3 L) as (D1 & D2 & D3). pose proof (is_mul prec emax Hf _ _ _ _ Th T3 L) as (E1 & E2 & E3).
  set (d := SFmul prec emax (of_int prec emax 3) c2) in *. set (e := SFmul prec emax (of_int prec emax 3) d2) in *. clearbody d e. intros F1 F2 F3 F4.
  destruct (mul_fin _ _ _ _ F1) as [_ Fd]. destruct (mul_fin _ _ _ _ F3) as [_ Fe]. destruct (one_exact prec emax Hf) as (O1 & O2 & O3). destruct Hf as [Hp He].
  pose proof (div_correct prec emax Hp ltac:(lia) _ d O1 D2 O2 D1 ltac:(rewrite D3; apply IZR_neq; lia)) as A. pose proof (div_correct prec emax Hp ltac:(lia) _ e O1 E2 O2 E1 ltac:(rewrite E3; apply IZR_neq; lia)) as B.
  pose proof (approx_valid _ _ _ _ _ A) as Va. pose proof (approx_valid _ _ _ _ _ B) as Vb. rewrite D3 in A. rewrite E3 in B.
  pose proof (proj1 (same_FR _ _ (rnd_unique _ _ _ _ _ (proj1 A) (proj1 B)))) as Q.
  destruct S1 as (? & ? & X1), S2 as (? & ? & X2), T1 as (? & ? & Y1), T2 as (? & ? & Y2).
  split; apply mul_same; try assumption; rewrite Q, ?X1, ?X2, ?Y1, ?Y2; reflexivity.
Qed.
(** ** C152: centroids *)
(** both versions, for whole coordinates: two relative rounding errors, and no finite result without an area *)
Theorem C152_whole prec emax M pts zs : format prec emax -> (3 <= prec)%Z -> (2 <= M)%Z -> pts <> [] -> Forall2 (is2 prec emax) pts zs -> Forall (small M) zs -> (4 * Z.of_nat (length pts) * M ^ 3 < 2 ^ prec)%Z ->
  forall c, c = fcentroid_2d prec emax pts \/ c = fcentroid_args prec emax (hd (f0, f0) pts) (tl pts) ->
  (area2 zs <> 0%Z -> fin (fst c) = true /\ fin (snd c) = true /\
    Rabs (FR (fst c) - IZR (momx zs) / (3 * IZR (area2 zs))) <= ((1 + uu prec) ^ 2 - 1) * Rabs (IZR (momx zs) / (3 * IZR (area2 zs))) /\
    Rabs (FR (snd c) - IZR (momy zs) / (3 * IZR (area2 zs))) <= ((1 + uu prec) ^ 2 - 1) * Rabs (IZR (momy zs) / (3 * IZR (area2 zs)))) /\
  (area2 zs = 0%Z -> fin (fst c) = false /\ fin (snd c) = false).
Proof.
  intros Hf H3 HM N W S L c Hc. destruct (state prec emax M pts zs Hf HM N W S L c Hc) as (s & -> & I & B0 & B1 & B2 & B3). exact (is_end prec emax M s _ _ _ _ Hf H3 HM I (fun _ _ _ _ => B3) B0 L B1 B2).
Qed.
(** so both versions return the same numbers there; with other coordinates they need not, and the result can be outside of
    the polygon or infinite *)
Theorem C152_agree prec emax M pts zs : format prec emax -> (3 <= prec)%Z -> (2 <= M)%Z -> pts <> [] -> Forall2 (is2 prec emax) pts zs -> Forall (small M) zs -> (4 * Z.of_nat (length pts) * M ^ 3 < 2 ^ prec)%Z ->
  let c := fcentroid_2d prec emax pts in let c' := fcentroid_args prec emax (hd (f0, f0) pts) (tl pts) in
  fin (fst c) = fin (fst c') /\ fin (snd c) = fin (snd c') /\ (area2 zs <> 0%Z -> FR (fst c) = FR (fst c') /\ FR (snd c) = FR (snd c')).
Proof.
  intros Hf H3 HM N W S L c c'. pose proof (C152_whole prec emax M pts zs Hf H3 HM N W S L c (or_introl eq_refl)) as [A1 A2]. pose proof (C152_whole prec emax M pts zs Hf H3 HM N W S L c' (or_intror eq_refl)) as [B1 B2].
  destruct (Z.eq_dec (area2 zs) 0) as [Z|Z].
  - destruct (A2 Z) as [-> ->], (B2 Z) as [-> ->]. repeat split; try reflexivity; contradiction.
  - destruct (A1 Z) as (F1 & F2 & _), (B1 Z) as (F3 & F4 & _). split; [congruence|]. split; [congruence|]. intros _.
    destruct (state prec emax M pts zs Hf HM N W S L c (or_introl eq_refl)) as (s & E & I & B0 & _ & _ & B). destruct (state prec emax M pts zs Hf HM N W S L c' (or_intror eq_refl)) as (s' & E' & I' & _).
    rewrite E in *. rewrite E' in *. pose proof (pow_bounds M HM) as (P1 & P2 & P3).
    assert (L3 : (Z.abs (3 * area2 zs) < 2 ^ prec)%Z). { rewrite Z.abs_mul. change (Z.abs 3) with 3%Z. assert (Z.of_nat (length pts) * (2 * M ^ 2) <= Z.of_nat (length pts) * M ^ 3)%Z by (apply Z.mul_le_mono_nonneg_l; lia). lia. }
    destruct (end_same prec emax s s' _ _ _ Hf H3 L3 Z I I' F1 F2 F3 F4) as [X Y]. split; [apply (same_FR _ _ X)|apply (same_FR _ _ Y)].
Qed.
Definition zpt (x y : Z) : spec_float * spec_float := (of_int 53 1024 x, of_int 53 1024 y).
Theorem C152_refuted :
  (let c := fcentroid_2d 53 1024 [zpt 73000009 73000009; zpt 73000010 73000009; zpt 73000009 73000010] in
   c = zpt 73000008 73000008 /\ SFltb (fst c) (of_int 53 1024 73000009) = true) /\
  fcentroid_2d 53 1024 [zpt 100000000 100000000; zpt 100000001 100000000; zpt 100000001 100000001; zpt 100000000 100000001] = (S754_infinity false, S754_infinity false) /\
  area2 [(100000000, 100000000); (100000001, 100000000); (100000001, 100000001); (100000000, 100000001)]%Z = 2%Z /\
  (let p := (d_08, d_05) in let l := [(d_tenth, d_07); (d_08, d_07); (d_07, d_09)] in
   SFeqb (fst (fcentroid_2d 53 1024 (p :: l))) (fst (fcentroid_args 53 1024 p l)) = false).
Proof. vm_compute. repeat split. Qed.
Example C152_ex : let pts := [zpt 0 0; zpt 6 0; zpt 6 2; zpt 0 2] in
  Forall2 (is2 53 1024) pts [(0, 0); (6, 0); (6, 2); (0, 2)]%Z /\ Forall (small 6) [(0, 0); (6, 0); (6, 2); (0, 2)]%Z /\ area2 [(0, 0); (6, 0); (6, 2); (0, 2)]%Z = 24%Z /\
  fcentroid_2d 53 1024 pts = (S754_finite false 6755399441055744 (-51), d_1) /\ fcentroid_args 53 1024 (zpt 0 0) (tl pts) = fcentroid_2d 53 1024 pts /\
  fin (fst (fcentroid_2d 53 1024 [zpt 0 0; zpt 1 1; zpt 2 2])) = false.
Proof.
  assert (I : forall k, (0 < k < 2 ^ 53)%Z -> is 53 1024 (of_int 53 1024 k) k). { intros k H. destruct (of_int_exact 53 1024 ltac:(lia) ltac:(lia) k H) as (? & ? & ?). repeat split; assumption. }
  assert (I0 : is 53 1024 (of_int 53 1024 0) 0) by (repeat split).
  split; [|split; [|vm_compute; repeat split]].
  - repeat constructor; cbn [fst snd]; first [exact I0|apply I; lia].
  - repeat constructor; cbn; lia.
Qed.
Print Assumptions C152_whole. Print Assumptions C152_agree. Print Assumptions C152_refuted.
