(** Lemmas for VectorModel. *)
From Coq Require Import Reals List ZArith Bool Lia Lra Psatz.
From Verif Require Import Outcome VectorModel.
Import ListNotations.
Local Open Scope R_scope.

(** specification: f 0 + ... + f (n-1) *)
Fixpoint sum (n : nat) (f : nat -> R) : R :=
  match n with O => 0 | S k => sum k f + f k end.

Lemma sum_ext n f g : (forall i, (i < n)%nat -> f i = g i) -> sum n f = sum n g.
Proof. induction n; simpl; intros; [reflexivity|]. rewrite IHn, H by auto. reflexivity. Qed.
Lemma sum_plus n f g : sum n (fun i => f i + g i) = sum n f + sum n g.
Proof. induction n; simpl; [ring|]. rewrite IHn. ring. Qed.
Lemma sum_scal n c f : sum n (fun i => c * f i) = c * sum n f.
Proof. induction n; simpl; [ring|]. rewrite IHn. ring. Qed.
Lemma sum_nonneg n f : (forall i, (i < n)%nat -> 0 <= f i) -> 0 <= sum n f.
Proof. induction n; simpl; intros; [lra|]. assert (0 <= sum n f) by auto. assert (0 <= f n) by auto. lra. Qed.
Lemma sum_zero n f : (forall i, (i < n)%nat -> 0 <= f i) -> sum n f = 0 -> forall i, (i < n)%nat -> f i = 0.
Proof.
  induction n; simpl; intros H E i Hi; [lia|].
  assert (0 <= sum n f) by (apply sum_nonneg; auto). assert (0 <= f n) by auto.
  assert (C : i = n \/ (i < n)%nat) by lia. destruct C as [->|C]; [lra|]. apply IHn; auto. lra.
Qed.
Lemma loop_sum n f a : loop n (fun i s => s + f i) a = a + sum n f.
Proof. induction n; simpl; [ring|]. rewrite IHn. ring. Qed.
Lemma dot_sum D a b : dot_product D a b = sum D (fun i => a i * b i).
Proof. unfold dot_product. rewrite (loop_sum D (fun i => a i * b i)). ring. Qed.
Lemma mag_sum D a : magnitude D a = sqrt (sum D (fun i => a i * a i)).
Proof. unfold magnitude. rewrite (loop_sum D (fun i => a i * a i)), Rplus_0_l. reflexivity. Qed.
Lemma delta_sum D a b : delta_magnitude D a b = magnitude D (fun i => a i - b i).
Proof. rewrite mag_sum. unfold delta_magnitude. rewrite (loop_sum D (fun i => (a i - b i) * (a i - b i))), Rplus_0_l. reflexivity. Qed.
Lemma distance_delta D a b : distance D a b = delta_magnitude D a b.
Proof. reflexivity. Qed.
Lemma sq_nonneg D a : 0 <= sum D (fun i => a i * a i).
Proof. apply sum_nonneg. intros. nra. Qed.

Lemma quad_sum D a b s p :
  sum D (fun i => (s * a i - p * b i) * (s * a i - p * b i)) =
  s * s * sum D (fun i => a i * a i) - 2 * s * p * sum D (fun i => a i * b i) + p * p * sum D (fun i => b i * b i).
Proof. induction D; simpl; [ring|]. rewrite IHD. ring. Qed.

Lemma cauchy_sq D a b :
  sum D (fun i => a i * b i) * sum D (fun i => a i * b i) <=
  sum D (fun i => a i * a i) * sum D (fun i => b i * b i).
Proof.
  set (P := sum D (fun i => a i * b i)). set (Q := sum D (fun i => a i * a i)). set (T := sum D (fun i => b i * b i)).
  assert (T0 : 0 <= T) by apply sq_nonneg. assert (Q0 : 0 <= Q) by apply sq_nonneg.
  assert (H : 0 <= T * T * Q - 2 * T * P * P + P * P * T).
  { replace (T * T * Q - 2 * T * P * P + P * P * T)
      with (sum D (fun i => (T * a i - P * b i) * (T * a i - P * b i))) by (rewrite quad_sum; reflexivity).
    apply sum_nonneg. intros i _. apply Rle_0_sqr. }
  destruct (Req_dec T 0) as [E|NE].
  - assert (Hb : forall i, (i < D)%nat -> b i = 0).
    { intros i Hi. pose proof (sum_zero D (fun i => b i * b i)) as Z. cbv beta in Z.
      assert (b i * b i = 0) by (apply Z; auto; intros; nra). nra. }
    assert (P = 0).
    { unfold P. transitivity (sum D (fun i => 0 * 0)).
      - apply sum_ext. intros i Hi. rewrite (Hb i Hi). ring.
      - rewrite sum_scal. ring. }
    nra.
  - assert (0 < T) by lra. nra.
Qed.

Lemma mag_nonneg D a : 0 <= magnitude D a.
Proof. rewrite mag_sum. apply sqrt_pos. Qed.
Lemma mag_sq D a : magnitude D a * magnitude D a = sum D (fun i => a i * a i).
Proof. rewrite mag_sum. apply sqrt_sqrt, sq_nonneg. Qed.
Lemma cauchy D a b : Rabs (dot_product D a b) <= magnitude D a * magnitude D b.
Proof.
  apply Rsqr_incr_0; [|apply Rabs_pos|apply Rmult_le_pos; apply mag_nonneg].
  unfold Rsqr. rewrite <- Rabs_mult, Rabs_pos_eq by nra. rewrite dot_sum.
  pose proof (cauchy_sq D a b). pose proof (mag_sq D a). pose proof (mag_sq D b).
  replace (magnitude D a * magnitude D b * (magnitude D a * magnitude D b))
    with ((magnitude D a * magnitude D a) * (magnitude D b * magnitude D b)) by ring.
  rewrite H0, H1. exact H.
Qed.
Lemma mag_triangle D a b : magnitude D (fun i => a i + b i) <= magnitude D a + magnitude D b.
Proof.
  apply Rsqr_incr_0; [|apply mag_nonneg|pose proof (mag_nonneg D a); pose proof (mag_nonneg D b); lra].
  unfold Rsqr. rewrite mag_sq.
  pose proof (cauchy D a b) as C. pose proof (mag_sq D a). pose proof (mag_sq D b).
  pose proof (Rle_abs (dot_product D a b)). rewrite dot_sum in *.
  replace (sum D (fun i => (a i + b i) * (a i + b i))) with
    (sum D (fun i => a i * a i) + 2 * sum D (fun i => a i * b i) + sum D (fun i => b i * b i)).
  2:{ rewrite <- sum_scal, <- !sum_plus. apply sum_ext. intros. ring. }
  nra.
Qed.
Lemma mag_zero D a : magnitude D a = 0 <-> forall i, (i < D)%nat -> a i = 0.
Proof.
  split.
  - intros E i Hi. pose proof (mag_sq D a) as S. rewrite E in S.
    pose proof (sum_zero D (fun i => a i * a i)) as Z. cbv beta in Z.
    assert (a i * a i = 0) by (apply Z; auto; intros; nra). nra.
  - intros H. rewrite mag_sum. replace (sum D (fun i => a i * a i)) with 0; [apply sqrt_0|].
    transitivity (sum D (fun i => 0 * 0)); [rewrite sum_scal; ring|].
    apply sum_ext. intros i Hi. rewrite (H i Hi). ring.
Qed.
Lemma mag_scale D c a : magnitude D (fun i => c * a i) = Rabs c * magnitude D a.
Proof.
  rewrite !mag_sum, <- sqrt_Rsqr_abs. rewrite <- sqrt_mult; [|apply Rle_0_sqr|apply sq_nonneg].
  f_equal. rewrite <- sum_scal. apply sum_ext. intros. unfold Rsqr. ring.
Qed.
Lemma mag_ext D a b : (forall i, (i < D)%nat -> a i = b i) -> magnitude D a = magnitude D b.
Proof. intro H. rewrite !mag_sum. f_equal. apply sum_ext. intros. rewrite H; auto. Qed.

(** containers *)
Lemma inner_product_spec a b acc : length a = length b ->
  inner_product a b acc = Ok (acc + sum (length a) (fun i => nth i a 0 * nth i b 0)).
Proof.
  revert b acc. induction a as [|x a IH]; intros [|y b] acc L; simpl in L; try discriminate.
  - simpl. f_equal. ring.
  - cbn [inner_product]. rewrite IH by lia. f_equal. cbn [length].
    assert (Sh : forall n f, sum (S n) f = f O + sum n (fun i => f (S i))).
    { clear. induction n; intros; [simpl; ring|]. change (sum (S (S n)) f) with (sum (S n) f + f (S n)).
      rewrite IHn. simpl. ring. }
    rewrite Sh. simpl. ring.
Qed.
Lemma inner_product_short a b acc : (length b < length a)%nat -> inner_product a b acc = UB.
Proof.
  revert b acc. induction a as [|x a IH]; intros [|y b] acc L; simpl in L; try lia; [reflexivity|].
  simpl. apply IH. lia.
Qed.

(** averages *)
Lemma fold_plus l a : fold_left Rplus l a = a + fold_left Rplus l 0.
Proof. revert a. induction l; simpl; intros; [ring|]. rewrite IHl, (IHl (0 + a)). ring. Qed.
Lemma fold_plus_le l m : (forall x, In x l -> x <= m) -> fold_left Rplus l 0 <= INR (length l) * m.
Proof.
  induction l as [|x l IH]; intros H; [simpl; lra|]. cbn [length fold_left]. rewrite fold_plus, S_INR.
  assert (x <= m) by (apply H; left; reflexivity). assert (fold_left Rplus l 0 <= INR (length l) * m) by (apply IH; intros; apply H; right; assumption). lra.
Qed.
Lemma fold_plus_ge l m : (forall x, In x l -> m <= x) -> INR (length l) * m <= fold_left Rplus l 0.
Proof.
  induction l as [|x l IH]; intros H; [simpl; lra|]. cbn [length fold_left]. rewrite fold_plus, S_INR.
  assert (m <= x) by (apply H; left; reflexivity). assert (INR (length l) * m <= fold_left Rplus l 0) by (apply IH; intros; apply H; right; assumption). lra.
Qed.
Lemma INR_len_pos {A} (l : list A) : l <> nil -> 0 < INR (length l).
Proof. destruct l; [congruence|]. intros _. apply lt_0_INR. simpl. lia. Qed.

(** extreme elements: positions are counted from i; the scan returns the first best one *)
Lemma best_spec less (lt : R -> R -> Prop) :
  (forall x b, less x b = true -> lt x b) -> (forall x b, less x b = false -> ~ lt x b) ->
  (forall x, ~ lt x x) -> (forall x b y, lt x b -> ~ lt y b -> lt x y) -> (forall x y z, lt x y -> lt y z -> lt x z) ->
  forall l i besti b (pre : list R), i = length pre -> (besti < i)%nat -> nth besti pre 0 = b ->
  (forall x, In x pre -> ~ lt x b) -> (forall k, (k < besti)%nat -> lt b (nth k pre 0)) ->
  let r := best less l i besti b in
  (r < length (pre ++ l))%nat /\ (forall x, In x (pre ++ l) -> ~ lt x (nth r (pre ++ l) 0)) /\
  (forall k, (k < r)%nat -> lt (nth r (pre ++ l) 0) (nth k (pre ++ l) 0)).
Proof.
  intros Hl Hf Hr Hn Ht. induction l as [|x l IH]; intros i bi b pre Hi Hb He Hp Hk; simpl.
  - rewrite app_nil_r, He. split; [lia|]. split; assumption.
  - replace (pre ++ x :: l) with ((pre ++ [x]) ++ l) by (rewrite <- app_assoc; reflexivity).
    destruct (less x b) eqn:E.
    + apply IH.
      * rewrite app_length; simpl; lia.
      * lia.
      * subst i. rewrite app_nth2, Nat.sub_diag by lia. reflexivity.
      * intros y Hy. apply in_app_or in Hy. destruct Hy as [Hy|[<-|[]]]; [|apply Hr].
        intro C. apply (Hp y Hy). apply (Ht _ x); auto.
      * intros k Hlt. rewrite app_nth1 by lia. apply (Hn x b); [auto|]. apply Hp, nth_In. lia.
    + apply IH.
      * rewrite app_length; simpl; lia.
      * lia.
      * rewrite app_nth1 by lia. assumption.
      * intros y Hy. apply in_app_or in Hy. destruct Hy as [Hy|[<-|[]]]; auto.
      * intros k Hlt. rewrite app_nth1 by lia. apply Hk. lia.
Qed.
Lemma ltb_true x y : ltb x y = true <-> x < y.
Proof. unfold ltb. destruct (Rlt_dec x y); split; intros; try assumption; try discriminate; try reflexivity. contradiction. Qed.
Lemma ltb_false x y : ltb x y = false <-> y <= x.
Proof. unfold ltb. destruct (Rlt_dec x y); split; intros; try discriminate; try reflexivity; lra. Qed.
Lemma min_element_spec l : l <> nil -> let r := min_element l in
  (r < length l)%nat /\ (forall x, In x l -> nth r l 0 <= x) /\ (forall k, (k < r)%nat -> nth r l 0 < nth k l 0).
Proof.
  destruct l as [|a l]; [congruence|]. intros _. unfold min_element.
  destruct (best_spec ltb Rlt) with (l := l) (i := 1%nat) (besti := 0%nat) (b := a) (pre := [a]) as (A & B & C);
    try (simpl; intros; lia); try reflexivity; try (intros; lra).
  - intros x b H. apply ltb_true in H. lra.
  - intros x b H. apply ltb_false in H. lra.
  - intros x [<-|[]]. lra.
  - split; [exact A|]. split; [|exact C]. intros x Hx. apply Rnot_lt_le, B, Hx.
Qed.
Lemma max_element_spec l : l <> nil -> let r := max_element l in
  (r < length l)%nat /\ (forall x, In x l -> x <= nth r l 0) /\ (forall k, (k < r)%nat -> nth k l 0 < nth r l 0).
Proof.
  destruct l as [|a l]; [congruence|]. intros _. unfold max_element.
  destruct (best_spec (fun y b => ltb b y) (fun x y => y < x)) with (l := l) (i := 1%nat) (besti := 0%nat) (b := a) (pre := [a]) as (A & B & C);
    try (simpl; intros; lia); try reflexivity; try (intros; lra).
  - intros x b H. apply ltb_true in H. lra.
  - intros x b H. apply ltb_false in H. lra.
  - intros x [<-|[]]. lra.
  - split; [exact A|]. split; [|exact C]. intros x Hx. apply Rnot_lt_le, B, Hx.
Qed.

Lemma std_min_Rmin a b : std_min a b = Rmin a b.
Proof. unfold std_min. destruct (ltb b a) eqn:E; [apply ltb_true in E|apply ltb_false in E]; unfold Rmin; destruct (Rle_dec a b); lra. Qed.
Lemma std_max_Rmax a b : std_max a b = Rmax a b.
Proof. unfold std_max. destruct (ltb a b) eqn:E; [apply ltb_true in E|apply ltb_false in E]; unfold Rmax; destruct (Rle_dec a b); lra. Qed.
Lemma loop_set D f tmp i : (i < D)%nat -> loop D (fun i t => set t i (f i)) tmp i = f i.
Proof.
  induction D as [|D IH]; intros H; [lia|]. simpl. unfold set. destruct (Nat.eqb_spec i D) as [->|]; [reflexivity|]. apply IH. lia.
Qed.
Lemma elementwise_nonempty f a b : a <> nil -> elementwise f a b = UB.
Proof.
  intro H. unfold elementwise.
  assert (G : forall n, (0 < n)%nat -> (n <= length a)%nat -> loop n (fun i t => bind t (fun t => bind (read a i) (fun x => bind (read b i) (fun y =>
    write t i (f x y))))) (Ok nil) = UB).
  { induction n as [|n IH]; intros H0 Hn; [lia|]. simpl. destruct n as [|n].
    - simpl. destruct a; [congruence|]. simpl. destruct (read b 0) eqn:E; simpl; try reflexivity; unfold read in E; destruct (nth_error b 0); discriminate.
    - rewrite IH by lia. reflexivity. }
  apply G; [|lia]. destruct a; [congruence|simpl; lia].
Qed.
