(** C55, C56: quadrature rules (ristra/elements/elements.cc 10-524). *)
From Coq Require Import Reals List ZArith Lia Lra.
From Verif Require Import Outcome VectorModel VectorProofs QuadratureModel QuadratureProofs.
Import ListNotations.
Open Scope R_scope.

(** the n points and weights that the line rule returns for m = 1..n *)
Definition rule_of (line : Z -> Z -> outcome (R * R)) (n : nat) (xs ws : list R) : Prop :=
  length xs = n /\ length ws = n
  /\ forall i, (i < n)%nat -> line (Z.of_nat (S i)) (Z.of_nat n) = Ok (nth i xs 0, nth i ws 0).
Definition gauss_xs (n : nat) : list R :=
  match n with 1%nat => [0] | 2%nat => gauss_points2 | 3%nat => gauss_points3 | 4%nat => gauss_points4 | 5%nat => gauss_points5
  | 6%nat => gauss_points6 | 7%nat => gauss_points7 | 8%nat => gauss_points8 | _ => [] end.
Definition gauss_ws (n : nat) : list R :=
  match n with 1%nat => [2] | 2%nat => gauss_weights2 | 3%nat => gauss_weights3 | 4%nat => gauss_weights4 | 5%nat => gauss_weights5
  | 6%nat => gauss_weights6 | 7%nat => gauss_weights7 | 8%nat => gauss_weights8 | _ => [] end.
Definition lobatto_xs (n : nat) : list R :=
  match n with 1%nat => [0] | 2%nat => lobatto_points2 | 3%nat => lobatto_points3 | 4%nat => lobatto_points4 | 5%nat => lobatto_points5
  | 6%nat => lobatto_points6 | 7%nat => lobatto_points7 | 8%nat => lobatto_points8 | _ => [] end.
Definition lobatto_ws (n : nat) : list R :=
  match n with 1%nat => [2] | 2%nat => lobatto_weights2 | 3%nat => lobatto_weights3 | 4%nat => lobatto_weights4 | 5%nat => lobatto_weights5
  | 6%nat => lobatto_weights6 | 7%nat => lobatto_weights7 | 8%nat => lobatto_weights8 | _ => [] end.
Ltac orders n H tac :=
  destruct n as [|[|[|[|[|[|[|[|[|n]]]]]]]]]; try (exfalso; lia); clear H; tac.
Ltac cases_lt i H tac :=
  lazymatch type of H with
  | (?k < O)%nat => exfalso; exact (Nat.nlt_0_r _ H)
  | (i < S ?n)%nat => destruct i as [|i]; [clear H; tac | apply Nat.succ_lt_mono in H; cases_lt i H tac]
  end.
Lemma rule_gauss n : (1 <= n <= 8)%nat -> rule_of line_gauss n (gauss_xs n) (gauss_ws n).
Proof.
  intros H. orders n H ltac:(split; [reflexivity|split; [reflexivity|intros i Hi; cases_lt i Hi ltac:(reflexivity)]]).
Qed.
Lemma rule_lobatto n : (1 <= n <= 8)%nat -> rule_of line_lobatto n (lobatto_xs n) (lobatto_ws n).
Proof.
  intros H. orders n H ltac:(split; [reflexivity|split; [reflexivity|intros i Hi; cases_lt i Hi ltac:(reflexivity)]]).
Qed.
Lemma rule_unique line n xs ws xs' ws' : rule_of line n xs ws -> rule_of line n xs' ws' -> xs = xs' /\ ws = ws'.
Proof.
  intros (L & M & E) (L' & M' & E'). split; apply (nth_ext _ _ 0 0); try congruence; intros i Hi;
    specialize (E i ltac:(lia)); specialize (E' i ltac:(lia)); congruence.
Qed.

(** ** C55: exactness.  [F] is any primitive of the polynomial with coefficients [p] (degree < length p), so
    F 1 - F (-1) is its integral over [-1,1]. *)
Theorem C55_gauss_exact : forall n xs ws p F, (1 <= n <= 5)%nat -> rule_of line_gauss n xs ws ->
  (length p <= 2 * n)%nat -> (forall x, derivable_pt_lim F x (peval p x)) ->
  quad xs ws (peval p) = F 1 - F (-1).
Proof.
  intros n xs ws p F Hn Hr Hp HF.
  destruct (rule_unique _ _ _ _ _ _ Hr (rule_gauss n ltac:(lia))) as [-> ->].
  destruct n as [|[|[|[|[|[|n]]]]]]; try (exfalso; lia); cbn [gauss_xs gauss_ws].
  - apply (rule_exact _ _ 1); [apply exact_1|lia|exact HF].
  - apply (rule_exact _ _ 3); [apply exact_2|lia|exact HF].
  - apply (rule_exact _ _ 5); [apply exact_3|lia|exact HF].
  - apply (rule_exact _ _ 7); [apply exact_4|lia|exact HF].
  - apply (rule_exact _ _ 9); [apply exact_5|lia|exact HF].
Qed.
Print Assumptions C55_gauss_exact.
Lemma D316 : 3 / IZR e16 = 3 / 10 ^ 16.
Proof. unfold e16. field. Qed.
Lemma D221 : 2 / IZR e21 = 2 / 10 ^ 21.
Proof. unfold e21. field. Qed.
(** the 16-digit tables: the error is at most 3e-16 times the sum of the absolute values of the coefficients *)
Theorem C55_gauss_tabulated : forall n xs ws p F, (6 <= n <= 8)%nat -> rule_of line_gauss n xs ws ->
  (length p <= 2 * n)%nat -> (forall x, derivable_pt_lim F x (peval p x)) ->
  Rabs (quad xs ws (peval p) - (F 1 - F (-1))) <= 3 / 10 ^ 16 * norm1 p.
Proof.
  intros n xs ws p F Hn Hr Hp HF.
  destruct (rule_unique _ _ _ _ _ _ Hr (rule_gauss n ltac:(lia))) as [-> ->]. rewrite <- D316.
  destruct n as [|[|[|[|[|[|[|[|[|n]]]]]]]]]; try (exfalso; lia); cbn [gauss_xs gauss_ws].
  - apply (rule_poly _ _ 11); [apply rule_6|lia|exact HF].
  - apply (rule_poly _ _ 13); [apply rule_7|lia|exact HF].
  - apply (rule_poly _ _ 15); [apply rule_8|lia|exact HF].
Qed.
Print Assumptions C55_gauss_tabulated.
Theorem C55_lobatto_exact : forall n xs ws p F, (2 <= n <= 3)%nat -> rule_of line_lobatto n xs ws ->
  (length p <= 2 * n - 2)%nat -> (forall x, derivable_pt_lim F x (peval p x)) ->
  quad xs ws (peval p) = F 1 - F (-1).
Proof.
  intros n xs ws p F Hn Hr Hp HF.
  destruct (rule_unique _ _ _ _ _ _ Hr (rule_lobatto n ltac:(lia))) as [-> ->].
  destruct n as [|[|[|[|n]]]]; try (exfalso; lia); cbn [lobatto_xs lobatto_ws].
  - apply (rule_exact _ _ 1); [apply exact_l2|lia|exact HF].
  - apply (rule_exact _ _ 3); [apply exact_l3|lia|exact HF].
Qed.
Print Assumptions C55_lobatto_exact.
Theorem C55_lobatto_tabulated : forall n xs ws p F, (4 <= n <= 8)%nat -> rule_of line_lobatto n xs ws ->
  (length p <= 2 * n - 2)%nat -> (forall x, derivable_pt_lim F x (peval p x)) ->
  Rabs (quad xs ws (peval p) - (F 1 - F (-1))) <= 2 / 10 ^ 21 * norm1 p.
Proof.
  intros n xs ws p F Hn Hr Hp HF.
  destruct (rule_unique _ _ _ _ _ _ Hr (rule_lobatto n ltac:(lia))) as [-> ->]. rewrite <- D221.
  destruct n as [|[|[|[|[|[|[|[|[|n]]]]]]]]]; try (exfalso; lia); cbn [lobatto_xs lobatto_ws].
  - apply (rule_poly _ _ 5); [apply rule_l4|lia|exact HF].
  - apply (rule_poly _ _ 7); [apply rule_l5|lia|exact HF].
  - apply (rule_poly _ _ 9); [apply rule_l6|lia|exact HF].
  - apply (rule_poly _ _ 11); [apply rule_l7|lia|exact HF].
  - apply (rule_poly _ _ 13); [apply rule_l8|lia|exact HF].
Qed.
Print Assumptions C55_lobatto_tabulated.
(** the rules exist for the orders 1..8 and only for them *)
Theorem C55_orders : forall n,
  ((1 <= n <= 8)%nat -> exists xs ws, rule_of line_gauss n xs ws)
  /\ ((1 <= n <= 8)%nat -> exists xs ws, rule_of line_lobatto n xs ws)
  /\ ((8 < n)%nat -> forall m, line_gauss m (Z.of_nat n) = UB /\ line_lobatto m (Z.of_nat n) = UB).
Proof.
  intros n. split; [|split].
  - intros H. eexists; eexists; apply rule_gauss, H.
  - intros H. eexists; eexists; apply rule_lobatto, H.
  - intros H m. do 9 (destruct n as [|n]; [lia|]). unfold line_gauss, line_lobatto.
    remember (Z.of_nat (S (S (S (S (S (S (S (S (S n)))))))))) as z eqn:E. assert (Z8 : (8 < z)%Z) by lia. clear E.
    destruct z as [|p|p]; try lia. split; repeat (destruct p as [p|p|]; try reflexivity; try lia).
Qed.
Print Assumptions C55_orders.
(** weights positive; abscissae and weights symmetric about 0, abscissae in [-1,1] *)
Definition symmetric_rule (n : nat) (xs ws : list R) : Prop := forall i, (i < n)%nat ->
  nth (n - 1 - i) xs 0 = - nth i xs 0 /\ nth (n - 1 - i) ws 0 = nth i ws 0
  /\ 0 < nth i ws 0 /\ -1 <= nth i xs 0 <= 1.
Lemma sqrt_le_1' a : a <= 1 -> sqrt a <= 1.
Proof. intros H. rewrite <- sqrt_1. apply sqrt_le_1_alt, H. Qed.
Theorem C55_gauss_symmetric : forall n xs ws, (1 <= n <= 8)%nat -> rule_of line_gauss n xs ws -> symmetric_rule n xs ws.
Proof.
  assert (A2 : -1 <= gauss_g2_0 <= 0).
  { unfold gauss_g2_0. assert (1 <= sqrt 3) by (rewrite <- sqrt_1 at 1; apply sqrt_le_1_alt; lra).
    assert (0 < / sqrt 3 <= 1); [|unfold Rdiv; lra]. split; [apply Rinv_0_lt_compat; lra|].
    rewrite <- Rinv_1. apply Rinv_le_contravar; lra. }
  assert (A3 : -1 <= gauss_g3_0 <= 0).
  { unfold gauss_g3_0. pose proof (sqrt_pos (3/5)). pose proof (sqrt_le_1' (3/5)). lra. }
  assert (S6 : 0 <= sqrt (6/5) <= 3/2).
  { split; [apply sqrt_pos|]. rewrite <- (sqrt_square (3/2)) by lra. apply sqrt_le_1_alt; lra. }
  assert (A4 : -1 <= gauss_g4_0 <= 0).
  { unfold gauss_g4_0. pose proof (sqrt_pos ((3 + 2 * sqrt (6/5))/7)). pose proof (sqrt_le_1' ((3 + 2 * sqrt (6/5))/7)). lra. }
  assert (B4 : -1 <= gauss_g4_1 <= 0).
  { unfold gauss_g4_1. pose proof (sqrt_pos ((3 - 2 * sqrt (6/5))/7)). pose proof (sqrt_le_1' ((3 - 2 * sqrt (6/5))/7)). lra. }
  assert (W4 : 0 < gauss_w4_0 /\ 0 < gauss_w4_1).
  { unfold gauss_w4_0, gauss_w4_1. pose proof (sqrt_pos (5/6)). pose proof (sqrt_le_1' (5/6)). lra. }
  assert (S10 : 0 <= sqrt (10/7) <= 2).
  { split; [apply sqrt_pos|]. rewrite <- (sqrt_square 2) by lra. apply sqrt_le_1_alt; lra. }
  assert (SQ : forall a, a <= 9 -> sqrt a <= 3).
  { intros a Ha. rewrite <- (sqrt_square 3) by lra. apply sqrt_le_1_alt; lra. }
  assert (A5 : -1 <= gauss_g5_0 <= 0).
  { unfold gauss_g5_0. pose proof (sqrt_pos (5 + 2 * sqrt (10/7))). pose proof (SQ (5 + 2 * sqrt (10/7))). lra. }
  assert (B5 : -1 <= gauss_g5_1 <= 0).
  { unfold gauss_g5_1. pose proof (sqrt_pos (5 - 2 * sqrt (10/7))). pose proof (SQ (5 - 2 * sqrt (10/7))). lra. }
  assert (W5 : 0 < gauss_w5_0 /\ 0 < gauss_w5_1).
  { unfold gauss_w5_0, gauss_w5_1. pose proof (sqrt_pos 70). assert (sqrt 70 <= 9).
    { rewrite <- (sqrt_square 9) by lra. apply sqrt_le_1_alt; lra. } lra. }
  intros n xs ws Hn Hr. destruct (rule_unique _ _ _ _ _ _ Hr (rule_gauss n Hn)) as [-> ->].
  destruct n as [|[|[|[|[|[|[|[|[|n]]]]]]]]]; try (exfalso; lia);
    intros i Hi; cases_lt i Hi ltac:(cbn [gauss_xs gauss_ws gauss_points2 gauss_weights2 gauss_points3 gauss_weights3
      gauss_points4 gauss_weights4 gauss_points5 gauss_weights5 gauss_points6 gauss_weights6 gauss_points7
      gauss_weights7 gauss_points8 gauss_weights8 nth Nat.sub];
      unfold gauss_g2_1, gauss_w3_2, gauss_w3_1, gauss_w3_0, gauss_g3_1, gauss_g3_2, gauss_w4_2, gauss_w4_3,
      gauss_g4_2, gauss_g4_3, gauss_w5_2, gauss_w5_3, gauss_w5_4, gauss_g5_2, gauss_g5_3, gauss_g5_4,
      gauss_w6_5, gauss_w6_4, gauss_w6_3, gauss_w6_2, gauss_w6_1, gauss_w6_0, gauss_g6_5, gauss_g6_4, gauss_g6_3,
      gauss_g6_2, gauss_g6_1, gauss_g6_0, gauss_w7_6, gauss_w7_5, gauss_w7_4, gauss_w7_3, gauss_w7_2, gauss_w7_1,
      gauss_w7_0, gauss_g7_6, gauss_g7_5, gauss_g7_4, gauss_g7_3, gauss_g7_2, gauss_g7_1, gauss_g7_0,
      gauss_w8_7, gauss_w8_6, gauss_w8_5, gauss_w8_4, gauss_w8_3, gauss_w8_2, gauss_w8_1, gauss_w8_0, gauss_g8_7,
      gauss_g8_6, gauss_g8_5, gauss_g8_4, gauss_g8_3, gauss_g8_2, gauss_g8_1, gauss_g8_0; lra).
Qed.
Print Assumptions C55_gauss_symmetric.
Theorem C55_lobatto_symmetric : forall n xs ws, (1 <= n <= 8)%nat -> rule_of line_lobatto n xs ws ->
  symmetric_rule n xs ws.
Proof.
  intros n xs ws Hn Hr. destruct (rule_unique _ _ _ _ _ _ Hr (rule_lobatto n Hn)) as [-> ->].
  destruct n as [|[|[|[|[|[|[|[|[|n]]]]]]]]]; try (exfalso; lia);
    intros i Hi; cases_lt i Hi ltac:(cbv -[Rplus Rmult Ropp Rle Rlt IZR Rinv Rminus Rdiv]; lra).
Qed.
Print Assumptions C55_lobatto_symmetric.
(** a Lobatto rule (order >= 2) contains both end points *)
Theorem C55_lobatto_ends : forall n xs ws, (2 <= n <= 8)%nat -> rule_of line_lobatto n xs ws -> In (-1) xs /\ In 1 xs.
Proof.
  intros n xs ws Hn Hr. destruct (rule_unique _ _ _ _ _ _ Hr (rule_lobatto n ltac:(lia))) as [-> ->].
  destruct n as [|[|[|[|[|[|[|[|[|n]]]]]]]]]; try (exfalso; lia); split;
    cbv -[Rplus Rmult Ropp Rle IZR Rinv Rminus Rdiv]; repeat (first [left; lra | right]).
Qed.
Print Assumptions C55_lobatto_ends.
Example C55_ex : quad gauss_points3 gauss_weights3 (peval [1; 0; 3; 0; 5]) = 6.
Proof.
  transitivity ((fun x => x + x ^ 3 + x ^ 5) 1 - (fun x => x + x ^ 3 + x ^ 5) (-1)); [|simpl; ring].
  apply (C55_gauss_exact 3 _ _ _ (fun x => x + x ^ 3 + x ^ 5)); [lia|apply (rule_gauss 3); lia|simpl; lia|]. intros x.
  replace (peval [1; 0; 3; 0; 5] x) with (1 + INR 3 * x ^ 2 + INR 5 * x ^ 4) by (simpl; ring).
  apply (derivable_pt_lim_plus (fun x => x + x ^ 3) (fun x => x ^ 5)).
  - apply (derivable_pt_lim_plus id (fun x => x ^ 3)); [apply derivable_pt_lim_id|apply (derivable_pt_lim_pow x 3)].
  - apply (derivable_pt_lim_pow x 5).
Qed.

(** ** C56: the tensor rules *)
Theorem C56_bijection2 : forall n m, (0 < n)%Z -> (0 <= m < n * n)%Z ->
  (let '(i, j) := idx2 n m in (1 <= i <= n)%Z /\ (1 <= j <= n)%Z /\ m = (i - 1 + n * (j - 1))%Z)
  /\ forall i j, (1 <= i <= n)%Z -> (1 <= j <= n)%Z ->
     (0 <= i - 1 + n * (j - 1) < n * n)%Z /\ idx2 n (i - 1 + n * (j - 1)) = (i, j).
Proof.
  intros n m Hn Hm. split.
  - pose proof (Z.mod_pos_bound m n Hn). pose proof (Z.div_pos m n ltac:(lia) Hn).
    assert (m / n < n)%Z by (apply Z.div_lt_upper_bound; lia).
    assert (E : m = (m mod n + n * (m / n))%Z) by (pose proof (Z.div_mod m n ltac:(lia)); lia).
    assert (E' : idx2 n m = ((m mod n + 1)%Z, (m / n + 1)%Z)) by (rewrite <- (idx2_spec n) by lia; f_equal; exact E).
    rewrite E'. repeat split; lia.
  - intros i j Hi Hj. split; [nia|]. rewrite idx2_spec by lia. f_equal; lia.
Qed.
Print Assumptions C56_bijection2.
Theorem C56_bijection3 : forall n m, (0 < n)%Z -> (0 <= m < n * n * n)%Z ->
  (let '(i, j, k) := idx3 n m in (1 <= i <= n)%Z /\ (1 <= j <= n)%Z /\ (1 <= k <= n)%Z
     /\ m = (i - 1 + n * (j - 1 + n * (k - 1)))%Z)
  /\ forall i j k, (1 <= i <= n)%Z -> (1 <= j <= n)%Z -> (1 <= k <= n)%Z ->
     (0 <= i - 1 + n * (j - 1 + n * (k - 1)) < n * n * n)%Z
     /\ idx3 n (i - 1 + n * (j - 1 + n * (k - 1))) = (i, j, k).
Proof.
  intros n m Hn Hm. split.
  - pose proof (Z.div_mod m n ltac:(lia)) as E1. pose proof (Z.div_mod (m / n) n ltac:(lia)) as E2.
    pose proof (Z.mod_pos_bound m n Hn). pose proof (Z.mod_pos_bound (m / n) n Hn).
    pose proof (Z.div_pos m n ltac:(lia) Hn). pose proof (Z.div_pos (m / n) n ltac:(lia) Hn).
    assert (m / n < n * n)%Z by (apply Z.div_lt_upper_bound; nia).
    assert (m / n / n < n)%Z by (apply Z.div_lt_upper_bound; nia).
    assert (E : m = (m mod n + n * ((m / n) mod n + n * (m / n / n)))%Z) by nia.
    assert (E' : idx3 n m = ((m mod n + 1)%Z, ((m / n) mod n + 1)%Z, (m / n / n + 1)%Z))
      by (rewrite <- (idx3_spec n) by lia; f_equal; exact E).
    rewrite E'. repeat split; lia.
  - intros i j k Hi Hj Hk. split.
    + assert (0 <= i - 1 + n * (j - 1) < n * n)%Z by nia.
      assert (0 <= n * n * (k - 1))%Z by nia. assert (n * n * k <= n * n * n)%Z by (apply Z.mul_le_mono_nonneg_l; nia). lia.
    + rewrite idx3_spec by lia. apply f_equal2; [apply f_equal2|]; lia.
Qed.
Print Assumptions C56_bijection3.
Theorem C56_bijection4 : forall n i j k l,
  (1 <= i <= n)%Z -> (1 <= j <= n)%Z -> (1 <= k <= n)%Z -> (1 <= l <= n)%Z ->
  idx4 n 4 (i - 1 + n * (j - 1 + n * (k - 1 + n * (l - 1)))) = (i, j, k, l).
Proof.
  intros n i j k l Hi Hj Hk Hl. rewrite idx4_spec by lia.
  apply f_equal2; [apply f_equal2; [apply f_equal2|]|]; lia.
Qed.
Print Assumptions C56_bijection4.
(** with any other value of dim Gauss4D and Lobatto4D do not enumerate the index tuples *)
Theorem C56_dim_refuted : idx4 2 3 0 = (1, 1, 1, 1)%Z /\ idx4 2 3 4 = (1, 1, 1, 2)%Z
  /\ idx4 2 3 15 = (2, 1, 2, 4)%Z.
Proof.
  unfold idx4. change (2 ^ (3 - 1))%Z with 4%Z. change (2 ^ (3 - 2))%Z with 2%Z.
  rewrite !(floor_div _ 4) by lia. rewrite !(floor_div _ 2) by lia. repeat split.
Qed.
Print Assumptions C56_dim_refuted.

(** sums over the point number m equal iterated sums over the line rule, for every integrand *)
Theorem C56_sum2 : forall (n : nat) (f : Z -> Z -> R),
  sum (n * n) (fun m => let '(i, j) := idx2 (Z.of_nat n) (Z.of_nat m) in f i j)
  = sum n (fun j => sum n (fun i => f (Z.of_nat (S i)) (Z.of_nat (S j)))).
Proof.
  intros n f. rewrite sum_prod. apply sum_ext. intros j Hj. apply sum_ext. intros i Hi.
  rewrite Nat2Z.inj_add, Nat2Z.inj_mul, idx2_spec by lia. rewrite !Nat2Z.inj_succ. reflexivity.
Qed.
Print Assumptions C56_sum2.
Theorem C56_sum3 : forall (n : nat) (f : Z -> Z -> Z -> R),
  sum (n * (n * n)) (fun m => let '(i, j, k) := idx3 (Z.of_nat n) (Z.of_nat m) in f i j k)
  = sum n (fun k => sum n (fun j => sum n (fun i => f (Z.of_nat (S i)) (Z.of_nat (S j)) (Z.of_nat (S k))))).
Proof.
  intros n f. rewrite sum_prod. rewrite (sum_prod n n). apply sum_ext. intros k Hk. apply sum_ext. intros j Hj.
  apply sum_ext. intros i Hi.
  rewrite !Nat2Z.inj_add, !Nat2Z.inj_mul, !Nat2Z.inj_add, !Nat2Z.inj_mul, idx3_spec by lia.
  rewrite !Nat2Z.inj_succ. reflexivity.
Qed.
Print Assumptions C56_sum3.
Theorem C56_sum4 : forall (n : nat) (f : Z -> Z -> Z -> Z -> R),
  sum (n * (n * (n * n))) (fun m => let '(i, j, k, l) := idx4 (Z.of_nat n) 4 (Z.of_nat m) in f i j k l)
  = sum n (fun l => sum n (fun k => sum n (fun j => sum n (fun i =>
      f (Z.of_nat (S i)) (Z.of_nat (S j)) (Z.of_nat (S k)) (Z.of_nat (S l)))))).
Proof.
  intros n f. rewrite sum_prod, (sum_prod n (n * n)), (sum_prod n n). apply sum_ext. intros l Hl.
  apply sum_ext. intros k Hk. apply sum_ext. intros j Hj. apply sum_ext. intros i Hi.
  rewrite !Nat2Z.inj_add, !Nat2Z.inj_mul, !Nat2Z.inj_add, !Nat2Z.inj_mul, !Nat2Z.inj_add, !Nat2Z.inj_mul, idx4_spec by lia.
  rewrite !Nat2Z.inj_succ. reflexivity.
Qed.
Print Assumptions C56_sum4.

(** the stored points and weights, for either line rule *)
Lemma rule_at line n xs ws i : rule_of line (S n) xs ws -> (1 <= i <= Z.of_nat (S n))%Z ->
  line i (Z.of_nat (S n)) = Ok (nth (Z.to_nat (i - 1)) xs 0, nth (Z.to_nat (i - 1)) ws 0).
Proof.
  intros (_ & _ & H) Hi. rewrite <- H by lia. f_equal. lia.
Qed.
Definition rule2 (xs ws : list R) (f : R -> R -> R) : R := quad xs ws (fun y => quad xs ws (fun x => f x y)).
Lemma quad_sum xs : forall ws f, length ws = length xs ->
  quad xs ws f = sum (length xs) (fun i => nth i ws 0 * f (nth i xs 0)).
Proof.
  assert (G : forall n g, sum (S n) g = g O + sum n (fun i => g (S i))).
  { induction n; intros g; [simpl; ring|]. change (sum (S (S n)) g) with (sum (S n) g + g (S n)). rewrite IHn. simpl. ring. }
  induction xs as [|x xs IH]; intros [|w ws] f L; try discriminate; [reflexivity|].
  cbn [length]. rewrite G. cbn [nth quad]. f_equal. apply IH. simpl in L. lia.
Qed.
Lemma rule_pos line n xs ws m : rule_of line n xs ws -> (m < n)%nat -> exists k, n = S k.
Proof. destruct n; [lia|eauto]. Qed.
(** Gauss2D and Lobatto2D: summing weight * integrand over the n*n points is the iterated 1-D rule *)
Theorem C56_tensor2 : forall line n xs ws (f : R -> R -> R), rule_of line n xs ws ->
  (forall m, (m < n * n)%nat -> exists pts wts, tensor2 line (Z.of_nat n) (Z.of_nat m) = Ok (pts, wts)
    /\ length pts = 2%nat /\ length wts = 2%nat)
  /\ sum (n * n) (fun m => match tensor2 line (Z.of_nat n) (Z.of_nat m) with
       Ok pw => tot_weight pw * f (nth 0 (fst pw) 0) (nth 1 (fst pw) 0) | _ => 0 end)
     = quad xs ws (fun y => quad xs ws (fun x => f x y)).
Proof.
  intros line n xs ws f H. destruct n as [|n].
  { destruct H as (L & M & _). destruct xs; [|discriminate]. split; [lia|reflexivity]. }
  assert (A : forall m, (m < S n * S n)%nat -> exists i j, idx2 (Z.of_nat (S n)) (Z.of_nat m) = (i, j)
    /\ (1 <= i <= Z.of_nat (S n))%Z /\ (1 <= j <= Z.of_nat (S n))%Z).
  { intros m Hm. destruct (C56_bijection2 (Z.of_nat (S n)) (Z.of_nat m)) as [G _]; [lia|lia|].
    destruct (idx2 (Z.of_nat (S n)) (Z.of_nat m)) as [i j]. exists i, j. split; [reflexivity|]. tauto. }
  split.
  - intros m Hm. destruct (A m Hm) as (i & j & E & Hi & Hj). unfold tensor2. rewrite E. unfold axis.
    rewrite !(rule_at line n xs ws) by assumption. cbn [bind]. eexists; eexists; split; [reflexivity|split; reflexivity].
  - rewrite (sum_ext _ _ (fun m => let '(i, j) := idx2 (Z.of_nat (S n)) (Z.of_nat m) in
      nth (Z.to_nat (i - 1)) ws 0 * nth (Z.to_nat (j - 1)) ws 0
      * f (nth (Z.to_nat (i - 1)) xs 0) (nth (Z.to_nat (j - 1)) xs 0))).
    + rewrite (C56_sum2 (S n) (fun i j => nth (Z.to_nat (i - 1)) ws 0 * nth (Z.to_nat (j - 1)) ws 0
        * f (nth (Z.to_nat (i - 1)) xs 0) (nth (Z.to_nat (j - 1)) xs 0))).
      destruct H as (L & M & _). rewrite quad_sum, L by congruence. apply sum_ext. intros j Hj.
      rewrite quad_sum, L, <- sum_scal by congruence. apply sum_ext. intros i Hi.
      replace (Z.to_nat (Z.of_nat (S i) - 1)) with i by lia. replace (Z.to_nat (Z.of_nat (S j) - 1)) with j by lia. ring.
    + intros m Hm. destruct (A m Hm) as (i & j & E & Hi & Hj). unfold tensor2. rewrite E. unfold axis.
      rewrite !(rule_at line n xs ws) by assumption. cbn [bind fst snd nth tot_weight fold_left hd tl]. ring.
Qed.
Print Assumptions C56_tensor2.
Theorem C56_tensor3 : forall line n xs ws (f : R -> R -> R -> R), rule_of line n xs ws ->
  (forall m, (m < n * (n * n))%nat -> exists pts wts, tensor3 line (Z.of_nat n) (Z.of_nat m) = Ok (pts, wts)
    /\ length pts = 3%nat /\ length wts = 3%nat)
  /\ sum (n * (n * n)) (fun m => match tensor3 line (Z.of_nat n) (Z.of_nat m) with
       Ok pw => tot_weight pw * f (nth 0 (fst pw) 0) (nth 1 (fst pw) 0) (nth 2 (fst pw) 0) | _ => 0 end)
     = quad xs ws (fun z => quad xs ws (fun y => quad xs ws (fun x => f x y z))).
Proof.
  intros line n xs ws f H. destruct n as [|n].
  { destruct H as (L & M & _). destruct xs; [|discriminate]. split; [lia|reflexivity]. }
  assert (A : forall m, (m < S n * (S n * S n))%nat -> exists i j k, idx3 (Z.of_nat (S n)) (Z.of_nat m) = (i, j, k)
    /\ (1 <= i <= Z.of_nat (S n))%Z /\ (1 <= j <= Z.of_nat (S n))%Z /\ (1 <= k <= Z.of_nat (S n))%Z).
  { intros m Hm. destruct (C56_bijection3 (Z.of_nat (S n)) (Z.of_nat m)) as [G _]; [lia|lia|].
    destruct (idx3 (Z.of_nat (S n)) (Z.of_nat m)) as [[i j] k]. exists i, j, k. split; [reflexivity|]. tauto. }
  split.
  - intros m Hm. destruct (A m Hm) as (i & j & k & E & Hi & Hj & Hk). unfold tensor3. rewrite E. unfold axis.
    rewrite !(rule_at line n xs ws) by assumption. cbn [bind]. eexists; eexists; split; [reflexivity|split; reflexivity].
  - rewrite (sum_ext _ _ (fun m => let '(i, j, k) := idx3 (Z.of_nat (S n)) (Z.of_nat m) in
      nth (Z.to_nat (i - 1)) ws 0 * nth (Z.to_nat (j - 1)) ws 0 * nth (Z.to_nat (k - 1)) ws 0
      * f (nth (Z.to_nat (i - 1)) xs 0) (nth (Z.to_nat (j - 1)) xs 0) (nth (Z.to_nat (k - 1)) xs 0))).
    + rewrite (C56_sum3 (S n) (fun i j k =>
        nth (Z.to_nat (i - 1)) ws 0 * nth (Z.to_nat (j - 1)) ws 0 * nth (Z.to_nat (k - 1)) ws 0
        * f (nth (Z.to_nat (i - 1)) xs 0) (nth (Z.to_nat (j - 1)) xs 0) (nth (Z.to_nat (k - 1)) xs 0))).
      destruct H as (L & M & _). rewrite quad_sum, L by congruence. apply sum_ext. intros k Hk.
      rewrite quad_sum, L, <- sum_scal by congruence. apply sum_ext. intros j Hj.
      rewrite quad_sum, L, <- !sum_scal by congruence. apply sum_ext. intros i Hi.
      replace (Z.to_nat (Z.of_nat (S i) - 1)) with i by lia. replace (Z.to_nat (Z.of_nat (S j) - 1)) with j by lia.
      replace (Z.to_nat (Z.of_nat (S k) - 1)) with k by lia. ring.
    + intros m Hm. destruct (A m Hm) as (i & j & k & E & Hi & Hj & Hk). unfold tensor3. rewrite E. unfold axis.
      rewrite !(rule_at line n xs ws) by assumption. cbn [bind fst snd nth tot_weight fold_left hd tl]. ring.
Qed.
Print Assumptions C56_tensor3.
(** Gauss4D/Lobatto4D with dim = 4, point (i,j,k,l) *)
Theorem C56_tensor4 : forall line n xs ws i j k l, rule_of line n xs ws ->
  (i < n)%nat -> (j < n)%nat -> (k < n)%nat -> (l < n)%nat ->
  tensor4 line (Z.of_nat n) 4 (Z.of_nat (i + n * (j + n * (k + n * l))))
  = Ok ([nth i xs 0; nth j xs 0; nth k xs 0; nth l xs 0],
        [1 * nth i ws 0; 1 * nth j ws 0; 1 * nth k ws 0; 1 * nth l ws 0]).
Proof.
  intros line n xs ws i j k l H Hi Hj Hk Hl. destruct n as [|n]; [lia|]. unfold tensor4.
  rewrite !Nat2Z.inj_add, !Nat2Z.inj_mul, !Nat2Z.inj_add, !Nat2Z.inj_mul, !Nat2Z.inj_add, !Nat2Z.inj_mul, idx4_spec by lia.
  unfold axis. rewrite !(rule_at line n xs ws) by (assumption || lia). cbn [bind fst snd].
  rewrite !Z.add_simpl_r, !Nat2Z.id. reflexivity.
Qed.
Print Assumptions C56_tensor4.
(** so the 2-D Gauss rule integrates x^a y^b exactly for a, b <= 2n-1 and its weights sum to 4 *)
Theorem C56_gauss2d_exact : forall n p q F G, (1 <= n <= 5)%nat -> (length p <= 2 * n)%nat -> (length q <= 2 * n)%nat ->
  (forall x, derivable_pt_lim F x (peval p x)) -> (forall x, derivable_pt_lim G x (peval q x)) ->
  sum (n * n) (fun m => match gauss2d (Z.of_nat n) (Z.of_nat m) with
       Ok pw => tot_weight pw * (peval p (nth 0 (fst pw) 0) * peval q (nth 1 (fst pw) 0)) | _ => 0 end)
  = (F 1 - F (-1)) * (G 1 - G (-1)).
Proof.
  intros n p q F G Hn Hp Hq HF HG. pose proof (rule_gauss n ltac:(lia)) as R. unfold gauss2d.
  destruct (C56_tensor2 line_gauss n _ _ (fun x y => peval p x * peval q y) R) as [_ ->].
  rewrite (quad_ext _ _ _ (fun y => (F 1 - F (-1)) * peval q y + 0)).
  - rewrite quad_lin, quad_zero, (C55_gauss_exact n _ _ q G Hn R Hq HG). ring.
  - intros y. rewrite (quad_ext _ _ _ (fun x => peval q y * peval p x + 0)) by (intros; ring).
    rewrite quad_lin, quad_zero, (C55_gauss_exact n _ _ p F Hn R Hp HF). ring.
Qed.
Print Assumptions C56_gauss2d_exact.
Theorem C56_gauss3d_exact : forall n p q r F G H, (1 <= n <= 5)%nat ->
  (length p <= 2 * n)%nat -> (length q <= 2 * n)%nat -> (length r <= 2 * n)%nat ->
  (forall x, derivable_pt_lim F x (peval p x)) -> (forall x, derivable_pt_lim G x (peval q x)) ->
  (forall x, derivable_pt_lim H x (peval r x)) ->
  sum (n * (n * n)) (fun m => match gauss3d (Z.of_nat n) (Z.of_nat m) with
       Ok pw => tot_weight pw * (peval p (nth 0 (fst pw) 0) * peval q (nth 1 (fst pw) 0) * peval r (nth 2 (fst pw) 0))
       | _ => 0 end)
  = (F 1 - F (-1)) * (G 1 - G (-1)) * (H 1 - H (-1)).
Proof.
  intros n p q r F G H Hn Hp Hq Hr' HF HG HH. pose proof (rule_gauss n ltac:(lia)) as R. unfold gauss3d.
  destruct (C56_tensor3 line_gauss n _ _ (fun x y z => peval p x * peval q y * peval r z) R) as [_ ->].
  rewrite (quad_ext _ _ _ (fun z => (F 1 - F (-1)) * (G 1 - G (-1)) * peval r z + 0)).
  - rewrite quad_lin, quad_zero, (C55_gauss_exact n _ _ r H Hn R Hr' HH). ring.
  - intros z. rewrite (quad_ext _ _ _ (fun y => (F 1 - F (-1)) * peval r z * peval q y + 0)).
    + rewrite quad_lin, quad_zero, (C55_gauss_exact n _ _ q G Hn R Hq HG). ring.
    + intros y. rewrite (quad_ext _ _ _ (fun x => peval q y * peval r z * peval p x + 0)) by (intros; ring).
      rewrite quad_lin, quad_zero, (C55_gauss_exact n _ _ p F Hn R Hp HF). ring.
Qed.
Print Assumptions C56_gauss3d_exact.
(** orders above 8 have no table: every point is computed from uninitialised values *)
Theorem C56_order_refuted : forall n m, (8 < n)%nat ->
  gauss2d (Z.of_nat n) m = UB /\ lobatto2d (Z.of_nat n) m = UB /\ gauss3d (Z.of_nat n) m = UB
  /\ lobatto3d (Z.of_nat n) m = UB /\ gauss4d (Z.of_nat n) 4 m = UB /\ lobatto4d (Z.of_nat n) 4 m = UB.
Proof.
  intros n m H. destruct (C55_orders n) as (_ & _ & U). specialize (U H).
  unfold gauss2d, lobatto2d, gauss3d, lobatto3d, gauss4d, lobatto4d, tensor2, tensor3, tensor4, axis.
  destruct (idx2 (Z.of_nat n) m) as [i j], (idx3 (Z.of_nat n) m) as [[i3 j3] k3],
    (idx4 (Z.of_nat n) 4 m) as [[[i4 j4] k4] l4].
  destruct (U i) as [-> ->], (U i3) as [-> ->], (U i4) as [-> ->]. repeat split.
Qed.
Print Assumptions C56_order_refuted.
Example C56_ex : idx3 3 14 = (3, 2, 2)%Z /\ idx2 4 7 = (4, 2)%Z.
Proof. split; reflexivity. Qed.
Example C56_points_ex : gauss2d 2 1 = Ok ([gauss_g2_1; gauss_g2_0], [1 * 1; 1 * 1]).
Proof. reflexivity. Qed.
