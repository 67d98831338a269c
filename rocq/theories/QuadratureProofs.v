(** Lemmas for QuadratureModel. *)
From Coq Require Import Reals List ZArith Bool Lia Lra.
From Verif Require Import Outcome VectorModel VectorProofs QuadratureModel.
Import ListNotations.
Open Scope R_scope.

(** ** specification: applying a rule, polynomials, their integral over [-1,1] *)
Fixpoint quad (xs ws : list R) (f : R -> R) : R :=
  match xs, ws with x :: xs', w :: ws' => w * f x + quad xs' ws' f | _, _ => 0 end.
(** coefficients in increasing degree: peval [c0; c1; ..] x = c0 + c1 x + .. *)
Fixpoint peval (p : list R) (x : R) : R := match p with [] => 0 | c :: p' => c + x * peval p' x end.
Fixpoint norm1 (p : list R) : R := match p with [] => 0 | c :: p' => Rabs c + norm1 p' end.
(** integral of x^k over [-1,1] *)
Definition imom (k : nat) : R := (1 - (-1) ^ S k) / INR (S k).
Fixpoint integ (p : list R) (j : nat) : R := match p with [] => 0 | c :: p' => c * imom j + integ p' (S j) end.

Lemma quad_ext xs ws f g : (forall x, f x = g x) -> quad xs ws f = quad xs ws g.
Proof. intros E. revert ws. induction xs; intros [|w ws]; simpl; try reflexivity. rewrite E, IHxs. reflexivity. Qed.
Lemma quad_lin xs ws f g c : quad xs ws (fun x => c * f x + g x) = c * quad xs ws f + quad xs ws g.
Proof. revert ws. induction xs; intros [|w ws]; simpl; try ring. rewrite IHxs. ring. Qed.
Lemma quad_zero xs ws : quad xs ws (fun _ => 0) = 0.
Proof. revert ws. induction xs; intros [|w ws]; simpl; try ring. rewrite IHxs. ring. Qed.
Lemma quad_poly xs ws p eps : forall j,
  (forall k, (j <= k < j + length p)%nat -> Rabs (quad xs ws (fun x => x ^ k) - imom k) <= eps) ->
  Rabs (quad xs ws (fun x => x ^ j * peval p x) - integ p j) <= eps * norm1 p.
Proof.
  induction p as [|c p IH]; intros j H; simpl.
  - rewrite (quad_ext _ _ _ (fun _ => 0)) by (intros; ring). rewrite quad_zero.
    rewrite Rminus_0_r, Rabs_R0. lra.
  - rewrite (quad_ext _ _ _ (fun x => c * x ^ j + x ^ S j * peval p x)) by (intros; simpl; ring).
    rewrite quad_lin.
    replace (c * quad xs ws (fun x => x ^ j) + quad xs ws (fun x => x ^ S j * peval p x) - (c * imom j + integ p (S j)))
      with (c * (quad xs ws (fun x => x ^ j) - imom j) + (quad xs ws (fun x => x ^ S j * peval p x) - integ p (S j))) by ring.
    eapply Rle_trans; [apply Rabs_triang|]. rewrite Rabs_mult, Rmult_plus_distr_l. apply Rplus_le_compat.
    + rewrite Rmult_comm. apply Rmult_le_compat_r; [apply Rabs_pos|]. apply H. simpl; lia.
    + apply IH. intros k Hk. apply H. simpl; lia.
Qed.

(** ** the integral: any primitive *)
Fixpoint prim (p : list R) (j : nat) (x : R) : R :=
  match p with [] => 0 | c :: p' => c / INR (S j) * x ^ S j + prim p' (S j) x end.
Lemma prim_deriv p : forall j x, derivable_pt_lim (prim p j) x (x ^ j * peval p x).
Proof.
  induction p as [|c p IH]; intros j x; simpl peval.
  - rewrite Rmult_0_r. apply (derivable_pt_lim_const 0).
  - replace (x ^ j * (c + x * peval p x)) with (c / INR (S j) * (INR (S j) * x ^ j) + x ^ S j * peval p x).
    + apply (derivable_pt_lim_plus (fun x => c / INR (S j) * x ^ S j) (prim p (S j))).
      * apply (derivable_pt_lim_scal (fun x => x ^ S j)). exact (derivable_pt_lim_pow x (S j)).
      * apply IH.
    + simpl pow. field. apply not_0_INR. discriminate.
Qed.
Lemma prim_diff p : forall j, prim p j 1 - prim p j (-1) = integ p j.
Proof.
  induction p as [|c p IH]; intros j; cbn [prim integ]; [ring|].
  rewrite <- IH. unfold imom. rewrite pow1. field. apply not_0_INR. discriminate.
Qed.
Lemma integral_unique p (F : R -> R) : (forall x, derivable_pt_lim F x (peval p x)) -> F 1 - F (-1) = integ p 0.
Proof.
  intros H. rewrite <- prim_diff.
  destruct (MVT_cor2 (fun x => F x - prim p 0 x) (fun _ => 0) (-1) 1) as (c & E & _); [lra| |lra].
  intros c _. replace 0 with (peval p c - c ^ 0 * peval p c) by (simpl; ring).
  apply (derivable_pt_lim_minus F (prim p 0)); [apply H|apply prim_deriv].
Qed.

(** ** moments *)
Lemma imom_odd k : Nat.odd k = true -> imom k = 0.
Proof.
  intros H. apply Nat.odd_spec in H. destruct H as [m ->]. unfold imom.
  replace (S (2 * m + 1)) with (2 * S m)%nat by lia. rewrite pow_1_even. unfold Rdiv. ring.
Qed.
Lemma imom_even k : Nat.odd k = false -> imom k = 2 / INR (S k).
Proof.
  intros H. assert (E : Nat.even k = true) by (rewrite <- Nat.negb_odd, H; reflexivity).
  apply Nat.even_spec in E. destruct E as [m ->]. unfold imom. rewrite pow_1_odd. f_equal. ring.
Qed.

(** ** tables scaled to integers.  [terms] holds the pairs (x, w x^k); all sums below are sums of integers. *)
Definition zsum (terms : list (Z * Z)) : Z := fold_right (fun t s => (snd t + s)%Z) 0%Z terms.
Definition zstep (terms : list (Z * Z)) : list (Z * Z) := map (fun t => (fst t, (fst t * snd t)%Z)) terms.
(** for k, k+1, .., k+n-1: |(k+1) * moment - 2 [k even] scale| * ed <= en (k+1) scale, where scale = Sw Sx^k *)
Fixpoint moments_ok (Sx en ed : Z) (n : nat) (k : Z) (even : bool) (scale : Z) (terms : list (Z * Z)) : bool :=
  match n with
  | O => true
  | S n' => (Z.abs ((k + 1) * zsum terms - (if even then 2 * scale else 0)) * ed <=? en * ((k + 1) * scale))%Z
            && moments_ok Sx en ed n' (k + 1)%Z (negb even) (Sx * scale)%Z (zstep terms)
  end.
Definition zpow_terms (xs ws : list Z) (k : nat) : list (Z * Z) := Nat.iter k zstep (combine xs ws).
Definition scaled (S : Z) (l : list Z) : list R := map (fun x => IZR x / IZR S) l.
Lemma zsum_quad Sx Sw : (0 < Sx)%Z -> (0 < Sw)%Z -> forall xs ws k, length xs = length ws ->
  IZR (zsum (zpow_terms xs ws k)) = IZR (Sw * Sx ^ Z.of_nat k) * quad (scaled Sx xs) (scaled Sw ws) (fun x => x ^ k).
Proof.
  intros Px Pw.
  assert (E : forall k xs ws, zpow_terms xs ws k = map (fun t => (fst t, (fst t ^ Z.of_nat k * snd t)%Z)) (combine xs ws)).
  { intros k xs ws. unfold zpow_terms. induction k; [simpl; symmetry; rewrite <- map_id; apply map_ext; intros [a b]; f_equal; simpl; destruct b; reflexivity|].
    cbn [Nat.iter nat_rect]. unfold Nat.iter in IHk. rewrite IHk. unfold zstep. rewrite map_map. apply map_ext. intros [a b].
    cbn [fst snd]. f_equal. rewrite Nat2Z.inj_succ, Z.pow_succ_r by lia. ring. }
  assert (Rx : IZR Sx <> 0) by (apply IZR_neq; lia). assert (Rw : IZR Sw <> 0) by (apply IZR_neq; lia).
  intros xs ws k. rewrite E. revert ws. induction xs as [|x xs IH]; intros [|w ws] L; try discriminate; [simpl; ring|].
  cbn [combine map zsum fold_right fst snd scaled quad]. rewrite plus_IZR. change (fold_right _ 0%Z ?l) with (zsum l).
  fold (scaled Sx xs). fold (scaled Sw ws). rewrite IH by (simpl in L; lia). rewrite !mult_IZR, <- !pow_IZR.
  assert (Rk : IZR Sx ^ k <> 0) by (apply pow_nonzero, Rx).
  unfold Rdiv at 2. rewrite Rpow_mult_distr, pow_inv by exact Rx. field. split; assumption.
Qed.
Lemma moments_ok_spec Sx Sw en ed xs ws : (0 < Sx)%Z -> (0 < Sw)%Z -> (0 < ed)%Z -> length xs = length ws ->
  forall n k, moments_ok Sx en ed n (Z.of_nat k) (Nat.even k) (Sw * Sx ^ Z.of_nat k) (zpow_terms xs ws k) = true ->
  forall i, (i < n)%nat ->
  Rabs (quad (scaled Sx xs) (scaled Sw ws) (fun x => x ^ (k + i)) - imom (k + i)) <= IZR en / IZR ed.
Proof.
  intros Px Pw Pe L. induction n; intros k H i Hi; [lia|]. cbn [moments_ok] in H. apply andb_prop in H. destruct H as [A B].
  destruct i as [|i].
  - rewrite Nat.add_0_r. apply Z.leb_le, IZR_le in A. revert A.
    assert (Ps : (0 < Sw * Sx ^ Z.of_nat k)%Z) by (apply Z.mul_pos_pos; [exact Pw|apply Z.pow_pos_nonneg; lia]).
    rewrite !mult_IZR, abs_IZR, minus_IZR, mult_IZR, (zsum_quad Sx Sw Px Pw) by exact L.
    set (q := quad _ _ _). rewrite <- !mult_IZR. rewrite plus_IZR, <- INR_IZR_INZ.
    set (c := IZR (Sw * Sx ^ Z.of_nat k)). assert (Pc : 0 < c) by (apply IZR_lt, Ps).
    assert (P1 : 0 < INR k + 1) by (pose proof (pos_INR k); lra). assert (Pd : 0 < IZR ed) by (apply IZR_lt, Pe).
    assert (M : IZR (if Nat.even k then 2 * (Sw * Sx ^ Z.of_nat k) else 0) = imom k * ((INR k + 1) * c)).
    { destruct (Nat.even k) eqn:Ev.
      - rewrite imom_even by (rewrite <- Nat.negb_even, Ev; reflexivity). rewrite mult_IZR, S_INR. fold c. field. lra.
      - rewrite imom_odd by (rewrite <- Nat.negb_even, Ev; reflexivity). ring. }
    rewrite M. replace ((INR k + 1) * (c * q) - imom k * ((INR k + 1) * c)) with ((q - imom k) * ((INR k + 1) * c)) by ring.
    assert (Pb : 0 < (INR k + 1) * c) by (apply Rmult_lt_0_compat; assumption).
    rewrite Rabs_mult, (Rabs_pos_eq ((INR k + 1) * c)) by lra. intros A.
    apply (Rmult_le_reg_r (IZR ed)); [exact Pd|]. unfold Rdiv. rewrite (Rmult_assoc (IZR en)), Rinv_l, Rmult_1_r by lra.
    apply (Rmult_le_reg_r ((INR k + 1) * c)); [exact Pb|].
    rewrite (mult_IZR en), (mult_IZR (Z.of_nat k + 1)), plus_IZR, <- INR_IZR_INZ in A. fold c in A. lra.
  - replace (k + S i)%nat with (S k + i)%nat by lia. apply IHn; [|lia].
    rewrite Nat2Z.inj_succ, Nat.even_succ, <- Nat.negb_even, Z.pow_succ_r by lia.
    replace (Sw * (Sx * Sx ^ Z.of_nat k))%Z with (Sx * (Sw * Sx ^ Z.of_nat k))%Z by ring. exact B.
Qed.

(** ** the tables: points scaled by 10^16 or 10^22, weights by 10^16 or 10^23 *)
Definition q6 : list Z := [-9324695142031521; -6612093864662645; -2386191860831969; 2386191860831969;
  6612093864662645; 9324695142031521]%Z.
Definition v6 : list Z := [1713244923791704; 3607615730481386; 4679139345726910; 4679139345726910;
  3607615730481386; 1713244923791704]%Z.
Definition q7 : list Z := [-9491079123427585; -7415311855993945; -4058451513773972; 0; 4058451513773972;
  7415311855993945; 9491079123427585]%Z.
Definition v7 : list Z := [1294849661688697; 2797053914892766; 3818300505051189; 4179591836734694;
  3818300505051189; 2797053914892766; 1294849661688697]%Z.
Definition q8 : list Z := [-9602898564975363; -7966664774136267; -5255324099163290; -1834346424956498;
  1834346424956498; 5255324099163290; 7966664774136267; 9602898564975363]%Z.
Definition v8 : list Z := [1012285362903763; 2223810344533745; 3137066458778873; 3626837833783620;
  3626837833783620; 3137066458778873; 2223810344533745; 1012285362903763]%Z.
Definition ql4 : list Z := [-10000000000000000000000; -4472135954999579392820; 4472135954999579392820;
  10000000000000000000000]%Z.
Definition vl4 : list Z := [16666666666666666666670; 83333333333333333333330; 83333333333333333333330;
  16666666666666666666670]%Z.
Definition ql5 : list Z := [-10000000000000000000000; -6546536707079771437983; 0; 6546536707079771437983;
  10000000000000000000000]%Z.
Definition vl5 : list Z := [10000000000000000000000; 54444444444444444444400; 71111111111111111111110;
  54444444444444444444400; 10000000000000000000000]%Z.
Definition ql6 : list Z := [-10000000000000000000000; -7650553239294646928510; -2852315164806450963142;
  2852315164806450963142; 7650553239294646928510; 10000000000000000000000]%Z.
Definition vl6 : list Z := [6666666666666666666667; 37847495629784698031660; 55485837703548635301670;
  55485837703548635301670; 37847495629784698031660; 6666666666666666666667]%Z.
Definition ql7 : list Z := [-10000000000000000000000; -8302238962785669298720; -4688487934707142138038; 0;
  4688487934707142138038; 8302238962785669298720; 10000000000000000000000]%Z.
Definition vl7 : list Z := [4761904761904761904762; 27682604736156594801100; 43174538120986262341790;
  48761904761904761904800; 43174538120986262341790; 27682604736156594801100; 4761904761904761904762]%Z.
Definition ql8 : list Z := [-10000000000000000000000; -8717401485096066153375; -5917001814331423021445;
  -2092992179024788687687; 2092992179024788687687; 5917001814331423021445; 8717401485096066153375;
  10000000000000000000000]%Z.
Definition vl8 : list Z := [3571428571428571428571; 21070422714350603938300; 34112269248350436476420;
  41245879465870388156710; 41245879465870388156710; 34112269248350436476420; 21070422714350603938300;
  3571428571428571428571]%Z.
Definition e16 : Z := 10000000000000000%Z.
Definition e21 : Z := 1000000000000000000000%Z.
Definition e22 : Z := 10000000000000000000000%Z.
Definition e23 : Z := 100000000000000000000000%Z.
Ltac table := cbv -[Rplus Rmult Ropp Rle IZR Rinv Rminus Rdiv]; repeat (apply f_equal2; [lra|]); reflexivity.
Lemma q6_eq : gauss_points6 = scaled e16 q6 /\ gauss_weights6 = scaled e16 v6. Proof. split; table. Qed.
Lemma q7_eq : gauss_points7 = scaled e16 q7 /\ gauss_weights7 = scaled e16 v7. Proof. split; table. Qed.
Lemma q8_eq : gauss_points8 = scaled e16 q8 /\ gauss_weights8 = scaled e16 v8. Proof. split; table. Qed.
Lemma ql4_eq : lobatto_points4 = scaled e22 ql4 /\ lobatto_weights4 = scaled e23 vl4. Proof. split; table. Qed.
Lemma ql5_eq : lobatto_points5 = scaled e22 ql5 /\ lobatto_weights5 = scaled e23 vl5. Proof. split; table. Qed.
Lemma ql6_eq : lobatto_points6 = scaled e22 ql6 /\ lobatto_weights6 = scaled e23 vl6. Proof. split; table. Qed.
Lemma ql7_eq : lobatto_points7 = scaled e22 ql7 /\ lobatto_weights7 = scaled e23 vl7. Proof. split; table. Qed.
Lemma ql8_eq : lobatto_points8 = scaled e22 ql8 /\ lobatto_weights8 = scaled e23 vl8. Proof. split; table. Qed.

(** a rule within [eps] of the exact moments up to degree [d] *)
Definition rule_within (xs ws : list R) (d : nat) (eps : R) : Prop :=
  forall k, (k <= d)%nat -> Rabs (quad xs ws (fun x => x ^ k) - imom k) <= eps.
Lemma rule_Z xs ws Sx Sw zs vs d en ed : xs = scaled Sx zs /\ ws = scaled Sw vs ->
  (0 < Sx)%Z -> (0 < Sw)%Z -> (0 < ed)%Z -> length zs = length vs ->
  moments_ok Sx en ed (S d) 0 true Sw (combine zs vs) = true -> rule_within xs ws d (IZR en / IZR ed).
Proof.
  intros [-> ->] Px Pw Pe L H k Hk. apply (moments_ok_spec Sx Sw en ed zs vs Px Pw Pe L (S d) 0); [|lia].
  rewrite Z.pow_0_r, Z.mul_1_r. exact H.
Qed.
Ltac by_table E := eapply rule_Z; [exact E|reflexivity|reflexivity|reflexivity|reflexivity|vm_compute; reflexivity].
Lemma rule_poly xs ws d eps p F : rule_within xs ws d eps -> (length p <= S d)%nat ->
  (forall x, derivable_pt_lim F x (peval p x)) ->
  Rabs (quad xs ws (peval p) - (F 1 - F (-1))) <= eps * norm1 p.
Proof.
  intros H L HF. rewrite (integral_unique p F HF).
  rewrite (quad_ext _ _ _ (fun x => x ^ 0 * peval p x)) by (intros; simpl; ring).
  apply quad_poly. intros k Hk. apply H. lia.
Qed.
Lemma rule_exact xs ws d p F : (forall k, (k <= d)%nat -> quad xs ws (fun x => x ^ k) = imom k) ->
  (length p <= S d)%nat -> (forall x, derivable_pt_lim F x (peval p x)) -> quad xs ws (peval p) = F 1 - F (-1).
Proof.
  intros H L HF. apply Rminus_diag_uniq.
  assert (B : Rabs (quad xs ws (peval p) - (F 1 - F (-1))) <= 0 * norm1 p).
  { apply (rule_poly xs ws d); [|exact L|exact HF]. intros k Hk. rewrite (H k Hk), Rminus_diag_eq by reflexivity.
    rewrite Rabs_R0. lra. }
  rewrite Rmult_0_l in B. pose proof (Rabs_pos (quad xs ws (peval p) - (F 1 - F (-1)))).
  destruct (Req_dec (quad xs ws (peval p) - (F 1 - F (-1))) 0) as [Z|Z]; [exact Z|].
  pose proof (Rabs_pos_lt _ Z). lra.
Qed.
Lemma rule_6 : rule_within gauss_points6 gauss_weights6 11 (3 / IZR e16). Proof. by_table q6_eq. Qed.
Lemma rule_7 : rule_within gauss_points7 gauss_weights7 13 (3 / IZR e16). Proof. by_table q7_eq. Qed.
Lemma rule_8 : rule_within gauss_points8 gauss_weights8 15 (3 / IZR e16). Proof. by_table q8_eq. Qed.
Lemma rule_l4 : rule_within lobatto_points4 lobatto_weights4 5 (2 / IZR e21). Proof. by_table ql4_eq. Qed.
Lemma rule_l5 : rule_within lobatto_points5 lobatto_weights5 7 (2 / IZR e21). Proof. by_table ql5_eq. Qed.
Lemma rule_l6 : rule_within lobatto_points6 lobatto_weights6 9 (2 / IZR e21). Proof. by_table ql6_eq. Qed.
Lemma rule_l7 : rule_within lobatto_points7 lobatto_weights7 11 (2 / IZR e21). Proof. by_table ql7_eq. Qed.
Lemma rule_l8 : rule_within lobatto_points8 lobatto_weights8 13 (2 / IZR e21). Proof. by_table ql8_eq. Qed.

(** ** rules with closed-form abscissae *)
Ltac cases_le k H tac :=
  lazymatch type of H with
  | (k <= S ?n)%nat => destruct k as [|k]; [clear H; tac | apply le_S_n in H; cases_le k H tac]
  | (k <= O)%nat => assert (k = O) by lia; subst k; tac
  end.
Lemma sqrt_sq a : 0 <= a -> sqrt a * sqrt a = a.
Proof. apply sqrt_sqrt. Qed.
Lemma exact_1 : forall k, (k <= 1)%nat -> quad [0] [2] (fun x => x ^ k) = imom k.
Proof. intros k Hk. cases_le k Hk ltac:(unfold imom; simpl; field). Qed.
Lemma exact_2 : forall k, (k <= 3)%nat -> quad gauss_points2 gauss_weights2 (fun x => x ^ k) = imom k.
Proof.
  assert (E : gauss_g2_0 * gauss_g2_0 = 1/3).
  { unfold gauss_g2_0. pose proof (sqrt_sq 3 ltac:(lra)). assert (sqrt 3 <> 0) by (intros Z; rewrite Z in H; lra).
    replace (-1 / sqrt 3 * (-1 / sqrt 3)) with (1 / (sqrt 3 * sqrt 3)) by (field; assumption). rewrite H. reflexivity. }
  intros k Hk. unfold gauss_points2, gauss_weights2, gauss_g2_1. set (a := gauss_g2_0) in *.
  cases_le k Hk ltac:(unfold imom; cbn [quad pow INR]; lra).
Qed.
Lemma exact_3 : forall k, (k <= 5)%nat -> quad gauss_points3 gauss_weights3 (fun x => x ^ k) = imom k.
Proof.
  assert (E : gauss_g3_0 * gauss_g3_0 = 3/5).
  { unfold gauss_g3_0. pose proof (sqrt_sq (3/5) ltac:(lra)). lra. }
  intros k Hk. unfold gauss_points3, gauss_weights3, gauss_g3_2, gauss_g3_1, gauss_w3_2, gauss_w3_1, gauss_w3_0.
  set (a := gauss_g3_0) in *.
  assert (E4 : a * a * a * a = 9/25) by (replace (a*a*a*a) with ((a*a)*(a*a)) by ring; rewrite E; field).
  cases_le k Hk ltac:(unfold imom; cbn [quad pow INR]; lra).
Qed.
(** two symmetric pairs: odd moments vanish, even ones only see the squares *)
Lemma sym_pair w a k : w * a ^ k + w * (- a) ^ k = if Nat.odd k then 0 else 2 * (w * (a * a) ^ (Nat.div2 k)).
Proof.
  destruct (Nat.odd k) eqn:O.
  - apply Nat.odd_spec in O. destruct O as [m ->]. rewrite !pow_add, !pow_mult.
    replace ((- a) ^ 2) with (a ^ 2) by ring. simpl. ring.
  - assert (E : Nat.even k = true) by (rewrite <- Nat.negb_odd, O; reflexivity).
    apply Nat.even_spec in E. destruct E as [m ->].
    rewrite Nat.div2_double, !pow_mult. replace ((- a) ^ 2) with (a * a) by ring. replace (a ^ 2) with (a * a) by ring. ring.
Qed.
Lemma exact_4 : forall k, (k <= 7)%nat -> quad gauss_points4 gauss_weights4 (fun x => x ^ k) = imom k.
Proof.
  set (s := sqrt (6/5)). assert (S2 : s * s = 6/5) by (apply sqrt_sq; lra).
  assert (S0 : 0 <= s) by apply sqrt_pos. assert (S1 : s <= 3/2) by nra.
  assert (S3 : s * s * s = 6/5 * s) by (rewrite S2; ring).
  assert (S4 : s * s * s * s = 36/25) by (replace (s*s*s*s) with ((s*s)*(s*s)) by ring; rewrite S2; field).
  assert (T : sqrt (5/6) = 5/6 * s).
  { apply sqrt_lem_1; [lra|lra|]. replace (5/6*s*(5/6*s)) with (25/36*(s*s)) by field. rewrite S2. field. }
  assert (A : gauss_g4_0 * gauss_g4_0 = (3 + 2 * s) / 7).
  { unfold gauss_g4_0. fold s. pose proof (sqrt_sq ((3 + 2 * s) / 7) ltac:(lra)). lra. }
  assert (B : gauss_g4_1 * gauss_g4_1 = (3 - 2 * s) / 7).
  { unfold gauss_g4_1. fold s. pose proof (sqrt_sq ((3 - 2 * s) / 7) ltac:(lra)). lra. }
  assert (W0 : gauss_w4_0 = 1/2 - 5/36 * s) by (unfold gauss_w4_0; rewrite T; field).
  assert (W1 : gauss_w4_1 = 1/2 + 5/36 * s) by (unfold gauss_w4_1; rewrite T; field).
  intros k Hk. unfold gauss_points4, gauss_weights4, gauss_g4_2, gauss_g4_3, gauss_w4_2, gauss_w4_3. cbn [quad].
  set (a := gauss_g4_0) in *. set (b := gauss_g4_1) in *. set (w := gauss_w4_0) in *. set (v := gauss_w4_1) in *.
  replace (w * a ^ k + (v * b ^ k + (v * (- b) ^ k + (w * (- a) ^ k + 0))))
    with ((w * a ^ k + w * (- a) ^ k) + (v * b ^ k + v * (- b) ^ k)) by ring.
  rewrite !sym_pair, A, B, W0, W1.
  cases_le k Hk ltac:(unfold imom; cbn [Nat.odd Nat.even negb Nat.div2 pow INR]; lra).
Qed.
Lemma exact_5 : forall k, (k <= 9)%nat -> quad gauss_points5 gauss_weights5 (fun x => x ^ k) = imom k.
Proof.
  set (s := sqrt 70). assert (S2 : s * s = 70) by (apply sqrt_sq; lra).
  assert (S0 : 0 <= s) by apply sqrt_pos. assert (S1 : s <= 9) by nra.
  assert (S3 : s * s * s = 70 * s) by (rewrite S2; ring).
  assert (S4 : s * s * s * s = 4900) by (replace (s*s*s*s) with ((s*s)*(s*s)) by ring; rewrite S2; ring).
  assert (S5 : s * s * s * s * s = 4900 * s) by (rewrite S4; ring).
  assert (T : sqrt (10/7) = s / 7).
  { apply sqrt_lem_1; [lra|lra|]. replace (s/7*(s/7)) with ((s*s)/49) by field. rewrite S2. field. }
  assert (A : gauss_g5_0 * gauss_g5_0 = (35 + 2 * s) / 63).
  { unfold gauss_g5_0. rewrite T. pose proof (sqrt_sq (5 + 2 * (s/7)) ltac:(lra)). lra. }
  assert (B : gauss_g5_1 * gauss_g5_1 = (35 - 2 * s) / 63).
  { unfold gauss_g5_1. rewrite T. pose proof (sqrt_sq (5 - 2 * (s/7)) ltac:(lra)). lra. }
  assert (W0 : gauss_w5_0 = (322 - 13 * s) / 900) by reflexivity.
  assert (W1 : gauss_w5_1 = (322 + 13 * s) / 900) by reflexivity.
  intros k Hk. unfold gauss_points5, gauss_weights5, gauss_g5_2, gauss_g5_3, gauss_g5_4, gauss_w5_2, gauss_w5_3,
    gauss_w5_4. cbn [quad].
  set (a := gauss_g5_0) in *. set (b := gauss_g5_1) in *. set (w := gauss_w5_0) in *. set (v := gauss_w5_1) in *.
  replace (w * a ^ k + (v * b ^ k + (512 / 900 * 0 ^ k + (v * (- b) ^ k + (w * (- a) ^ k + 0)))))
    with ((w * a ^ k + w * (- a) ^ k) + (v * b ^ k + v * (- b) ^ k) + 512/900 * 0 ^ k) by ring.
  rewrite !sym_pair, A, B, W0, W1.
  cases_le k Hk ltac:(unfold imom; cbn [Nat.odd Nat.even negb Nat.div2 pow INR]; lra).
Qed.
Lemma exact_l2 : forall k, (k <= 1)%nat -> quad lobatto_points2 lobatto_weights2 (fun x => x ^ k) = imom k.
Proof.
  intros k Hk. unfold lobatto_points2, lobatto_weights2, lobatto_l2_0, lobatto_l2_1.
  cases_le k Hk ltac:(unfold imom; cbn [quad pow INR]; lra).
Qed.
Lemma exact_l3 : forall k, (k <= 3)%nat -> quad lobatto_points3 lobatto_weights3 (fun x => x ^ k) = imom k.
Proof.
  intros k Hk. unfold lobatto_points3, lobatto_weights3, lobatto_l3_0, lobatto_l3_1, lobatto_l3_2, lobatto_w3_2,
    lobatto_w3_1, lobatto_w3_0.
  cases_le k Hk ltac:(unfold imom; cbn [quad pow INR]; lra).
Qed.

(** ** tensor indices *)
Lemma sum_app a b f : sum (a + b) f = sum a f + sum b (fun i => f (a + i)%nat).
Proof.
  induction b; simpl; [rewrite Nat.add_0_r; ring|]. rewrite Nat.add_succ_r. simpl. rewrite IHb. ring.
Qed.
Lemma sum_prod a b f : sum (a * b) f = sum b (fun j => sum a (fun i => f (i + a * j)%nat)).
Proof.
  induction b; simpl; [rewrite Nat.mul_0_r; reflexivity|].
  rewrite Nat.mul_succ_r, sum_app, IHb. f_equal. apply sum_ext. intros. f_equal. lia.
Qed.
Lemma idx2_spec n i j : (0 <= i < n)%Z -> (0 <= j < n)%Z -> idx2 n (i + n * j) = ((i + 1)%Z, (j + 1)%Z).
Proof.
  intros Hi Hj. unfold idx2. rewrite Z.quot_div_nonneg by nia.
  replace ((i + n * j) / n)%Z with j.
  - f_equal; ring.
  - apply (Z.div_unique _ _ _ i); [left; lia|ring].
Qed.
Lemma idx3_spec n i j k : (0 <= i < n)%Z -> (0 <= j < n)%Z -> (0 <= k < n)%Z ->
  idx3 n (i + n * (j + n * k)) = ((i + 1)%Z, (j + 1)%Z, (k + 1)%Z).
Proof.
  intros Hi Hj Hk. unfold idx3. rewrite Z.quot_div_nonneg by nia.
  replace ((i + n * (j + n * k)) / (n * n))%Z with k.
  - replace (i + n * (j + n * k) + 1 - n * n * (k + 1 - 1) - 1)%Z with (i + n * j)%Z by ring.
    rewrite Z.quot_div_nonneg by nia.
    replace ((i + n * j) / n)%Z with j by (apply (Z.div_unique _ _ _ i); [left; lia|ring]).
    apply f_equal2; [apply f_equal2|]; ring.
  - apply (Z.div_unique _ _ _ (i + n * j)%Z); [left; nia|ring].
Qed.
Lemma floor_div m a : (0 < a)%Z -> floor (IZR m / IZR a) = (m / a)%Z.
Proof.
  intros H. unfold floor, Int_part. pose proof (Z.div_mod m a ltac:(lia)) as E. pose proof (Z.mod_pos_bound m a H) as B.
  assert (P : 0 < IZR a) by (apply IZR_lt; exact H).
  assert (Q : IZR m / IZR a = IZR (m / a) + IZR (m mod a) / IZR a).
  { rewrite E at 1. rewrite plus_IZR, mult_IZR. field. lra. }
  assert (R0 : 0 <= IZR (m mod a) / IZR a < 1).
  { split; [apply Rmult_le_pos; [apply IZR_le; lia|left; apply Rinv_0_lt_compat, P]|].
    apply (Rmult_lt_reg_r (IZR a)); [exact P|]. unfold Rdiv. rewrite Rmult_assoc, Rinv_l by lra.
    rewrite Rmult_1_r, Rmult_1_l. apply IZR_lt. lia. }
  rewrite <- (up_tech (IZR m / IZR a) (m / a)); [lia|lra|]. rewrite plus_IZR. lra.
Qed.
Lemma idx4_spec n i j k l : (0 <= i < n)%Z -> (0 <= j < n)%Z -> (0 <= k < n)%Z -> (0 <= l < n)%Z ->
  idx4 n 4 (i + n * (j + n * (k + n * l))) = ((i + 1)%Z, (j + 1)%Z, (k + 1)%Z, (l + 1)%Z).
Proof.
  intros Hi Hj Hk Hl. unfold idx4.
  replace (n ^ (4 - 1))%Z with (n * n * n)%Z by (change (4 - 1)%Z with 3%Z; ring).
  replace (n ^ (4 - 2))%Z with (n * n)%Z by (change (4 - 2)%Z with 2%Z; ring).
  assert (N3 : (0 < n * n * n)%Z) by (apply Z.mul_pos_pos; nia).
  rewrite (floor_div _ (n * n * n)) by exact N3.
  assert (B2 : (0 <= i + n * j < n * n)%Z) by nia.
  assert (B3 : (0 <= i + n * j + n * n * k < n * n * n)%Z).
  { assert (0 <= n * n * k)%Z by nia. split; [lia|].
    assert (n * n * (k + 1) <= n * n * n)%Z by (apply Z.mul_le_mono_nonneg_l; nia). lia. }
  replace ((i + n * (j + n * (k + n * l))) / (n * n * n))%Z with l
    by (apply (Z.div_unique _ _ _ (i + n * j + n * n * k)%Z); [left; exact B3|ring]).
  replace (i + n * (j + n * (k + n * l)) + 1 - n * n * n * (l + 1 - 1) - 1)%Z with (i + n * j + n * n * k)%Z by ring.
  rewrite (floor_div _ (n * n)) by nia.
  replace ((i + n * j + n * n * k) / (n * n))%Z with k
    by (apply (Z.div_unique _ _ _ (i + n * j)%Z); [left; exact B2|ring]).
  replace (i + n * (j + n * (k + n * l)) + 1 - n * n * (k + 1 - 1) - n * n * n * (l + 1 - 1) - 1)%Z
    with (i + n * j)%Z by ring.
  rewrite Z.quot_div_nonneg by lia.
  replace ((i + n * j) / n)%Z with j by (apply (Z.div_unique _ _ _ i); [left; lia|ring]).
  apply f_equal2; [apply f_equal2; [apply f_equal2|]|]; ring.
Qed.
