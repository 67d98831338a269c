(** C171: the quadrature rules as they are computed in double precision (ristra/elements/elements.cc 10-524). *)
From Coq Require Import Reals List ZArith Bool Lia Lra SpecFloat.
From Verif Require Import Outcome FloatModel FloatRound VectorModel VectorProofs QuadratureModel QuadratureProofs QuadratureProps
  FloatQuadratureModel FloatQuadratureProofs.
Import ListNotations.
Local Open Scope R_scope.

(** [frule_of line n xs ws] (FloatQuadratureProofs.v): the n points and weights that the line rule returns for m = 1..n.
    [FR x] is the value of the double x. *)
(** ** the line rules *)
Theorem C171_gauss : forall n xs ws p F, (1 <= n <= 8)%nat -> frule_of fline_gauss n xs ws ->
  (length p <= 2 * n)%nat -> (forall x, derivable_pt_lim F x (peval p x)) ->
  Rabs (quad (map FR xs) (map FR ws) (peval p) - (F 1 - F (-1))) <= 3 / 2 ^ 53 * norm1 p.
Proof.
  intros n xs ws p F Hn Hr Hp HF. pose proof (good_gauss n xs ws Hn Hr) as G.
  apply (rule_poly _ _ (2 * n - 1)); [apply (gr_mom _ _ _ _ _ G)|lia|exact HF].
Qed.
Print Assumptions C171_gauss.
Theorem C171_lobatto : forall n xs ws p F, (1 <= n <= 8)%nat -> frule_of fline_lobatto n xs ws ->
  (length p <= Nat.max 2 (2 * n - 2))%nat -> (forall x, derivable_pt_lim F x (peval p x)) ->
  Rabs (quad (map FR xs) (map FR ws) (peval p) - (F 1 - F (-1))) <= 1 / 2 ^ 53 * norm1 p.
Proof.
  intros n xs ws p F Hn Hr Hp HF. pose proof (good_lobatto n xs ws Hn Hr) as G.
  apply (rule_poly _ _ (degree true n)); [apply (gr_mom _ _ _ _ _ G)| |exact HF].
  unfold degree. destruct n as [|[|n]]; lia.
Qed.
Print Assumptions C171_lobatto.
(** the bounds cannot be halved *)
Theorem C171_tight : exists xs ws ys vs, frule_of fline_gauss 8 xs ws /\ frule_of fline_lobatto 3 ys vs
  /\ 2 / 2 ^ 53 < Rabs (quad (map FR xs) (map FR ws) (peval [1]) - 2)
  /\ Rabs (quad (map FR ys) (map FR vs) (peval [1]) - 2) = 1 / 2 ^ 53.
Proof.
  exists (fgauss_xs 8), (fgauss_ws 8), (flobatto_xs 3), (flobatto_ws 3).
  split; [apply frule_gauss; lia|]. split; [apply frule_lobatto; lia|].
  assert (A : forall xs ws, forallb ok60 xs = true -> forallb ok60 ws = true -> length xs = length ws ->
    quad (map FR xs) (map FR ws) (peval [1]) = IZR (zsum (combine (map N60 xs) (map N60 ws))) / IZR S60).
  { intros xs ws Ox Ow L. rewrite (map_N60 xs Ox), (map_N60 ws Ow).
    rewrite (quad_ext _ _ _ (fun x => x ^ 0)) by (intros; simpl; ring).
    pose proof (zsum_quad S60 S60 eq_refl eq_refl (map N60 xs) (map N60 ws) 0 ltac:(rewrite !map_length; exact L)) as Z.
    change (zpow_terms (map N60 xs) (map N60 ws) 0) with (combine (map N60 xs) (map N60 ws)) in Z.
    change (S60 * S60 ^ Z.of_nat 0)%Z with S60 in Z. rewrite Z. pose proof S60_pos. field. lra. }
  split.
  - rewrite A by (vm_compute; reflexivity). 
    let z := eval vm_compute in (zsum (combine (map N60 (fgauss_xs 8)) (map N60 (fgauss_ws 8)))) in
      replace (zsum (combine (map N60 (fgauss_xs 8)) (map N60 (fgauss_ws 8)))) with z by (vm_compute; reflexivity).
    unfold S60. rewrite (pow_IZR 2 53). change (2 ^ 60)%Z with 1152921504606846976%Z. change (2 ^ Z.of_nat 53)%Z with 9007199254740992%Z.
    unfold Rabs. destruct Rcase_abs; lra.
  - rewrite A by (vm_compute; reflexivity).
    let z := eval vm_compute in (zsum (combine (map N60 (flobatto_xs 3)) (map N60 (flobatto_ws 3)))) in
      replace (zsum (combine (map N60 (flobatto_xs 3)) (map N60 (flobatto_ws 3)))) with z by (vm_compute; reflexivity).
    unfold S60. rewrite (pow_IZR 2 53). change (2 ^ 60)%Z with 1152921504606846976%Z. change (2 ^ Z.of_nat 53)%Z with 9007199254740992%Z.
    unfold Rabs. destruct Rcase_abs; lra.
Qed.
Print Assumptions C171_tight.

(** points in [-1,1], pairwise different and exactly symmetric; weights finite, positive and exactly symmetric *)
Definition sound_rule (n : nat) (xs ws : list num) : Prop :=
  length xs = n /\ length ws = n /\
  (forall k, (k < n)%nat -> let x := nth k xs (i 0) in let w := nth k ws (i 0) in
     fin x = true /\ fin w = true /\ valid_binary 53 1024 x = true /\ valid_binary 53 1024 w = true
     /\ -1 <= FR x <= 1 /\ 0 < FR w <= 2
     /\ FR (nth (n - 1 - k) xs (i 0)) = - FR x /\ nth (n - 1 - k) ws (i 0) = w)
  /\ forall k l, (k < n)%nat -> (l < n)%nat -> FR (nth k xs (i 0)) = FR (nth l xs (i 0)) -> k = l.
Lemma good_sound en d n xs ws : good_rule en d n xs ws -> sound_rule n xs ws.
Proof.
  intros G. split; [apply (gr_xs _ _ _ _ _ G)|]. split; [apply (gr_ws _ _ _ _ _ G)|]. split; [|apply (gr_dis _ _ _ _ _ G)].
  intros k Hk. cbv zeta. destruct (gr_ok _ _ _ _ _ G k Hk) as [A B]. apply ok60_fin in A, B. destruct A, B.
  destruct (gr_rng _ _ _ _ _ G k Hk) as [C D]. destruct (gr_sym _ _ _ _ _ G k Hk). repeat split; try assumption; try lra.
Qed.
Theorem C171_sound : forall n xs ws, (1 <= n <= 8)%nat ->
  (frule_of fline_gauss n xs ws -> sound_rule n xs ws) /\ (frule_of fline_lobatto n xs ws -> sound_rule n xs ws).
Proof.
  intros n xs ws Hn. split; intros Hr; [eapply good_sound, good_gauss|eapply good_sound, good_lobatto]; eassumption.
Qed.
Print Assumptions C171_sound.
(** both ends are points of a Lobatto rule, as the doubles -1 and 1 *)
Theorem C171_ends : forall n xs ws, (2 <= n <= 8)%nat -> frule_of fline_lobatto n xs ws ->
  In (i 1) xs /\ In (opp (i 1)) xs.
Proof.
  intros n xs ws Hn Hr. destruct (frule_unique _ _ _ _ _ _ Hr (frule_lobatto n ltac:(lia))) as [-> ->].
  destruct n as [|[|[|[|[|[|[|[|[|n]]]]]]]]]; try (exfalso; lia); split;
    cbn [flobatto_xs]; cbv -[SFdiv SFmul SFadd SFsub SFsqrt]; vm_compute; tauto.
Qed.
Print Assumptions C171_ends.
Theorem C171_orders : forall n,
  ((1 <= n <= 8)%nat -> (exists xs ws, frule_of fline_gauss n xs ws) /\ exists xs ws, frule_of fline_lobatto n xs ws)
  /\ ((8 < n)%nat -> forall m, fline_gauss m (Z.of_nat n) = UB /\ fline_lobatto m (Z.of_nat n) = UB).
Proof.
  intros n. split.
  - intros H. split; eexists; eexists; [apply frule_gauss, H|apply frule_lobatto, H].
  - intros H m. do 9 (destruct n as [|n]; [lia|]). unfold fline_gauss, fline_lobatto.
    remember (Z.of_nat (S (S (S (S (S (S (S (S (S n)))))))))) as z eqn:E. assert (Z8 : (8 < z)%Z) by lia. clear E.
    destruct z as [|p|p]; try lia. split; repeat (destruct p as [p|p|]; try reflexivity; try lia).
Qed.
Print Assumptions C171_orders.

(** the tabulated rules: each entry is the unique double nearest to the number written in the text (QuadratureModel.v), so the
    literals are read correctly *)
Theorem C171_nearest : forall n xs ws,
  ((6 <= n <= 8)%nat -> frule_of fline_gauss n xs ws -> Forall2 nearest xs (gauss_xs n) /\ Forall2 nearest ws (gauss_ws n))
  /\ ((4 <= n <= 8)%nat -> frule_of fline_lobatto n xs ws -> Forall2 nearest xs (lobatto_xs n) /\ Forall2 nearest ws (lobatto_ws n)).
Proof.
  intros n xs ws. split; intros Hn Hr.
  - destruct (frule_unique _ _ _ _ _ _ Hr (frule_gauss n ltac:(lia))) as [-> ->].
    destruct n as [|[|[|[|[|[|[|[|[|n]]]]]]]]]; try (exfalso; lia); cbn [gauss_xs gauss_ws];
      [destruct q6_eq as [-> ->]|destruct q7_eq as [-> ->]|destruct q8_eq as [-> ->]];
      split; apply near_table_spec; try reflexivity; vm_compute; reflexivity.
  - destruct (frule_unique _ _ _ _ _ _ Hr (frule_lobatto n ltac:(lia))) as [-> ->].
    destruct n as [|[|[|[|[|[|[|[|[|n]]]]]]]]]; try (exfalso; lia); cbn [lobatto_xs lobatto_ws];
      [destruct ql4_eq as [-> ->]|destruct ql5_eq as [-> ->]|destruct ql6_eq as [-> ->]|destruct ql7_eq as [-> ->]|destruct ql8_eq as [-> ->]];
      split; apply near_table_spec; try reflexivity; vm_compute; reflexivity.
Qed.
Print Assumptions C171_nearest.

(** ** the tensor rules *)
(** [L] coefficients: the polynomials that the line rule of n points integrates up to rounding *)
Definition rule_degree (line : Z -> Z -> outcome (num * num)) (n L : nat) : Prop :=
  (line = fline_gauss /\ L = (2 * n)%nat) \/ (line = fline_lobatto /\ L = Nat.max 2 (2 * n - 2)).
Lemma rule_good line n L xs ws : (1 <= n <= 8)%nat -> rule_degree line n L -> frule_of line n xs ws ->
  exists en d, (en = 1 \/ en = 3)%Z /\ good_rule en d n xs ws /\ L = S d.
Proof.
  intros Hn [[-> ->]|[-> ->]] Hr.
  - exists 3%Z, (2 * n - 1)%nat. split; [tauto|]. split; [apply good_gauss; assumption|lia].
  - exists 1%Z, (degree true n). split; [tauto|]. split; [apply good_lobatto; assumption|]. unfold degree. destruct n as [|[|n]]; lia.
Qed.
(** the points and the weights of every direction are exact copies of those of the line rule: point m = a + n (b + n (c + n d))
    holds entry a of the line rule in the first direction, b in the second, and so on.  The total weight of a point (2D and 3D)
    is the product of its weights up to rounding. *)
Theorem C171_copies2 : forall line n L xs ws a b, (1 <= n <= 8)%nat -> rule_degree line n L -> frule_of line n xs ws ->
  (a < n)%nat -> (b < n)%nat ->
  exists wts, ftensor2 line (Z.of_nat n) (Z.of_nat (a + n * b)) = Ok ([nth a xs (i 0); nth b xs (i 0)], wts)
  /\ wts = [nth a ws (i 0); nth b ws (i 0)] /\ fin (ftot_weight wts) = true /\ valid_binary 53 1024 (ftot_weight wts) = true
  /\ let v := FR (nth a ws (i 0)) * FR (nth b ws (i 0)) in Rabs (FR (ftot_weight wts) - v) <= / 2 ^ 53 * v.
Proof.
  intros line n L xs ws a b Hn Hd Hr Ha Hb. destruct (rule_good _ _ _ _ _ Hn Hd Hr) as (en & d & He & G & _).
  exists [nth a ws (i 0); nth b ws (i 0)]. split; [|split; [reflexivity|]].
  - unfold ftensor2. rewrite Nat2Z.inj_add, Nat2Z.inj_mul, idx2_spec by lia. rewrite (fdirections_ok line en d n xs ws Hr G).
    + cbn [map]. replace (Z.to_nat (Z.of_nat a + 1 - 1)) with a by lia. replace (Z.to_nat (Z.of_nat b + 1 - 1)) with b by lia. reflexivity.
    + repeat constructor; lia.
  - exact (tot2 en d n xs ws G a b Ha Hb).
Qed.
Print Assumptions C171_copies2.
Theorem C171_copies3 : forall line n L xs ws a b c, (1 <= n <= 8)%nat -> rule_degree line n L -> frule_of line n xs ws ->
  (a < n)%nat -> (b < n)%nat -> (c < n)%nat ->
  exists wts, ftensor3 line (Z.of_nat n) (Z.of_nat (a + n * (b + n * c))) = Ok ([nth a xs (i 0); nth b xs (i 0); nth c xs (i 0)], wts)
  /\ wts = [nth a ws (i 0); nth b ws (i 0); nth c ws (i 0)] /\ fin (ftot_weight wts) = true /\ valid_binary 53 1024 (ftot_weight wts) = true
  /\ let v := FR (nth a ws (i 0)) * FR (nth b ws (i 0)) * FR (nth c ws (i 0)) in
     Rabs (FR (ftot_weight wts) - v) <= (2 * / 2 ^ 53 + / 2 ^ 53 * / 2 ^ 53) * v.
Proof.
  intros line n L xs ws a b c Hn Hd Hr Ha Hb Hc. destruct (rule_good _ _ _ _ _ Hn Hd Hr) as (en & d & He & G & _).
  exists [nth a ws (i 0); nth b ws (i 0); nth c ws (i 0)]. split; [|split; [reflexivity|]].
  - unfold ftensor3. rewrite Nat2Z.inj_add, Nat2Z.inj_mul, Nat2Z.inj_add, Nat2Z.inj_mul, idx3_spec by lia. rewrite (fdirections_ok line en d n xs ws Hr G).
    + cbn [map]. replace (Z.to_nat (Z.of_nat a + 1 - 1)) with a by lia. replace (Z.to_nat (Z.of_nat b + 1 - 1)) with b by lia.
      replace (Z.to_nat (Z.of_nat c + 1 - 1)) with c by lia. reflexivity.
    + repeat constructor; lia.
  - exact (tot3 en d n xs ws G a b c Ha Hb Hc).
Qed.
Print Assumptions C171_copies3.
Theorem C171_copies4 : forall line n L xs ws a b c e, (1 <= n <= 8)%nat -> rule_degree line n L -> frule_of line n xs ws ->
  (a < n)%nat -> (b < n)%nat -> (c < n)%nat -> (e < n)%nat ->
  ftensor4 line (Z.of_nat n) 4 (Z.of_nat (a + n * (b + n * (c + n * e))))
  = Ok ([nth a xs (i 0); nth b xs (i 0); nth c xs (i 0); nth e xs (i 0)], [nth a ws (i 0); nth b ws (i 0); nth c ws (i 0); nth e ws (i 0)]).
Proof.
  intros line n L xs ws a b c e Hn Hd Hr Ha Hb Hc He'. destruct (rule_good _ _ _ _ _ Hn Hd Hr) as (en & d & He & G & _).
  unfold ftensor4. rewrite Nat2Z.inj_add, Nat2Z.inj_mul, Nat2Z.inj_add, Nat2Z.inj_mul, Nat2Z.inj_add, Nat2Z.inj_mul, idx4_spec by lia.
  rewrite (fdirections_ok line en d n xs ws Hr G).
  - cbn [map]. replace (Z.to_nat (Z.of_nat a + 1 - 1)) with a by lia. replace (Z.to_nat (Z.of_nat b + 1 - 1)) with b by lia.
    replace (Z.to_nat (Z.of_nat c + 1 - 1)) with c by lia. replace (Z.to_nat (Z.of_nat e + 1 - 1)) with e by lia. reflexivity.
  - repeat constructor; lia.
Qed.
Print Assumptions C171_copies4.
(** the sum of total weight times integrand over the n*n points that Gauss2D or Lobatto2D stores, for the product of two
    polynomials: 17 units of rounding from the product of the integrals *)
Theorem C171_tensor2 : forall line n L xs ws p q F H, (1 <= n <= 8)%nat -> rule_degree line n L -> frule_of line n xs ws ->
  (length p <= L)%nat -> (length q <= L)%nat ->
  (forall x, derivable_pt_lim F x (peval p x)) -> (forall x, derivable_pt_lim H x (peval q x)) ->
  Rabs (sum (n * n) (fun m => match ftensor2 line (Z.of_nat n) (Z.of_nat m) with
      | Ok (pts, wts) => FR (ftot_weight wts) * (peval p (FR (nth 0 pts (i 0))) * peval q (FR (nth 1 pts (i 0)))) | _ => 0 end)
    - (F 1 - F (-1)) * (H 1 - H (-1))) <= 17 / 2 ^ 53 * (norm1 p * norm1 q).
Proof.
  intros line n L xs ws p q F H Hn Hd Hr Lp Lq HF HH.
  destruct (rule_good _ _ _ _ _ Hn Hd Hr) as (en & d & He & G & ->).
  set (X := fun k => FR (nth k xs (i 0))). set (W := fun k => FR (nth k ws (i 0))).
  set (T := fun a b => FR (SFmul 53 1024 (nth a ws (i 0)) (nth b ws (i 0)))).
  rewrite sum_prod. rewrite (sum_ext n _ (fun b => sum n (fun a => W a * W b * (peval p (X a) * peval q (X b)))
    + sum n (fun a => (T a b - W a * W b) * (peval p (X a) * peval q (X b))))).
  2:{ intros b Hb. rewrite <- sum_plus. apply sum_ext. intros a Ha.
      destruct (C171_copies2 line n (S d) xs ws a b Hn Hd Hr Ha Hb) as (wts & -> & -> & _). cbn [nth ftot_weight fold_left hd tl].
      fold (X a) (X b). fold (T a b). ring. }
  rewrite sum_plus.
  set (Sp := sum n (fun a => W a * peval p (X a))). set (Sq := sum n (fun b => W b * peval q (X b))).
  replace (sum n (fun b => sum n (fun a => W a * W b * (peval p (X a) * peval q (X b))))) with (Sp * Sq)
    by (symmetry; exact (sum2_factor n xs ws (peval p) (peval q))).
  pose proof (norm1_pos p) as Np. pose proof (norm1_pos q) as Nq. pose proof (ep_u en He) as [E0 E1]. pose proof u53_pos as [U0 U1].
  assert (SW : 0 <= sum n W <= 2 + IZR en / 2 ^ 53) by exact (sumW en d n xs ws G). destruct SW as [SW0 SW1].
  assert (Ep : Rabs (Sp - (F 1 - F (-1))) <= IZR en / 2 ^ 53 * norm1 p) by exact (quad_err en d n xs ws G p F Lp HF).
  assert (Eq : Rabs (Sq - (H 1 - H (-1))) <= IZR en / 2 ^ 53 * norm1 q) by exact (quad_err en d n xs ws G q H Lq HH).
  assert (Bp : Rabs Sp <= (2 + IZR en / 2 ^ 53) * norm1 p) by exact (quad_bound en d n xs ws G p).
  assert (Bq : Rabs Sq <= (2 + IZR en / 2 ^ 53) * norm1 q) by exact (quad_bound en d n xs ws G q).
  destruct (prod2_err _ _ _ _ _ _ _ E0 Np Nq Ep Eq Bp Bq) as [Main _].
  assert (Rest : Rabs (sum n (fun b => sum n (fun a => (T a b - W a * W b) * (peval p (X a) * peval q (X b)))))
    <= u53 * (norm1 p * norm1 q) * (sum n W * sum n W)).
  { replace (sum n W * sum n W) with (sum n (fun b => sum n (fun a => W a * W b))) by exact (sum2_weight n ws). rewrite <- sum_scal. apply sum_abs. intros b Hb. rewrite <- sum_scal. apply sum_abs. intros a Ha.
    assert (E : Rabs (T a b - W a * W b) <= u53 * (W a * W b)) by apply (tot2 en d n xs ws G a b Ha Hb).
    rewrite !Rabs_mult. pose proof (peval_bound p (X a) (X_rng en d n xs ws G a Ha)). pose proof (peval_bound q (X b) (X_rng en d n xs ws G b Hb)).
    assert (Rabs (peval p (X a)) * Rabs (peval q (X b)) <= norm1 p * norm1 q) by (apply Rmult_le_compat; try apply Rabs_pos; assumption).
    replace (u53 * (norm1 p * norm1 q) * (W a * W b)) with (u53 * (W a * W b) * (norm1 p * norm1 q)) by ring.
    apply Rmult_le_compat; try apply Rabs_pos; try assumption. apply Rmult_le_pos; apply Rabs_pos. }
  set (ep := IZR en / 2 ^ 53) in *. set (PQ := norm1 p * norm1 q) in *. assert (PQ0 : 0 <= PQ) by (apply Rmult_le_pos; assumption).
  assert (SS : sum n W * sum n W <= (2 + ep) * (2 + ep)) by (apply Rmult_le_compat; assumption).
  assert (K1 : (4 + 3 * ep) * ep <= 12 * u53 + / 2 * u53).
  { assert ((4 + 3 * ep) * ep <= (4 + 3 * (3 * u53)) * (3 * u53)) by (apply Rmult_le_compat; lra). nra. }
  assert (K2 : u53 * ((2 + ep) * (2 + ep)) <= 4 * u53 + / 2 * u53).
  { assert ((2 + ep) * (2 + ep) <= (2 + 3 * u53) * (2 + 3 * u53)) by (apply Rmult_le_compat; lra). nra. }
  match goal with |- Rabs (?s + ?r - ?t) <= _ => replace (s + r - t) with ((s - t) + r) by ring end.
  eapply Rle_trans; [apply Rabs_triang|]. eapply Rle_trans; [apply Rplus_le_compat; [exact Main|exact Rest]|].
  change (17 / 2 ^ 53) with (17 * u53).
  assert ((4 + 3 * ep) * ep * PQ <= (12 * u53 + / 2 * u53) * PQ) by (apply Rmult_le_compat_r; assumption).
  assert (u53 * PQ * (sum n W * sum n W) <= PQ * (u53 * ((2 + ep) * (2 + ep)))).
  { replace (u53 * PQ * (sum n W * sum n W)) with (PQ * (u53 * (sum n W * sum n W))) by ring.
    apply Rmult_le_compat_l; [exact PQ0|]. apply Rmult_le_compat_l; [lra|exact SS]. }
  assert (PQ * (u53 * ((2 + ep) * (2 + ep))) <= PQ * (4 * u53 + / 2 * u53)) by (apply Rmult_le_compat_l; assumption).
  lra.
Qed.
Print Assumptions C171_tensor2.
(** the same for Gauss3D and Lobatto3D: 53 units *)
Theorem C171_tensor3 : forall line n L xs ws p q r F H K, (1 <= n <= 8)%nat -> rule_degree line n L -> frule_of line n xs ws ->
  (length p <= L)%nat -> (length q <= L)%nat -> (length r <= L)%nat ->
  (forall x, derivable_pt_lim F x (peval p x)) -> (forall x, derivable_pt_lim H x (peval q x)) -> (forall x, derivable_pt_lim K x (peval r x)) ->
  Rabs (sum (n * (n * n)) (fun m => match ftensor3 line (Z.of_nat n) (Z.of_nat m) with
      | Ok (pts, wts) => FR (ftot_weight wts) *
          (peval p (FR (nth 0 pts (i 0))) * peval q (FR (nth 1 pts (i 0))) * peval r (FR (nth 2 pts (i 0)))) | _ => 0 end)
    - (F 1 - F (-1)) * (H 1 - H (-1)) * (K 1 - K (-1))) <= 53 / 2 ^ 53 * (norm1 p * norm1 q * norm1 r).
Proof.
  intros line n L xs ws p q r F H K Hn Hd Hr Lp Lq Lr HF HH HK.
  destruct (rule_good _ _ _ _ _ Hn Hd Hr) as (en & d & He & G & ->).
  set (X := fun k => FR (nth k xs (i 0))). set (W := fun k => FR (nth k ws (i 0))).
  set (T := fun a b c => FR (SFmul 53 1024 (SFmul 53 1024 (nth a ws (i 0)) (nth b ws (i 0))) (nth c ws (i 0)))).
  rewrite sum_prod, (sum_prod n n).
  rewrite (sum_ext n _ (fun c => sum n (fun b => sum n (fun a => W a * W b * W c * (peval p (X a) * peval q (X b) * peval r (X c))))
    + sum n (fun b => sum n (fun a => (T a b c - W a * W b * W c) * (peval p (X a) * peval q (X b) * peval r (X c)))))).
  2:{ intros c Hc. rewrite <- sum_plus. apply sum_ext. intros b Hb. rewrite <- sum_plus. apply sum_ext. intros a Ha.
      destruct (C171_copies3 line n (S d) xs ws a b c Hn Hd Hr Ha Hb Hc) as (wts & -> & -> & _). cbn [nth ftot_weight fold_left hd tl].
      fold (X a) (X b) (X c). fold (T a b c). ring. }
  rewrite sum_plus.
  set (Sp := sum n (fun a => W a * peval p (X a))). set (Sq := sum n (fun b => W b * peval q (X b))). set (Sr := sum n (fun b => W b * peval r (X b))).
  replace (sum n (fun c => sum n (fun b => sum n (fun a => W a * W b * W c * (peval p (X a) * peval q (X b) * peval r (X c)))))) with (Sp * Sq * Sr)
    by (symmetry; exact (sum3_factor n xs ws (peval p) (peval q) (peval r))).
  pose proof (norm1_pos p) as Np. pose proof (norm1_pos q) as Nq. pose proof (norm1_pos r) as Nr.
  pose proof (ep_u en He) as [E0 E1]. pose proof u53_pos as [U0 U1].
  assert (SW : 0 <= sum n W <= 2 + IZR en / 2 ^ 53) by exact (sumW en d n xs ws G). destruct SW as [SW0 SW1].
  assert (Ep : Rabs (Sp - (F 1 - F (-1))) <= IZR en / 2 ^ 53 * norm1 p) by exact (quad_err en d n xs ws G p F Lp HF).
  assert (Eq : Rabs (Sq - (H 1 - H (-1))) <= IZR en / 2 ^ 53 * norm1 q) by exact (quad_err en d n xs ws G q H Lq HH).
  assert (Er : Rabs (Sr - (K 1 - K (-1))) <= IZR en / 2 ^ 53 * norm1 r) by exact (quad_err en d n xs ws G r K Lr HK).
  assert (Bp : Rabs Sp <= (2 + IZR en / 2 ^ 53) * norm1 p) by exact (quad_bound en d n xs ws G p).
  assert (Bq : Rabs Sq <= (2 + IZR en / 2 ^ 53) * norm1 q) by exact (quad_bound en d n xs ws G q).
  assert (Br : Rabs Sr <= (2 + IZR en / 2 ^ 53) * norm1 r) by exact (quad_bound en d n xs ws G r).
  destruct (prod2_err _ _ _ _ _ _ _ E0 Np Nq Ep Eq Bp Bq) as [Main2 _].
  destruct (prod2_err _ _ _ _ _ _ _ E0 Np Nr Ep Er Bp Br) as (_ & Ir & _).
  assert (Rest : Rabs (sum n (fun c => sum n (fun b => sum n (fun a => (T a b c - W a * W b * W c) * (peval p (X a) * peval q (X b) * peval r (X c))))))
    <= (2 * u53 + u53 * u53) * (norm1 p * norm1 q * norm1 r) * (sum n W * sum n W * sum n W)).
  { replace (sum n W * sum n W * sum n W) with (sum n (fun c => sum n (fun b => sum n (fun a => W a * W b * W c)))) by exact (sum3_weight n ws).
    rewrite <- sum_scal. apply sum_abs. intros c Hc. rewrite <- sum_scal. apply sum_abs. intros b Hb. rewrite <- sum_scal. apply sum_abs. intros a Ha.
    assert (E : Rabs (T a b c - W a * W b * W c) <= (2 * u53 + u53 * u53) * (W a * W b * W c)) by apply (tot3 en d n xs ws G a b c Ha Hb Hc).
    rewrite !Rabs_mult. pose proof (peval_bound p (X a) (X_rng en d n xs ws G a Ha)). pose proof (peval_bound q (X b) (X_rng en d n xs ws G b Hb)).
    pose proof (peval_bound r (X c) (X_rng en d n xs ws G c Hc)).
    assert (Rabs (peval p (X a)) * Rabs (peval q (X b)) * Rabs (peval r (X c)) <= norm1 p * norm1 q * norm1 r).
    { apply Rmult_le_compat; try apply Rabs_pos; try assumption; [apply Rmult_le_pos; apply Rabs_pos|apply Rmult_le_compat; try apply Rabs_pos; assumption]. }
    replace ((2 * u53 + u53 * u53) * (norm1 p * norm1 q * norm1 r) * (W a * W b * W c)) with ((2 * u53 + u53 * u53) * (W a * W b * W c) * (norm1 p * norm1 q * norm1 r)) by ring.
    apply Rmult_le_compat; try apply Rabs_pos; try assumption. repeat apply Rmult_le_pos; apply Rabs_pos. }
  set (ep := IZR en / 2 ^ 53) in *. set (P := norm1 p) in *. set (Q := norm1 q) in *. set (R' := norm1 r) in *.
  set (I1 := F 1 - F (-1)) in *. set (I2 := H 1 - H (-1)) in *. set (I3 := K 1 - K (-1)) in *. set (sw := sum n W) in *.
  assert (PQR : 0 <= P * Q * R') by (repeat apply Rmult_le_pos; assumption).
  assert (Main : Rabs (Sp * Sq * Sr - I1 * I2 * I3) <= ((2 + ep) * (2 + ep) * ep + (4 + 3 * ep) * ep * (2 + 2 * ep)) * (P * Q * R')).
  { replace (Sp * Sq * Sr - I1 * I2 * I3) with (Sp * Sq * (Sr - I3) + (Sp * Sq - I1 * I2) * I3) by ring.
    eapply Rle_trans; [apply Rabs_triang|]. rewrite !Rabs_mult.
    assert (Rabs Sp * Rabs Sq <= ((2 + ep) * P) * ((2 + ep) * Q)) by (apply Rmult_le_compat; try apply Rabs_pos; assumption).
    assert (Rabs Sp * Rabs Sq * Rabs (Sr - I3) <= ((2 + ep) * P) * ((2 + ep) * Q) * (ep * R')).
    { apply Rmult_le_compat; try apply Rabs_pos; try assumption. apply Rmult_le_pos; apply Rabs_pos. }
    assert (Rabs (Sp * Sq - I1 * I2) * Rabs I3 <= ((4 + 3 * ep) * ep * (P * Q)) * ((2 + 2 * ep) * R')) by (apply Rmult_le_compat; try apply Rabs_pos; assumption).
    lra. }
  assert (SS : sw * sw * sw <= (2 + ep) * (2 + ep) * (2 + ep)).
  { apply Rmult_le_compat; try assumption; [apply Rmult_le_pos; assumption|apply Rmult_le_compat; assumption]. }
  assert (E2 : ep * ep <= / 100 * u53) by (apply Rle_trans with (/ 300 * (3 * u53)); [apply Rmult_le_compat; lra|lra]).
  assert (E3 : ep * ep * ep <= / 100 * u53).
  { apply Rle_trans with (/ 100 * u53 * 1); [|lra]. apply Rmult_le_compat; try lra. apply Rmult_le_pos; lra. }
  assert (K1 : (2 + ep) * (2 + ep) * ep + (4 + 3 * ep) * ep * (2 + 2 * ep) <= 36 * u53 + / 2 * u53) by lra.
  assert (K2 : (2 * u53 + u53 * u53) * ((2 + ep) * (2 + ep) * (2 + ep)) <= 16 * u53 + / 2 * u53).
  { assert (A : (2 + ep) * (2 + ep) * (2 + ep) <= 8 + / 10) by lra.
    assert (B : u53 * u53 <= / 1000 * u53) by (apply Rmult_le_compat_r; lra).
    apply Rle_trans with ((2 * u53 + / 1000 * u53) * (8 + / 10)); [|lra]. 
    apply Rmult_le_compat; [| |lra|exact A]; [|repeat apply Rmult_le_pos; lra]. assert (0 <= u53 * u53) by (apply Rmult_le_pos; lra). lra. }
  match goal with |- Rabs (?s + ?rr - ?t) <= _ => replace (s + rr - t) with ((s - t) + rr) by ring end.
  eapply Rle_trans; [apply Rabs_triang|]. eapply Rle_trans; [apply Rplus_le_compat; [exact Main|exact Rest]|].
  change (53 / 2 ^ 53) with (53 * u53). set (N := P * Q * R') in *.
  assert (((2 + ep) * (2 + ep) * ep + (4 + 3 * ep) * ep * (2 + 2 * ep)) * N <= (36 * u53 + / 2 * u53) * N) by (apply Rmult_le_compat_r; assumption).
  assert ((2 * u53 + u53 * u53) * N * (sw * sw * sw) <= N * ((2 * u53 + u53 * u53) * ((2 + ep) * (2 + ep) * (2 + ep)))).
  { replace ((2 * u53 + u53 * u53) * N * (sw * sw * sw)) with (N * ((2 * u53 + u53 * u53) * (sw * sw * sw))) by ring.
    apply Rmult_le_compat_l; [exact PQR|]. apply Rmult_le_compat_l; [|exact SS]. assert (0 <= u53 * u53) by (apply Rmult_le_pos; lra). lra. }
  assert (N * ((2 * u53 + u53 * u53) * ((2 + ep) * (2 + ep) * (2 + ep))) <= N * (16 * u53 + / 2 * u53)) by (apply Rmult_le_compat_l; assumption).
  lra.
Qed.
Print Assumptions C171_tensor3.
(** 3 x^2 integrated by the Gauss rule of 5 points, and 9 x^2 y^2 by the rule of 25 *)
Lemma cubic_deriv x : derivable_pt_lim (fun x => x ^ 3) x (peval [0; 0; 3] x).
Proof. replace (peval [0; 0; 3] x) with (INR 3 * x ^ 2) by (simpl; ring). apply (derivable_pt_lim_pow x 3). Qed.
Example C171_ex : exists xs ws, frule_of fline_gauss 5 xs ws /\ rule_degree fline_gauss 5 10
  /\ Rabs (quad (map FR xs) (map FR ws) (peval [0; 0; 3]) - 2) <= 9 / 2 ^ 53.
Proof.
  exists (fgauss_xs 5), (fgauss_ws 5). pose proof (frule_gauss 5 ltac:(lia)) as Hr. split; [exact Hr|]. split; [left; split; reflexivity|].
  pose proof (C171_gauss 5 _ _ [0; 0; 3] (fun x => x ^ 3) ltac:(lia) Hr ltac:(simpl; lia) cubic_deriv) as E. cbv beta in E.
  replace (1 ^ 3 - (-1) ^ 3) with 2 in E by ring. replace (9 / 2 ^ 53) with (3 / 2 ^ 53 * norm1 [0; 0; 3]); [exact E|].
  cbn [norm1]. rewrite Rabs_R0, (Rabs_pos_eq 3) by lra. unfold Rdiv. ring.
Qed.
Example C171_ex2 : fline_lobatto 1 4 = Ok (opp (i 1), lit 1666666666666666666667 22) /\ fline_lobatto 5 4 = UB.
Proof. split; vm_compute; reflexivity. Qed.
