(** Lemmas for FloatQuadratureModel. *)
From Coq Require Import Reals List ZArith Bool Lia Lra SpecFloat.
From Verif Require Import Outcome FloatModel FloatRound VectorModel VectorProofs QuadratureModel QuadratureProofs QuadratureProps FloatQuadratureModel.
Import ListNotations.
Local Open Scope R_scope.

(** ** numbers as integers over 2^60 *)
Definition S60 : Z := (2 ^ 60)%Z.
Definition N60 (x : num) : Z := match x with S754_finite s m e => ((if s then -1 else 1) * (Z.pos m * 2 ^ (e + 60)))%Z | _ => 0%Z end.
Definition ok60 (x : num) : bool :=
  fin x && valid_binary 53 1024 x && match x with S754_finite _ _ e => (0 <=? e + 60)%Z | _ => true end.
Lemma S60_pos : 0 < IZR S60. Proof. apply IZR_lt. reflexivity. Qed.
Lemma S60_pw : IZR S60 = pw 60. Proof. apply (pw_Z 60). lia. Qed.
Lemma FR_N60 x : ok60 x = true -> FR x = IZR (N60 x) / IZR S60.
Proof.
  intros H. pose proof S60_pos. destruct x as [s|s| |s m e]; cbn [FR N60]; try (unfold Rdiv; ring).
  unfold ok60 in H. apply andb_prop in H. destruct H as [_ H]. apply Z.leb_le in H.
  rewrite !mult_IZR, (pw_Z _ H), pw_add, <- S60_pw. destruct s; field; lra.
Qed.
Lemma ok60_fin x : ok60 x = true -> fin x = true /\ valid_binary 53 1024 x = true.
Proof. unfold ok60. intros H. apply andb_prop in H. destruct H as [H _]. apply andb_prop in H. exact H. Qed.
Lemma map_N60 l : forallb ok60 l = true -> map FR l = scaled S60 (map N60 l).
Proof.
  induction l as [|x l IH]; intros H; [reflexivity|]. cbn [forallb] in H. apply andb_prop in H. destruct H as [A B].
  unfold scaled in *. cbn [map]. rewrite (FR_N60 x A), (IH B). reflexivity.
Qed.

(** ** the tables *)
Definition fgauss_xs (n : nat) : list num :=
  match n with 1%nat => [i 0] | 2%nat => gauss_g2 | 3%nat => gauss_g3 | 4%nat => gauss_g4 | 5%nat => gauss_g5
  | 6%nat => gauss_g6 | 7%nat => gauss_g7 | 8%nat => gauss_g8 | _ => [] end.
Definition fgauss_ws (n : nat) : list num :=
  match n with 1%nat => [i 2] | 2%nat => [i 1; i 1] | 3%nat => gauss_w3 | 4%nat => gauss_w4 | 5%nat => gauss_w5
  | 6%nat => gauss_w6 | 7%nat => gauss_w7 | 8%nat => gauss_w8 | _ => [] end.
Definition flobatto_xs (n : nat) : list num :=
  match n with 1%nat => [i 0] | 2%nat => lobatto_l2 | 3%nat => lobatto_l3 | 4%nat => lobatto_l4 | 5%nat => lobatto_l5
  | 6%nat => lobatto_l6 | 7%nat => lobatto_l7 | 8%nat => lobatto_l8 | _ => [] end.
Definition flobatto_ws (n : nat) : list num :=
  match n with 1%nat => [i 2] | 2%nat => [i 1; i 1] | 3%nat => lobatto_w3 | 4%nat => lobatto_w4 | 5%nat => lobatto_w5
  | 6%nat => lobatto_w6 | 7%nat => lobatto_w7 | 8%nat => lobatto_w8 | _ => [] end.
(** the n points and weights that the line rule returns for m = 1..n *)
Definition frule_of (line : Z -> Z -> outcome (num * num)) (n : nat) (xs ws : list num) : Prop :=
  length xs = n /\ length ws = n
  /\ forall k, (k < n)%nat -> line (Z.of_nat (S k)) (Z.of_nat n) = Ok (nth k xs (i 0), nth k ws (i 0)).
Lemma frule_gauss n : (1 <= n <= 8)%nat -> frule_of fline_gauss n (fgauss_xs n) (fgauss_ws n).
Proof.
  intros H. orders n H ltac:(split; [reflexivity|split; [reflexivity|intros k Hk; cases_lt k Hk ltac:(reflexivity)]]).
Qed.
Lemma frule_lobatto n : (1 <= n <= 8)%nat -> frule_of fline_lobatto n (flobatto_xs n) (flobatto_ws n).
Proof.
  intros H. orders n H ltac:(split; [reflexivity|split; [reflexivity|intros k Hk; cases_lt k Hk ltac:(reflexivity)]]).
Qed.
Lemma frule_unique line n xs ws xs' ws' : frule_of line n xs ws -> frule_of line n xs' ws' -> xs = xs' /\ ws = ws'.
Proof.
  intros (L & M & E) (L' & M' & E'). split; apply (nth_ext _ _ (i 0) (i 0)); try congruence; intros k Hk;
    specialize (E k ltac:(lia)); specialize (E' k ltac:(lia)); congruence.
Qed.

(** ** what is checked by computation, for each table *)
Definition degree (lob : bool) (n : nat) : nat := if lob then match n with 1%nat => 1%nat | _ => (2 * n - 3)%nat end else (2 * n - 1)%nat.
Definition sf_eqb (x y : num) : bool :=
  match x, y with
  | S754_zero s, S754_zero t => eqb s t
  | S754_finite s m e, S754_finite t k f => eqb s t && Pos.eqb m k && Z.eqb e f
  | _, _ => false
  end.
Lemma sf_eqb_eq x y : sf_eqb x y = true -> x = y.
Proof.
  destruct x as [s|s| |s m e], y as [t|t| |t k f]; cbn; intros H; try discriminate.
  - apply eqb_prop in H. congruence.
  - apply andb_prop in H. destruct H as [H E]. apply andb_prop in H. destruct H as [H P].
    apply eqb_prop in H. apply Pos.eqb_eq in P. apply Z.eqb_eq in E. congruence.
Qed.
Definition upto (n : nat) (c : nat -> bool) : bool := forallb c (seq 0 n).
Lemma upto_spec n c : upto n c = true -> forall k, (k < n)%nat -> c k = true.
Proof. intros H k Hk. unfold upto in H. rewrite forallb_forall in H. apply H. apply in_seq. lia. Qed.
Definition rule_check (en : Z) (d n : nat) (xs ws : list num) : bool :=
  forallb ok60 xs && forallb ok60 ws
  && moments_ok S60 en (2 ^ 53) (S d) 0 true S60 (combine (map N60 xs) (map N60 ws))
  && upto n (fun k => (S60 <=? 64 * N60 (nth k ws (i 0)))%Z && (N60 (nth k ws (i 0)) <=? 2 * S60)%Z
                      && (- S60 <=? N60 (nth k xs (i 0)))%Z && (N60 (nth k xs (i 0)) <=? S60)%Z
                      && (N60 (nth (n - 1 - k) xs (i 0)) =? - N60 (nth k xs (i 0)))%Z
                      && sf_eqb (nth (n - 1 - k) ws (i 0)) (nth k ws (i 0))
                      && sf_eqb (SFmul 53 1024 (i 1) (nth k ws (i 0))) (nth k ws (i 0)))
  && upto n (fun k => upto k (fun l => negb (N60 (nth k xs (i 0)) =? N60 (nth l xs (i 0)))%Z)).
Lemma gauss_checked : forallb (fun n => rule_check 3 (2 * n - 1) n (fgauss_xs n) (fgauss_ws n)) (seq 1 8) = true.
Proof. vm_compute. reflexivity. Qed.
Lemma lobatto_checked : forallb (fun n => rule_check 1 (degree true n) n (flobatto_xs n) (flobatto_ws n)) (seq 1 8) = true.
Proof. vm_compute. reflexivity. Qed.

(** what the checks mean *)
Record good_rule (en : Z) (d n : nat) (xs ws : list num) : Prop := {
  gr_xs : length xs = n; gr_ws : length ws = n;
  gr_ok : forall k, (k < n)%nat -> ok60 (nth k xs (i 0)) = true /\ ok60 (nth k ws (i 0)) = true;
  gr_mom : rule_within (map FR xs) (map FR ws) d (IZR en / 2 ^ 53);
  gr_rng : forall k, (k < n)%nat -> / 64 <= FR (nth k ws (i 0)) <= 2 /\ -1 <= FR (nth k xs (i 0)) <= 1;
  gr_sym : forall k, (k < n)%nat -> FR (nth (n - 1 - k) xs (i 0)) = - FR (nth k xs (i 0)) /\ nth (n - 1 - k) ws (i 0) = nth k ws (i 0);
  gr_one : forall k, (k < n)%nat -> SFmul 53 1024 (i 1) (nth k ws (i 0)) = nth k ws (i 0);
  gr_dis : forall k l, (k < n)%nat -> (l < n)%nat -> FR (nth k xs (i 0)) = FR (nth l xs (i 0)) -> k = l }.
Lemma good_rule_check en d n xs ws : length xs = n -> length ws = n -> rule_check en d n xs ws = true -> good_rule en d n xs ws.
Proof.
  intros Lx Lw H. unfold rule_check in H.
  apply andb_prop in H. destruct H as [H Dis]. apply andb_prop in H. destruct H as [H Pt].
  apply andb_prop in H. destruct H as [H Mom]. apply andb_prop in H. destruct H as [Ox Ow].
  pose proof S60_pos as P0.
  assert (OK : forall k, (k < n)%nat -> ok60 (nth k xs (i 0)) = true /\ ok60 (nth k ws (i 0)) = true).
  { intros k Hk. split; [refine (proj1 (forallb_forall ok60 xs) Ox _ _)|refine (proj1 (forallb_forall ok60 ws) Ow _ _)]; apply nth_In; lia. }
  assert (V : forall k, (k < n)%nat -> FR (nth k xs (i 0)) * IZR S60 = IZR (N60 (nth k xs (i 0)))
                                      /\ FR (nth k ws (i 0)) * IZR S60 = IZR (N60 (nth k ws (i 0)))).
  { intros k Hk. destruct (OK k Hk) as [A B]. rewrite (FR_N60 _ A), (FR_N60 _ B). split; field; lra. }
  assert (Q : forall k, (k < n)%nat -> / 64 <= FR (nth k ws (i 0)) <= 2 /\ -1 <= FR (nth k xs (i 0)) <= 1 /\
    FR (nth (n - 1 - k) xs (i 0)) = - FR (nth k xs (i 0)) /\ nth (n - 1 - k) ws (i 0) = nth k ws (i 0)
    /\ SFmul 53 1024 (i 1) (nth k ws (i 0)) = nth k ws (i 0)).
  { intros k Hk. apply (fun X => upto_spec _ _ X k Hk) in Pt. cbv beta in Pt.
    apply andb_prop in Pt. destruct Pt as [Pt A7]. apply andb_prop in Pt. destruct Pt as [Pt A6].
    apply andb_prop in Pt. destruct Pt as [Pt A5]. apply andb_prop in Pt. destruct Pt as [Pt A4].
    apply andb_prop in Pt. destruct Pt as [Pt A3]. apply andb_prop in Pt. destruct Pt as [A1 A2].
    apply sf_eqb_eq in A6, A7. apply Z.eqb_eq in A5. apply (f_equal IZR) in A5. rewrite opp_IZR in A5.
    apply Z.leb_le, IZR_le in A1. apply Z.leb_le, IZR_le in A2. apply Z.leb_le, IZR_le in A3. apply Z.leb_le, IZR_le in A4.
    rewrite mult_IZR in A1, A2. rewrite opp_IZR in A3. destruct (V k Hk) as [Vx Vw]. destruct (V (n - 1 - k)%nat ltac:(lia)) as [Vx' _].
    rewrite <- Vx in A3, A4, A5. rewrite <- Vw in A1, A2. rewrite <- Vx' in A5. repeat split; try assumption.
    - apply (Rmult_le_reg_r (IZR S60)); lra.
    - apply (Rmult_le_reg_r (IZR S60)); lra.
    - apply (Rmult_le_reg_r (IZR S60)); lra.
    - apply (Rmult_le_reg_r (IZR S60)); lra.
    - apply (Rmult_eq_reg_r (IZR S60)); lra. }
  split; try assumption.
  - replace (IZR en / 2 ^ 53) with (IZR en / IZR (2 ^ 53)) by (rewrite (pow_IZR 2 53); reflexivity).
    apply (rule_Z _ _ S60 S60 (map N60 xs) (map N60 ws)); try reflexivity; [|rewrite !map_length; lia|exact Mom].
    split; apply map_N60; assumption.
  - intros k Hk. destruct (Q k Hk) as (A & B & _). split; assumption.
  - intros k Hk. destruct (Q k Hk) as (_ & _ & A & B & _). split; assumption.
  - intros k Hk. apply Q, Hk.
  - assert (D : forall k l, (l < k < n)%nat -> FR (nth k xs (i 0)) <> FR (nth l xs (i 0))).
    { intros k l [Hl Hk] E. apply (fun X => upto_spec _ _ X k Hk) in Dis. cbv beta in Dis.
      apply (fun X => upto_spec _ _ X l Hl) in Dis. cbv beta in Dis. apply negb_true_iff, Z.eqb_neq in Dis. apply Dis.
      apply eq_IZR. rewrite <- (proj1 (V k Hk)), <- (proj1 (V l ltac:(lia))), E. reflexivity. }
    intros k l Hk Hl E. destruct (Nat.lt_trichotomy k l) as [G|[G|G]]; [|exact G|].
    + exfalso. apply (D l k); [lia|]. symmetry. exact E.
    + exfalso. apply (D k l); [lia|exact E].
Qed.
Lemma good_gauss n xs ws : (1 <= n <= 8)%nat -> frule_of fline_gauss n xs ws -> good_rule 3 (2 * n - 1) n xs ws.
Proof.
  intros Hn Hr. destruct (frule_unique _ _ _ _ _ _ Hr (frule_gauss n Hn)) as [-> ->]. pose proof (frule_gauss n Hn) as (A & B & _).
  apply good_rule_check; [exact A|exact B|]. refine (proj1 (forallb_forall _ _) gauss_checked n _). apply in_seq. lia.
Qed.
Lemma good_lobatto n xs ws : (1 <= n <= 8)%nat -> frule_of fline_lobatto n xs ws -> good_rule 1 (degree true n) n xs ws.
Proof.
  intros Hn Hr. destruct (frule_unique _ _ _ _ _ _ Hr (frule_lobatto n Hn)) as [-> ->]. pose proof (frule_lobatto n Hn) as (A & B & _).
  apply good_rule_check; [exact A|exact B|]. refine (proj1 (forallb_forall _ _) lobatto_checked n _). apply in_seq. lia.
Qed.

(** ** nearest doubles *)
(** z is the only double nearest to v *)
Definition nearest (z : num) (v : R) : Prop :=
  fin z = true /\ valid_binary 53 1024 z = true
  /\ forall y, fin y = true -> valid_binary 53 1024 y = true -> FR y <> FR z -> Rabs (FR z - v) < Rabs (FR y - v).
Lemma mantissa s m e : valid_binary 53 1024 (S754_finite s m e) = true -> (Z.pos m < 2 ^ 53)%Z.
Proof.
  intros V. destruct (valid_finite 53 1024 _ _ _ V) as [E B]. unfold fexp in E.
  pose proof (digits_bounds (Z.pos m) ltac:(lia)) as (D0 & D1 & _). eapply Z.lt_le_trans; [exact D1|].
  apply Z.pow_le_mono_r; [lia|]. lia.
Qed.
Lemma spacing m e y : (2 ^ 52 < Z.pos m < 2 ^ 53)%Z -> fin y = true -> valid_binary 53 1024 y = true ->
  FR y <> IZR (Z.pos m) * pw e -> pw e <= Rabs (FR y - IZR (Z.pos m) * pw e).
Proof.
  intros Hm Fy Vy N. pose proof (pw_pos e) as Pe. pose proof (pw_pos (-e)) as Pi. pose proof (pw_inv e) as I.
  assert (Lo : (IZR (2 ^ 52) + 1) * pw e <= IZR (Z.pos m) * pw e).
  { apply Rmult_le_compat_r; [lra|]. rewrite <- (plus_IZR _ 1). apply IZR_le. lia. }
  destruct (Rlt_le_dec (FR y) (IZR (2 ^ 52) * pw e)) as [L|G].
  - rewrite Rabs_left1; lra.
  - destruct y as [s|s| |s k f]; try discriminate Fy.
    + exfalso. cbn [FR] in G. assert (0 < IZR (2 ^ 52) * pw e); [|lra]. apply Rmult_lt_0_compat; [apply IZR_lt; reflexivity|exact Pe].
    + cbn [FR] in *. pose proof (FR_finite_pos k f) as Pk. pose proof (pw_pos f) as Pf. destruct s.
      { exfalso. assert (0 < IZR (2 ^ 52) * pw e); [|lra]. apply Rmult_lt_0_compat; [apply IZR_lt; reflexivity|exact Pe]. }
      rewrite Rmult_1_l in *.
      assert (Hk : (Z.pos k < 2 ^ 53)%Z). { exact (mantissa _ _ _ Vy). }
      assert (Hf : (e <= f)%Z).
      { destruct (Z.lt_ge_cases f e) as [C|C]; [|lia]. exfalso.
        assert (pw f <= pw e / 2) by (rewrite <- pw_half; apply pw_le; lia).
        assert (IZR (Z.pos k) < IZR (2 ^ 53)) by (apply IZR_lt; exact Hk).
        assert (IZR (Z.pos k) * pw f < IZR (2 ^ 53) * (pw e / 2)).
        { apply Rlt_le_trans with (IZR (2 ^ 53) * pw f); [apply Rmult_lt_compat_r; assumption|].
          apply Rmult_le_compat_l; [apply IZR_le; lia|assumption]. }
        change (2 ^ 53)%Z with (2 * 2 ^ 52)%Z in *. rewrite (mult_IZR 2) in *. lra. }
      replace (IZR (Z.pos k) * pw f) with (IZR (Z.pos k * 2 ^ (f - e)) * pw e) in *.
      2:{ rewrite mult_IZR, (pw_Z (f - e)) by lia. replace f with (f - e + e)%Z at 2 by lia. rewrite pw_add. ring. }
      set (a := (Z.pos k * 2 ^ (f - e))%Z) in *. rewrite <- Rmult_minus_distr_r, <- minus_IZR, Rabs_mult, (Rabs_pos_eq (pw e)), <- abs_IZR by lra.
      rewrite <- (Rmult_1_l (pw e)) at 1. apply Rmult_le_compat_r; [lra|]. apply IZR_le.
      assert (a <> Z.pos m) by (intros ->; apply N; reflexivity). lia.
Qed.
(* the number v = n/S *)
Definition near_check (z : num) (n S : Z) : bool :=
  ok60 z && ((N60 z * S =? n * S60)%Z ||
    match z with S754_finite _ m e => (2 ^ 52 <? Z.pos m)%Z && (2 * Z.abs (N60 z * S - n * S60) <? S * 2 ^ (e + 60))%Z | _ => false end).
Lemma near_check_spec z n S : (0 < S)%Z -> near_check z n S = true -> nearest z (IZR n / IZR S).
Proof.
  intros PS H. unfold near_check in H. apply andb_prop in H. destruct H as [O H].
  destruct (ok60_fin z O) as [Fz Vz]. split; [exact Fz|split; [exact Vz|]]. intros y Fy Vy N.
  pose proof S60_pos as P0. assert (P1 : 0 < IZR S) by (apply IZR_lt; exact PS). pose proof (FR_N60 z O) as E.
  apply orb_prop in H. destruct H as [H|H].
  - apply Z.eqb_eq, (f_equal IZR) in H. rewrite !mult_IZR in H.
    assert (D : FR z = IZR n / IZR S) by (rewrite E; apply (Rmult_eq_reg_r (IZR S60 * IZR S)); [field_simplify; lra|apply Rgt_not_eq, Rmult_lt_0_compat; lra]).
    rewrite <- D. rewrite Rminus_diag_eq, Rabs_R0 by reflexivity. apply Rabs_pos_lt. lra.
  - destruct z as [s|s| |s m e]; try discriminate H. apply andb_prop in H. destruct H as [A B].
    apply Z.ltb_lt in A. apply Z.ltb_lt, IZR_lt in B.
    assert (He : (0 <= e + 60)%Z) by (unfold ok60 in O; apply andb_prop in O; apply Z.leb_le, (proj2 O)).
    rewrite !mult_IZR, abs_IZR, minus_IZR, !mult_IZR, (pw_Z _ He), pw_add, <- S60_pw in B.
    assert (Hm : (Z.pos m < 2 ^ 53)%Z) by exact (mantissa _ _ _ Vz).
    assert (Near : Rabs (FR (S754_finite s m e) - IZR n / IZR S) < pw e / 2).
    { rewrite E. assert (PP : 0 < IZR S60 * IZR S) by (apply Rmult_lt_0_compat; lra).
      replace (IZR (N60 (S754_finite s m e)) / IZR S60 - IZR n / IZR S)
        with ((IZR (N60 (S754_finite s m e)) * IZR S - IZR n * IZR S60) / (IZR S60 * IZR S)) by (field; lra).
      unfold Rdiv at 1. rewrite Rabs_mult, (Rabs_pos_eq (/ _)) by (left; apply Rinv_0_lt_compat, PP).
      apply (Rmult_lt_reg_r (IZR S60 * IZR S)); [exact PP|]. rewrite Rmult_assoc, Rinv_l, Rmult_1_r by lra. lra. }
    assert (Far : pw e <= Rabs (FR y - FR (S754_finite s m e))).
    { destruct s.
      - assert (Sp : pw e <= Rabs (FR (SFopp y) - IZR (Z.pos m) * pw e)).
        { apply spacing; [lia|rewrite fin_opp; exact Fy|rewrite valid_opp; exact Vy|]. rewrite FR_opp. intros X. apply N. cbn [FR]. lra. }
        rewrite FR_opp in Sp. cbn [FR]. rewrite Rabs_minus_sym.
        replace (-1 * (IZR (Z.pos m) * pw e) - FR y) with (- FR y - IZR (Z.pos m) * pw e) by ring. exact Sp.
      - cbn [FR] in *. rewrite Rmult_1_l in *. apply spacing; [lia|exact Fy|exact Vy|exact N]. }
    assert (T : Rabs (FR y - FR (S754_finite s m e)) <= Rabs (FR y - IZR n / IZR S) + Rabs (FR (S754_finite s m e) - IZR n / IZR S)).
    { replace (FR y - FR (S754_finite s m e)) with ((FR y - IZR n / IZR S) + - (FR (S754_finite s m e) - IZR n / IZR S)) by ring.
      eapply Rle_trans; [apply Rabs_triang|]. rewrite Rabs_Ropp. lra. }
    lra.
Qed.
Definition near_table (zs : list num) (ns : list Z) (S : Z) : bool :=
  Nat.eqb (length zs) (length ns) && forallb (fun t => near_check (fst t) (snd t) S) (combine zs ns).
Lemma near_table_spec zs ns S : (0 < S)%Z -> near_table zs ns S = true -> Forall2 nearest zs (scaled S ns).
Proof.
  intros PS H. unfold near_table in H. apply andb_prop in H. destruct H as [L H]. apply Nat.eqb_eq in L. revert ns L H.
  induction zs as [|z zs IH]; intros [|n ns] L H; try discriminate; [constructor|]. cbn [combine forallb fst snd] in H.
  apply andb_prop in H. destruct H as [A B]. constructor; [apply near_check_spec; assumption|apply IH; [simpl in L; lia|exact B]].
Qed.

(** ** tensor rules *)
Lemma fdirections_ok line en d n xs ws : frule_of line n xs ws -> good_rule en d n xs ws ->
  forall js, Forall (fun j => (1 <= j <= Z.of_nat n)%Z) js ->
  fdirections line (Z.of_nat n) js = Ok (map (fun j => nth (Z.to_nat (j - 1)) xs (i 0)) js, map (fun j => nth (Z.to_nat (j - 1)) ws (i 0)) js).
Proof.
  intros (_ & _ & E) G. induction js as [|j js IH]; intros H; [reflexivity|]. inversion H as [|? ? Hj Hs]; subst.
  cbn [fdirections map]. specialize (E (Z.to_nat (j - 1)) ltac:(lia)).
  replace (Z.of_nat (S (Z.to_nat (j - 1)))) with j in E by lia. rewrite E. cbn [bind]. rewrite (IH Hs). cbn [bind fst snd].
  rewrite (gr_one _ _ _ _ _ G) by lia. reflexivity.
Qed.
Definition u53 : R := / 2 ^ 53.
Lemma u53_uu : uu 53 = u53.
Proof.
  unfold uu, u53. pose proof (pw_inv 53) as I. pose proof (pw_Z 53 ltac:(lia)) as E. rewrite <- E in I.
  change (IZR (2 ^ 53)) with (IZR (2 ^ Z.of_nat 53)) in I. rewrite <- pow_IZR in I.
  assert (0 < 2 ^ 53) by (apply pow_lt; lra). apply (Rmult_eq_reg_r (2 ^ 53)); [|lra]. rewrite I. field; lra.
Qed.
Lemma u53_pos : 0 < u53 <= / 1000.
Proof.
  unfold u53. assert (0 < 2 ^ 53) by (apply pow_lt; lra). split; [apply Rinv_0_lt_compat; assumption|].
  apply Rinv_le_contravar; [lra|]. simpl; lra.
Qed.
Lemma eta_small : eta 53 1024 <= u53 * / 2 ^ 40.
Proof.
  rewrite <- u53_uu. unfold eta, uu, emin. replace (/ 2 ^ 40) with (pw (-40)).
  - rewrite <- pw_add. apply pw_le. lia.
  - pose proof (pw_inv 40) as I. pose proof (pw_Z 40 ltac:(lia)) as E. rewrite <- E in I.
    change (IZR (2 ^ 40)) with (IZR (2 ^ Z.of_nat 40)) in I. rewrite <- pow_IZR in I.
    assert (0 < 2 ^ 40) by (apply pow_lt; lra). apply (Rmult_eq_reg_r (2 ^ 40)); [|lra]. change (- (40))%Z with (-40)%Z in I. rewrite I. field; lra.
Qed.
Lemma mul_rel x y : fin x = true -> fin y = true -> valid_binary 53 1024 x = true -> valid_binary 53 1024 y = true ->
  / 2 ^ 40 <= FR x * FR y <= 16 ->
  fin (SFmul 53 1024 x y) = true /\ valid_binary 53 1024 (SFmul 53 1024 x y) = true
  /\ Rabs (FR (SFmul 53 1024 x y) - FR x * FR y) <= u53 * (FR x * FR y).
Proof.
  intros Fx Fy Vx Vy [Lo Hi].
  assert (P : 0 < / 2 ^ 40) by (apply Rinv_0_lt_compat, pow_lt; lra). pose proof u53_pos as [U0 U1].
  assert (E : Rmax (uu 53 * Rabs (FR x * FR y)) (eta 53 1024) = u53 * (FR x * FR y)).
  { rewrite u53_uu, Rabs_pos_eq by lra. apply Rmax_left. eapply Rle_trans; [apply eta_small|]. apply Rmult_le_compat_l; lra. }
  pose proof (mul_correct 53 1024 ltac:(lia) ltac:(lia) x y Fx Fy Vx Vy) as [_ [(A & B & C & _)|(s & _ & C & _)]].
  - rewrite E in C. repeat split; assumption.
  - exfalso. rewrite E in C. assert (pw 10 <= pw 1024) by (apply pw_le; lia). rewrite <- (pw_Z 10) in * by lia.
    change (2 ^ 10)%Z with 1024%Z in *. assert (u53 * (FR x * FR y) <= 1 * 16) by (apply Rmult_le_compat; lra).
    unfold sgnR in C. destruct s; lra.
Qed.
Lemma Rabs_le_inv' a b : Rabs a <= b -> - b <= a <= b.
Proof. unfold Rabs. destruct Rcase_abs; lra. Qed.
Lemma sum_abs n f g : (forall k, (k < n)%nat -> Rabs (f k) <= g k) -> Rabs (sum n f) <= sum n g.
Proof.
  induction n; intros H; cbn [sum]; [rewrite Rabs_R0; lra|].
  eapply Rle_trans; [apply Rabs_triang|]. apply Rplus_le_compat; [apply IHn; intros; apply H; lia|apply H; lia].
Qed.
Lemma peval_bound p x : -1 <= x <= 1 -> Rabs (peval p x) <= norm1 p.
Proof.
  intros H. induction p as [|c p IH]; cbn [peval norm1]; [rewrite Rabs_R0; lra|].
  eapply Rle_trans; [apply Rabs_triang|]. rewrite Rabs_mult. assert (Rabs x <= 1) by (apply Rabs_le; lra).
  pose proof (Rabs_pos x). pose proof (Rabs_pos (peval p x)). assert (Rabs x * Rabs (peval p x) <= 1 * Rabs (peval p x)) by (apply Rmult_le_compat_r; lra). lra.
Qed.
Lemma norm1_pos p : 0 <= norm1 p.
Proof. induction p; cbn [norm1]; [lra|]. pose proof (Rabs_pos a). lra. Qed.
Lemma ep_u en : (en = 1 \/ en = 3)%Z -> 0 <= IZR en / 2 ^ 53 <= 3 * u53.
Proof. intros Hen. unfold u53, Rdiv. pose proof u53_pos as [U _]. unfold u53 in U. destruct Hen as [-> | ->]; lra. Qed.
Section Rule.
Variables (en : Z) (d n : nat) (xs ws : list num).
Hypothesis G : good_rule en d n xs ws.
Let X k := FR (nth k xs (i 0)).
Let W k := FR (nth k ws (i 0)).
Let ep := IZR en / 2 ^ 53.
Lemma quad_XW f : quad (map FR xs) (map FR ws) f = sum n (fun k => W k * f (X k)).
Proof.
  rewrite quad_sum by (rewrite !map_length, (gr_xs _ _ _ _ _ G), (gr_ws _ _ _ _ _ G); reflexivity).
  rewrite map_length, (gr_xs _ _ _ _ _ G). apply sum_ext. intros k Hk. unfold W, X.
  assert (E : forall l, nth k (map FR l) 0 = FR (nth k l (i 0))) by (intros l; exact (map_nth FR l (i 0) k)).
  rewrite !E. reflexivity.
Qed.
Lemma W_pos k : (k < n)%nat -> / 64 <= W k <= 2.
Proof. intros Hk. apply (gr_rng _ _ _ _ _ G k Hk). Qed.
Lemma X_rng k : (k < n)%nat -> -1 <= X k <= 1.
Proof. intros Hk. apply (gr_rng _ _ _ _ _ G k Hk). Qed.
Lemma sumW : 0 <= sum n W <= 2 + ep.
Proof.
  split; [apply sum_nonneg; intros k Hk; pose proof (W_pos k Hk); lra|].
  pose proof (gr_mom _ _ _ _ _ G 0%nat ltac:(lia)) as M. rewrite quad_XW in M. unfold imom in M. simpl in M.
  rewrite (sum_ext n _ W) in M by (intros; ring). apply Rabs_le_inv' in M. unfold ep. lra.
Qed.
Lemma quad_bound p : Rabs (sum n (fun k => W k * peval p (X k))) <= (2 + ep) * norm1 p.
Proof.
  eapply Rle_trans; [apply (sum_abs n _ (fun k => norm1 p * W k))|].
  - intros k Hk. pose proof (W_pos k Hk). rewrite Rabs_mult, (Rabs_pos_eq (W k)), Rmult_comm by lra.
    apply Rmult_le_compat_r; [lra|]. apply peval_bound, X_rng, Hk.
  - rewrite sum_scal, Rmult_comm. apply Rmult_le_compat_r; [apply norm1_pos|apply sumW].
Qed.
Lemma quad_err p F : (length p <= S d)%nat -> (forall x, derivable_pt_lim F x (peval p x)) ->
  Rabs (sum n (fun k => W k * peval p (X k)) - (F 1 - F (-1))) <= ep * norm1 p.
Proof. intros L HF. rewrite <- quad_XW. apply (rule_poly _ _ d); [apply (gr_mom _ _ _ _ _ G)|exact L|exact HF]. Qed.
Lemma tot2 a b : (a < n)%nat -> (b < n)%nat -> let t := SFmul 53 1024 (nth a ws (i 0)) (nth b ws (i 0)) in
  fin t = true /\ valid_binary 53 1024 t = true /\ Rabs (FR t - W a * W b) <= u53 * (W a * W b).
Proof.
  intros Ha Hb. cbv zeta. destruct (gr_ok _ _ _ _ _ G a Ha) as [_ A]. destruct (gr_ok _ _ _ _ _ G b Hb) as [_ B].
  apply ok60_fin in A, B. destruct A, B. pose proof (W_pos a Ha). pose proof (W_pos b Hb). apply mul_rel; try assumption.
  fold (W a) (W b). split; [|nra]. apply Rle_trans with (/ 64 * / 64); [|apply Rmult_le_compat; lra].
  rewrite <- Rinv_mult_distr by lra. apply Rinv_le_contravar; [lra|]. simpl; lra.
Qed.
Lemma tot3 a b c : (a < n)%nat -> (b < n)%nat -> (c < n)%nat ->
  let t := SFmul 53 1024 (SFmul 53 1024 (nth a ws (i 0)) (nth b ws (i 0))) (nth c ws (i 0)) in
  fin t = true /\ valid_binary 53 1024 t = true /\ Rabs (FR t - W a * W b * W c) <= (2 * u53 + u53 * u53) * (W a * W b * W c).
Proof.
  intros Ha Hb Hc. cbv zeta. destruct (tot2 a b Ha Hb) as (F1 & V1 & E1). set (t := SFmul 53 1024 (nth a ws (i 0)) (nth b ws (i 0))) in *.
  destruct (gr_ok _ _ _ _ _ G c Hc) as [_ C]. apply ok60_fin in C. destruct C as [C1 C2].
  pose proof (W_pos a Ha). pose proof (W_pos b Hb). pose proof (W_pos c Hc) as Wc. pose proof u53_pos as [U0 U1].
  assert (AB : / 64 * / 64 <= W a * W b <= 4) by (split; [apply Rmult_le_compat; lra|nra]).
  apply Rabs_le_inv' in E1. set (ab := W a * W b) in *.
  assert (T : / 2 ^ 20 <= FR t <= 5).
  { assert (u53 * ab <= / 1000 * ab) by (apply Rmult_le_compat_r; lra). split; [|lra].
    apply Rle_trans with (/ 2 * (/ 64 * / 64)); [|lra]. rewrite <- !Rinv_mult_distr by lra. apply Rinv_le_contravar; [lra|]. simpl; lra. }
  destruct (mul_rel t (nth c ws (i 0))) as (F2 & V2 & E2); try assumption.
  { fold (W c). assert (0 < / 2 ^ 20) by (apply Rinv_0_lt_compat, pow_lt; lra). split; [|nra].
    apply Rle_trans with (/ 2 ^ 20 * / 64); [|apply Rmult_le_compat; lra].
    rewrite <- Rinv_mult_distr by (try apply pow_nonzero; lra). apply Rinv_le_contravar; [|simpl; lra].
    apply Rmult_lt_0_compat; [apply pow_lt|]; lra. }
  split; [exact F2|split; [exact V2|]]. fold (W c) in E2. set (r := SFmul 53 1024 t (nth c ws (i 0))) in *.
  replace (FR r - ab * W c) with ((FR r - FR t * W c) + (FR t - ab) * W c) by ring.
  eapply Rle_trans; [apply Rabs_triang|]. rewrite Rabs_mult, (Rabs_pos_eq (W c)) by lra.
  assert (Rabs (FR t - ab) <= u53 * ab) by (apply Rabs_le; lra).
  assert (Rabs (FR t - ab) * W c <= u53 * ab * W c) by (apply Rmult_le_compat_r; lra).
  assert (u53 * (FR t * W c) <= u53 * ((1 + u53) * ab * W c)).
  { apply Rmult_le_compat_l; [lra|]. apply Rmult_le_compat_r; lra. }
  lra.
Qed.
Lemma sum2_factor f g : sum n (fun b => sum n (fun a => W a * W b * (f (X a) * g (X b))))
  = sum n (fun a => W a * f (X a)) * sum n (fun b => W b * g (X b)).
Proof.
  rewrite (sum_ext n _ (fun b => sum n (fun a => W a * f (X a)) * (W b * g (X b)))).
  - apply sum_scal.
  - intros b Hb. rewrite (sum_ext n _ (fun a => (W b * g (X b)) * (W a * f (X a)))) by (intros; ring). rewrite sum_scal. ring.
Qed.
Lemma sum2_weight : sum n (fun b => sum n (fun a => W a * W b)) = sum n W * sum n W.
Proof.
  rewrite (sum_ext n _ (fun b => sum n W * W b)); [apply sum_scal|]. intros b Hb.
  rewrite (sum_ext n _ (fun a => W b * W a)) by (intros; ring). rewrite sum_scal. ring.
Qed.
Lemma sum3_factor f g h : sum n (fun c => sum n (fun b => sum n (fun a => W a * W b * W c * (f (X a) * g (X b) * h (X c)))))
  = sum n (fun a => W a * f (X a)) * sum n (fun b => W b * g (X b)) * sum n (fun c => W c * h (X c)).
Proof.
  rewrite <- (sum2_factor f g). rewrite <- sum_scal. apply sum_ext. intros c Hc.
  rewrite (Rmult_comm (sum n _)), <- sum_scal. apply sum_ext. intros b Hb. rewrite <- sum_scal. apply sum_ext. intros a Ha. ring.
Qed.
Lemma sum3_weight : sum n (fun c => sum n (fun b => sum n (fun a => W a * W b * W c))) = sum n W * sum n W * sum n W.
Proof.
  rewrite <- sum2_weight. rewrite <- sum_scal. apply sum_ext. intros c Hc.
  rewrite (Rmult_comm (sum n _)), <- sum_scal. apply sum_ext. intros b Hb. rewrite <- sum_scal. apply sum_ext. intros a Ha. ring.
Qed.
End Rule.
Lemma prod2_err S1 I1 S2 I2 e P Q : 0 <= e -> 0 <= P -> 0 <= Q -> Rabs (S1 - I1) <= e * P -> Rabs (S2 - I2) <= e * Q ->
  Rabs S1 <= (2 + e) * P -> Rabs S2 <= (2 + e) * Q ->
  Rabs (S1 * S2 - I1 * I2) <= (4 + 3 * e) * e * (P * Q) /\ Rabs I2 <= (2 + 2 * e) * Q /\ Rabs I1 <= (2 + 2 * e) * P.
Proof.
  intros He HP HQ A B C D.
  assert (I2b : Rabs I2 <= (2 + 2 * e) * Q).
  { replace I2 with (S2 + - (S2 - I2)) by ring. eapply Rle_trans; [apply Rabs_triang|]. rewrite Rabs_Ropp. lra. }
  assert (I1b : Rabs I1 <= (2 + 2 * e) * P).
  { replace I1 with (S1 + - (S1 - I1)) by ring. eapply Rle_trans; [apply Rabs_triang|]. rewrite Rabs_Ropp. lra. }
  split; [|split; assumption].
  replace (S1 * S2 - I1 * I2) with (S1 * (S2 - I2) + (S1 - I1) * I2) by ring.
  eapply Rle_trans; [apply Rabs_triang|]. rewrite !Rabs_mult.
  assert (Rabs S1 * Rabs (S2 - I2) <= ((2 + e) * P) * (e * Q)) by (apply Rmult_le_compat; try apply Rabs_pos; assumption).
  assert (Rabs (S1 - I1) * Rabs I2 <= (e * P) * ((2 + 2 * e) * Q)) by (apply Rmult_le_compat; try apply Rabs_pos; assumption).
  lra.
Qed.
