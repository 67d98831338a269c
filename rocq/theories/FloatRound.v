(** Correctness of the floating-point operations of Coq.Floats.SpecFloat (IEEE 754, binary, rounding
    to nearest even) with respect to the reals, for any precision and exponent range: each operation
    returns the exact result up to the rounding error, or an infinity on overflow. Used for the
    statements about double arithmetic in FloatProps. *)
From Coq Require Import ZArith Reals Lia Lra Psatz Bool SpecFloat.
Local Open Scope R_scope.

(** powers of two *)
Definition pw (e : Z) : R := powerRZ 2 e.
Lemma pw_pos e : 0 < pw e.
Proof. apply powerRZ_lt. lra. Qed.
Lemma pw_add a b : pw (a + b) = pw a * pw b.
Proof. apply powerRZ_add. lra. Qed.
Lemma pw_0 : pw 0 = 1. Proof. reflexivity. Qed.
Lemma pw_1 : pw 1 = 2. Proof. unfold pw. simpl. lra. Qed.
Lemma pw_m1 : pw (-1) = / 2. Proof. unfold pw. simpl. f_equal. lra. Qed.
Lemma pw_Z k : (0 <= k)%Z -> IZR (2 ^ k) = pw k.
Proof.
  intros H. unfold pw. rewrite <- (Z2Nat.id k H). rewrite <- pow_powerRZ, <- pow_IZR. reflexivity.
Qed.
Lemma pw_ge1 k : (0 <= k)%Z -> 1 <= pw k.
Proof. intros H. rewrite <- (pw_Z k H). apply IZR_le. pose proof (Z.pow_pos_nonneg 2 k). lia. Qed.
Lemma pw_le a b : (a <= b)%Z -> pw a <= pw b.
Proof.
  intros H. replace b with (a + (b - a))%Z by lia. rewrite pw_add.
  pose proof (pw_pos a). pose proof (pw_ge1 (b - a) ltac:(lia)). nra.
Qed.
Lemma pw_lt a b : (a < b)%Z -> pw a < pw b.
Proof.
  intros H. apply Rlt_le_trans with (pw (a + 1)); [|apply pw_le; lia]. rewrite pw_add, pw_1. pose proof (pw_pos a). lra.
Qed.
Lemma pw_inv a : pw (- a) * pw a = 1.
Proof. rewrite <- pw_add. replace (- a + a)%Z with 0%Z by lia. reflexivity. Qed.
Lemma pw_half a : pw (a - 1) = pw a / 2.
Proof. replace (a - 1)%Z with (a + -1)%Z by lia. rewrite pw_add, pw_m1. reflexivity. Qed.

(** a real number described by an integer part, a bit and a sticky bit *)
Definition inb (x : R) (mrs : shr_record) : Prop :=
  let m := IZR (shr_m mrs) in
  match shr_r mrs, shr_s mrs with
  | false, false => x = m
  | false, true => m < x < m + /2
  | true, false => x = m + /2
  | true, true => m + /2 < x < m + 1
  end.
Lemma inb_floor x mrs : inb x mrs -> IZR (shr_m mrs) <= x < IZR (shr_m mrs) + 1.
Proof. unfold inb. destruct (shr_r mrs), (shr_s mrs); lra. Qed.
Lemma shr_1_inb x mrs : (0 <= shr_m mrs)%Z -> inb x mrs -> inb (x / 2) (shr_1 mrs) /\ (0 <= shr_m (shr_1 mrs))%Z.
Proof.
  destruct mrs as [m r s]. cbn [shr_m]. intros Hm H. unfold inb in H. cbn [shr_m shr_r shr_s] in H.
  destruct m as [|p|p]; [| |lia].
  - split; [|cbn; lia]. unfold inb. cbn [shr_1 shr_m shr_r shr_s]. destruct r, s; cbn [orb]; lra.
  - destruct p as [p|p|]; (split; [|cbn; lia]); unfold inb; cbn [shr_1 shr_m shr_r shr_s].
    + assert (E : IZR (Z.pos p~1) = 2 * IZR (Z.pos p) + 1) by (rewrite <- mult_IZR, <- plus_IZR; f_equal; lia).
      rewrite E in H. destruct r, s; cbn [orb]; lra.
    + assert (E : IZR (Z.pos p~0) = 2 * IZR (Z.pos p)) by (rewrite <- mult_IZR; f_equal; lia).
      rewrite E in H. destruct r, s; cbn [orb]; lra.
    + destruct r, s; cbn [orb]; lra.
Qed.
Lemma iter_inb p : forall x mrs, (0 <= shr_m mrs)%Z -> inb x mrs ->
  inb (x * pw (- Z.pos p)) (iter_pos shr_1 p mrs) /\ (0 <= shr_m (iter_pos shr_1 p mrs))%Z.
Proof.
  induction p as [p IH|p IH|]; intros x mrs Hm H; cbn [iter_pos].
  - destruct (shr_1_inb _ _ Hm H) as [H1 M1]. destruct (IH _ _ M1 H1) as [H2 M2]. destruct (IH _ _ M2 H2) as [H3 M3].
    split; [|exact M3]. replace (x * pw (- Z.pos p~1)) with (x / 2 * pw (- Z.pos p) * pw (- Z.pos p)); [exact H3|].
    replace (- Z.pos p~1)%Z with (-1 + (- Z.pos p + - Z.pos p))%Z by lia. rewrite !pw_add, pw_m1. field.
  - destruct (IH _ _ Hm H) as [H2 M2]. destruct (IH _ _ M2 H2) as [H3 M3].
    split; [|exact M3]. replace (x * pw (- Z.pos p~0)) with (x * pw (- Z.pos p) * pw (- Z.pos p)); [exact H3|].
    replace (- Z.pos p~0)%Z with (- Z.pos p + - Z.pos p)%Z by lia. rewrite !pw_add. ring.
  - destruct (shr_1_inb _ _ Hm H) as [H1 M1]. split; [|exact M1]. exact (eq_ind _ (fun z => inb (x * z) _) H1 _ (eq_sym pw_m1)).
Qed.
Lemma shr_inb x mrs e n : (0 <= shr_m mrs)%Z -> inb x mrs -> (0 <= n)%Z ->
  let '(mrs', e') := shr mrs e n in
  e' = (e + n)%Z /\ inb (x * pw (- n)) mrs' /\ (0 <= shr_m mrs')%Z.
Proof.
  intros Hm H Hn. destruct n as [|p|p]; cbn [shr]; [| |lia].
  - split; [lia|]. cbn. rewrite Rmult_1_r. split; assumption.
  - split; [reflexivity|]. exact (iter_inb p x mrs Hm H).
Qed.
(** rounding to nearest, ties to even *)
Lemma rne_half x mrs : inb x mrs -> Rabs (IZR (round_nearest_even (shr_m mrs) (loc_of_shr_record mrs)) - x) <= /2.
Proof.
  destruct mrs as [m r s]. unfold inb. cbn [shr_m shr_r shr_s]. intros H. apply Rabs_le.
  destruct r, s; cbn [loc_of_shr_record round_nearest_even]; [|destruct (Z.even m)| |]; rewrite ?plus_IZR; lra.
Qed.
Lemma rne_tie x mrs : inb x mrs -> let r := round_nearest_even (shr_m mrs) (loc_of_shr_record mrs) in Rabs (IZR r - x) = /2 -> Z.even r = true.
Proof.
  destruct mrs as [m r s]. unfold inb. cbn [shr_m shr_r shr_s].
  destruct r, s; cbn [loc_of_shr_record round_nearest_even]; intros H E.
  - exfalso. rewrite plus_IZR, Rabs_right in E by lra. lra.
  - destruct (Z.even m) eqn:Ev; [exact Ev|]. rewrite Z.even_add, Ev. reflexivity.
  - exfalso. rewrite Rabs_left1 in E by lra. lra.
  - exfalso. rewrite H, Rminus_diag_eq, Rabs_R0 in E by reflexivity. lra.
Qed.
Lemma rne_unique y r1 r2 : Rabs (IZR r1 - y) <= /2 -> (Rabs (IZR r1 - y) = /2 -> Z.even r1 = true) ->
  Rabs (IZR r2 - y) <= /2 -> (Rabs (IZR r2 - y) = /2 -> Z.even r2 = true) -> r1 = r2.
Proof.
  assert (G : forall r1 r2, Rabs (IZR r1 - y) <= /2 -> (Rabs (IZR r1 - y) = /2 -> Z.even r1 = true) ->
    Rabs (IZR r2 - y) <= /2 -> (Rabs (IZR r2 - y) = /2 -> Z.even r2 = true) -> (r1 < r2)%Z -> False).
  { clear. intros r1 r2 H1 E1 H2 E2 L. assert (A1 := Rle_abs (- (IZR r1 - y))). assert (A2 := Rle_abs (IZR r2 - y)). rewrite Rabs_Ropp in A1.
    assert (L1 : (r2 <= r1 + 1)%Z).
    { apply Z.lt_succ_r, lt_IZR. unfold Z.succ. rewrite !plus_IZR. lra. }
    assert (E : r2 = (r1 + 1)%Z) by lia. assert (ER : IZR r2 = IZR r1 + 1) by (rewrite E; apply plus_IZR).
    assert (Y : y = IZR r1 + /2) by lra.
    assert (X1 : Z.even r1 = true) by (apply E1; rewrite Rabs_left1; lra). assert (X2 : Z.even r2 = true) by (apply E2; rewrite Rabs_right; lra).
    rewrite E, Z.even_add, X1 in X2. discriminate. }
  intros. destruct (Z.lt_trichotomy r1 r2) as [L|[L|L]]; [exfalso; eapply (G r1 r2); eassumption|exact L|exfalso; eapply (G r2 r1); eassumption].
Qed.
Lemma rne_range mrs : let r := round_nearest_even (shr_m mrs) (loc_of_shr_record mrs) in (shr_m mrs <= r <= shr_m mrs + 1)%Z.
Proof. destruct mrs as [m [] []]; cbn; try destruct (Z.even m); lia. Qed.
Lemma inb_exact m : inb (IZR m) (shr_record_of_loc m loc_Exact).
Proof. reflexivity. Qed.
Lemma loc_m m l : shr_m (shr_record_of_loc m l) = m.
Proof. destruct l as [|[]]; reflexivity. Qed.

(** number of digits *)
Lemma digits_pos p : (2 ^ (Z.pos (digits2_pos p) - 1) <= Z.pos p < 2 ^ Z.pos (digits2_pos p))%Z.
Proof.
  assert (E : forall q, (2 ^ Z.pos (Pos.succ q) = 2 * 2 ^ Z.pos q)%Z) by (intros q; rewrite Pos2Z.inj_succ, Z.pow_succ_r; lia).
  assert (E1 : forall q, (2 ^ (Z.pos (Pos.succ q) - 1) = 2 * 2 ^ (Z.pos q - 1))%Z).
  { intros q. replace (Z.pos (Pos.succ q) - 1)%Z with (Z.succ (Z.pos q - 1)) by lia. rewrite Z.pow_succ_r; lia. }
  induction p as [p IH|p IH|]; cbn [digits2_pos]; [| |cbn; lia]; rewrite E, E1; lia.
Qed.
Lemma digits_bounds m : (0 <= m)%Z -> (0 <= Zdigits2 m)%Z /\ (m < 2 ^ Zdigits2 m)%Z /\ ((0 < m)%Z -> (1 <= Zdigits2 m /\ 2 ^ (Zdigits2 m - 1) <= m)%Z).
Proof.
  intros H. destruct m as [|p|p]; cbn [Zdigits2]; [split; [lia|split; [reflexivity|lia]]| |lia].
  destruct (digits_pos p). repeat split; lia.
Qed.
Lemma digits_le m k : (0 <= m < 2 ^ k)%Z -> (0 <= k)%Z -> (Zdigits2 m <= k)%Z.
Proof.
  intros [H0 H1] K. destruct (digits_bounds m H0) as (D0 & _ & D). destruct (Z.eq_dec m 0) as [->|N]; [cbn; lia|].
  destruct (D ltac:(lia)) as [D1 D2]. destruct (Z.le_gt_cases (Zdigits2 m) k) as [|G]; [assumption|exfalso].
  assert (2 ^ k <= 2 ^ (Zdigits2 m - 1))%Z by (apply Z.pow_le_mono_r; lia). lia.
Qed.
Lemma digits_ge m k : (2 ^ k <= m)%Z -> (0 <= k)%Z -> (k < Zdigits2 m)%Z.
Proof.
  intros H K. assert (0 < 2 ^ k)%Z by (apply Z.pow_pos_nonneg; lia).
  destruct (digits_bounds m ltac:(lia)) as (D0 & D1 & _). destruct (Z.lt_ge_cases k (Zdigits2 m)) as [|G]; [assumption|exfalso].
  assert (2 ^ Zdigits2 m <= 2 ^ k)%Z by (apply Z.pow_le_mono_r; lia). lia.
Qed.

Section Format.
Variables prec emax : Z.
Hypothesis Hprec : (1 < prec)%Z.
Hypothesis Hemax : (prec < emax)%Z.
Notation emin := (emin prec emax).
Notation fexp := (fexp prec emax).
(** value of a finite number *)
Definition FR (x : spec_float) : R :=
  match x with S754_finite s m e => (if s then -1 else 1) * (IZR (Z.pos m) * pw e) | _ => 0 end.
Definition fin (x : spec_float) : bool := match x with S754_zero _ | S754_finite _ _ _ => true | _ => false end.
Definition sgnR (s : bool) : R := if s then -1 else 1.
(** relative and absolute error *)
Definition uu : R := pw (- prec).
Definition eta : R := pw (emin - 1).
Lemma uu_pos : 0 < uu. Proof. apply pw_pos. Qed.
Lemma eta_pos : 0 < eta. Proof. apply pw_pos. Qed.
Lemma uu_le : uu <= /4.
Proof. unfold uu. replace (/4) with (pw (-2)) by (unfold pw; simpl; lra). apply pw_le. lia. Qed.

(** the reals that are numbers of the format *)
Definition isfl (g : R) : Prop := exists x, fin x = true /\ valid_binary prec emax x = true /\ FR x = g.

(** r 2^f is v rounded to nearest, ties to even *)
Definition rnd_at (v : R) (f r : Z) : Prop :=
  (emin <= f)%Z /\ v < pw (prec + f) /\ (f = emin \/ pw (prec - 1 + f) <= v) /\
  Rabs (IZR r - v * pw (- f)) <= /2 /\ (Rabs (IZR r - v * pw (- f)) = /2 -> Z.even r = true).
Definition cases (sx : bool) (Q : R) (z : spec_float) : Prop :=
  (z = S754_zero sx /\ Q = 0) \/
  (exists m e, z = S754_finite sx m e /\ bounded prec emax m e = true /\ Q = IZR (Z.pos m) * pw e) \/
  (z = S754_infinity sx /\ pw emax <= Q).
(** z is the number that v rounds to *)
Definition rnd (v : R) (z : spec_float) : Prop :=
  exists s w f r, 0 <= w /\ v = sgnR s * w /\ rnd_at w f r /\ cases s (IZR r * pw f) z.

(** the result of rounding: for |x| 2^ex, with the sign kept aside *)
Definition rounded (sx : bool) (v err : R) (z : spec_float) : Prop :=
  exists Q, 0 <= Q /\ Rabs (Q - v) <= err /\
    (forall g, isfl g -> Rabs (Q - v) <= Rabs (g - v)) /\
    (exists f r, Q = IZR r * pw f /\ rnd_at v f r) /\ 0 <= v /\ cases sx Q z.
Lemma valid_finite s m e : valid_binary prec emax (S754_finite s m e) = true ->
  (fexp (Zdigits2 (Z.pos m) + e) = e /\ emin <= e <= emax - prec)%Z.
Proof.
  cbn [valid_binary]. unfold bounded, canonical_mantissa. intros H. apply andb_prop in H as [H1 H2].
  apply Zeq_is_eq_bool in H1. apply Z.leb_le in H2. cbn [Zdigits2]. split; [exact H1|]. unfold SpecFloat.fexp in H1. lia.
Qed.
Lemma FR_finite_pos m e : 0 < IZR (Z.pos m) * pw e.
Proof. apply Rmult_lt_0_compat; [apply (IZR_lt 0); lia|apply pw_pos]. Qed.
Lemma isfl_opp g : isfl g -> isfl (- g).
Proof.
  intros (x & F & V & <-). exists (SFopp x). destruct x as [s|s| |s m e]; try discriminate; (split; [reflexivity|split; [exact V|]]); cbn [FR SFopp].
  - ring.
  - destruct s; cbn [negb]; ring.
Qed.
Lemma round_aux sx mx ex lx x err :
  (0 <= mx)%Z -> inb x (shr_record_of_loc mx lx) -> (ex <= fexp (Zdigits2 mx + ex))%Z ->
  pw (fexp (Zdigits2 mx + ex) - 1) <= err \/ (lx = loc_Exact /\ fexp (Zdigits2 mx + ex) = ex /\ 0 <= err) ->
  rounded sx (x * pw ex) err (binary_round_aux prec emax sx mx ex lx).
Proof.
  intros Hm Hx Hf Herr. unfold binary_round_aux, shr_fexp at 1.
  set (d := Zdigits2 mx) in *. set (f := fexp (d + ex)) in *.
  assert (Hf1 : (d + ex - prec <= f)%Z) by (unfold f, SpecFloat.fexp; lia).
  assert (Hf2 : (emin <= f)%Z) by (unfold f, SpecFloat.fexp; lia).
  assert (Hf3 : (f = emin \/ f = d + ex - prec)%Z) by (unfold f, SpecFloat.fexp; lia).
  pose proof (shr_inb x (shr_record_of_loc mx lx) ex (f - ex)) as S. rewrite loc_m in S. specialize (S Hm Hx ltac:(lia)).
  destruct (shr (shr_record_of_loc mx lx) ex (f - ex)) as [mrs' e'] eqn:ES. destruct S as (-> & Hi & Hm').
  replace (ex + (f - ex))%Z with f by lia. set (m' := shr_m mrs') in *.
  set (r := round_nearest_even m' (loc_of_shr_record mrs')). set (y := x * pw (- (f - ex))) in *.
  pose proof (rne_half y mrs' Hi) as Hr. fold m' r in Hr. pose proof (rne_range mrs') as Hrr. cbv zeta in Hrr. fold m' r in Hrr.
  pose proof (inb_floor y mrs' Hi) as Hy. fold m' in Hy.
  pose proof (inb_floor x _ Hx) as Hx'. rewrite loc_m in Hx'.
  destruct (digits_bounds mx Hm) as (D0 & D1 & D2). fold d in D0, D1, D2.
  assert (Yv : y * pw f = x * pw ex).
  { unfold y. rewrite Rmult_assoc, <- pw_add. do 2 f_equal. lia. }
  (* bounds of the mantissa *)
  assert (Yup : y < pw prec).
  { unfold y. apply Rlt_le_trans with (pw d * pw (- (f - ex))).
    - apply Rmult_lt_compat_r; [apply pw_pos|]. apply Rlt_le_trans with (IZR (mx + 1)); [rewrite plus_IZR; lra|].
      rewrite <- pw_Z by lia. apply IZR_le. lia.
    - rewrite <- pw_add. apply pw_le. lia. }
  assert (Hup : (m' < 2 ^ prec)%Z) by (apply lt_IZR; rewrite pw_Z by lia; lra).
  assert (Ylo : (emin < f)%Z -> pw (prec - 1) <= y).
  { intros G. destruct Hf3 as [|E]; [lia|].
    assert (P : (0 < mx)%Z).
    { destruct (Z.eq_dec mx 0) as [Z0|]; [|lia]. exfalso. unfold d in *. rewrite Z0 in *. cbn in E, Hf. lia. }
    destruct (D2 P) as [Dl Dm]. unfold y. replace (prec - 1)%Z with (d - 1 + - (f - ex))%Z by lia.
    rewrite pw_add. apply Rmult_le_compat_r; [left; apply pw_pos|]. rewrite <- pw_Z by lia.
    apply Rle_trans with (IZR mx); [apply IZR_le; exact Dm|lra]. }
  assert (Hlo : (emin < f)%Z -> (2 ^ (prec - 1) <= m')%Z).
  { intros G. apply Z.lt_succ_r. apply lt_IZR. unfold Z.succ. rewrite plus_IZR, pw_Z by lia. specialize (Ylo G). lra. }
  exists (IZR r * pw f).
  assert (R0 : (0 <= r)%Z) by lia.
  split; [apply Rmult_le_pos; [apply IZR_le; exact R0|left; apply pw_pos]|]. split.
  { destruct Herr as [Herr|(El & Ef & Herr)]; [|].
    2: { rewrite El, Ef, Z.sub_diag in ES. cbn [shr] in ES. injection ES as <-.
         unfold r, m'. cbn. rewrite <- (Rabs_R0) in Herr. replace (IZR mx * pw f - x * pw ex) with 0; [exact Herr|].
         rewrite Ef. rewrite El in Hx. cbn in Hx. rewrite Hx. ring. }
    eapply Rle_trans; [|exact Herr].
    rewrite <- Yv. replace (IZR r * pw f - y * pw f) with ((IZR r - y) * pw f) by ring.
    rewrite Rabs_mult, (Rabs_pos_eq (pw f)) by (left; apply pw_pos). rewrite pw_half.
    pose proof (pw_pos f). nra. }
  split.
  { (* no number of the format is closer to the value than the result *)
    assert (Pf := pw_pos f).
    assert (Hr1 := Rle_abs (IZR r - y)). assert (Hr2 := Rle_abs (- (IZR r - y))). rewrite Rabs_Ropp in Hr2.
    assert (Q0 : 0 <= IZR r * pw f) by (apply Rmult_le_pos; [apply IZR_le; exact R0|lra]).
    assert (V0 : 0 <= y * pw f).
    { rewrite Yv. apply Rmult_le_pos; [|left; apply pw_pos]. apply Rle_trans with (IZR mx); [apply (IZR_le 0); exact Hm|lra]. }
    rewrite <- Yv. replace (IZR r * pw f - y * pw f) with ((IZR r - y) * pw f) by ring.
    assert (NK : forall k : Z, Rabs ((IZR r - y) * pw f) <= Rabs (IZR k * pw f - y * pw f)).
    { intros k. replace (IZR k * pw f - y * pw f) with ((IZR k - y) * pw f) by ring. rewrite !Rabs_mult. apply Rmult_le_compat_r; [apply Rabs_pos|].
      destruct (Z.lt_trichotomy k r) as [L|[->|L]]; [|lra|].
      - assert (L' : IZR k + 1 <= IZR r) by (rewrite <- (plus_IZR k 1); apply IZR_le; lia).
        rewrite (Rabs_left1 (IZR k - y)) by lra. apply Rle_trans with (/2); lra.
      - assert (L' : IZR r + 1 <= IZR k) by (rewrite <- (plus_IZR r 1); apply IZR_le; lia).
        rewrite (Rabs_right (IZR k - y)) by lra. apply Rle_trans with (/2); lra. }
    assert (N0 := NK 0%Z). rewrite Rmult_0_l, (Rabs_left1 (0 - y * pw f)) in N0 by lra.
    intros g (x' & Fx' & Vx' & <-). destruct x' as [s'|s'| |s' m1 e1]; try discriminate.
    - cbn [FR]. rewrite (Rabs_left1 (0 - y * pw f)) by lra. exact N0.
    - pose proof (FR_finite_pos m1 e1) as Gp. destruct (valid_finite _ _ _ Vx') as [Cv Bv]. cbn [FR].
      set (g := IZR (Z.pos m1) * pw e1) in *.
      destruct s'; [rewrite (Rabs_left1 (-1 * g - y * pw f)) by lra; lra|]. rewrite Rmult_1_l.
      destruct (Z.le_gt_cases f e1) as [Le|Gt].
      + assert (Gv : g = IZR (Z.pos m1 * 2 ^ (e1 - f)) * pw f).
        { unfold g. rewrite mult_IZR, pw_Z, Rmult_assoc, <- pw_add by lia. do 2 f_equal. lia. }
        rewrite Gv. apply NK.
      + assert (Lo := Hlo ltac:(lia)). assert (Gl : g < pw (prec - 1) * pw f).
        { unfold g. destruct (digits_bounds (Z.pos m1) ltac:(lia)) as (X0 & X1 & _).
          apply Rlt_le_trans with (pw (Zdigits2 (Z.pos m1)) * pw e1).
          - apply Rmult_lt_compat_r; [apply pw_pos|]. rewrite <- pw_Z by lia. apply IZR_lt. exact X1.
          - rewrite <- !pw_add. apply pw_le. unfold SpecFloat.fexp in Cv. lia. }
        rewrite <- pw_Z in Gl by lia. apply IZR_le in Lo.
        assert (L1 : IZR (2 ^ (prec - 1)) * pw f <= y * pw f) by (apply Rmult_le_compat_r; lra).
        eapply Rle_trans; [apply (NK (2 ^ (prec - 1))%Z)|]. rewrite !Rabs_left1; lra. }
  split.
  { exists f, r. split; [reflexivity|]. assert (Pf := pw_pos f). rewrite <- Yv. unfold rnd_at. rewrite Rmult_assoc, <- pw_add, Z.add_opp_diag_r, pw_0, Rmult_1_r.
    split; [exact Hf2|]. split; [rewrite pw_add; apply Rmult_lt_compat_r; assumption|]. split.
    - destruct (Z.eq_dec f emin) as [E|N]; [left; exact E|right]. rewrite pw_add. apply Rmult_le_compat_r; [lra|]. apply Ylo. lia.
    - split; [exact Hr|]. exact (rne_tie y mrs' Hi). }
  split.
  { apply Rmult_le_pos; [|left; apply pw_pos]. apply Rle_trans with (IZR mx); [apply (IZR_le 0); exact Hm|lra]. }
  (* the second rounding is exact *)
  unfold shr_fexp, shr_record_of_loc.
  assert (P2 : (2 ^ prec = 2 * 2 ^ (prec - 1))%Z) by (replace prec with (Z.succ (prec - 1)) at 1 by lia; apply Z.pow_succ_r; lia).
  destruct (Z.eq_dec r (2 ^ prec)) as [Er|Nr].
  - assert (Dr : Zdigits2 r = (prec + 1)%Z).
    { assert (A := digits_ge r prec ltac:(lia) ltac:(lia)).
      assert (B := digits_le r (prec + 1)). rewrite Z.pow_add_r, Z.pow_1_r in B by lia. specialize (B ltac:(lia) ltac:(lia)). lia. }
    assert (Fr : (fexp (Zdigits2 r + f) - f = 1)%Z) by (rewrite Dr; unfold SpecFloat.fexp; lia).
    rewrite Fr. cbn [shr]. cbn [iter_pos].
    pose proof (shr_1_inb (IZR r) {| shr_m := r; shr_r := false; shr_s := false |} R0 eq_refl) as [S1 S2].
    assert (S3 : shr_m (shr_1 {| shr_m := r; shr_r := false; shr_s := false |}) = (2 ^ (prec - 1))%Z).
    { pose proof (inb_floor _ _ S1) as [L1 L2].
      replace (IZR r / 2) with (IZR (2 ^ (prec - 1))) in L1, L2 by (rewrite Er, P2, mult_IZR; lra).
      apply le_IZR in L1. rewrite <- (plus_IZR _ 1) in L2. apply lt_IZR in L2. lia. }
    rewrite S3. assert (Pp : (0 < 2 ^ (prec - 1))%Z) by (apply Z.pow_pos_nonneg; lia).
    destruct (2 ^ (prec - 1))%Z as [|q|q] eqn:Eq; [lia| |lia].
    assert (Qv : IZR r * pw f = IZR (Z.pos q) * pw (f + 1)) by (rewrite Er, P2, mult_IZR, pw_add, pw_1; ring).
    destruct (Z.leb_spec (f + 1) (emax - prec)) as [Le|Gt].
    + right. left. exists q, (f + 1)%Z. split; [reflexivity|]. split; [|exact Qv].
      unfold bounded, canonical_mantissa. apply andb_true_intro. split; [|apply Z.leb_le; exact Le].
      change (Z.pos (digits2_pos q)) with (Zdigits2 (Z.pos q)).
      assert (Dq : Zdigits2 (Z.pos q) = prec).
      { assert (A := digits_ge (Z.pos q) (prec - 1) ltac:(lia) ltac:(lia)). assert (B := digits_le (Z.pos q) prec ltac:(lia) ltac:(lia)). lia. }
      rewrite Dq. apply Zeq_is_eq_bool. unfold SpecFloat.fexp. lia.
    + right. right. split; [reflexivity|]. rewrite Er, pw_Z, <- pw_add by lia. apply pw_le. lia.
  - assert (Hr2 : (r < 2 ^ prec)%Z) by lia.
    assert (Dr := digits_le r prec ltac:(lia) ltac:(lia)).
    assert (Fr : (fexp (Zdigits2 r + f) - f <= 0)%Z) by (unfold SpecFloat.fexp; lia).
    assert (Sh : shr {| shr_m := r; shr_r := false; shr_s := false |} f (fexp (Zdigits2 r + f) - f) = ({| shr_m := r; shr_r := false; shr_s := false |}, f)).
    { unfold shr. destruct (fexp (Zdigits2 r + f) - f)%Z; [reflexivity|lia|reflexivity]. }
    rewrite Sh. cbn [shr_m]. destruct r as [|q|q] eqn:Eq; [left; split; [reflexivity|lra]| |lia].
    destruct (Z.leb_spec f (emax - prec)) as [Le|Gt].
    + right. left. exists q, f. split; [reflexivity|]. split; [|reflexivity].
      unfold bounded, canonical_mantissa. apply andb_true_intro. split; [|apply Z.leb_le; exact Le].
      change (Z.pos (digits2_pos q)) with (Zdigits2 (Z.pos q)). apply Zeq_is_eq_bool. unfold SpecFloat.fexp.
      destruct (Z.eq_dec f emin) as [E|N]; [lia|].
      assert (A := digits_ge (Z.pos q) (prec - 1) ltac:(specialize (Hlo ltac:(lia)); lia) ltac:(lia)). lia.
    + right. right. split; [reflexivity|].
      assert (A : (2 ^ (prec - 1) <= Z.pos q)%Z) by (assert (emin < f)%Z by (unfold SpecFloat.emin in *; lia); specialize (Hlo ltac:(lia)); lia).
      apply IZR_le in A. rewrite pw_Z in A by lia. apply Rle_trans with (pw (prec - 1) * pw f).
      * rewrite <- pw_add. apply pw_le. lia.
      * apply Rmult_le_compat_r; [left; apply pw_pos|exact A].
Qed.
Lemma err_bound mx ex lx x : (0 <= mx)%Z -> inb x (shr_record_of_loc mx lx) -> (ex <= fexp (Zdigits2 mx + ex))%Z ->
  pw (fexp (Zdigits2 mx + ex) - 1) <= Rmax (uu * (x * pw ex)) eta.
Proof.
  intros Hm Hx Hf. set (f := fexp (Zdigits2 mx + ex)) in *.
  destruct (Z.eq_dec f emin) as [->|N]; [apply Rmax_r|].
  assert (E : (f = Zdigits2 mx + ex - prec)%Z) by (unfold f, SpecFloat.fexp in *; lia).
  eapply Rle_trans; [|apply Rmax_l]. destruct (digits_bounds mx Hm) as (_ & _ & D).
  assert (P : (0 < mx)%Z) by (destruct (Z.eq_dec mx 0) as [Z0|]; [exfalso; rewrite Z0 in E; cbn in E; lia|lia]).
  destruct (D P) as [D1 D2]. pose proof (inb_floor _ _ Hx) as F. rewrite loc_m in F.
  replace (f - 1)%Z with (- prec + (Zdigits2 mx - 1 + ex))%Z by lia. rewrite pw_add. fold uu. rewrite pw_add.
  apply Rmult_le_compat_l; [left; apply uu_pos|]. apply Rmult_le_compat_r; [left; apply pw_pos|].
  rewrite <- pw_Z by lia. apply Rle_trans with (IZR mx); [apply IZR_le; exact D2|apply F].
Qed.

(** z is v up to err, or the infinity of the sign of v when v is beyond the largest number *)
Definition approx (z : spec_float) (v err : R) : Prop :=
  rnd v z /\
  ((fin z = true /\ valid_binary prec emax z = true /\ Rabs (FR z - v) <= err /\
   forall g, isfl g -> Rabs (FR z - v) <= Rabs (g - v)) \/
  (exists s, z = S754_infinity s /\ pw emax <= sgnR s * v + err /\ forall g, isfl g -> sgnR s * g < sgnR s * v)).
Lemma isfl_lt g : isfl g -> g < pw emax.
Proof.
  intros (x & F & V & <-). destruct x as [s|s| |s m e]; try discriminate; cbn [FR]; [apply pw_pos|].
  destruct (valid_finite _ _ _ V) as [C B]. pose proof (FR_finite_pos m e). pose proof (pw_pos emax).
  destruct (digits_bounds (Z.pos m) ltac:(lia)) as (X0 & X1 & _).
  assert (L : IZR (Z.pos m) * pw e < pw emax); [|destruct s; lra].
  apply Rlt_le_trans with (pw (Zdigits2 (Z.pos m)) * pw e).
  - apply Rmult_lt_compat_r; [apply pw_pos|]. rewrite <- pw_Z by lia. apply IZR_lt. exact X1.
  - rewrite <- pw_add. apply pw_le. unfold SpecFloat.fexp in C. lia.
Qed.
Lemma rounded_approx s v err z : rounded s v err z -> approx z (sgnR s * v) err.
Proof.
  intros (Q & Q0 & E & Mo & (f & r & EQ0 & Rn) & W0 & C).
  assert (Rd : rnd (sgnR s * v) z).
  { exists s, v, f, r. rewrite <- EQ0. split; [exact W0|]. split; [reflexivity|]. split; [exact Rn|exact C]. }
  assert (Fin : fin z = true -> valid_binary prec emax z = true -> FR z = sgnR s * Q -> approx z (sgnR s * v) err).
  { intros F V Ez. split; [exact Rd|]. left. split; [exact F|]. split; [exact V|]. rewrite Ez. split.
    - rewrite <- Rmult_minus_distr_l. destruct s; unfold sgnR; [|rewrite Rmult_1_l; exact E].
      replace (-1 * (Q - v)) with (- (Q - v)) by ring. rewrite Rabs_Ropp. exact E.
    - intros g G. destruct s; unfold sgnR.
      + replace (-1 * Q - -1 * v) with (- (Q - v)) by ring. replace (g - -1 * v) with (- (- g - v)) by ring. rewrite !Rabs_Ropp. apply Mo, isfl_opp, G.
      + rewrite !Rmult_1_l. apply Mo. exact G. }
  destruct C as [[-> EQ]|[(m & e & -> & B & EQ)|[-> I]]].
  - apply Fin; [reflexivity|reflexivity|]. cbn [FR]. rewrite EQ. ring.
  - apply Fin; [reflexivity|exact B|]. cbn [FR]. rewrite EQ. reflexivity.
  - split; [exact Rd|]. right. exists s. split; [reflexivity|]. replace (sgnR s * (sgnR s * v)) with v by (destruct s; unfold sgnR; ring).
    split; [pose proof (Rle_abs (Q - v)); lra|]. intros g G.
    assert (G' : isfl (sgnR s * g)) by (destruct s; unfold sgnR; [replace (-1 * g) with (- g) by ring; apply isfl_opp; exact G|rewrite Rmult_1_l; exact G]).
    apply Rnot_le_lt. intros H. pose proof (Mo _ G') as M. apply isfl_lt in G'. rewrite (Rabs_right (sgnR s * g - v)), Rabs_right in M by lra. lra.
Qed.
Lemma rnd_FR z : fin z = true -> valid_binary prec emax z = true -> rnd (FR z) z.
Proof.
  intros F V. destruct z as [s|s| |s m e]; try discriminate.
  - exists s, 0, emin, 0%Z. cbn [FR]. split; [lra|]. split; [ring|]. split; [|left; split; [reflexivity|ring]].
    split; [lia|]. split; [apply pw_pos|]. split; [left; reflexivity|]. rewrite Rmult_0_l, Rminus_0_r, Rabs_R0. split; [lra|]. intros; lra.
  - destruct (valid_finite _ _ _ V) as [C B]. exists s, (IZR (Z.pos m) * pw e), e, (Z.pos m). cbn [FR].
    pose proof (FR_finite_pos m e). split; [lra|]. split; [reflexivity|]. split; [|right; left; exists m, e; repeat split; exact V].
    destruct (digits_bounds (Z.pos m) ltac:(lia)) as (X0 & X1 & X2). destruct (X2 ltac:(lia)) as [X3 X4]. pose proof (pw_pos e). unfold SpecFloat.fexp in C.
    split; [lia|]. split; [|split; [|]].
    + rewrite pw_add. apply Rmult_lt_compat_r; [assumption|]. apply Rlt_le_trans with (pw (Zdigits2 (Z.pos m))); [|apply pw_le; lia].
      rewrite <- pw_Z by lia. apply IZR_lt. exact X1.
    + destruct (Z.eq_dec e emin) as [E|N]; [left; exact E|right]. rewrite pw_add. apply Rmult_le_compat_r; [lra|].
      apply Rle_trans with (pw (Zdigits2 (Z.pos m) - 1)); [apply pw_le; lia|]. rewrite <- pw_Z by lia. apply IZR_le. exact X4.
    + rewrite Rmult_assoc, <- pw_add, Z.add_opp_diag_r, pw_0, Rmult_1_r, Rminus_diag_eq, Rabs_R0 by reflexivity. split; [lra|]. intros; lra.
Qed.
Lemma exact_approx z v : fin z = true -> valid_binary prec emax z = true -> FR z = v -> forall err, 0 <= err -> approx z v err.
Proof.
  intros F V <- err H. split; [apply rnd_FR; assumption|]. left. split; [exact F|]. split; [exact V|]. rewrite Rminus_diag_eq, Rabs_R0 by reflexivity. split; [exact H|].
  intros g _. apply Rabs_pos.
Qed.
(** what a value rounds to is determined, up to the sign of a zero *)
Lemma rnd_at_unique v f1 r1 f2 r2 : rnd_at v f1 r1 -> rnd_at v f2 r2 -> f1 = f2 /\ r1 = r2.
Proof.
  intros (L1 & U1 & O1 & H1 & E1) (L2 & U2 & O2 & H2 & E2).
  assert (E : f1 = f2).
  { assert (G : forall f f' : Z, v < pw (prec + f) -> (f' = emin \/ pw (prec - 1 + f') <= v) -> (emin <= f)%Z -> (f' <= f)%Z).
    { intros f f' U [->|O] L; [exact L|]. destruct (Z.le_gt_cases f' f) as [X|X]; [exact X|exfalso].
      assert (pw (prec + f) <= pw (prec - 1 + f')) by (apply pw_le; lia). lra. }
    apply Z.le_antisymm; apply G; assumption. }
  split; [exact E|]. subst f2. exact (rne_unique _ _ _ H1 E1 H2 E2).
Qed.
Lemma exp_lt s1 s2 m1 e1 m2 e2 : valid_binary prec emax (S754_finite s1 m1 e1) = true -> valid_binary prec emax (S754_finite s2 m2 e2) = true ->
  (e1 < e2)%Z -> IZR (Z.pos m1) * pw e1 < IZR (Z.pos m2) * pw e2.
Proof.
  intros V1 V2 H. destruct (valid_finite _ _ _ V1) as [C1 B1]. destruct (valid_finite _ _ _ V2) as [C2 B2].
  unfold SpecFloat.fexp in C1, C2.
  destruct (digits_bounds (Z.pos m1) ltac:(lia)) as (X0 & X1 & _). destruct (digits_bounds (Z.pos m2) ltac:(lia)) as (_ & _ & Y). destruct (Y ltac:(lia)) as [Y1 Y2].
  apply Rlt_le_trans with (pw (Zdigits2 (Z.pos m1)) * pw e1).
  - apply Rmult_lt_compat_r; [apply pw_pos|]. rewrite <- pw_Z by lia. apply IZR_lt. exact X1.
  - apply Rle_trans with (pw (Zdigits2 (Z.pos m2) - 1) * pw e2).
    + rewrite <- !pw_add. apply pw_le. lia.
    + apply Rmult_le_compat_r; [left; apply pw_pos|]. rewrite <- pw_Z by lia. apply IZR_le. exact Y2.
Qed.
Lemma finite_inj s m1 e1 m2 e2 : bounded prec emax m1 e1 = true -> bounded prec emax m2 e2 = true ->
  IZR (Z.pos m1) * pw e1 = IZR (Z.pos m2) * pw e2 -> S754_finite s m1 e1 = S754_finite s m2 e2.
Proof.
  intros B1 B2 E. destruct (Z.lt_trichotomy e1 e2) as [L|[->|L]].
  - pose proof (exp_lt s s m1 e1 m2 e2 B1 B2 L). lra.
  - assert (X : IZR (Z.pos m1) = IZR (Z.pos m2)) by (pose proof (pw_pos e2); apply (Rmult_eq_reg_r (pw e2)); lra).
    apply eq_IZR in X. injection X as ->. reflexivity.
  - pose proof (exp_lt s s m2 e2 m1 e1 B2 B1 L). lra.
Qed.
Definition same (z1 z2 : spec_float) : Prop := z1 = z2 \/ exists s1 s2, z1 = S754_zero s1 /\ z2 = S754_zero s2.
Lemma cases_same s Q z1 z2 : cases s Q z1 -> cases s Q z2 -> z1 = z2.
Proof.
  assert (Lt : forall m e, bounded prec emax m e = true -> IZR (Z.pos m) * pw e < pw emax).
  { intros m e B. replace (IZR (Z.pos m) * pw e) with (FR (S754_finite false m e)) by (cbn [FR]; ring). apply isfl_lt. exists (S754_finite false m e). repeat split. exact B. }
  pose proof (pw_pos emax) as Pe.
  intros [[-> E1]|[(m1 & e1 & -> & B1 & E1)|[-> E1]]] [[-> E2]|[(m2 & e2 & -> & B2 & E2)|[-> E2]]].
  - reflexivity.
  - pose proof (FR_finite_pos m2 e2). lra.
  - lra.
  - pose proof (FR_finite_pos m1 e1). lra.
  - apply finite_inj; [exact B1|exact B2|]. rewrite <- E1, <- E2. reflexivity.
  - specialize (Lt _ _ B1). lra.
  - lra.
  - specialize (Lt _ _ B2). lra.
  - reflexivity.
Qed.
Theorem rnd_unique v z1 z2 : rnd v z1 -> rnd v z2 -> same z1 z2.
Proof.
  intros (s1 & w1 & f1 & r1 & W1 & E1 & R1 & C1) (s2 & w2 & f2 & r2 & W2 & E2 & R2 & C2).
  assert (Ew : w1 = w2) by (destruct s1, s2; unfold sgnR in *; lra). subst w2.
  destruct (rnd_at_unique _ _ _ _ _ R1 R2) as [<- <-].
  destruct (Req_dec w1 0) as [Z|N].
  - right. exists s1, s2. assert (Q0 : IZR r1 * pw f1 = 0).
    { destruct R1 as (_ & _ & _ & H & _). rewrite Z, Rmult_0_l, Rminus_0_r in H. assert (r1 = 0%Z) as ->; [|ring].
      assert (A := Rle_abs (IZR r1)). assert (B := Rle_abs (- IZR r1)). rewrite Rabs_Ropp in B.
      assert (r1 < 1)%Z by (apply lt_IZR; lra). assert (-1 < r1)%Z by (apply lt_IZR; lra). lia. }
    rewrite Q0 in C1, C2. pose proof (pw_pos emax).
    split; [destruct C1 as [[-> _]|[(m & e & _ & _ & X)|[_ X]]]|destruct C2 as [[-> _]|[(m & e & _ & _ & X)|[_ X]]]]; try reflexivity; try lra; pose proof (FR_finite_pos m e); lra.
  - left. assert (s1 = s2) as <- by (destruct s1, s2; unfold sgnR in *; try reflexivity; lra). exact (cases_same _ _ _ _ C1 C2).
Qed.
(** rounding is monotone with respect to the numbers of the format *)
Lemma near_le w v g : (Rabs (w - v) <= Rabs (g - v)) -> (g <= v -> g <= w) /\ (v <= g -> w <= g).
Proof.
  intros H. split; intros G.
  - rewrite (Rabs_left1 (g - v)) in H by lra. pose proof (Rle_abs (- (w - v))) as X. rewrite Rabs_Ropp in X. lra.
  - rewrite (Rabs_right (g - v)) in H by lra. pose proof (Rle_abs (w - v)) as X. lra.
Qed.
Lemma approx_le z v err g : approx z v err -> fin z = true -> isfl g -> (g <= v -> g <= FR z) /\ (v <= g -> FR z <= g).
Proof.
  intros [_ [(_ & _ & _ & N)|(s & -> & _)]] F G; [|discriminate]. apply near_le, N, G.
Qed.
Lemma approx_exact z v err : approx z v err -> isfl v -> fin z = true /\ FR z = v.
Proof.
  intros [_ [(F & _ & _ & N)|(s & -> & _ & N)]] G.
  - split; [exact F|]. specialize (N v G). replace (v - v) with 0 in N by ring. rewrite Rabs_R0 in N. assert (X := Rabs_pos (FR z - v)).
    apply Rminus_diag_uniq. destruct (Req_dec (FR z - v) 0) as [E|E]; [exact E|]. apply Rabs_pos_lt in E. lra.
  - specialize (N v G). lra.
Qed.
Lemma digits_mul a b : (Zdigits2 (Z.pos a) + Zdigits2 (Z.pos b) - 1 <= Zdigits2 (Z.pos (a * b)))%Z.
Proof.
  destruct (digits_bounds (Z.pos a) ltac:(lia)) as (_ & _ & A). destruct (A ltac:(lia)) as [A1 A2].
  destruct (digits_bounds (Z.pos b) ltac:(lia)) as (_ & _ & B). destruct (B ltac:(lia)) as [B1 B2].
  pose proof (digits_ge (Z.pos (a * b)) (Zdigits2 (Z.pos a) - 1 + (Zdigits2 (Z.pos b) - 1))) as G.
  rewrite Z.pow_add_r in G by lia. rewrite Pos2Z.inj_mul in *. assert (X : (2 ^ (Zdigits2 (Z.pos a) - 1) * 2 ^ (Zdigits2 (Z.pos b) - 1) <= Z.pos a * Z.pos b)%Z).
  { apply Z.mul_le_mono_nonneg; try lia; apply Z.pow_nonneg; lia. }
  specialize (G X ltac:(lia)). lia.
Qed.
(** multiplication *)
Theorem mul_correct x y : fin x = true -> fin y = true -> valid_binary prec emax x = true -> valid_binary prec emax y = true ->
  approx (SFmul prec emax x y) (FR x * FR y) (Rmax (uu * Rabs (FR x * FR y)) eta).
Proof.
  intros Fx Fy Vx Vy.
  assert (Z : forall s v, v = 0 -> approx (S754_zero s) v (Rmax (uu * Rabs v) eta)).
  { intros s v ->. apply exact_approx; [reflexivity|reflexivity|reflexivity|]. rewrite Rabs_R0, Rmult_0_r. eapply Rle_trans; [left; apply eta_pos|apply Rmax_r]. }
  destruct x as [sx|sx| |sx mx ex], y as [sy|sy| |sy my ey]; try discriminate; cbn [SFmul]; try (apply Z; cbn; ring).
  destruct (valid_finite _ _ _ Vx) as [Cx Bx]. destruct (valid_finite _ _ _ Vy) as [Cy By].
  set (v := IZR (Z.pos (mx * my)) * pw (ex + ey)).
  assert (V : FR (S754_finite sx mx ex) * FR (S754_finite sy my ey) = sgnR (xorb sx sy) * v).
  { unfold v. cbn [FR]. rewrite Pos2Z.inj_mul, mult_IZR, pw_add. destruct sx, sy; unfold sgnR; cbn; ring. }
  assert (V0 : 0 <= v) by (apply Rmult_le_pos; [apply IZR_le; lia|left; apply pw_pos]).
  assert (Va : Rabs (sgnR (xorb sx sy) * v) = v).
  { rewrite Rabs_mult, (Rabs_pos_eq v V0). destruct (xorb sx sy); unfold sgnR; rewrite ?Rabs_Ropp, ?Rabs_R1;
    [replace (Rabs (-1)) with 1 by (rewrite <- Rabs_Ropp; replace (- -1) with 1 by ring; symmetry; apply Rabs_R1)|]; ring. }
  rewrite V, Va. apply rounded_approx.
  assert (K : (ex + ey <= fexp (Zdigits2 (Z.pos (mx * my)) + (ex + ey)))%Z).
  { pose proof (digits_mul mx my). unfold SpecFloat.fexp, SpecFloat.emin in *.
    destruct (digits_bounds (Z.pos mx) ltac:(lia)) as (_ & _ & A). destruct (A ltac:(lia)) as [A1 _].
    destruct (digits_bounds (Z.pos my) ltac:(lia)) as (_ & _ & B). destruct (B ltac:(lia)) as [B1 _]. lia. }
  apply round_aux; [lia|apply inb_exact|exact K|]. left. apply (err_bound _ _ loc_Exact); [lia|apply inb_exact|exact K].
Qed.

(** rounding of an integer times a power of two *)
Lemma digits_shift n p : Zdigits2 (Z.pos (shift_pos n p)) = (Zdigits2 (Z.pos p) + Z.pos n)%Z.
Proof.
  assert (E : Z.pos (shift_pos n p) = (2 ^ Z.pos n * Z.pos p)%Z) by (rewrite shift_pos_correct; reflexivity).
  rewrite E. destruct (digits_bounds (Z.pos p) ltac:(lia)) as (_ & D1 & D). destruct (D ltac:(lia)) as [D2 D3].
  assert (P : (0 < 2 ^ Z.pos n)%Z) by (apply Z.pow_pos_nonneg; lia).
  pose proof (digits_ge (2 ^ Z.pos n * Z.pos p) (Z.pos n + (Zdigits2 (Z.pos p) - 1))) as G. rewrite Z.pow_add_r in G by lia. specialize (G ltac:(nia) ltac:(lia)).
  pose proof (digits_le (2 ^ Z.pos n * Z.pos p) (Z.pos n + Zdigits2 (Z.pos p))) as L. rewrite Z.pow_add_r in L by lia. specialize (L ltac:(nia) ltac:(lia)). lia.
Qed.
Lemma shl_align_val m e e' : (e' <= e)%Z -> IZR (Z.pos (fst (shl_align m e e'))) * pw e' = IZR (Z.pos m) * pw e.
Proof.
  intros H. unfold shl_align. destruct (e' - e)%Z as [|p|p] eqn:E; [|lia|]; cbn [fst].
  - replace e' with e by lia. reflexivity.
  - rewrite shift_pos_correct, mult_IZR. change (Z.pow_pos 2 p) with (2 ^ Z.pos p)%Z. rewrite pw_Z by lia.
    replace e with (Z.pos p + e')%Z by lia. rewrite pw_add. ring.
Qed.
Lemma round_int s m e err : let v := IZR (Z.pos m) * pw e in
  pw (fexp (Zdigits2 (Z.pos m) + e) - 1) <= err \/ ((fexp (Zdigits2 (Z.pos m) + e) <= e)%Z /\ 0 <= err) ->
  approx (binary_round prec emax s m e) (sgnR s * v) err.
Proof.
  intros v H. apply rounded_approx. unfold binary_round. change (Z.pos (digits2_pos m)) with (Zdigits2 (Z.pos m)).
  set (f := fexp (Zdigits2 (Z.pos m) + e)) in *. unfold shl_align.
  destruct (f - e)%Z as [|p|p] eqn:E.
  - unfold v. apply round_aux; [lia|apply inb_exact|fold f; lia|]. fold f. destruct H as [H|[H1 H2]]; [left; exact H|right]. repeat split; [lia|exact H2].
  - unfold v. apply round_aux; [lia|apply inb_exact|fold f; lia|]. fold f. destruct H as [H|[H1 H2]]; [left; exact H|lia].
  - assert (D : (Zdigits2 (Z.pos (shift_pos p m)) + f = Zdigits2 (Z.pos m) + e)%Z) by (rewrite digits_shift; lia).
    replace v with (IZR (Z.pos (shift_pos p m)) * pw f).
    + apply round_aux; [lia|apply inb_exact|rewrite D; fold f; lia|]. rewrite D. fold f.
      destruct H as [H|[H1 H2]]; [left; exact H|right]. repeat split. exact H2.
    + unfold v. rewrite shift_pos_correct, mult_IZR. change (Z.pow_pos 2 p) with (2 ^ Z.pos p)%Z. rewrite pw_Z by lia.
      replace e with (Z.pos p + f)%Z by lia. rewrite pw_add. ring.
Qed.
(** integers times a power of two that is not below the smallest one: relative error only *)
Lemma normalize_correct m e z : (emin <= e)%Z ->
  approx (binary_normalize prec emax m e z) (IZR m * pw e) (uu * Rabs (IZR m * pw e)).
Proof.
  intros He.
  assert (G : forall p, pw (fexp (Zdigits2 (Z.pos p) + e) - 1) <= uu * (IZR (Z.pos p) * pw e) \/
    ((fexp (Zdigits2 (Z.pos p) + e) <= e)%Z /\ 0 <= uu * (IZR (Z.pos p) * pw e))).
  { intros p. destruct (Z.le_gt_cases (fexp (Zdigits2 (Z.pos p) + e)) e) as [L|L].
    - right. split; [exact L|]. apply Rmult_le_pos; [left; apply uu_pos|]. apply Rmult_le_pos; [apply IZR_le; lia|left; apply pw_pos].
    - left. assert (E : (fexp (Zdigits2 (Z.pos p) + e) = Zdigits2 (Z.pos p) + e - prec)%Z) by (unfold SpecFloat.fexp in *; lia).
      rewrite E. destruct (digits_bounds (Z.pos p) ltac:(lia)) as (_ & _ & D). destruct (D ltac:(lia)) as [D2 D3].
      replace (Zdigits2 (Z.pos p) + e - prec - 1)%Z with (- prec + (Zdigits2 (Z.pos p) - 1 + e))%Z by lia. rewrite pw_add. fold uu. rewrite pw_add.
      apply Rmult_le_compat_l; [left; apply uu_pos|]. apply Rmult_le_compat_r; [left; apply pw_pos|].
      rewrite <- pw_Z by lia. apply IZR_le. exact D3. }
  assert (P0 : forall p, 0 <= IZR (Z.pos p) * pw e) by (intros p; apply Rmult_le_pos; [apply IZR_le; lia|left; apply pw_pos]).
  destruct m as [|p|p]; cbn [binary_normalize].
  - apply exact_approx; [reflexivity|reflexivity|cbn [FR]; ring|]. rewrite Rmult_0_l, Rabs_R0. lra.
  - rewrite (Rabs_pos_eq _ (P0 p)). pose proof (round_int false p e (uu * (IZR (Z.pos p) * pw e)) (G p)) as R.
    unfold sgnR in R. rewrite Rmult_1_l in R. exact R.
  - change (Z.neg p) with (- Z.pos p)%Z. rewrite opp_IZR.
    replace (- IZR (Z.pos p) * pw e) with (-1 * (IZR (Z.pos p) * pw e)) by ring.
    replace (Rabs (-1 * (IZR (Z.pos p) * pw e))) with (IZR (Z.pos p) * pw e).
    + exact (round_int true p e (uu * (IZR (Z.pos p) * pw e)) (G p)).
    + rewrite Rabs_mult, (Rabs_pos_eq _ (P0 p)). replace (Rabs (-1)) with 1; [ring|]. rewrite <- Rabs_Ropp. replace (- -1) with 1 by ring. symmetry; apply Rabs_R1.
Qed.
Lemma uabs v : 0 <= uu * Rabs v.
Proof. apply Rmult_le_pos; [left; apply uu_pos|apply Rabs_pos]. Qed.
(** addition and subtraction: no underflow *)
Theorem add_correct x y : fin x = true -> fin y = true -> valid_binary prec emax x = true -> valid_binary prec emax y = true ->
  approx (SFadd prec emax x y) (FR x + FR y) (uu * Rabs (FR x + FR y)).
Proof.
  intros Fx Fy Vx Vy.
  destruct x as [sx|sx| |sx mx ex], y as [sy|sy| |sy my ey]; try discriminate; cbn [SFadd].
  - destruct (Bool.eqb sx sy); apply exact_approx; try reflexivity; try apply uabs; cbn; ring.
  - apply exact_approx; [reflexivity|exact Vy|cbn [FR]; ring|apply uabs].
  - apply exact_approx; [reflexivity|exact Vx|cbn [FR]; ring|apply uabs].
  - destruct (valid_finite _ _ _ Vx) as [Cx Bx]. destruct (valid_finite _ _ _ Vy) as [Cy By].
    set (ez := Z.min ex ey). set (M := (_ + _)%Z).
    assert (V : FR (S754_finite sx mx ex) + FR (S754_finite sy my ey) = IZR M * pw ez).
    { unfold M. rewrite plus_IZR, Rmult_plus_distr_r.
      assert (C : forall s p, IZR (cond_Zopp s (Z.pos p)) = sgnR s * IZR (Z.pos p)).
      { intros [] p; unfold cond_Zopp, sgnR; [rewrite opp_IZR|]; ring. }
      rewrite !C, !Rmult_assoc, !shl_align_val by lia. reflexivity. }
    rewrite V. apply normalize_correct. lia.
Qed.
Lemma sub_opp x y : SFsub prec emax x y = SFadd prec emax x (SFopp y).
Proof.
  destruct x as [sx|sx| |sx mx ex], y as [sy|sy| |sy my ey]; try reflexivity.
  cbn [SFsub SFadd SFopp]. f_equal. destruct sy; unfold cond_Zopp; cbn [negb]; lia.
Qed.
Lemma FR_opp y : FR (SFopp y) = - FR y.
Proof. destruct y as [s|s| |s m e]; cbn [FR SFopp]; try ring. destruct s; cbn [negb]; ring. Qed.
Lemma fin_opp y : fin (SFopp y) = fin y. Proof. destruct y; reflexivity. Qed.
Lemma valid_opp y : valid_binary prec emax (SFopp y) = valid_binary prec emax y. Proof. destruct y; reflexivity. Qed.
Theorem sub_correct x y : fin x = true -> fin y = true -> valid_binary prec emax x = true -> valid_binary prec emax y = true ->
  approx (SFsub prec emax x y) (FR x - FR y) (uu * Rabs (FR x - FR y)).
Proof.
  intros Fx Fy Vx Vy. rewrite sub_opp. unfold Rminus. rewrite <- FR_opp.
  apply add_correct; [exact Fx|rewrite fin_opp; exact Fy|exact Vx|rewrite valid_opp; exact Vy].
Qed.

(** division *)
Lemma location_inb n r q : (0 < n)%Z -> (0 <= r < n)%Z -> inb (IZR q + IZR r / IZR n) (shr_record_of_loc q (new_location n r)).
Proof.
  intros Hn Hr. assert (Pn : 0 < IZR n) by (apply (IZR_lt 0); lia).
  assert (C : forall a b, (a < b)%Z -> IZR a < IZR b) by (intros; apply IZR_lt; assumption).
  assert (T : forall c, IZR r < c * IZR n -> IZR r / IZR n < c) by (intros c H; apply (Rmult_lt_reg_r (IZR n)); [exact Pn|]; unfold Rdiv; rewrite Rmult_assoc, Rinv_l; lra).
  assert (T' : forall c, c * IZR n < IZR r -> c < IZR r / IZR n) by (intros c H; apply (Rmult_lt_reg_r (IZR n)); [exact Pn|]; unfold Rdiv; rewrite Rmult_assoc, Rinv_l; lra).
  assert (T1 : IZR r / IZR n < 1) by (apply T; specialize (C r n ltac:(lia)); lra).
  assert (T0 : (0 < r)%Z -> 0 < IZR r / IZR n) by (intros H; apply T'; specialize (C 0%Z r H); lra).
  assert (Z0 : r = 0%Z -> inb (IZR q + IZR r / IZR n) (shr_record_of_loc q loc_Exact)).
  { intros ->. unfold inb. cbn. unfold Rdiv. rewrite Rmult_0_l. ring. }
  assert (L : (0 < r)%Z -> (2 * r < n)%Z -> inb (IZR q + IZR r / IZR n) (shr_record_of_loc q (loc_Inexact Lt))).
  { intros H H2. unfold inb. cbn. specialize (T0 H). specialize (C _ _ H2). rewrite mult_IZR in C. assert (X := T (/2) ltac:(lra)). lra. }
  assert (G : (n < 2 * r)%Z -> inb (IZR q + IZR r / IZR n) (shr_record_of_loc q (loc_Inexact Gt))).
  { intros H2. unfold inb. cbn. specialize (C _ _ H2). rewrite mult_IZR in C. assert (X := T' (/2) ltac:(lra)). lra. }
  assert (Eq : (2 * r = n)%Z -> inb (IZR q + IZR r / IZR n) (shr_record_of_loc q (loc_Inexact Eq))).
  { intros H2. assert (E : IZR n = 2 * IZR r) by (rewrite <- H2; apply mult_IZR). unfold inb. cbn. rewrite E. field. lra. }
  unfold new_location. destruct (Z.even n) eqn:Ev.
  - unfold new_location_even. destruct (Zeq_bool r 0) eqn:E; [apply Z0, Zeq_is_eq_bool; exact E|].
    apply Zeq_bool_neq in E. destruct (Z.compare_spec (2 * r) n) as [C1|C1|C1]; [apply Eq|apply L|apply G]; lia.
  - unfold new_location_odd. destruct (Zeq_bool r 0) eqn:E; [apply Z0, Zeq_is_eq_bool; exact E|].
    apply Zeq_bool_neq in E. assert (Od : Z.odd n = true) by (rewrite <- Z.negb_even, Ev; reflexivity). apply Z.odd_spec in Od as [h Hh].
    destruct (Z.compare_spec (2 * r + 1) n) as [C1|C1|C1]; [apply L|apply L|apply G]; lia.
Qed.
Lemma fexp_mono a b : (a <= b)%Z -> (fexp a <= fexp b)%Z.
Proof. unfold SpecFloat.fexp. lia. Qed.
Lemma sgn_abs s v : 0 <= v -> Rabs (sgnR s * v) = v.
Proof.
  intros H. rewrite Rabs_mult, (Rabs_pos_eq v H). destruct s; unfold sgnR; [|rewrite Rabs_R1; ring].
  replace (Rabs (-1)) with 1; [ring|]. rewrite <- Rabs_Ropp. replace (- -1) with 1 by ring. symmetry; apply Rabs_R1.
Qed.
Theorem div_correct x y : fin x = true -> fin y = true -> valid_binary prec emax x = true -> valid_binary prec emax y = true -> FR y <> 0 ->
  approx (SFdiv prec emax x y) (FR x / FR y) (Rmax (uu * Rabs (FR x / FR y)) eta).
Proof.
  intros Fx Fy Vx Vy Ny.
  destruct x as [sx|sx| |sx mx ex], y as [sy|sy| |sy my ey]; try discriminate; try (exfalso; exact (Ny eq_refl)); cbn [SFdiv].
  - apply exact_approx; [reflexivity|reflexivity|cbn [FR]; unfold Rdiv; ring|]. eapply Rle_trans; [apply uabs|apply Rmax_l].
  - unfold SFdiv_core_binary. set (d1 := Zdigits2 (Z.pos mx)). set (d2 := Zdigits2 (Z.pos my)).
    set (e' := Z.min (fexp (d1 + ex - (d2 + ey))) (ex - ey)). set (s := (ex - ey - e')%Z).
    assert (Hs : (0 <= s)%Z) by (unfold s, e'; lia).
    assert (Em : match s with Z.pos _ => Z.shiftl (Z.pos mx) s | Z0 => Z.pos mx | Z.neg _ => Z0 end = (Z.pos mx * 2 ^ s)%Z).
    { destruct s as [|p|p]; [cbn; lia|apply Z.shiftl_mul_pow2; lia|lia]. }
    rewrite Em. set (m' := (Z.pos mx * 2 ^ s)%Z).
    pose proof (Z_div_mod m' (Z.pos my) ltac:(lia)) as DM. destruct (Z.div_eucl m' (Z.pos my)) as [q r]. destruct DM as [DM Hr].
    assert (Hm' : (0 < m')%Z) by (unfold m'; apply Z.mul_pos_pos; [lia|apply Z.pow_pos_nonneg; lia]).
    assert (Hq : (0 <= q)%Z) by nia.
    set (v := IZR (Z.pos mx) * pw ex / (IZR (Z.pos my) * pw ey)).
    assert (Pmy : 0 < IZR (Z.pos my)) by (apply (IZR_lt 0); lia). assert (Pe := pw_pos ey).
    assert (V : FR (S754_finite sx mx ex) / FR (S754_finite sy my ey) = sgnR (xorb sx sy) * v).
    { unfold v. cbn [FR]. destruct sx, sy; unfold sgnR; cbn [xorb]; field; lra. }
    assert (V0 : 0 <= v).
    { unfold v. apply Rmult_le_pos; [apply Rmult_le_pos; [apply IZR_le; lia|left; apply pw_pos]|]. left. apply Rinv_0_lt_compat. nra. }
    assert (Vx' : v = (IZR q + IZR r / IZR (Z.pos my)) * pw e').
    { replace (IZR q + IZR r / IZR (Z.pos my)) with (IZR m' / IZR (Z.pos my)) by (rewrite DM, plus_IZR, mult_IZR; field; lra).
      unfold v, m'. rewrite mult_IZR, pw_Z by exact Hs. replace ex with (s + e' + ey)%Z by (unfold s; lia). rewrite !pw_add. field. lra. }
    rewrite V, sgn_abs by exact V0. apply rounded_approx. rewrite Vx'.
    assert (K : (e' <= fexp (Zdigits2 q + e'))%Z).
    { apply Z.le_trans with (fexp (d1 + ex - (d2 + ey))); [unfold e'; lia|]. apply fexp_mono.
      assert (X : (d1 + s - d2 <= Zdigits2 q)%Z); [|unfold s in X; lia].
      destruct (Z.le_gt_cases (d1 + s - d2) 0) as [L|L]; [destruct (digits_bounds q Hq); lia|].
      destruct (digits_bounds (Z.pos mx) ltac:(lia)) as (_ & _ & A). destruct (A ltac:(lia)) as [A1 A2]. fold d1 in A1, A2.
      destruct (digits_bounds (Z.pos my) ltac:(lia)) as (B0 & B1 & _). fold d2 in B0, B1.
      assert (Y : (2 ^ (d1 + s - d2 - 1) <= q)%Z).
      { apply Z.lt_succ_r. apply (Z.mul_lt_mono_pos_r (Z.pos my)); [lia|].
        apply Z.le_lt_trans with m'; [|nia]. apply Z.le_trans with (2 ^ (d1 + s - d2 - 1) * 2 ^ d2)%Z.
        - apply Z.mul_le_mono_nonneg_l; [apply Z.pow_nonneg; lia|lia].
        - rewrite <- Z.pow_add_r by lia. replace (d1 + s - d2 - 1 + d2)%Z with (d1 - 1 + s)%Z by lia. rewrite Z.pow_add_r by lia.
          unfold m'. apply Z.mul_le_mono_nonneg_r; [apply Z.pow_nonneg; lia|exact A2]. }
      pose proof (digits_ge q (d1 + s - d2 - 1) Y ltac:(lia)). lia. }
    apply round_aux; [exact Hq|apply location_inb; [lia|lia]|exact K|]. left.
    apply (err_bound q e' (new_location (Z.pos my) r)); [exact Hq|apply location_inb; lia|exact K].
Qed.

(** square root *)
Theorem sqrt_correct x : (prec + 3 <= emax)%Z -> fin x = true -> valid_binary prec emax x = true -> 0 <= FR x ->
  fin (SFsqrt prec emax x) = true /\ approx (SFsqrt prec emax x) (sqrt (FR x)) (uu * sqrt (FR x)).
Proof.
  intros He3 Fx Vx Hx.
  destruct x as [sx|sx| |sx mx ex]; try discriminate.
  - split; [reflexivity|]. apply exact_approx; [reflexivity|reflexivity|cbn [FR SFsqrt]; rewrite sqrt_0; reflexivity|].
    apply Rmult_le_pos; [left; apply uu_pos|apply sqrt_pos].
  - assert (Pmx : 0 < IZR (Z.pos mx)) by (apply (IZR_lt 0); lia). assert (Pex := pw_pos ex).
    destruct sx; [exfalso; cbn [FR] in Hx; nra|]. cbn [SFsqrt].
    destruct (valid_finite _ _ _ Vx) as [Cx Bx].
    unfold SFsqrt_core_binary. set (d := Zdigits2 (Z.pos mx)) in *.
    set (e' := Z.min (fexp (Z.div2 (d + ex + 1))) (Z.div2 ex)). set (s := (ex - 2 * e')%Z).
    assert (D2 : forall z, (2 * Z.div2 z <= z <= 2 * Z.div2 z + 1)%Z) by (intros z; pose proof (Z.div2_odd z); destruct (Z.odd z); cbn [Z.b2z] in *; lia).
    assert (Hs : (0 <= s)%Z) by (unfold s, e'; specialize (D2 ex); lia).
    assert (Em : match s with Z.pos _ => Z.shiftl (Z.pos mx) s | Z0 => Z.pos mx | Z.neg _ => Z0 end = (Z.pos mx * 2 ^ s)%Z).
    { destruct s as [|p|p]; [cbn; lia|apply Z.shiftl_mul_pow2; lia|lia]. }
    rewrite Em. set (m' := (Z.pos mx * 2 ^ s)%Z).
    assert (Hm' : (0 < m')%Z) by (unfold m'; apply Z.mul_pos_pos; [lia|apply Z.pow_pos_nonneg; lia]).
    pose proof (Z.sqrtrem_spec m' ltac:(lia)) as DM. destruct (Z.sqrtrem m') as [q r]. destruct DM as [DM Hr].
    assert (Hq : (0 < q)%Z) by nia.
    set (v := sqrt (IZR m')).
    assert (Pm : 0 < IZR m') by (apply (IZR_lt 0); exact Hm').
    assert (Vv : v * v = IZR m') by (apply sqrt_sqrt; lra). assert (Vp : 0 < v) by (apply sqrt_lt_R0; exact Pm).
    assert (Vm : IZR m' = IZR q * IZR q + IZR r) by (rewrite <- mult_IZR, <- plus_IZR; f_equal; exact DM).
    assert (Rr : 0 <= IZR r <= 2 * IZR q) by (split; [apply (IZR_le 0); lia|rewrite <- mult_IZR; apply IZR_le; lia]).
    assert (Rq : 1 <= IZR q) by (apply (IZR_le 1); lia).
    assert (V : sqrt (FR (S754_finite false mx ex)) = v * pw e').
    { cbn [FR]. rewrite Rmult_1_l. replace (IZR (Z.pos mx) * pw ex) with (IZR m' * (pw e' * pw e')).
      - rewrite sqrt_mult; [|lra|pose proof (pw_pos e'); nra]. rewrite sqrt_square by (left; apply pw_pos). reflexivity.
      - unfold m'. rewrite mult_IZR, pw_Z by exact Hs. rewrite Rmult_assoc, <- !pw_add. do 2 f_equal. unfold s. lia. }
    set (l := if Zeq_bool r 0 then loc_Exact else loc_Inexact (if (r <=? q)%Z then Lt else Gt)).
    assert (I : inb v (shr_record_of_loc q l)).
    { unfold l. destruct (Zeq_bool r 0) eqn:E.
      - apply Zeq_is_eq_bool in E. unfold inb. cbn. rewrite E in Vm. unfold v. rewrite Vm, Rplus_0_r. apply sqrt_square. lra.
      - apply Zeq_bool_neq in E. destruct (Z.leb_spec r q) as [Lq|Gq]; unfold inb; cbn.
        + apply IZR_le in Lq. assert (0 < IZR r) by (apply (IZR_lt 0); lia). split; nra.
        + assert (IZR q + 1 <= IZR r) by (rewrite <- plus_IZR; apply IZR_le; lia). split; nra. }
    assert (Dq : (Z.div2 (d + ex + 1) <= Zdigits2 q + e')%Z).
    { destruct (digits_bounds (Z.pos mx) ltac:(lia)) as (_ & _ & A). destruct (A ltac:(lia)) as [A1 A2]. fold d in A1, A2.
      set (h := Z.div2 (d + s - 1)). pose proof (D2 (d + s - 1)%Z) as Dh. fold h in Dh.
      assert (Y : (2 ^ h <= q)%Z).
      { apply Z.lt_succ_r. apply Z.square_lt_simpl_nonneg; [lia|]. apply Z.le_lt_trans with m'; [|nia].
        rewrite <- Z.pow_add_r by lia. apply Z.le_trans with (2 ^ (d - 1 + s))%Z; [apply Z.pow_le_mono_r; lia|].
        rewrite Z.pow_add_r by lia. unfold m'. apply Z.mul_le_mono_nonneg_r; [apply Z.pow_nonneg; lia|exact A2]. }
      pose proof (digits_ge q h Y ltac:(lia)). pose proof (D2 (d + ex + 1)%Z). unfold s in Dh. lia. }
    assert (K : (e' <= fexp (Zdigits2 q + e'))%Z).
    { apply Z.le_trans with (fexp (Z.div2 (d + ex + 1))); [unfold e'; lia|]. apply fexp_mono. exact Dq. }
    assert (Er : pw (fexp (Zdigits2 q + e') - 1) <= uu * (v * pw e')).
    { assert (Hd : (1 <= d)%Z) by (destruct (digits_bounds (Z.pos mx) ltac:(lia)) as (_ & _ & A); destruct (A ltac:(lia)); assumption).
      assert (E : (fexp (Zdigits2 q + e') = Zdigits2 q + e' - prec)%Z).
      { unfold SpecFloat.fexp. pose proof (D2 (d + ex + 1)%Z). unfold SpecFloat.emin in *. lia. }
      rewrite E. destruct (digits_bounds q ltac:(lia)) as (_ & _ & B). destruct (B Hq) as [B1 B2].
      replace (Zdigits2 q + e' - prec - 1)%Z with (- prec + (Zdigits2 q - 1 + e'))%Z by lia. rewrite pw_add. fold uu. rewrite pw_add.
      apply Rmult_le_compat_l; [left; apply uu_pos|]. apply Rmult_le_compat_r; [left; apply pw_pos|].
      rewrite <- pw_Z by lia. apply Rle_trans with (IZR q); [apply IZR_le; exact B2|]. apply inb_floor in I. rewrite loc_m in I. lra. }
    rewrite V.
    assert (Ap : approx (binary_round_aux prec emax false q e' l) (sgnR false * (v * pw e')) (uu * (v * pw e'))).
    { apply rounded_approx. apply round_aux; [lia|exact I|exact K|left; exact Er]. }
    unfold sgnR in Ap at 1. rewrite Rmult_1_l in Ap. split; [|exact Ap].
    destruct Ap as [_ [[F _]|(s0 & Ei & B & _)]]; [exact F|exfalso].
    (* no overflow *)
    assert (Vb : v * pw e' <= pw (emax / 2 + 1)).
    { rewrite <- V. rewrite <- (sqrt_square (pw (emax / 2 + 1))) by (left; apply pw_pos). apply sqrt_le_1_alt. cbn [FR]. rewrite Rmult_1_l, <- pw_add.
      apply Rle_trans with (pw (d + ex)).
      - rewrite pw_add. apply Rmult_le_compat_r; [lra|]. destruct (digits_bounds (Z.pos mx) ltac:(lia)) as (B0 & B1 & _). fold d in B0, B1.
        rewrite <- pw_Z by lia. apply IZR_le. lia.
      - apply pw_le. unfold SpecFloat.fexp in Cx. pose proof (Z.div_mod emax 2 ltac:(lia)). pose proof (Z.mod_pos_bound emax 2 ltac:(lia)).
        assert (d + ex <= emax)%Z by lia. lia. }
    assert (Vb2 : v * pw e' <= pw (emax - 1)).
    { eapply Rle_trans; [exact Vb|]. apply pw_le. pose proof (Z.div_mod emax 2 ltac:(lia)). pose proof (Z.mod_pos_bound emax 2 ltac:(lia)). lia. }
    pose proof uu_le. assert (P := pw_pos e'). rewrite (pw_half emax) in Vb2. pose proof (pw_pos emax).
    assert (W : 0 < v * pw e') by nra. destruct s0; unfold sgnR in B; nra.
Qed.

(** comparison *)
Theorem compare_correct x y : fin x = true -> fin y = true -> valid_binary prec emax x = true -> valid_binary prec emax y = true ->
  SFcompare x y = Some (if Rlt_dec (FR x) (FR y) then Lt else if Rlt_dec (FR y) (FR x) then Gt else Eq).
Proof.
  intros Fx Fy Vx Vy.
  destruct x as [sx|sx| |sx mx ex], y as [sy|sy| |sy my ey]; try discriminate; cbn [SFcompare FR].
  - destruct (Rlt_dec 0 0); [lra|reflexivity].
  - pose proof (FR_finite_pos my ey). destruct sy; repeat destruct Rlt_dec; try lra; reflexivity.
  - pose proof (FR_finite_pos mx ex). destruct sx; repeat destruct Rlt_dec; try lra; reflexivity.
  - pose proof (FR_finite_pos mx ex). pose proof (FR_finite_pos my ey).
    assert (E : (ex = ey)%Z -> forall c, (Z.pos mx ?= Z.pos my)%Z = c -> match c with Lt => IZR (Z.pos mx) * pw ex < IZR (Z.pos my) * pw ey | Gt => IZR (Z.pos my) * pw ey < IZR (Z.pos mx) * pw ex | Eq => IZR (Z.pos mx) * pw ex = IZR (Z.pos my) * pw ey end).
    { intros -> c <-. destruct (Z.compare_spec (Z.pos mx) (Z.pos my)) as [C|C|C]; [rewrite C; reflexivity| |];
      (apply Rmult_lt_compat_r; [apply pw_pos|apply IZR_lt; exact C]). }
    change (Pos.compare_cont Eq mx my) with (Z.pos mx ?= Z.pos my)%Z.
    destruct sx, sy; try (repeat destruct Rlt_dec; try lra; reflexivity).
    + destruct (Z.compare_spec ex ey) as [C|C|C].
      * specialize (E C _ eq_refl). destruct (Z.pos mx ?= Z.pos my)%Z; repeat destruct Rlt_dec; try lra; reflexivity.
      * pose proof (exp_lt _ _ _ _ _ _ Vx Vy C). repeat destruct Rlt_dec; try lra; reflexivity.
      * pose proof (exp_lt _ _ _ _ _ _ Vy Vx C). repeat destruct Rlt_dec; try lra; reflexivity.
    + destruct (Z.compare_spec ex ey) as [C|C|C].
      * specialize (E C _ eq_refl). destruct (Z.pos mx ?= Z.pos my)%Z; repeat destruct Rlt_dec; try lra; reflexivity.
      * pose proof (exp_lt _ _ _ _ _ _ Vx Vy C). repeat destruct Rlt_dec; try lra; reflexivity.
      * pose proof (exp_lt _ _ _ _ _ _ Vy Vx C). repeat destruct Rlt_dec; try lra; reflexivity.
Qed.
End Format.
