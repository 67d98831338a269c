(** C172: what an atomic operation leaves in an integer variable depends on the type of the right-hand side and on the scheme. *)
From Coq Require Import ZArith Bool List Zquot Lia Reals Lra SpecFloat.
From Verif Require Import Outcome FloatModel FloatRound FloatProofs AtomicsTypesModel.
Import ListNotations.
Local Open Scope Z_scope.

Definition int := mk_ity true W32.
Definition uint := mk_ity false W32.
Definition short := mk_ity true W16.
Definition llong := mk_ity true W64.

(** ** conversions *)
Lemma bits_pos t : 0 < bits (wid t). Proof. destruct t as [s []]; reflexivity. Qed.
Lemma mod_pos t : 0 < 2 ^ bits (wid t). Proof. pose proof (bits_pos t). apply Z.pow_pos_nonneg; lia. Qed.
Lemma hi_lo t : hi t = lo t + 2 ^ bits (wid t) - 1.
Proof. destruct t as [[] []]; reflexivity. Qed.
Lemma holds_spec t v : holds t v = true <-> lo t <= v <= hi t.
Proof. unfold holds. rewrite andb_true_iff, !Z.leb_le. tauto. Qed.
Lemma wrap_holds t v : holds t (wrap t v) = true.
Proof. apply holds_spec. rewrite hi_lo. unfold wrap. pose proof (Z.mod_pos_bound (v - lo t) _ (mod_pos t)). lia. Qed.
Lemma wrap_id t v : holds t v = true -> wrap t v = v.
Proof. rewrite holds_spec, hi_lo. intros H. unfold wrap. rewrite Z.mod_small by lia. lia. Qed.
Lemma wrap_mod t v : (wrap t v) mod 2 ^ bits (wid t) = v mod 2 ^ bits (wid t).
Proof. unfold wrap. pose proof (mod_pos t). rewrite Zplus_mod_idemp_l. f_equal. lia. Qed.
Lemma wrap_eq t x y : x mod 2 ^ bits (wid t) = y mod 2 ^ bits (wid t) -> wrap t x = wrap t y.
Proof.
  intros H. unfold wrap. f_equal. rewrite (Zminus_mod x), (Zminus_mod y), H. reflexivity.
Qed.
Lemma mod_narrow a b x y : 0 <= a <= b -> x mod 2 ^ b = y mod 2 ^ b -> x mod 2 ^ a = y mod 2 ^ a.
Proof.
  intros H E. assert (P : 0 < 2 ^ a) by (apply Z.pow_pos_nonneg; lia). assert (Q : 0 < 2 ^ (b - a)) by (apply Z.pow_pos_nonneg; lia).
  assert (D : 2 ^ b = 2 ^ a * 2 ^ (b - a)) by (rewrite <- Z.pow_add_r by lia; f_equal; lia). rewrite D in E.
  rewrite !Z.rem_mul_r in E by lia. apply (f_equal (fun z => z mod 2 ^ a)) in E.
  rewrite !(Z.mul_comm (2 ^ a)), !Z_mod_plus_full, !Z.mod_mod in E by lia. exact E.
Qed.
Lemma wrap_wrap t c v : bits (wid t) <= bits (wid c) -> (wrap c v) mod 2 ^ bits (wid t) = v mod 2 ^ bits (wid t).
Proof. intros H. apply (mod_narrow _ (bits (wid c))); [pose proof (bits_pos t); lia|apply wrap_mod]. Qed.
Lemma common_wide t x : bits (wid t) <= bits (wid (common t x)).
Proof. destruct t as [[] []], x as [[] []]; cbv; discriminate. Qed.
Lemma range_incl t c : lo c <= lo t -> hi t <= hi c -> forall v, holds t v = true -> holds c v = true.
Proof. intros A B v. rewrite !holds_spec. lia. Qed.
Lemma common_signed_l t x : signed (common t x) = true -> forall v, holds t v = true -> holds (common t x) v = true.
Proof. destruct t as [[] []], x as [[] []]; intros S; try discriminate S; apply range_incl; cbv; discriminate. Qed.
Lemma common_signed_r t x : signed (common t x) = true -> forall v, holds x v = true -> holds (common t x) v = true.
Proof. destruct t as [[] []], x as [[] []]; intros S; try discriminate S; apply range_incl; cbv; discriminate. Qed.

(** ** + - * *)
Definition ring_op (o : aop) : option (Z -> Z -> Z) :=
  match o with Aadd => Some Z.add | Asub => Some Z.sub | Amul => Some Z.mul | _ => None end.
Lemma ring_mod f o n a b a' b' : ring_op o = Some f -> 0 < n -> a mod n = a' mod n -> b mod n = b' mod n -> (f a b) mod n = (f a' b') mod n.
Proof.
  intros E P A B. destruct o; inversion E; subst f.
  - rewrite Zplus_mod, A, B, <- Zplus_mod. reflexivity.
  - rewrite Zminus_mod, A, B, <- Zminus_mod. reflexivity.
  - rewrite Zmult_mod, A, B, <- Zmult_mod. reflexivity.
Qed.
Lemma language_ring t x o f lhs val : ring_op o = Some f ->
  language t x o lhs val = bind (arith (common t x) (f (wrap (common t x) lhs) (wrap (common t x) val))) (fun r => Ok (wrap t r)).
Proof. destruct o; intros E; inversion E; reflexivity. Qed.
(** The result is the one of arithmetic modulo 2^bits, and undefined exactly if the common type is signed and cannot hold the
    exact result. *)
Theorem C172_ring : forall t x o f lhs val, ring_op o = Some f -> holds t lhs = true -> holds x val = true ->
  if signed (common t x) && negb (holds (common t x) (f lhs val)) then language t x o lhs val = UB
  else exists r, language t x o lhs val = Ok r /\ lo t <= r <= hi t /\ (2 ^ bits (wid t) | r - f lhs val).
Proof.
  intros t x o f lhs val E HL HV. rewrite (language_ring _ _ _ f) by exact E. set (c := common t x).
  assert (Div : forall r, r mod 2 ^ bits (wid t) = (f lhs val) mod 2 ^ bits (wid t) -> (2 ^ bits (wid t) | wrap t r - f lhs val)).
  { intros r Hr. pose proof (mod_pos t). apply Z.mod_divide; [lia|]. rewrite Zminus_mod, wrap_mod, Hr, Z.sub_diag. apply Z.mod_0_l. lia. }
  assert (Rng : forall r, lo t <= wrap t r <= hi t) by (intros r; apply holds_spec, wrap_holds).
  unfold arith. destruct (signed c) eqn:S; cbn [andb].
  - rewrite (wrap_id c lhs), (wrap_id c val) by first [apply common_signed_l; assumption | apply common_signed_r; assumption].
    destruct (holds c (f lhs val)); cbn [negb bind]; [|reflexivity]. eexists. split; [reflexivity|]. split; [apply Rng|apply Div; reflexivity].
  - cbn [bind]. eexists. split; [reflexivity|]. split; [apply Rng|]. apply Div.
    pose proof (common_wide t x) as Wd. rewrite wrap_wrap by exact Wd. apply (ring_mod f o); [exact E|apply mod_pos| |]; apply wrap_wrap, Wd.
Qed.
Print Assumptions C172_ring.
(** If the variable can hold the exact result, that is what it gets, whatever the type on the right. *)
Theorem C172_exact : forall t x o f lhs val, ring_op o = Some f -> holds t lhs = true -> holds x val = true ->
  holds t (f lhs val) = true -> language t x o lhs val = Ok (f lhs val).
Proof.
  intros t x o f lhs val E HL HV HR. pose proof (C172_ring t x o f lhs val E HL HV) as H.
  destruct (signed (common t x)) eqn:S; cbn [andb] in H.
  1: rewrite (common_signed_l t x S _ HR) in H; cbn [negb] in H.
  all: destruct H as (r & -> & B & D); apply holds_spec in HR; rewrite hi_lo in *; destruct D as [k D];
    pose proof (mod_pos t); assert (k = 0) by nia; f_equal; lia.
Qed.
Print Assumptions C172_exact.
(** operands narrower than int are added and subtracted in int: never undefined; but the product of two unsigned short can be *)
Theorem C172_narrow : forall t x lhs val, bits (wid t) < 32 -> bits (wid x) < 32 -> holds t lhs = true -> holds x val = true ->
  (exists r, language t x Aadd lhs val = Ok r /\ lo t <= r <= hi t /\ (2 ^ bits (wid t) | r - (lhs + val))) /\
  (exists r, language t x Asub lhs val = Ok r /\ lo t <= r <= hi t /\ (2 ^ bits (wid t) | r - (lhs - val))).
Proof.
  intros t x lhs val Bt Bx HL HV.
  assert (N : forall u w, bits (wid u) < 32 -> holds u w = true -> - 2 ^ 16 < w < 2 ^ 16).
  { intros u w Bu. rewrite holds_spec. destruct u as [[] []]; try (exfalso; revert Bu; cbv; discriminate); unfold lo, hi, bits, signed, wid; lia. }
  pose proof (N t lhs Bt HL). pose proof (N x val Bx HV).
  assert (C : common t x = int).
  { destruct t as [[] []], x as [[] []]; try (exfalso; revert Bt; cbv; discriminate); try (exfalso; revert Bx; cbv; discriminate); reflexivity. }
  assert (W : forall v, - 2 ^ 17 < v < 2 ^ 17 -> holds int v = true) by (intros v Hv; apply holds_spec; unfold int, lo, hi, bits, signed, wid; lia).
  pose proof (C172_ring t x Aadd Z.add lhs val eq_refl HL HV) as A. pose proof (C172_ring t x Asub Z.sub lhs val eq_refl HL HV) as S.
  rewrite C in A, S. rewrite W in A, S by lia. split; [exact A|exact S].
Qed.
Print Assumptions C172_narrow.
Theorem C172_narrow_refuted : language (mk_ity false W16) (mk_ity false W16) Amul 65535 65535 = UB.
Proof. reflexivity. Qed.
Print Assumptions C172_narrow_refuted.
Example C172_narrow_ex : language short short Aadd 32767 32767 = Ok (-2) /\ language (mk_ity false W8) short Asub 3 5 = Ok 254.
Proof. split; reflexivity. Qed.

(** ** std::atomic (scheme cpp) *)
Definition bit_op (o : aop) : option (bool -> bool -> bool) :=
  match o with Aand => Some andb | Aor => Some orb | Axor => Some xorb | _ => None end.
Definition bit_fun (o : aop) : Z -> Z -> Z := match o with Aand => Z.land | Aor => Z.lor | _ => Z.lxor end.
Lemma bit_fun_spec o g x y i : bit_op o = Some g -> Z.testbit (bit_fun o x y) i = g (Z.testbit x i) (Z.testbit y i).
Proof. destruct o; intros E; inversion E; [apply Z.land_spec|apply Z.lor_spec|apply Z.lxor_spec]. Qed.
Lemma mod_testbit k x i : 0 <= i < k -> Z.testbit (x mod 2 ^ k) i = Z.testbit x i.
Proof. intros H. apply Z.mod_pow2_bits_low. lia. Qed.
Lemma bit_mod o g k a b a' b' : bit_op o = Some g -> 0 <= k -> a mod 2 ^ k = a' mod 2 ^ k -> b mod 2 ^ k = b' mod 2 ^ k ->
  (bit_fun o a b) mod 2 ^ k = (bit_fun o a' b') mod 2 ^ k.
Proof.
  intros E K A B. apply Z.bits_inj'. intros i Hi. destruct (Z.lt_ge_cases i k) as [L|G].
  - rewrite !mod_testbit, !(bit_fun_spec o g) by (assumption || lia).
    rewrite <- (mod_testbit k a), <- (mod_testbit k b), A, B, !mod_testbit by lia. reflexivity.
  - rewrite !Z.mod_pow2_bits_high by lia. reflexivity.
Qed.
Lemma language_bit t x o g lhs val : bit_op o = Some g ->
  language t x o lhs val = Ok (wrap t (bit_fun o (wrap (common t x) lhs) (wrap (common t x) val))).
Proof. destruct o; intros E; inversion E; reflexivity. Qed.
(** & | ^ act on the bits that the variable has, whatever the type on the right *)
Theorem C172_bits : forall t x o g lhs val, bit_op o = Some g ->
  exists r, language t x o lhs val = Ok r /\ lo t <= r <= hi t
  /\ forall i, 0 <= i < bits (wid t) -> Z.testbit r i = g (Z.testbit lhs i) (Z.testbit val i).
Proof.
  intros t x o g lhs val E. rewrite (language_bit _ _ _ g) by exact E. eexists. split; [reflexivity|]. split; [apply holds_spec, wrap_holds|].
  intros i Hi. pose proof (bits_pos t) as B. rewrite <- (mod_testbit (bits (wid t))), wrap_mod, mod_testbit, (bit_fun_spec o g) by (assumption || lia).
  pose proof (common_wide t x) as Wd.
  rewrite <- (mod_testbit (bits (wid t)) (wrap _ lhs)), <- (mod_testbit (bits (wid t)) (wrap _ val)), !wrap_wrap, !mod_testbit by (assumption || lia). reflexivity.
Qed.
Print Assumptions C172_bits.
(** Where the operator of the language is defined, std::atomic leaves the same value, whatever the type on the right. *)
Theorem C172_cpp : forall t x o lhs val r s, holds t lhs = true -> holds x val = true ->
  language t x o lhs val = Ok r -> std_atomic t o lhs val = Some s -> r = s.
Proof.
  intros t x o lhs val r s HL HV H1 H2. pose proof (common_wide t x) as Wd. pose proof (mod_pos t) as Pm. pose proof (bits_pos t) as Pb.
  assert (Ring : forall f, ring_op o = Some f -> s = wrap t (f lhs (wrap t val)) -> r = s).
  { intros f E ->. rewrite (language_ring _ _ _ f) in H1 by exact E. unfold arith in H1. destruct (signed (common t x)).
    - destruct (holds _ _) in H1; [|discriminate]. inversion H1. apply wrap_eq. apply (ring_mod f o); [exact E|exact Pm|apply wrap_wrap, Wd|].
      rewrite wrap_wrap by exact Wd. rewrite wrap_mod. reflexivity.
    - inversion H1. apply wrap_eq. rewrite wrap_wrap by exact Wd. apply (ring_mod f o); [exact E|exact Pm|apply wrap_wrap, Wd|].
      rewrite wrap_wrap by exact Wd. rewrite wrap_mod. reflexivity. }
  assert (Bit : forall g, bit_op o = Some g -> s = wrap t (bit_fun o lhs (wrap t val)) -> r = s).
  { intros g E ->. rewrite (language_bit _ _ _ g) in H1 by exact E. inversion H1. apply wrap_eq. apply (bit_mod o g); [exact E|lia|apply wrap_wrap, Wd|].
    rewrite wrap_wrap by exact Wd. rewrite wrap_mod. reflexivity. }
  destruct o; try discriminate H2; cbn in H2; apply (f_equal (fun z => match z with Some v => v | None => 0 end)) in H2; cbn in H2; symmetry in H2.
  - exact (Ring Z.add eq_refl H2).
  - exact (Ring Z.sub eq_refl H2).
  - exact (Bit andb eq_refl H2).
  - exact (Bit orb eq_refl H2).
  - exact (Bit xorb eq_refl H2).
Qed.
Print Assumptions C172_cpp.
(** REFUTED that the schemes agree everywhere: overflow of a signed variable is undefined under all of them but cpp and kokkos,
    which wrap *)
Theorem C172_overflow_refuted :
  language int int Aadd 2147483647 1 = UB /\ std_atomic int Aadd 2147483647 1 = Some (-2147483648)
  /\ kokkos int Aadd 2147483647 1 = Ok (-2147483648)
  /\ language_step int 1 2147483647 = UB /\ std_atomic_step int 1 2147483647 = -2147483648.
Proof. repeat split. Qed.
Print Assumptions C172_overflow_refuted.
(** ++ and --: variables shorter than int and unsigned ones always wrap, others unless they overflow *)
Theorem C172_step : forall t d lhs, (d = 1 \/ d = -1) -> holds t lhs = true ->
  language_step t d lhs = Ok (std_atomic_step t d lhs)
  \/ (language_step t d lhs = UB /\ signed t = true /\ 32 <= bits (wid t) /\ lhs = (if d =? 1 then hi t else lo t)).
Proof.
  intros t d lhs Hd HL. assert (HV : holds int d = true) by (destruct Hd as [-> | ->]; reflexivity).
  pose proof (C172_ring t int Aadd Z.add lhs d eq_refl HL HV) as H. fold int in *. unfold language_step. fold int.
  destruct (signed (common t int) && negb (holds (common t int) (lhs + d))) eqn:C.
  - right. split; [exact H|]. apply andb_prop in C. destruct C as [S N]. apply negb_true_iff in N.
    assert (N' : ~ (lo (common t int) <= lhs + d <= hi (common t int))) by (rewrite <- holds_spec, N; discriminate).
    apply holds_spec in HL. destruct t as [[] []]; try discriminate S; vm_compute lo in N'; vm_compute hi in N'; vm_compute lo in HL; vm_compute hi in HL;
      destruct Hd as [-> | ->]; try (exfalso; lia); (split; [reflexivity|split; [vm_compute; discriminate|vm_compute; lia]]).
  - left. destruct H as (r & -> & B & D). f_equal. unfold std_atomic_step. apply holds_spec in B. rewrite <- (wrap_id t r B). apply wrap_eq.
    destruct D as [k D]. replace r with (lhs + d + k * 2 ^ bits (wid t)) by lia. apply Z_mod_plus_full.
Qed.
Print Assumptions C172_step.

(** ** / and %: exact when the common type holds both operands, and that fails only for a negative number next to an unsigned
    type at least as wide *)
Theorem C172_common : forall t x v, (holds t v = true -> holds (common t x) v = false -> v < 0 /\ signed t = true /\ signed x = false /\ bits (wid t) <= bits (wid x))
  /\ (holds x v = true -> holds (common t x) v = false -> v < 0 /\ signed x = true /\ signed t = false /\ bits (wid x) <= bits (wid t)).
Proof.
  intros t x v. split; intros H N;
    (assert (N' : ~ (lo (common t x) <= v <= hi (common t x))) by (rewrite <- holds_spec, N; discriminate); apply holds_spec in H;
     destruct t as [[] []], x as [[] []]; vm_compute lo in *; vm_compute hi in *;
     first [exfalso; lia | split; [lia|split; [reflexivity|split; [reflexivity|vm_compute; discriminate]]]]).
Qed.
Print Assumptions C172_common.
Theorem C172_div : forall t x lhs val q r, holds (common t x) lhs = true -> holds (common t x) val = true ->
  val <> 0 -> lhs = val * q + r -> Z.abs r < Z.abs val -> 0 <= lhs * r ->
  (holds (common t x) q = true -> language t x Adiv lhs val = Ok (wrap t q) /\ language t x Amod lhs val = Ok (wrap t r))
  /\ (holds (common t x) q = false -> language t x Adiv lhs val = UB /\ language t x Amod lhs val = UB).
Proof.
  intros t x lhs val q r HL HV NZ E B Sg.
  assert (Q : Z.quot lhs val = q /\ Z.rem lhs val = r).
  { destruct (Zquot_mod_unique_full lhs val q r) as [Q1 R1]; [apply Remainder_equiv; split; [exact B|lia]|exact E|]. split; congruence. }
  destruct Q as [Q1 Q2]. unfold language. rewrite (wrap_id _ lhs HL), (wrap_id _ val HV), Q1, Q2.
  destruct (Z.eqb_spec val 0) as [Z0|_]; [contradiction|]. unfold arith. split; intros Hq.
  - rewrite Hq, (wrap_id _ q Hq). destruct (signed (common t x)); split; reflexivity.
  - destruct (signed (common t x)) eqn:S; rewrite ?Hq; [split; reflexivity|]. exfalso.
    assert (N' : ~ (lo (common t x) <= q <= hi (common t x))) by (rewrite <- holds_spec, Hq; discriminate).
    apply holds_spec in HL, HV. unfold lo in *. rewrite S in *. assert (0 <= q <= lhs) by nia. lia.
Qed.
Print Assumptions C172_div.
(** REFUTED that / divides: with an unsigned divisor of the same width a negative variable is first taken modulo 2^32 *)
Theorem C172_div_refuted : language int uint Adiv (-7) 2 = Ok 2147483644 /\ kokkos int Adiv (-7) 2 = Ok (-3)
  /\ language int uint Amod (-7) 4 = Ok 1 /\ kokkos int Amod (-7) 4 = Ok (-3).
Proof. repeat split. Qed.
Print Assumptions C172_div_refuted.

(** ** min and max *)
Theorem C172_min_max : forall t x lhs val, holds t val = true -> holds (common t x) lhs = true -> holds (common t x) val = true ->
  language t x Amin lhs val = Ok (Z.min lhs val) /\ language t x Amax lhs val = Ok (Z.max lhs val).
Proof.
  intros t x lhs val HT HL HV. unfold language. rewrite (wrap_id _ lhs HL), (wrap_id _ val HV), (wrap_id _ val HT).
  split; f_equal; [destruct (Z.ltb_spec val lhs)|destruct (Z.ltb_spec lhs val)]; lia.
Qed.
Print Assumptions C172_min_max.
(** REFUTED without these conditions: min(-1, 3u) stores 3, max(-1, 3u) keeps -1, max(5, 2^32) stores 0, and min(5, 2^32 + 1) depends on the scheme *)
Theorem C172_min_max_refuted : language int uint Amin (-1) 3 = Ok 3 /\ language int uint Amax (-1) 3 = Ok (-1) /\ language int llong Amax 5 (2 ^ 32) = Ok 0
  /\ language int llong Amin 5 (2 ^ 32 + 1) = Ok 5 /\ kokkos int Amin 5 (2 ^ 32 + 1) = Ok 1.
Proof. repeat split. Qed.
Print Assumptions C172_min_max_refuted.

(** ** shifts: the type of the count does not matter *)
Theorem C172_shift : forall t x y lhs n, let b := bits (wid (promote t)) in holds t lhs = true ->
  language t x Ashl lhs n = language t y Ashl lhs n /\ language t x Ashr lhs n = language t y Ashr lhs n
  /\ (language t x Ashr lhs n = UB <-> ~ 0 <= n < b)
  /\ (language t x Ashl lhs n = UB <-> ~ 0 <= n < b \/ (signed (promote t) = true /\ (lhs < 0 \/ 2 ^ b <= lhs * 2 ^ n)))
  /\ (0 <= n < b -> language t x Ashr lhs n = Ok (lhs / 2 ^ n))
  /\ (forall r, language t x Ashl lhs n = Ok r -> lo t <= r <= hi t /\ (2 ^ bits (wid t) | r - lhs * 2 ^ n)).
Proof.
  intros t x y lhs n b HL. split; [reflexivity|]. split; [reflexivity|]. cbn [language]. fold b.
  assert (C : (n <? 0) || (b <=? n) = true <-> ~ 0 <= n < b) by (rewrite orb_true_iff, Z.ltb_lt, Z.leb_le; lia).
  assert (Div : forall v, lo t <= wrap t v <= hi t /\ (2 ^ bits (wid t) | wrap t v - v)).
  { intros v. split; [apply holds_spec, wrap_holds|]. pose proof (mod_pos t). apply Z.mod_divide; [lia|].
    rewrite Zminus_mod, wrap_mod, Z.sub_diag. apply Z.mod_0_l. lia. }
  destruct ((n <? 0) || (b <=? n)) eqn:E.
  - split; [tauto|]. split; [tauto|]. split; [tauto|discriminate].
  - assert (R : 0 <= n < b) by (destruct C as [_ C]; destruct (Z.lt_ge_cases n 0), (Z.lt_ge_cases n b); try lia; exfalso; assert (false = true) by (apply C; lia); discriminate).
    split; [split; [discriminate|tauto]|]. destruct (signed (promote t)) eqn:S.
    + destruct ((lhs <? 0) || (2 ^ b <=? lhs * 2 ^ n)) eqn:O.
      * apply orb_prop in O. rewrite Z.ltb_lt, Z.leb_le in O. split; [tauto|]. split; [|discriminate].
        intros _. f_equal. rewrite Z.shiftr_div_pow2 by lia. apply wrap_id. revert HL. rewrite !holds_spec. intros HL.
        assert (0 < 2 ^ n) by (apply Z.pow_pos_nonneg; lia). pose proof (Z.div_mod lhs (2 ^ n) ltac:(lia)). pose proof (Z.mod_pos_bound lhs (2 ^ n) ltac:(lia)).
        assert (lo t <= 0 <= hi t) by (destruct t as [[] []]; vm_compute; split; discriminate). nia.
      * apply orb_false_iff in O. rewrite Z.ltb_ge, Z.leb_gt in O. split; [split; [discriminate|intros [?|[_ ?]]; lia]|]. split.
        -- intros _. f_equal. rewrite Z.shiftr_div_pow2 by lia. apply wrap_id. revert HL. rewrite !holds_spec. intros HL.
           assert (0 < 2 ^ n) by (apply Z.pow_pos_nonneg; lia). pose proof (Z.div_mod lhs (2 ^ n) ltac:(lia)). pose proof (Z.mod_pos_bound lhs (2 ^ n) ltac:(lia)).
           assert (lo t <= 0 <= hi t) by (destruct t as [[] []]; vm_compute; split; discriminate). nia.
        -- intros r Hr. injection Hr as <-. apply Div.
    + split; [split; [discriminate|intros [?|[? _]]; [tauto|discriminate]]|]. split.
      * intros _. f_equal. rewrite Z.shiftr_div_pow2 by lia. apply wrap_id. revert HL. rewrite !holds_spec. intros HL.
        assert (0 < 2 ^ n) by (apply Z.pow_pos_nonneg; lia). pose proof (Z.div_mod lhs (2 ^ n) ltac:(lia)). pose proof (Z.mod_pos_bound lhs (2 ^ n) ltac:(lia)).
        assert (lo t <= 0 <= hi t) by (destruct t as [[] []]; vm_compute; split; discriminate). nia.
      * intros r Hr. injection Hr as <-. apply Div.
Qed.
Print Assumptions C172_shift.

(** ** Kokkos: the same as the language when the right-hand side has the type of the variable *)
Theorem C172_kokkos : forall t o lhs val r, holds t lhs = true -> holds t val = true ->
  language t t o lhs val = Ok r -> kokkos t o lhs val = Ok r.
Proof.
  intros t o lhs val r HL HV H. unfold kokkos. destruct (std_atomic t o lhs val) as [s|] eqn:E.
  - rewrite (C172_cpp t t o lhs val r s HL HV H E). reflexivity.
  - rewrite (wrap_id t val HV). destruct o; try exact H.
    + fold uint. rewrite (wrap_id uint val); [rewrite <- H; apply (proj1 (C172_shift t uint t lhs val HL))|]. cbn [language] in H.
      destruct ((val <? 0) || (bits (wid (promote t)) <=? val)) eqn:C; [discriminate H|]. apply orb_false_iff in C. rewrite Z.ltb_ge, Z.leb_gt in C.
      apply holds_spec. change (lo uint) with 0. change (hi uint) with 4294967295. assert (bits (wid (promote t)) <= 64) by (destruct t as [[] []]; vm_compute; discriminate). lia.
    + fold uint. rewrite (wrap_id uint val); [rewrite <- H; apply (proj1 (proj2 (C172_shift t uint t lhs val HL)))|]. cbn [language] in H.
      destruct ((val <? 0) || (bits (wid (promote t)) <=? val)) eqn:C; [discriminate H|]. apply orb_false_iff in C. rewrite Z.ltb_ge, Z.leb_gt in C.
      apply holds_spec. change (lo uint) with 0. change (hi uint) with 4294967295. assert (bits (wid (promote t)) <= 64) by (destruct t as [[] []]; vm_compute; discriminate). lia.
Qed.
Print Assumptions C172_kokkos.
(** REFUTED for other types: the right-hand side is cut to the type of the variable first *)
Theorem C172_kokkos_refuted : language int llong Adiv 7 (2 ^ 32) = Ok 0 /\ kokkos int Adiv 7 (2 ^ 32) = UB
  /\ language int llong Amul 65536 65536 = Ok 0 /\ kokkos int Amul 65536 65536 = UB
  /\ language int llong Amod 7 (2 ^ 32 + 2) = Ok 7 /\ kokkos int Amod 7 (2 ^ 32 + 2) = Ok 1.
Proof. repeat split. Qed.
Print Assumptions C172_kokkos_refuted.
Example C172_ex : language short int Aadd 32767 1 = Ok (-32768) /\ std_atomic short Aadd 32767 1 = Some (-32768)
  /\ language short llong Amul (-3) 4 = Ok (-12) /\ language int uint Asub 3 5 = Ok (-2)
  /\ language (mk_ity false W8) int Aor 129 (-256) = Ok 129 /\ language int short Ashl 3 4 = Ok 48.
Proof. repeat split. Qed.

(** ** a double on the right *)
Lemma trunc_exact z n : fin z = true -> FR z = IZR n -> trunc z = Some n.
Proof.
  intros F E. destruct z as [s|s| |s m e]; try discriminate F; cbn [FR trunc] in *; [f_equal; apply eq_IZR; exact E|].
  set (q := match e with Z.neg k => Z.pos m / 2 ^ Z.pos k | _ => Z.pos m * 2 ^ e end). f_equal.
  assert (Q : IZR q = (IZR (Z.pos m) * pw e)%R).
  { assert (I : exists v, IZR v = (IZR (Z.pos m) * pw e)%R).
    { exists (if s then - n else n). destruct s; rewrite ?opp_IZR; lra. }
    unfold q. destruct e as [|k|k].
    - rewrite mult_IZR, (pw_Z 0) by lia. reflexivity.
    - rewrite mult_IZR, (pw_Z (Z.pos k)) by lia. reflexivity.
    - destruct I as [v Hv]. rewrite <- Hv. f_equal. assert (M : Z.pos m = v * 2 ^ Z.pos k).
      { apply eq_IZR. rewrite mult_IZR, Hv, (pw_Z (Z.pos k)) by lia. rewrite Rmult_assoc, <- pw_add. replace (Z.neg k + Z.pos k) with 0 by lia. rewrite pw_0. ring. }
      rewrite M. apply Z.div_mul. apply Z.pow_nonzero; lia. }
  apply eq_IZR. destruct s; rewrite ?opp_IZR, Q; lra.
Qed.
Lemma whole n : Z.abs n < 2 ^ 53 -> isfl 53 1024 (IZR n).
Proof.
  intros H. destruct (Z.lt_trichotomy n 0) as [L|[->|G]].
  - replace n with (- - n) by lia. rewrite opp_IZR. apply isfl_opp. apply (isfl_int 53 1024 ltac:(lia) ltac:(lia)). lia.
  - exists (S754_zero false). repeat split.
  - apply (isfl_int 53 1024 ltac:(lia) ltac:(lia)). lia.
Qed.
Lemma of_int_whole n : Z.abs n < 2 ^ 53 -> let z := of_int 53 1024 n in fin z = true /\ valid_binary 53 1024 z = true /\ FR z = IZR n.
Proof.
  intros H. cbv zeta. pose proof (normalize_correct 53 1024 ltac:(lia) ltac:(lia) n 0 false ltac:(unfold emin; lia)) as A.
  rewrite pw_0, Rmult_1_r in A. destruct (approx_exact 53 1024 _ _ _ A (whole n H)) as [F E].
  repeat split; [exact F|exact (approx_valid 53 1024 _ _ _ A)|exact E].
Qed.
(** whole numbers below 2^53: both ways leave the exact result when the variable can hold it *)
Theorem C172_double : forall t o f lhs v, (o = Aadd /\ f = Z.add) \/ (o = Asub /\ f = Z.sub) ->
  Z.abs lhs < 2 ^ 53 -> Z.abs v < 2 ^ 53 -> Z.abs (f lhs v) < 2 ^ 53 -> holds t (f lhs v) = true -> holds t v = true ->
  language_double t o lhs (of_int 53 1024 v) = Some (Ok (f lhs v))
  /\ std_atomic_double t o lhs (of_int 53 1024 v) = Some (Ok (f lhs v)).
Proof.
  intros t o f lhs v Ho HL HV HR Ht Hv. destruct (of_int_whole lhs HL) as (Fl & Vl & El). destruct (of_int_whole v HV) as (Fv & Vv & Ev).
  assert (T : trunc (of_int 53 1024 v) = Some v) by (apply trunc_exact; assumption).
  assert (R : forall z err, approx 53 1024 z (IZR (f lhs v)) err -> to_int t z = Ok (f lhs v)).
  { intros z err A. destruct (approx_exact 53 1024 _ _ _ A (whole _ HR)) as [F E]. unfold to_int. rewrite (trunc_exact z _ F E), Ht. reflexivity. }
  destruct Ho as [[-> ->]|[-> ->]]; cbn [language_double std_atomic_double]; unfold to_int at 2; rewrite T, Hv; cbn [bind std_atomic];
    rewrite (wrap_id t v Hv), (wrap_id t _ Ht); (split; [|reflexivity]); f_equal; eapply R.
  - pose proof (add_correct 53 1024 ltac:(lia) ltac:(lia) _ _ Fl Fv Vl Vv) as A. rewrite El, Ev, <- plus_IZR in A. exact A.
  - pose proof (sub_correct 53 1024 ltac:(lia) ltac:(lia) _ _ Fl Fv Vl Vv) as A. rewrite El, Ev, <- minus_IZR in A. exact A.
Qed.
Print Assumptions C172_double.
(** REFUTED for other doubles: -3 += 1.5 leaves -1, under cpp -2 *)
Theorem C172_double_refuted : let d := S754_finite false 3 (-1) in
  FR d = 1.5%R /\ language_double int Aadd (-3) d = Some (Ok (-1)) /\ std_atomic_double int Aadd (-3) d = Some (Ok (-2)).
Proof.
  cbv zeta. split; [cbn [FR]; rewrite pw_m1; lra|]. split; vm_compute; reflexivity.
Qed.
Print Assumptions C172_double_refuted.
