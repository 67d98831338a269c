(** C176: the function objects of utils/functional.h and to_array of utils/tuple_to_array.h. *)
From Coq Require Import List ZArith Bool Lia.
From Verif Require Import Outcome AtomicsTypesModel AtomicsTypesProps FunctionalModel.
Import ListNotations.
Local Open Scope Z_scope.

Definition ring (o : fop) : option (Z -> Z -> Z) :=
  match o with Fplus => Some Z.add | Fminus => Some Z.sub | Fmultiplies => Some Z.mul | Fdivides => None end.
Lemma functional_ring t u o f a b : ring o = Some f ->
  functional t u o a b = arith (common t u) (f (wrap (common t u) a) (wrap (common t u) b)).
Proof. destruct o; intros E; inversion E; reflexivity. Qed.

(** ** + - *: the exact result wherever the common type can hold it; otherwise undefined if that type is signed, and modulo 2^n if not *)
Theorem C176_ring : forall t u o f lhs rhs, ring o = Some f -> holds t lhs = true -> holds u rhs = true ->
  let c := common t u in
  (signed c = true -> functional t u o lhs rhs = if (lo c <=? f lhs rhs) && (f lhs rhs <=? hi c) then Ok (f lhs rhs) else UB) /\
  (signed c = false -> functional t u o lhs rhs = Ok ((f lhs rhs) mod 2 ^ bits (wid c))).
Proof.
  intros t u o f lhs rhs E HL HR c. rewrite (functional_ring _ _ _ f) by exact E. fold c. unfold arith. split; intros S; rewrite S.
  - rewrite (wrap_id c lhs), (wrap_id c rhs) by first [apply common_signed_l; assumption | apply common_signed_r; assumption]. reflexivity.
  - f_equal. assert (W : forall v, wrap c v = v mod 2 ^ bits (wid c)) by (intros v; unfold wrap, lo; rewrite S, Z.sub_0_r, Z.add_0_r; reflexivity).
    rewrite !W. pose proof (mod_pos c) as P.
    destruct o; cbn [ring] in E; try discriminate E; injection E as <-; [symmetry; apply Zplus_mod|symmetry; apply Zminus_mod|symmetry; apply Zmult_mod].
Qed.
Print Assumptions C176_ring.
Corollary C176_exact : forall t u o f lhs rhs, ring o = Some f -> holds t lhs = true -> holds u rhs = true ->
  holds (common t u) (f lhs rhs) = true -> functional t u o lhs rhs = Ok (f lhs rhs).
Proof.
  intros t u o f lhs rhs E HL HR HF. destruct (C176_ring t u o f lhs rhs E HL HR) as [S U]. destruct (signed (common t u)) eqn:Sg.
  - rewrite (S eq_refl). unfold holds in HF. rewrite HF. reflexivity.
  - rewrite (U eq_refl). f_equal. apply holds_spec in HF. unfold lo, hi in HF. rewrite Sg in HF. apply Z.mod_small. lia.
Qed.
Print Assumptions C176_exact.
(** operands shorter than int never overflow, whatever their signs (but a product of two unsigned shorts does) *)
Theorem C176_short : forall t u o f lhs rhs, bits (wid t) < 32 -> bits (wid u) < 32 -> holds t lhs = true -> holds u rhs = true ->
  ring o = Some f -> o <> Fmultiplies \/ signed t = true \/ signed u = true \/ bits (wid t) < 16 \/ bits (wid u) < 16 ->
  result_type t u = mk_ity true W32 /\ functional t u o lhs rhs = Ok (f lhs rhs).
Proof.
  intros t u o f lhs rhs Bt Bu HL HR E Hm.
  assert (C : common t u = mk_ity true W32) by (destruct t as [[] []], u as [[] []]; cbn in Bt, Bu; try lia; reflexivity).
  split; [exact C|]. apply C176_exact; try assumption. rewrite C. apply holds_spec. apply holds_spec in HL, HR.
  change (lo (mk_ity true W32)) with (-2147483648). change (hi (mk_ity true W32)) with 2147483647.
  destruct t as [[] []], u as [[] []]; cbn in Bt, Bu; try lia; cbn in HL, HR;
    destruct o; cbn [ring] in E; try discriminate E; injection E as <-; try lia; try nia.
  exfalso. destruct Hm as [H|[H|[H|[H|H]]]]; try discriminate H; cbn in H; try lia. apply H. reflexivity.
Qed.
Print Assumptions C176_short.
Theorem C176_short_needed : functional (mk_ity false W16) (mk_ity false W16) Fmultiplies 65535 65535 = UB.
Proof. reflexivity. Qed.
Print Assumptions C176_short_needed.

(** ** division: the quotient rounded towards zero; undefined for 0 and for the one quotient that overflows *)
Theorem C176_divides : forall t u lhs rhs, let c := common t u in
  (functional t u Fdivides lhs 0 = UB) /\
  (holds c lhs = true -> holds c rhs = true -> rhs <> 0 ->
   (signed c = true -> lhs = lo c -> rhs = -1 -> functional t u Fdivides lhs rhs = UB) /\
   (~ (signed c = true /\ lhs = lo c /\ rhs = -1) ->
    exists q r, functional t u Fdivides lhs rhs = Ok q /\ lhs = rhs * q + r /\ Z.abs r < Z.abs rhs /\ 0 <= lhs * r)).
Proof.
  intros t u lhs rhs c. split.
  - unfold functional, result_type. fold c. rewrite (wrap_id c 0) by (apply holds_spec; unfold lo, hi; destruct c as [[] []]; cbn; lia). reflexivity.
  - intros HL HR N. unfold functional, result_type. fold c. rewrite (wrap_id c lhs HL), (wrap_id c rhs HR).
    destruct (Z.eqb_spec rhs 0) as [|_]; [contradiction|]. apply holds_spec in HL, HR. unfold arith. split.
    + intros S E1 E2. rewrite S, E1, E2. unfold lo. rewrite S. destruct c as [[] []]; try discriminate S; reflexivity.
    + intros X. pose proof (Z.quot_rem' lhs rhs) as QR. pose proof (Z.rem_bound_abs lhs rhs N) as RB. pose proof (Z.rem_sign_mul lhs rhs N) as RS.
      assert (B : holds c (Z.quot lhs rhs) = true).
      { apply holds_spec. set (q := Z.quot lhs rhs) in *. set (r := Z.rem lhs rhs) in *. unfold lo, hi in *. destruct (signed c) eqn:S.
        - assert (A : Z.abs q <= Z.abs lhs) by (unfold q; rewrite <- Z.quot_abs by exact N; rewrite Z.quot_div_nonneg by lia; apply Z.div_le_upper_bound; nia).
          assert (Q : q = 2 ^ (bits (wid c) - 1) -> lhs = - 2 ^ (bits (wid c) - 1) /\ rhs = -1).
          { intros Eq. assert (0 < 2 ^ (bits (wid c) - 1)) by (destruct c as [? []]; reflexivity). split; nia. }
          destruct (Z.eq_dec q (2 ^ (bits (wid c) - 1))) as [Eq|Nq]; [destruct (Q Eq); exfalso; tauto|]. lia.
        - assert (0 <= q <= lhs); [|lia]. unfold q. rewrite Z.quot_div_nonneg by lia. split; [apply Z.div_pos; lia|apply Z.div_le_upper_bound; nia]. }
      exists (Z.quot lhs rhs), (Z.rem lhs rhs). split; [|split; [exact QR|split; [exact RB|rewrite Z.mul_comm; exact RS]]].
      rewrite B, (wrap_id c _ B). destruct (signed c); reflexivity.
Qed.
Print Assumptions C176_divides.
(** needed: a negative operand beside an unsigned one at least as wide is not held by the common type *)
Theorem C176_mixed_needed : functional (mk_ity true W32) (mk_ity false W32) Fdivides (-4) 2 = Ok 2147483646
  /\ functional (mk_ity true W32) (mk_ity false W32) Fplus (-2) 1 = Ok 4294967295 /\ functional (mk_ity true W32) (mk_ity true W64) Fplus (-2) 1 = Ok (-1).
Proof. repeat split. Qed.
Print Assumptions C176_mixed_needed.

(** ** to_array: compiles exactly when the first type holds every value of every other type, and then loses nothing *)
Lemma narrows_spec t u : narrows t u = false <-> forall v, holds u v = true -> holds t v = true.
Proof.
  unfold narrows. rewrite orb_false_iff, !Z.ltb_ge. split.
  - intros [A B]. apply range_incl; assumption.
  - intros H. assert (L : lo u <= hi u) by (rewrite hi_lo; pose proof (mod_pos u); lia).
    pose proof (H (lo u) ltac:(apply holds_spec; lia)) as H1. pose proof (H (hi u) ltac:(apply holds_spec; lia)) as H2. apply holds_spec in H1, H2. lia.
Qed.
Lemma nth_seq {A} (d : A) l : map (fun i => nth i l d) (seq 0 (length l)) = l.
Proof.
  induction l as [|a l IH]; [reflexivity|]. cbn [length seq map nth]. f_equal. rewrite <- seq_shift, map_map. exact IH.
Qed.
Theorem C176_array : forall t v rest, (forall u x, In (u, x) ((t, v) :: rest) -> holds u x = true) ->
  ((forall u x, In (u, x) rest -> forall y, holds u y = true -> holds t y = true) -> to_array ((t, v) :: rest) = Some (t, v :: map snd rest)) /\
  ((exists u x y, In (u, x) rest /\ holds u y = true /\ holds t y = false) -> to_array ((t, v) :: rest) = None).
Proof.
  intros t v rest HV. split.
  - intros H. unfold to_array. set (l := (t, v) :: rest) in *.
    assert (N : existsb (fun e => narrows t (fst e)) l = false).
    { destruct (existsb _ l) eqn:E; [|reflexivity]. apply existsb_exists in E. destruct E as ([u x] & Hin & Hn). cbn [fst] in Hn.
      assert (narrows t u = false); [|congruence]. apply narrows_spec. destruct Hin as [Eq|Hin]; [injection Eq as <- <-; auto|apply (H u x Hin)]. }
    rewrite N. f_equal. f_equal. change (v :: map snd rest) with (map snd l).
    rewrite <- (map_map (fun i => nth i l (t, 0)) (fun e => wrap t (snd e))), nth_seq. apply map_ext_in. intros [u x] Hin. cbn [snd]. apply wrap_id.
    destruct Hin as [Eq|Hin]; [injection Eq as <- <-; apply (HV t v); left; reflexivity|]. apply (H u x Hin), (HV u x). right. exact Hin.
  - intros (u & x & y & Hin & Hu & Ht). unfold to_array. assert (N : existsb (fun e => narrows t (fst e)) ((t, v) :: rest) = true); [|rewrite N; reflexivity].
    apply existsb_exists. exists (u, x). split; [right; exact Hin|]. cbn [fst]. destruct (narrows t u) eqn:E; [reflexivity|].
    rewrite narrows_spec in E. rewrite (E y Hu) in Ht. discriminate Ht.
Qed.
Print Assumptions C176_array.
(** which types fit: the same sign and no wider, or unsigned and strictly narrower *)
Theorem C176_fits : forall t u, (forall y, holds u y = true -> holds t y = true) <->
  (signed t = signed u /\ bits (wid u) <= bits (wid t)) \/ (signed t = true /\ signed u = false /\ bits (wid u) < bits (wid t)).
Proof.
  intros t u. rewrite <- narrows_spec. destruct t as [[] []], u as [[] []]; vm_compute; split;
    first [ intros E; discriminate E | intros _; reflexivity | intros _; left; split; [reflexivity|intros E; discriminate E] | intros _; right; repeat split; reflexivity
          | intros [[A B]|(A & B & C)]; first [discriminate A | discriminate B | discriminate C | exfalso; apply B; reflexivity | reflexivity] ].
Qed.
Print Assumptions C176_fits.
(** the order of the elements decides, although the common type would hold all of them *)
Theorem C176_order_needed : to_array [(mk_ity true W64, 7); (mk_ity true W32, -3); (mk_ity false W32, 5)] = Some (mk_ity true W64, [7; -3; 5])
  /\ to_array [(mk_ity true W32, -3); (mk_ity true W64, 7)] = None /\ to_array [(mk_ity false W64, 1); (mk_ity true W8, 1)] = None
  /\ to_array [] = None.
Proof. vm_compute. repeat split. Qed.
Print Assumptions C176_order_needed.
Example C176_ex : functional (mk_ity true W16) (mk_ity true W16) Fplus 32767 1 = Ok 32768 /\ functional (mk_ity true W32) (mk_ity true W32) Fminus (-2147483648) 1 = UB
  /\ functional (mk_ity false W32) (mk_ity true W16) Fminus 3 5 = Ok 4294967294 /\ functional (mk_ity true W32) (mk_ity true W64) Fmultiplies 2147483647 4 = Ok 8589934588
  /\ functional (mk_ity true W32) (mk_ity true W16) Fdivides (-7) 2 = Ok (-3) /\ functional (mk_ity true W32) (mk_ity true W32) Fdivides (-2147483648) (-1) = UB
  /\ functional (mk_ity true W8) (mk_ity true W8) Fdivides (-128) (-1) = Ok 128 /\ functional (mk_ity false W64) (mk_ity false W8) Fdivides 18446744073709551615 2 = Ok 9223372036854775807.
Proof. vm_compute. repeat split. Qed.
