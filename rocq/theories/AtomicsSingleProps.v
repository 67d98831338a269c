(** C175: the single-threaded tests and examples of ristra/atomics. *)
From Coq Require Import List Arith Bool ZArith Lia Permutation SpecFloat.
From Verif Require Import Outcome FloatModel AtomicsModel AtomicsProofs AtomicsRuns AtomicsProps AtomicsTypesModel AtomicsTypesProps AtomicsTestModel AtomicsTestProps AtomicsSingleModel.
Import ListNotations.
Local Open Scope Z_scope.

(** ** one thread, any mixture of schemes: every value returned and the value left are the sequential ones.  A cpp (or Kokkos)
    operation that reads the variable again to return it must return the new value, a Kokkos post-increment the old one *)
Definition returns_fit {T} (o : op T) : Prop :=
  match sch o with
  | CppBin => forall v, snd (fn o v) = fst (fn o v)
  | KokkosPost => forall v, snd (fn o v) = v
  | _ => True
  end.
Lemma only_thread {T} (p : list (op T)) l : Permutation l (tag 0 [p]) -> forall t o, In (t, o) l -> t = 0%nat.
Proof.
  intros P t o H. apply (Permutation_in _ P) in H. cbn [tag] in H. rewrite app_nil_r in H. apply in_map_iff in H. destruct H as (x & E & _). congruence.
Qed.
Lemma proj_all {T} (l : list (nat * op T)) : (forall t o, In (t, o) l -> t = 0%nat) -> l = map (pair 0%nat) (proj 0 l).
Proof.
  induction l as [|[t o] l IH]; intros H; [reflexivity|]. rewrite (H t o (or_introl eq_refl)). cbn. f_equal. apply IH.
  intros u q Hq. apply (H u q). right. exact Hq.
Qed.
Lemma leaves_fold {T} (p : list (op T)) : forall v, value_after v (map (pair 0%nat) p) = leaves p v.
Proof. unfold value_after. induction p as [|o p IH]; intros v; [reflexivity|]. apply IH. Qed.
Lemma outputs_nth {T} (p1 : list (op T)) o p2 : forall v, nth_error (outputs (p1 ++ o :: p2) v) (length p1) = Some (snd (fn o (leaves p1 v))).
Proof. induction p1 as [|x p1 IH]; intros v; [reflexivity|]. apply IH. Qed.
Lemma outputs_length {T} (p : list (op T)) : forall v, length (outputs p v) = length p.
Proof. induction p as [|o p IH]; intros v; [reflexivity|]. cbn. f_equal. apply IH. Qed.
Lemma leaves_app {T} (p q : list (op T)) : forall v, leaves (p ++ q) v = leaves q (leaves p v).
Proof. induction p as [|o p IH]; intros v; [reflexivity|]. apply IH. Qed.
Lemma same_nths {A} (a : list A) : forall b, (forall k, nth_error a k = nth_error b k) -> a = b.
Proof.
  induction a as [|x a IH]; intros [|y b] H; [reflexivity|specialize (H 0%nat); discriminate H|specialize (H 0%nat); discriminate H|].
  pose proof (H 0%nat) as H0. injection H0 as ->. f_equal. apply IH. intros k. exact (H (S k)).
Qed.
Theorem C175_single : forall (T B : Type) (dec : B -> T) (b0 : B) (p : list (op T)) n h c, Forall returns_fit p ->
  run dec (init b0 [p]) n h c -> finished c -> ress 0 h = outputs p (dec b0) /\ dec (cell c) = leaves p (dec b0).
Proof.
  intros T B dec b0 p n h c Fit R Fi.
  assert (W : well_mixed [p]) by (right; right; exists 0%nat; intros [|[|t]] Ht; [congruence|reflexivity|reflexivity]).
  destruct (reach_inv dec [p] b0 n h c W R) as (l & IV & _). destruct (finished_order _ _ _ _ _ _ IV Fi) as [P G].
  pose proof (only_thread p l P) as Th. destruct (G 0%nat) as [G1 G2]. cbn [nth] in G1, G2.
  assert (E : l = map (pair 0%nat) p) by (rewrite <- G1; apply proj_all, Th).
  split; [|rewrite <- (i_val _ _ _ _ _ _ IV), E; apply leaves_fold].
  apply same_nths. intros k. destruct (nth_error (ress 0 h) k) as [r|] eqn:K.
  2: { symmetry. apply nth_error_None. apply nth_error_None in K. rewrite outputs_length. lia. }
  destruct (i_ret _ _ _ _ _ _ IV 0%nat k r K) as (l1 & o & l2 & El & Ek & Rs).
  assert (Th1 : forall t q, In (t, q) l1 -> t = 0%nat) by (intros t q Hq; apply (Th t q); rewrite El; apply in_or_app; left; exact Hq).
  assert (Th2 : forall t q, In (t, q) l2 -> t = 0%nat) by (intros t q Hq; apply (Th t q); rewrite El; apply in_or_app; right; right; exact Hq).
  pose proof (proj_all _ Th1) as E1. pose proof (proj_all _ Th2) as E2. set (p1 := proj 0 l1) in *. set (p2 := proj 0 l2) in *.
  assert (Ep : p = p1 ++ o :: p2).
  { rewrite <- G1, El, proj_app. unfold p1, p2. f_equal. }
  assert (V1 : value_after (dec b0) l1 = leaves p1 (dec b0)) by (rewrite E1; apply leaves_fold).
  assert (Ro : returns_fit o) by (rewrite Forall_forall in Fit; apply Fit; rewrite Ep; apply in_or_app; right; left; reflexivity).
  rewrite Ep, <- Ek. fold p1. rewrite outputs_nth. f_equal. unfold returns_fit in Ro.
  assert (Nil : forall m : list (nat * op T), proj 0 m = [] -> (forall t q, In (t, q) m -> t = 0%nat) -> m = []) by (intros m Hm Ht; rewrite (proj_all m Ht), Hm; reflexivity).
  destruct (sch o); try (rewrite <- V1; exact Rs).
  - destruct Rs as (m1 & m2 & Em & Pm & ->). rewrite (Nil m1 Pm) by (intros t q Hq; apply (Th2 t q); rewrite Em; apply in_or_app; left; exact Hq).
    rewrite value_after_app, V1. cbn. apply eq_sym, Ro.
  - destruct Rs as (m1 & m2 & Em & Pm & ->). rewrite <- V1, Em. rewrite (Nil m2 Pm) by (intros t q Hq; apply (Th1 t q); rewrite Em; apply in_or_app; right; exact Hq).
    rewrite app_nil_r. apply eq_sym, Ro.
Qed.
Print Assumptions C175_single.
(** needed: std::atomic's fetch_add-and-reload used for a post-increment would return the new value *)
Theorem C175_fit_needed : exists n h c, run same (init (Ok 5) [[atom_post CppBin tint 1]]) n h c /\ finished c /\
  ress 0 h = [Ok 6] /\ outputs [atom_post CppBin tint 1] (Ok 5) = [Ok 5].
Proof.
  set (o := atom_post CppBin tint 1). pose proof (run_nil same (init (Ok 5) [[o]])) as R.
  go ltac:(fun c => constr:(s_call same 0 c o [] eq_refl)).
  go ltac:(fun c => constr:(s_cpp_rmw same 0 c o [] (Ok 6) eq_refl eq_refl eq_refl)).
  go ltac:(fun c => constr:(s_cpp_ret same 0 c o [] eq_refl)).
  go ltac:(fun c => constr:(s_return same 0 c o [] (Ok 6) eq_refl)).
  eexists _, _, _. split; [exact R|]. split; [intros [|[|t]]; reflexivity|]. split; reflexivity.
Qed.
Print Assumptions C175_fit_needed.

(** ** unit-add, -sub, -mul, -div: the values, with their exact meaning *)
Fixpoint running (f : Z -> Z -> Z) (v : Z) (ds : list Z) : list Z := match ds with [] => [] | d :: r => f v d :: running f (f v d) r end.
Definition thrice (ds : list Z) : list Z := concat (map (fun d => [d; d; d]) ds).
Definition modulo (f : Z -> Z -> Z) (v d : Z) : Z := (f v d) mod 2 ^ 32.
Lemma atom_fits s t x o d : s <> KokkosPost -> returns_fit (atom_op s t x o d).
Proof. destruct s; intros H; unfold returns_fit; cbn; auto. congruence. Qed.
Lemma rounds_fit s t o : s <> KokkosPost -> forall n d st, Forall returns_fit (rounds s t o d st n).
Proof.
  intros H. induction n as [|n IH]; intros d st; [constructor|]. cbn [rounds]. apply Forall_app. split; [|apply IH].
  repeat constructor; apply atom_fits, H.
Qed.
Theorem C175_rounds : forall (B : Type) (dec : B -> outcome Z) (b0 : B) s n h c, s <> KokkosPost -> finished c ->
  (forall o f, In (o, f) [(Aadd, Z.add); (Asub, Z.sub); (Amul, Z.mul)] ->
    (dec b0 = Ok 1 -> run dec (init b0 [unit_rounds s tint o]) n h c -> ress 0 h = map Ok (running f 1 (thrice [-5; -3; -1; 1; 3; 5]))) /\
    (dec b0 = Ok 100 -> run dec (init b0 [unit_rounds s tuint o]) n h c -> ress 0 h = map Ok (running (modulo f) 100 (thrice [5; 7; 9; 11; 13; 15])))) /\
  (dec b0 = Ok 3375 -> run dec (init b0 [unit_rounds s tint Adiv]) n h c -> ress 0 h = map Ok [-675; 135; -27; 27; -27; 27; 9; 3; 1]) /\
  (dec b0 = Ok 200201625 -> run dec (init b0 [unit_rounds s tuint Adiv]) n h c ->
     ress 0 h = map Ok [40040325; 8008065; 1601613; 177957; 19773; 2197; 169; 13; 1]).
Proof.
  intros B dec b0 s n h c Hs Fi.
  assert (K : forall t o v, dec b0 = Ok v -> run dec (init b0 [unit_rounds s t o]) n h c -> ress 0 h = outputs (unit_rounds s t o) (Ok v)).
  { intros t o v D R. rewrite <- D. refine (proj1 (C175_single _ _ dec b0 _ n h c _ R Fi)). unfold unit_rounds. destruct o; apply rounds_fit, Hs. }
  split; [|split].
  - intros o f Ho. split; intros D R; rewrite (K _ _ _ D R); cbn [In] in Ho;
      destruct Ho as [E|[E|[E|[]]]]; injection E as <- <-; destruct s; vm_compute; reflexivity.
  - intros D R. rewrite (K _ _ _ D R). destruct s; vm_compute; reflexivity.
  - intros D R. rewrite (K _ _ _ D R). destruct s; vm_compute; reflexivity.
Qed.
Print Assumptions C175_rounds.

(** for float and double no operation of these tests rounds: they compute the same numbers as for int *)
Theorem C175_floats : forall (B : Type) (dec : B -> spec_float) (b0 : B) s prec emax n h c, s <> KokkosPost -> finished c ->
  (prec = 24 /\ emax = 128) \/ (prec = 53 /\ emax = 1024) ->
  (forall o f, In (o, f) [(Aadd, Z.add); (Asub, Z.sub); (Amul, Z.mul)] ->
    dec b0 = of_int prec emax 1 -> run dec (init b0 [unit_floats s prec emax o]) n h c ->
    ress 0 h = map (of_int prec emax) (running f 1 (thrice [-5; -3; -1; 1; 3; 5]))) /\
  (dec b0 = of_int prec emax 3375 -> run dec (init b0 [unit_floats s prec emax Adiv]) n h c ->
    ress 0 h = map (of_int prec emax) [-675; 135; -27; 27; -27; 27; 9; 3; 1]).
Proof.
  intros B dec b0 s prec emax n h c Hs Fi Hf.
  assert (F : forall o m d st, Forall returns_fit (float_rounds s prec emax o d st m)).
  { intros o. induction m as [|m IH]; intros d st; [constructor|]. cbn [float_rounds]. apply Forall_app. split; [|apply IH].
    repeat constructor; unfold returns_fit; destruct s; cbn; auto; congruence. }
  assert (K : forall o v, dec b0 = v -> run dec (init b0 [unit_floats s prec emax o]) n h c -> ress 0 h = outputs (unit_floats s prec emax o) v).
  { intros o v D R. rewrite <- D. refine (proj1 (C175_single _ _ dec b0 _ n h c _ R Fi)). unfold unit_floats. destruct o; apply F. }
  split.
  - intros o f Ho D R. rewrite (K _ _ D R). cbn [In] in Ho.
    destruct Ho as [E|[E|[E|[]]]]; injection E as <- <-; destruct Hf as [[-> ->]|[-> ->]]; vm_compute; reflexivity.
  - intros D R. rewrite (K _ _ D R). destruct Hf as [[-> ->]|[-> ->]]; vm_compute; reflexivity.
Qed.
Print Assumptions C175_floats.
Example C175_floats_ex : of_int 24 128 (-11390625) = S754_finite true 11390625 0 /\ of_int 24 128 1 = S754_finite false 8388608 (-23).
Proof. split; vm_compute; reflexivity. Qed.

(** ** the other unit tests: one operation on a fresh variable, for far more values than they try *)
Definition meaning (o : aop) (i j : Z) : option Z :=
  match o with
  | Amod => Some (i mod j) | Ashl => Some (i * 2 ^ j) | Ashr => Some (i / 2 ^ j)
  | Aand => Some (Z.land i j) | Aor => Some (Z.lor i j) | Axor => Some (Z.lxor i j)
  | Amin => Some (Z.min i j) | Amax => Some (Z.max i j)
  | _ => None
  end.
Lemma small_holds t v : t = tint \/ t = tuint -> 0 <= v < 2 ^ 31 -> holds t v = true /\ holds (common t tint) v = true.
Proof. intros [-> | ->] H; split; apply holds_spec; unfold lo, hi; cbn -[Z.pow]; lia. Qed.
Lemma log_small v : 0 <= v < 2 ^ 31 <-> 0 <= v /\ (forall k, 31 <= k -> Z.testbit v k = false).
Proof.
  split.
  - intros H. split; [lia|]. intros k Hk. destruct (Z.eq_dec v 0) as [->|N]; [apply Z.bits_0|]. apply Z.bits_above_log2; [lia|].
    apply Z.lt_le_trans with 31; [apply Z.log2_lt_pow2; lia|exact Hk].
  - intros [H0 H]. split; [exact H0|]. rewrite <- (Z.mod_small v (2 ^ Z.max 31 (Z.log2 v + 1))).
    + assert (E : v mod 2 ^ Z.max 31 (Z.log2 v + 1) = v mod 2 ^ 31).
      { apply Z.bits_inj'. intros k Hk. destruct (Z.lt_ge_cases k 31) as [L|G].
        - rewrite !Z.mod_pow2_bits_low by lia. reflexivity.
        - rewrite (Z.mod_pow2_bits_high v 31) by lia. destruct (Z.lt_ge_cases k (Z.max 31 (Z.log2 v + 1))).
          + rewrite Z.mod_pow2_bits_low by lia. apply H, G.
          + apply Z.mod_pow2_bits_high. lia. }
      rewrite E. apply Z.mod_pos_bound. lia.
    + split; [exact H0|]. destruct (Z.eq_dec v 0) as [->|N]; [apply Z.pow_pos_nonneg; lia|]. apply Z.log2_lt_pow2; lia.
Qed.
Lemma bitwise_small i j : 0 <= i < 2 ^ 31 -> 0 <= j < 2 ^ 31 -> 0 <= Z.land i j < 2 ^ 31 /\ 0 <= Z.lor i j < 2 ^ 31 /\ 0 <= Z.lxor i j < 2 ^ 31.
Proof.
  rewrite !log_small. intros [I0 I1] [J0 J1].
  split; [|split]; (split; [|intros k Hk; rewrite ?Z.land_spec, ?Z.lor_spec, ?Z.lxor_spec, (I1 k Hk), (J1 k Hk); reflexivity]).
  - apply Z.land_nonneg; auto.
  - apply Z.lor_nonneg; auto.
  - apply Z.lxor_nonneg; tauto.
Qed.
Theorem C175_operation : forall (B : Type) (dec : B -> outcome Z) (b0 : B) s t o i j r n h c, s <> KokkosPost -> t = tint \/ t = tuint ->
  0 <= i < 2 ^ 20 -> 0 <= j <= 100 -> meaning o i j = Some r -> (o = Amod -> j <> 0) -> (o = Ashl \/ o = Ashr -> j <= 10) ->
  dec b0 = Ok i -> run dec (init b0 [[atom_op s t tint o j]]) n h c -> finished c -> ress 0 h = [Ok r] /\ dec (cell c) = Ok r.
Proof.
  intros B dec b0 s t o i j r n h c Hs Ht Hi Hj M Hm Hsh D R Fi.
  assert (F : Forall returns_fit [atom_op s t tint o j]) by (repeat constructor; apply atom_fits, Hs).
  destruct (C175_single _ _ dec b0 _ n h c F R Fi) as [E1 E2]. rewrite E1, E2, D. cbn [outputs leaves atom_op fn fst snd bind].
  assert (L : language t tint o i j = Ok r).
  2: { destruct (small_holds t i Ht ltac:(lia)) as [H1 _]. destruct (small_holds tint j (or_introl eq_refl) ltac:(lia)) as [H2 _].
       rewrite (computes_language s t tint o i j r H1 H2 L). auto. }
  destruct (small_holds t i Ht ltac:(lia)) as [Ti Ci]. destruct (small_holds t j Ht ltac:(lia)) as [Tj Cj].
  destruct (bitwise_small i j ltac:(lia) ltac:(lia)) as (B1 & B2 & B3).
  destruct o; cbn [meaning] in M; try discriminate M; injection M as <-.
  - pose proof (Z.div_mod i j (Hm eq_refl)) as DM. pose proof (Z.mod_pos_bound i j ltac:(specialize (Hm eq_refl); lia)) as MB. specialize (Hm eq_refl).
    assert (QB : 0 <= i / j < 2 ^ 31) by (split; [apply Z.div_pos; lia|apply Z.div_lt_upper_bound; nia]).
    destruct (C172_div t tint i j (i / j) (i mod j) Ci Cj Hm DM ltac:(lia) ltac:(nia)) as [Q _].
    rewrite (proj2 (Q (proj2 (small_holds t _ Ht QB)))). f_equal. apply wrap_id. apply (small_holds t _ Ht). lia.
  - assert (P0 : 0 < 2 ^ j <= 2 ^ 10) by (split; [apply Z.pow_pos_nonneg; lia|apply Z.pow_le_mono_r; [lia|apply Hsh; auto]]).
    assert (J10 : j <= 10) by (apply Hsh; auto). assert (Pr : 0 <= i * 2 ^ j < 2 ^ 31) by nia.
    pose proof (proj1 (small_holds t _ Ht Pr)) as Hw.
    cbn [language]. assert (Bw : bits (wid (promote t)) = 32) by (destruct Ht as [-> | ->]; reflexivity). rewrite Bw.
    destruct (Z.ltb_spec j 0); [lia|]. destruct (Z.leb_spec 32 j); [lia|]. cbn [orb]. rewrite (wrap_id _ _ Hw).
    destruct (Z.ltb_spec i 0); [lia|]. destruct (Z.leb_spec (2 ^ 32) (i * 2 ^ j)); [lia|]. destruct (signed (promote t)); reflexivity.
  - destruct (C172_shift t tint tint i j Ti) as (_ & _ & _ & _ & S & _). apply S.
    assert (Bw : bits (wid (promote t)) = 32) by (destruct Ht as [-> | ->]; reflexivity). rewrite Bw. pose proof (Hsh (or_intror eq_refl)). lia.
  - cbn [language]. rewrite (wrap_id _ _ Ci), (wrap_id _ _ Cj), wrap_id by (apply small_holds; assumption). reflexivity.
  - cbn [language]. rewrite (wrap_id _ _ Ci), (wrap_id _ _ Cj), wrap_id by (apply small_holds; assumption). reflexivity.
  - cbn [language]. rewrite (wrap_id _ _ Ci), (wrap_id _ _ Cj), wrap_id by (apply small_holds; assumption). reflexivity.
  - apply (C172_min_max t tint); assumption.
  - apply (C172_min_max t tint); assumption.
Qed.
Print Assumptions C175_operation.
(** ++ and --, before and after, in every scheme that has them (std::atomic: CppUn; Kokkos: CppBin before, KokkosPost after) *)
Theorem C175_steps : forall (B : Type) (dec : B -> outcome Z) (b0 : B) s t i d after n h c, t = tint \/ t = tuint ->
  (d = 1 \/ d = -1) -> 0 <= i <= 100 -> dec b0 = Ok i -> finished c ->
  (i + d < 0 -> t = tuint -> after = 2 ^ 32 - 1) -> (0 <= i + d \/ t = tint -> after = i + d) ->
  (s <> KokkosPost -> run dec (init b0 [[pre s t d]]) n h c -> ress 0 h = [Ok after] /\ dec (cell c) = Ok after) /\
  (s <> CppBin -> run dec (init b0 [[atom_post s t d]]) n h c -> ress 0 h = [Ok i] /\ dec (cell c) = Ok after).
Proof.
  intros B dec b0 s t i d after n h c Ht Hd Hi D Fi A1 A2.
  destruct (small_holds t i Ht ltac:(lia)) as [Ti _]. assert (Td : holds tint d = true) by (destruct Hd as [-> | ->]; reflexivity).
  assert (L : language t tint Aadd i d = Ok after).
  { destruct (C172_step t d i Hd Ti) as [E|(_ & Sg & _ & E)].
    - unfold language_step in E. fold tint in E. rewrite E. unfold std_atomic_step. f_equal. destruct (Z.lt_ge_cases (i + d) 0) as [N|P].
      + destruct Ht as [-> | ->]; [rewrite A2 by (right; reflexivity); apply wrap_id, tint_holds; lia|]. rewrite (A1 N eq_refl).
        replace (i + d) with (-1) by lia. reflexivity.
      + rewrite A2 by (left; exact P). apply wrap_id. apply (small_holds t _ Ht). lia.
    - exfalso. destruct Ht as [-> | ->]; [|discriminate Sg]. destruct Hd as [-> | ->]; vm_compute in E; subst i; lia. }
  pose proof (computes_language s t tint Aadd i d after Ti Td L) as C.
  split; intros Hs R.
  - assert (F : Forall returns_fit [pre s t d]) by (repeat constructor; apply atom_fits, Hs).
    destruct (C175_single _ _ dec b0 _ n h c F R Fi) as [-> ->]. rewrite D. cbn [outputs leaves pre atom_op fn fst snd bind].
    rewrite C. auto.
  - assert (F : Forall returns_fit [atom_post s t d]) by (repeat constructor; unfold returns_fit; destruct s; cbn; auto; congruence).
    destruct (C175_single _ _ dec b0 _ n h c F R Fi) as [-> ->]. rewrite D. cbn [outputs leaves atom_post fn fst snd bind]. rewrite C. auto.
Qed.
Print Assumptions C175_steps.

(** ** correct-operators.cc: every asserted value, for short, int, long and long long (long long is long here) *)
Theorem C175_correct_operators : forall (B : Type) (dec : B -> outcome Z) (b0 : B) s w n h c, In s [Strong; Weak; CppUn; Lock; Serial] -> w <> W8 ->
  dec b0 = Ok 0 -> run dec (init b0 [correct_operators s (mk_ity true w)]) n h c -> finished c ->
  ress 0 h = map Ok [1; 1; 1; 1;  1; 1; 1; 1;  1; 0;  5; 5 * 7; 5; 0;  5; 5 * 7; 5; 0;  13; 3; 13; 1;  3; 6; 3; 12; 6;
    180; 160; 245; 85; 255;  240; 90; 85] /\ dec (cell c) = Ok 85 /\ asserted = [1; 1; 1; 1;  1; 1; 1; 1;  1; 0;  5; 35; 5; 0;  5; 35; 5; 0;  13; 3; 13; 1;  3; 6; 3; 12; 6;
    180; 160; 245; 85; 255;  240; 90; 85].
Proof.
  intros B dec b0 s w n h c Hs Hw D R Fi.
  assert (F : Forall returns_fit (correct_operators s (mk_ity true w))).
  { cbn [In] in Hs. destruct Hs as [<-|[<-|[<-|[<-|[<-|[]]]]]]; repeat constructor. }
  destruct (C175_single _ _ dec b0 _ n h c F R Fi) as [-> ->]. rewrite D. cbn [In] in Hs.
  destruct Hs as [<-|[<-|[<-|[<-|[<-|[]]]]]], w; try congruence; vm_compute; repeat split.
Qed.
Print Assumptions C175_correct_operators.
(** char is not among the types, and it could not be: 180 does not fit *)
Theorem C175_char_needed : nth_error (outputs (correct_operators Strong (mk_ity true W8)) (Ok 0)) 28 = Some (Ok (-96)).
Proof. vm_compute. reflexivity. Qed.
Print Assumptions C175_char_needed.

(** a run of a mixed program to its end, and the numbers of the rounds *)
Example C175_run : exists n h c, run same (init (Ok 5) [[atom_op Serial tint tint Amul 7; atom_op CppBin tint tint Asub 3; atom_post KokkosPost tint 1]]) n h c /\
  finished c /\ ress 0 h = [Ok 35; Ok 32; Ok 32] /\ cell c = Ok 33.
Proof.
  set (a := atom_op Serial tint tint Amul 7). set (b := atom_op CppBin tint tint Asub 3). set (o := atom_post KokkosPost tint 1).
  pose proof (run_nil same (init (Ok 5) [[a; b; o]])) as R.
  go ltac:(fun c => constr:(s_call same 0 c a [b; o] eq_refl)).
  go ltac:(fun c => constr:(s_s_read same 0 c a [b; o] eq_refl eq_refl)).
  go ltac:(fun c => constr:(s_s_write same 0 c a [b; o] (Ok 5) (Ok 35) eq_refl eq_refl)).
  go ltac:(fun c => constr:(s_return same 0 c a [b; o] (Ok 35) eq_refl)).
  go ltac:(fun c => constr:(s_call same 0 c b [o] eq_refl)).
  go ltac:(fun c => constr:(s_cpp_rmw same 0 c b [o] (Ok 32) eq_refl eq_refl eq_refl)).
  go ltac:(fun c => constr:(s_cpp_ret same 0 c b [o] eq_refl)).
  go ltac:(fun c => constr:(s_return same 0 c b [o] (Ok 32) eq_refl)).
  go ltac:(fun c => constr:(s_call same 0 c o [] eq_refl)).
  go ltac:(fun c => constr:(s_k_read same 0 c o [] eq_refl eq_refl)).
  go ltac:(fun c => constr:(s_k_rmw same 0 c o [] (Ok 32) (Ok 33) eq_refl eq_refl)).
  go ltac:(fun c => constr:(s_return same 0 c o [] (Ok 32) eq_refl)).
  eexists _, _, _. split; [exact R|]. split; [intros [|[|t]]; reflexivity|]. split; reflexivity.
Qed.
Example C175_rounds_ex : running Z.mul 1 (thrice [-5; -3; -1; 1; 3; 5]) =
    [-5; 25; -125; 375; -1125; 3375; -3375; 3375; -3375; -3375; -3375; -3375; -10125; -30375; -91125; -455625; -2278125; -11390625]
  /\ last (running (modulo Z.mul) 100 (thrice [5; 7; 9; 11; 13; 15])) 0 = (100 * (5 * 7 * 9 * 11 * 13 * 15) ^ 3) mod 2 ^ 32
  /\ start tint Amul = 1 /\ start tuint Amul = 100 /\ start tint Adiv = 3375 /\ start tuint Adiv = 200201625
  /\ 3375 = 5 ^ 3 * 1 * 3 ^ 3 /\ 200201625 = (5 * 9 * 13) ^ 3.
Proof. vm_compute. repeat split. Qed.
Example C175_operation_ex : meaning Amod 10 4 = Some 2 /\ meaning Ashr 999990 10 = Some 976 /\ meaning Ashl 10 10 = Some 10240 /\ meaning Amin 10 100 = Some 10.
Proof. repeat split. Qed.
