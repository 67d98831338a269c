(** C174: the threaded unit tests and example programs of ristra/atomics. *)
From Coq Require Import List Arith Bool ZArith Reals Lia Lra Permutation SpecFloat.
From Verif Require Import Outcome AtomicsModel AtomicsProofs AtomicsRuns AtomicsProps AtomicsTypesModel AtomicsTypesProps.
From Verif Require Import FloatRound FloatModel FloatProofs CatalystModel CatalystProofs AtomicsTestModel.
Import AtomicsModel AtomicsProofs AtomicsRuns AtomicsProps AtomicsTypesModel.
Import ListNotations.
Local Open Scope Z_scope.

(** ** any type, any operations: what is left when all threads have finished *)
Definition allowed (ss : list scheme) (nthreads : nat) : Prop :=
  Forall (fun s => s <> Lock /\ s <> Serial) ss \/ Forall (fun s => s = Lock) ss \/ (nthreads <= 1)%nat.
Theorem C174_final : forall (T B : Type) (dec : B -> T) (b0 : B) progs n h c,
  allowed (map sch (concat progs)) (length progs) -> run dec (init b0 progs) n h c -> finished c ->
  exists l, Permutation l (concat progs) /\ dec (cell c) = fold_left (fun v o => fst (fn o v)) l (dec b0).
Proof.
  intros T B dec b0 progs n h c A R Fi.
  assert (M : forall o, has_op progs o -> In (sch o) (map sch (concat progs))).
  { intros o [t Ht]. apply in_map, in_concat. exists (nth t progs []). split; [|exact Ht].
    destruct (Nat.lt_ge_cases t (length progs)) as [L|G]; [apply nth_In; exact L|rewrite nth_overflow in Ht by exact G; destruct Ht]. }
  assert (W : well_mixed progs).
  { destruct A as [A|[A|A]]; rewrite ?Forall_forall in A.
    - left. intros o Ho. apply A, M, Ho.
    - right. left. intros o Ho. apply A, M, Ho.
    - right. right. exists 0%nat. intros t Ht. apply nth_overflow. lia. }
  destruct (reach_inv dec progs b0 n h c W R) as (l & IV & _). destruct (finished_order _ _ _ _ _ _ IV Fi) as [P _].
  exists (map snd l). split; [rewrite <- (tag_snd 0); apply Permutation_map, P|].
  rewrite <- (i_val _ _ _ _ _ _ IV). clear. generalize (dec b0). induction l as [|[t o] l IH]; intros v; [reflexivity|]. apply IH.
Qed.
Print Assumptions C174_final.

(** ** the tests: the serial result, whatever the operation, type and scheme *)
Lemma fold_repeat {T} (f : T -> T) (o : op T) l v : (forall o', In o' l -> o' = o) -> (forall v, fst (fn o v) = f v) ->
  fold_left (fun v o => fst (fn o v)) l v = Nat.iter (length l) f v.
Proof.
  intros H E. revert v. induction l as [|x l IH]; intros v; [reflexivity|]. cbn [fold_left length].
  rewrite IH by (intros o' Ho; apply H; right; exact Ho). rewrite (H x) by (left; reflexivity). rewrite E.
  clear. induction (length l) as [|k IHk]; [reflexivity|]. change (f (Nat.iter k f (f v)) = f (f (Nat.iter k f v))). f_equal. exact IHk.
Qed.
Lemma test_length {T} (o : op T) a b : length (concat (test_progs o a b)) = (a * b)%nat.
Proof. unfold test_progs. induction a as [|a IH]; [reflexivity|]. cbn [repeat concat]. rewrite app_length, repeat_length, IH. reflexivity. Qed.
Lemma test_in {T} (o o' : op T) a b : In o' (concat (test_progs o a b)) -> o' = o.
Proof. rewrite in_concat. intros (l & Hl & Ho). apply repeat_spec in Hl. subst l. apply repeat_spec in Ho. exact Ho. Qed.
Lemma iter_iter {T} (f : T -> T) a b v : Nat.iter a (Nat.iter b f) v = Nat.iter (a * b) f v.
Proof.
  induction a as [|a IH]; [reflexivity|]. change (Nat.iter b f (Nat.iter a (Nat.iter b f) v) = Nat.iter (b + a * b) f v). rewrite IH.
  generalize (a * b)%nat. intros m. clear IH. induction b as [|b IHb]; [reflexivity|].
  change (f (Nat.iter b f (Nat.iter m f v)) = f (Nat.iter (b + m) f v)). f_equal. exact IHb.
Qed.
Theorem C174_threads : forall (T B : Type) (dec : B -> T) (b0 : B) (o : op T) nthread niter n h c, tried (sch o) nthread ->
  run dec (init b0 (test_progs o nthread niter)) n h c -> finished c ->
  dec (cell c) = Nat.iter nthread (Nat.iter niter (fun v => fst (fn o v))) (dec b0).
Proof.
  intros T B dec b0 o nt ni n h c Tr R Fi. assert (A : allowed (map sch (concat (test_progs o nt ni))) (length (test_progs o nt ni))).
  - assert (S : forall s, In s (map sch (concat (test_progs o nt ni))) -> s = sch o).
    { intros s Hs. apply in_map_iff in Hs. destruct Hs as (x & <- & Hx). rewrite (test_in _ _ _ _ Hx). reflexivity. }
    unfold allowed, tried in *. rewrite !Forall_forall. destruct (sch o) eqn:E; try (left; intros s Hs; rewrite (S s Hs); split; discriminate).
    + right. left. exact S.
    + right. right. unfold test_progs. rewrite repeat_length, (Tr eq_refl). lia.
  - destruct (C174_final _ _ _ _ _ _ _ _ A R Fi) as (l & P & ->). rewrite (fold_repeat (fun v => fst (fn o v)) o); [|intros o' Ho; apply (test_in _ _ nt ni), (Permutation_in _ P), Ho|reflexivity].
    rewrite (Permutation_length P), test_length, iter_iter. reflexivity.
Qed.
Print Assumptions C174_threads.

(** integers: when the serial part of the test is defined, the threads leave the same value, so the assertion holds *)
Lemma language_holds t x o lhs val r : holds t lhs = true -> holds t val = true -> language t x o lhs val = Ok r -> holds t r = true.
Proof.
  intros HL HV. unfold language. set (c := common t x).
  assert (A : forall e, bind (arith c e) (fun r => Ok (wrap t r)) = Ok r -> holds t r = true).
  { intros e H. destruct (arith c e); try discriminate H. cbn in H. injection H as <-. apply wrap_holds. }
  destruct o; intros H.
  1,2,3: exact (A _ H).
  - destruct (_ =? 0); [discriminate H|exact (A _ H)].
  - destruct (_ =? 0); [discriminate H|]. destruct (arith c _); try discriminate H. cbn in H. injection H as <-. apply wrap_holds.
  - destruct (_ || _); [discriminate H|]. destruct (signed _); [destruct (_ || _); [discriminate H|]|]; injection H as <-; apply wrap_holds.
  - destruct (_ || _); [discriminate H|]. injection H as <-. apply wrap_holds.
  - injection H as <-. apply wrap_holds.
  - injection H as <-. apply wrap_holds.
  - injection H as <-. apply wrap_holds.
  - injection H as <-. destruct (_ <? _); [apply wrap_holds|exact HL].
  - injection H as <-. destruct (_ <? _); [apply wrap_holds|exact HL].
Qed.
Lemma computes_language s t x o lhs val r : holds t lhs = true -> holds x val = true ->
  language t x o lhs val = Ok r -> computes s t x o val lhs = Ok r.
Proof.
  intros HL HV H. unfold computes. destruct (std_atomic t o lhs val) as [z|] eqn:E; [|destruct s; exact H].
  rewrite <- (C172_cpp t x o lhs val r z HL HV H E). destruct s; first [exact H | reflexivity].
Qed.
Theorem C174_test : forall (B : Type) (dec : B -> outcome Z) (b0 : B) s t o init0 val nthread niter n h c r,
  holds t init0 = true -> holds t val = true -> dec b0 = Ok init0 -> tried s nthread ->
  serial_value t o init0 val nthread niter = Ok r ->
  run dec (init b0 (test_progs (atom_op s t t o val) nthread niter)) n h c -> finished c -> dec (cell c) = Ok r.
Proof.
  intros B dec b0 s t o i val nt ni n h c r HI HV D Tr Sv R Fi.
  rewrite (C174_threads _ _ _ _ (atom_op s t t o val) _ _ _ _ _ Tr R Fi), D, iter_iter. unfold serial_value in Sv. rewrite iter_iter in Sv.
  clear R Fi D Tr. assert (G : forall k r, Nat.iter k (fun v => bind v (fun lhs => language t t o lhs val)) (Ok i) = Ok r ->
    holds t r = true /\ Nat.iter k (fun v => fst (fn (atom_op s t t o val) v)) (Ok i) = Ok r).
  2: exact (proj2 (G _ _ Sv)).
  clear Sv r. induction k as [|k IH]; intros r; [cbn; intros H; injection H as <-; auto|].
  change (bind (Nat.iter k (fun v => bind v (fun lhs => language t t o lhs val)) (Ok i)) (fun lhs => language t t o lhs val) = Ok r ->
    holds t r = true /\ fst (fn (atom_op s t t o val) (Nat.iter k (fun v => fst (fn (atom_op s t t o val) v)) (Ok i))) = Ok r).
  destruct (Nat.iter k (fun v => bind v (fun lhs => language t t o lhs val)) (Ok i)) as [v| | |] eqn:E; try discriminate.
  destruct (IH v eq_refl) as [Hv ->]. cbn [bind]. intros H.
  split; [exact (language_holds _ _ _ _ _ _ Hv HV H)|]. cbn. apply computes_language; assumption.
Qed.
Print Assumptions C174_test.

(** ** the integer data of the tests: never undefined, except int in unit-threads-mul.cc and unit-threads-lshift.cc *)
Lemma defined_by (P : nat -> Z -> Prop) t o init0 val k : P 0%nat init0 ->
  (forall j v, (j < k)%nat -> P j v -> exists r, language t t o v val = Ok r /\ P (S j) r) ->
  exists r, Nat.iter k (fun v => bind v (fun lhs => language t t o lhs val)) (Ok init0) = Ok r /\ P k r.
Proof.
  intros H0 HS. induction k as [|k IH]; [exists init0; auto|].
  destruct IH as (v & E & Pv); [intros j v Hj; apply HS; lia|]. destruct (HS k v (Nat.lt_succ_diag_r k) Pv) as (r & Er & Pr).
  exists r. split; [|exact Pr].
  change (bind (Nat.iter k (fun v => bind v (fun lhs => language t t o lhs val)) (Ok init0)) (fun lhs => language t t o lhs val) = Ok r).
  rewrite E. exact Er.
Qed.
Lemma tint_holds v : holds tint v = true <-> -2147483648 <= v <= 2147483647. Proof. apply holds_spec. Qed.
Lemma tuint_holds v : holds tuint v = true <-> 0 <= v <= 4294967295. Proof. apply holds_spec. Qed.
Lemma defined_add o f init0 val k : (o = Aadd /\ f = Z.add) \/ (o = Asub /\ f = Z.sub) -> Z.abs init0 <= 2 -> Z.abs val <= 11 -> (k <= 2000)%nat ->
  exists r, Nat.iter k (fun v => bind v (fun lhs => language tint tint o lhs val)) (Ok init0) = Ok r.
Proof.
  intros Ho Hi Hv Hk. destruct (defined_by (fun j v => Z.abs v <= 2 + 11 * Z.of_nat j) tint o init0 val k) as (r & E & _); [lia| |exists r; exact E].
  intros j v Hj Pj. exists (f v val).
  assert (Q : Z.abs (f v val) <= 2 + 11 * Z.of_nat (S j)) by (destruct Ho as [[_ ->]|[_ ->]]; lia).
  split; [|exact Q]. apply C172_exact; [destruct Ho as [[-> ->]|[-> ->]]; reflexivity| | |]; apply tint_holds; lia.
Qed.
Lemma defined_wrap o f init0 val k : ring_op o = Some f -> holds tuint init0 = true -> holds tuint val = true ->
  exists r, Nat.iter k (fun v => bind v (fun lhs => language tuint tuint o lhs val)) (Ok init0) = Ok r.
Proof.
  intros Ho Hi Hv. destruct (defined_by (fun _ v => holds tuint v = true) tuint o init0 val k) as (r & E & _); [exact Hi| |exists r; exact E].
  intros j v _ Pv. pose proof (C172_ring tuint tuint o f v val Ho Pv Hv) as H. cbn [signed common promote wid tuint Bool.eqb andb] in H.
  change (signed (common tuint tuint)) with false in H. cbn [andb] in H. destruct H as (r & E & B & _). exists r. split; [exact E|]. apply holds_spec, B.
Qed.
Lemma defined_bits t o g init0 val k : bit_op o = Some g ->
  exists r, Nat.iter k (fun v => bind v (fun lhs => language t t o lhs val)) (Ok init0) = Ok r.
Proof.
  intros Ho. destruct (defined_by (fun _ _ => True) t o init0 val k) as (r & E & _); [exact I| |exists r; exact E].
  intros j v _ _. destruct (C172_bits t t o g v val Ho) as (r & E & _). exists r. auto.
Qed.
Lemma both_hold t v : t = tint \/ t = tuint -> 0 <= v <= 2147483647 -> holds t v = true /\ holds (common t t) v = true.
Proof. intros [-> | ->] H; split; apply holds_spec; unfold lo, hi; cbn -[Z.pow]; lia. Qed.
Lemma defined_div t o init0 val k : t = tint \/ t = tuint -> o = Adiv \/ o = Amod -> 0 <= init0 <= 2147483647 -> 1 <= val <= 5 ->
  exists r, Nat.iter k (fun v => bind v (fun lhs => language t t o lhs val)) (Ok init0) = Ok r.
Proof.
  intros Ht Ho Hi Hv. destruct (defined_by (fun _ v => 0 <= v <= 2147483647) t o init0 val k) as (r & E & _); [exact Hi| |exists r; exact E].
  intros j v _ Pv. pose proof (Z.div_mod v val ltac:(lia)) as DM. pose proof (Z.mod_pos_bound v val ltac:(lia)) as MB.
  assert (QB : 0 <= v / val <= 2147483647) by (split; [apply Z.div_pos; lia|apply Z.div_le_upper_bound; nia]).
  destruct (both_hold t v Ht Pv) as [_ Lv]. destruct (both_hold t val Ht ltac:(lia)) as [_ Lval].
  destruct (both_hold t _ Ht QB) as [Q1 Q2]. destruct (both_hold t (v mod val) Ht ltac:(lia)) as [M1 _].
  destruct (C172_div t t v val (v / val) (v mod val) Lv Lval ltac:(lia) DM ltac:(lia) ltac:(nia)) as [D _].
  destruct (D Q2) as [D1 D2]. rewrite (wrap_id _ _ Q1) in D1. rewrite (wrap_id _ _ M1) in D2.
  destruct Ho as [-> | ->]; [exists (v / val)|exists (v mod val)]; split; try assumption; lia.
Qed.
Lemma defined_shr t init0 val k : t = tint \/ t = tuint -> 0 <= init0 <= 2147483647 -> 1 <= val <= 3 ->
  exists r, Nat.iter k (fun v => bind v (fun lhs => language t t Ashr lhs val)) (Ok init0) = Ok r.
Proof.
  intros Ht Hi Hv. destruct (defined_by (fun _ v => 0 <= v <= 2147483647) t Ashr init0 val k) as (r & E & _); [exact Hi| |exists r; exact E].
  intros j v _ Pv. destruct (both_hold t v Ht Pv) as [Lv _]. destruct (C172_shift t t t v val Lv) as (_ & _ & _ & _ & S & _).
  exists (v / 2 ^ val). split; [apply S; destruct Ht as [-> | ->]; cbn; lia|].
  pose proof (Z.pow_pos_nonneg 2 val ltac:(lia) ltac:(lia)). split; [apply Z.div_pos; lia|apply Z.div_le_upper_bound; nia].
Qed.
Lemma defined_shl init0 val k : holds tuint init0 = true -> 0 <= val <= 3 ->
  exists r, Nat.iter k (fun v => bind v (fun lhs => language tuint tuint Ashl lhs val)) (Ok init0) = Ok r.
Proof.
  intros Hi Hv. destruct (defined_by (fun _ _ => True) tuint Ashl init0 val k) as (r & E & _); [exact I| |exists r; exact E].
  intros j v _ _. cbn [language tuint promote wid signed bits]. destruct (Z.ltb_spec val 0); [lia|]. destruct (Z.leb_spec 32 val); [lia|].
  cbn [orb]. eauto.
Qed.
Theorem C174_data : forall x i v nthread niter, In x tests -> In i (t_initial x) -> In v (t_rhs x) ->
  (nthread <= maxnthread)%nat -> (niter <= t_niter x)%nat ->
  holds (t_type x) i = true /\ holds (t_type x) v = true /\ exists r, serial_value (t_type x) (t_op x) i v nthread niter = Ok r.
Proof.
  intros x i v nt ni Hx Hi Hv Ht Hn. unfold maxnthread in Ht. split; [|split].
  1: { assert (A : forallb (fun y => forallb (holds (t_type y)) (t_initial y)) tests = true) by reflexivity.
       rewrite forallb_forall in A. specialize (A x Hx). rewrite forallb_forall in A. exact (A i Hi). }
  1: { assert (A : forallb (fun y => forallb (holds (t_type y)) (t_rhs y)) tests = true) by reflexivity.
       rewrite forallb_forall in A. specialize (A x Hx). rewrite forallb_forall in A. exact (A v Hv). }
  unfold serial_value. rewrite iter_iter.
  assert (R : forall a b (l : list Z), (forall z, In z l -> (a <=? z) && (z <=? b) = true) -> forall z, In z l -> a <= z <= b).
  { intros a b l H z Hz. specialize (H z Hz). apply andb_prop in H. lia. }
  assert (I1 : forall l z, In z l -> forallb (fun z => (-2 <=? z) && (z <=? 2)) l = true -> -2 <= z <= 2)
    by (intros l z Hz H; revert z Hz; apply R; apply forallb_forall; exact H).
  assert (I2 : forall l z, In z l -> forallb (fun z => (-11 <=? z) && (z <=? 11)) l = true -> -11 <= z <= 11)
    by (intros l z Hz H; revert z Hz; apply R; apply forallb_forall; exact H).
  assert (I3 : forall l z, In z l -> forallb (fun z => (0 <=? z) && (z <=? 2147483647)) l = true -> 0 <= z <= 2147483647)
    by (intros l z Hz H; revert z Hz; apply R; apply forallb_forall; exact H).
  assert (I4 : forall l z, In z l -> forallb (fun z => (1 <=? z) && (z <=? 5)) l = true -> 1 <= z <= 5)
    by (intros l z Hz H; revert z Hz; apply R; apply forallb_forall; exact H).
  assert (I5 : forall l z, In z l -> forallb (fun z => (1 <=? z) && (z <=? 3)) l = true -> 1 <= z <= 3)
    by (intros l z Hz H; revert z Hz; apply R; apply forallb_forall; exact H).
  assert (I6 : forall l z, In z l -> forallb (fun z => (0 <=? z) && (z <=? 3)) l = true -> 0 <= z <= 3)
    by (intros l z Hz H; revert z Hz; apply R; apply forallb_forall; exact H).
  assert (K : (nt * ni <= 4 * t_niter x)%nat) by (apply Nat.mul_le_mono; assumption).
  unfold tests in Hx. cbn [In] in Hx.
  repeat (destruct Hx as [<-|Hx]; [cbn [t_type t_op t_initial t_rhs t_niter] in *|]); [..|destruct Hx].
  all: first
    [ eapply (defined_add Aadd Z.add); [left; auto|pose proof (I1 _ i Hi eq_refl); lia|pose proof (I2 _ v Hv eq_refl); lia|lia]
    | eapply (defined_add Asub Z.sub); [right; auto|pose proof (I1 _ i Hi eq_refl); lia|pose proof (I2 _ v Hv eq_refl); lia|lia]
    | eapply defined_wrap; [reflexivity|apply tuint_holds; pose proof (I3 _ i Hi eq_refl); lia|apply tuint_holds; pose proof (I3 _ v Hv eq_refl); lia]
    | eapply defined_bits; reflexivity
    | eapply defined_div; [solve [auto]|solve [auto]|exact (I3 _ i Hi eq_refl)|exact (I4 _ v Hv eq_refl)]
    | eapply defined_shr; [auto|exact (I3 _ i Hi eq_refl)|exact (I5 _ v Hv eq_refl)]
    | eapply defined_shl; [apply tuint_holds; pose proof (I3 _ i Hi eq_refl); lia|exact (I6 _ v Hv eq_refl)] ].
Qed.
Print Assumptions C174_data.
(** REFUTED for int in unit-threads-mul.cc and unit-threads-lshift.cc: the tests themselves overflow (1 * 3^20, 1 << 32),
    already in their serial part *)
Theorem C174_data_refuted :
  (exists i v nthread niter, In i (t_initial test_mul) /\ In v (t_rhs test_mul) /\ (1 <= nthread <= maxnthread)%nat /\ (1 <= niter <= t_niter test_mul)%nat
     /\ serial_value (t_type test_mul) (t_op test_mul) i v nthread niter = UB)
  /\ (exists i v nthread niter, In i (t_initial test_lshift) /\ In v (t_rhs test_lshift) /\ (1 <= nthread <= maxnthread)%nat /\ (1 <= niter <= t_niter test_lshift)%nat
     /\ serial_value (t_type test_lshift) (t_op test_lshift) i v nthread niter = UB).
Proof.
  split; [exists 1, 3, 2%nat, 10%nat|exists 1, 1, 4%nat, 10%nat]; (split; [cbn; auto|split; [cbn; auto|split; [unfold maxnthread; lia|split; [cbn [t_niter test_mul test_lshift]; lia|vm_compute; reflexivity]]]]).
Qed.
Print Assumptions C174_data_refuted.
Example C174_data_ex : serial_value tint Aadd (-2) (-11) 4 100 = Ok (-4402) /\ serial_value tuint Asub 0 14 1 1 = Ok 4294967282
  /\ serial_value tuint Amul 4 3 2 10 = Ok 1062235716 /\ serial_value tint Adiv 400000 3 1 3 = Ok 14814.
Proof. repeat split; vm_compute; reflexivity. Qed.

(** ** float and double: the check compares the result with itself.  It holds for every float but zero, infinities and NaN,
    and for every double of magnitude 2^-1040 or more *)
Lemma abs_fin prec emax x : fin x = true -> valid_binary prec emax x = true -> fin (SFabs x) = true /\ valid_binary prec emax (SFabs x) = true /\ FR (SFabs x) = Rabs (FR x).
Proof.
  destruct x as [s|s| |s m e]; try discriminate; intros _ V; cbn [SFabs FR].
  - rewrite Rabs_R0. auto.
  - split; [reflexivity|split; [exact V|]]. pose proof (FR_finite_pos m e). destruct s.
    + rewrite Rabs_left by lra. lra.
    + rewrite Rabs_right by lra. lra.
Qed.
Lemma self_sub prec emax x : fin x = true -> SFabs (SFsub prec emax x x) = S754_zero false.
Proof.
  destruct x as [s|s| |s m e]; try discriminate; intros _; cbn [SFsub]; [destruct s; reflexivity|].
  rewrite Z.sub_diag. reflexivity.
Qed.
Definition large (y : spec_float) : Prop := y = S754_infinity false \/ (fin y = true /\ valid_binary 53 1024 y = true /\ (pw (-1040) <= FR y)%R).
Lemma positive_passes y : fin y = true -> (0 < FR y)%R -> less (S754_zero false) y = true.
Proof.
  destruct y as [s|s| |s m e]; try discriminate; intros _; cbn [FR]; [lra|]. intros H. pose proof (FR_finite_pos m e).
  destruct s; [lra|reflexivity].
Qed.
Lemma millionth_is : fin millionth = true /\ valid_binary 53 1024 millionth = true /\ (pw (-20) <= FR millionth)%R.
Proof.
  split; [reflexivity|]. split; [reflexivity|]. cbn [FR millionth]. change (-20)%Z with (52 + -72)%Z. rewrite pw_add.
  assert (E : pw 52 = IZR (2 ^ 52)) by (symmetry; apply pw_Z; lia). rewrite E, Rmult_1_l.
  apply Rmult_le_compat_r; [left; apply pw_pos|apply IZR_le; vm_compute; discriminate].
Qed.
Lemma large_passes y : large y -> less (S754_zero false) (SFmul 53 1024 millionth y) = true.
Proof.
  intros [->|(F & V & L)]; [reflexivity|]. destruct millionth_is as (Fm & Vm & Lm).
  pose proof (mul_correct 53 1024 ltac:(lia) ltac:(lia) _ _ Fm F Vm V) as A.
  assert (G : isfl 53 1024 (pw (-1060))).
  { replace (pw (-1060)) with (1 * pw (-1060))%R by ring. apply (isfl_scaled 53 1024 ltac:(lia) ltac:(lia) 1 (-1060)); [lia|unfold emin; lia]. }
  assert (B : (pw (-1060) <= FR millionth * FR y)%R).
  { change (-1060)%Z with (-20 + -1040)%Z. rewrite pw_add. pose proof (pw_pos (-20)). pose proof (pw_pos (-1040)). apply Rmult_le_compat; lra. }
  pose proof (pw_pos (-1060)) as P0. set (z := SFmul 53 1024 millionth y) in *. clearbody z.
  destruct (fin z) eqn:Fz.
  - apply positive_passes; [exact Fz|]. pose proof (proj1 (approx_le 53 1024 _ _ _ _ A Fz G) B). lra.
  - destruct A as [_ [(Fz' & _)|(s & -> & _ & N)]]; [congruence|]. destruct s; [|reflexivity]. specialize (N _ G). cbn [sgnR] in N. lra.
Qed.
Lemma double_large prec emax (H1 : (1 < prec)%Z) (H2 : (prec < emax)%Z) a z : fin a = true -> valid_binary prec emax a = true ->
  z = SFadd prec emax (SFabs a) (SFabs a) -> z = S754_infinity false \/ (fin z = true /\ valid_binary prec emax z = true /\ (Rabs (FR a) <= FR z)%R).
Proof.
  intros F V ->. destruct (abs_fin _ _ _ F V) as (F1 & V1 & E1). pose proof (Rabs_pos (FR a)) as P0.
  pose proof (add_correct prec emax H1 H2 _ _ F1 F1 V1 V1) as A. rewrite E1 in A. set (z := SFadd prec emax (SFabs a) (SFabs a)) in *. clearbody z.
  assert (G : isfl prec emax (Rabs (FR a))) by (exists (SFabs a); auto). destruct (fin z) eqn:Fz.
  - right. split; [reflexivity|]. split; [exact (approx_valid prec emax _ _ _ A)|]. apply (proj1 (approx_le prec emax _ _ _ _ A Fz G)). lra.
  - left. destruct A as [_ [(Fz' & _)|(s & -> & _ & N)]]; [congruence|]. destruct s; [|reflexivity]. specialize (N _ G). cbn [sgnR] in N. lra.
Qed.
Theorem C174_check : forall a, fin a = true ->
  (valid_binary 53 1024 a = true -> (pw (-1040) <= Rabs (FR a))%R -> approximately_equal a a = true) /\
  (valid_binary 24 128 a = true -> FR a <> 0%R -> approximately_equal_float a a = true).
Proof.
  intros a F. split; intros V L; unfold approximately_equal, approximately_equal_float; rewrite self_sub by exact F.
  - apply large_passes. destruct (double_large 53 1024 ltac:(lia) ltac:(lia) a _ F V eq_refl) as [E|(F1 & V1 & B)]; [left; exact E|right].
    split; [exact F1|]. split; [exact V1|]. lra.
  - change (widen (S754_zero false)) with (S754_zero false). apply large_passes.
    destruct (double_large 24 128 ltac:(lia) ltac:(lia) a _ F V eq_refl) as [E|(F1 & V1 & B)]; [left; rewrite E; reflexivity|right].
    destruct (widen_exact _ F1 V1) as (F2 & V2 & E2). split; [exact F2|]. split; [exact V2|]. rewrite E2.
    apply Rle_trans with (Rabs (FR a)); [|exact B]. destruct a as [s|s| |s m e]; try discriminate F; [cbn in L; lra|].
    destruct (valid_finite 24 128 _ _ _ V) as [_ [Be _]]. unfold emin in Be. destruct (abs_fin 24 128 _ F V) as (_ & _ & <-). cbn [SFabs FR].
    rewrite Rmult_1_l. apply Rle_trans with (pw e); [apply pw_le; lia|]. pose proof (pw_pos e). pose proof (IZR_le 1 (Z.pos m) ltac:(lia)). nra.
Qed.
Print Assumptions C174_check.
(** REFUTED in general: equal results fail the check when they are zero, infinite, NaN or, for double, very small *)
Theorem C174_check_refuted : forall s,
  approximately_equal (S754_zero s) (S754_zero s) = false /\ approximately_equal_float (S754_zero s) (S754_zero s) = false /\
  approximately_equal (S754_infinity s) (S754_infinity s) = false /\ approximately_equal_float (S754_infinity s) (S754_infinity s) = false /\
  approximately_equal S754_nan S754_nan = false /\ approximately_equal_float S754_nan S754_nan = false /\
  approximately_equal (S754_finite s 1 (-1074)) (S754_finite s 1 (-1074)) = false.
Proof. intros []; repeat split; vm_compute; reflexivity. Qed.
Print Assumptions C174_check_refuted.
(** results that differ by one part in a million pass, by three parts do not; the smallest float passes *)
Example C174_check_ex : approximately_equal (of_int 53 1024 1000000) (of_int 53 1024 1000001) = true /\
  approximately_equal (of_int 53 1024 1000000) (of_int 53 1024 1000003) = false /\
  approximately_equal_float (of_int 24 128 1000000) (of_int 24 128 1000001) = true /\
  approximately_equal_float (of_int 24 128 1000000) (of_int 24 128 1000003) = false /\
  approximately_equal_float (S754_finite false 1 (-149)) (S754_finite false 1 (-149)) = true.
Proof. repeat split; vm_compute; reflexivity. Qed.

(** ** the examples *)
Lemma steps_fold {A} (f : A -> op (outcome Z)) (g : A -> Z -> Z) (P : nat -> Z -> Prop) l v :
  P 0%nat v -> (forall j a v, In a l -> (j < length l)%nat -> P j v -> fst (fn (f a) (Ok v)) = Ok (g a v) /\ P (S j) (g a v)) ->
  fold_left (fun v o => fst (fn o v)) (map f l) (Ok v) = Ok (fold_left (fun v a => g a v) l v).
Proof.
  revert v P. induction l as [|a l IH]; intros v P H0 HS; [reflexivity|]. cbn [map fold_left].
  destruct (HS 0%nat a v) as [E H1]; [left; reflexivity|cbn; lia|exact H0|]. rewrite E.
  apply (IH _ (fun j => P (S j))); [exact H1|]. intros j b w Hb Hj. apply HS; [right; exact Hb|cbn; lia].
Qed.
Lemma map_repeat {A B} (f : A -> B) a n : map f (repeat a n) = repeat (f a) n.
Proof. induction n as [|n IH]; [reflexivity|]. cbn [repeat map]. rewrite IH. reflexivity. Qed.
Lemma map_concat_repeat {A B} (f : A -> B) l n : map f (concat (repeat l n)) = concat (repeat (map f l) n).
Proof. rewrite concat_map, map_repeat. reflexivity. Qed.
Lemma fold_sum l : forall v, fold_left (fun v d => v + d) l v = v + fold_right Z.add 0 l.
Proof. induction l as [|d l IH]; intros v; cbn [fold_left fold_right]; [lia|]. rewrite IH. lia. Qed.
Lemma sum_perm l l' : Permutation l l' -> fold_right Z.add 0 l = fold_right Z.add 0 l'.
Proof. intros P. induction P; cbn [fold_right]; lia. Qed.
Lemma allowed_map {T} ss (progs : list (list (op T))) n : allowed ss n -> (length progs <= n)%nat ->
  (forall o, In o (concat progs) -> In (sch o) ss) -> allowed (map sch (concat progs)) (length progs).
Proof.
  intros A L H. unfold allowed in *. rewrite !Forall_forall in *.
  assert (M : forall s, In s (map sch (concat progs)) -> In s ss) by (intros s Hs; apply in_map_iff in Hs; destruct Hs as (o & <- & Ho); apply H, Ho).
  destruct A as [A|[A|A]]; [left|right; left|right; right; lia]; auto.
Qed.

(** multithreaded-add.cc prints nthreads * niters, multithreaded-add-sub.cc prints 0 *)
Lemma long_step s o f v : (o = Aadd /\ f = Z.add) \/ (o = Asub /\ f = Z.sub) -> Z.abs (f v 1) < 2 ^ 63 -> Z.abs v < 2 ^ 63 ->
  fst (fn (atom_op s tlong tint o 1) (Ok v)) = Ok (f v 1).
Proof.
  intros Ho H1 H2. cbn [atom_op fn fst bind].
  assert (K : forall w, Z.abs w < 2 ^ 63 -> holds tlong w = true) by (intros w Hw; apply holds_spec; change (lo tlong) with (- 2 ^ 63); change (hi tlong) with (2 ^ 63 - 1); lia).
  apply computes_language; [apply K, H2|reflexivity|]. apply C172_exact; [destruct Ho as [[-> ->]|[-> ->]]; reflexivity|apply K, H2|reflexivity|apply K, H1].
Qed.
Theorem C174_add : forall (B : Type) (dec : B -> outcome Z) (b0 : B) s nthreads niters n h c, dec b0 = Ok 0 -> allowed [s] nthreads ->
  Z.of_nat nthreads * Z.of_nat niters < 2 ^ 63 -> run dec (init b0 (ex_add s nthreads niters)) n h c -> finished c ->
  dec (cell c) = Ok (Z.of_nat nthreads * Z.of_nat niters).
Proof.
  intros B dec b0 s nt ni n h c D A Bd R Fi.
  assert (E : ex_add s nt ni = test_progs (atom_op s tlong tint Aadd 1) nt ni) by reflexivity. rewrite E in R.
  assert (AL : allowed (map sch (concat (test_progs (atom_op s tlong tint Aadd 1) nt ni))) (length (test_progs (atom_op s tlong tint Aadd 1) nt ni))).
  { eapply (allowed_map [s]); [exact A|unfold test_progs; rewrite repeat_length; lia|]. intros o Ho. rewrite (test_in _ _ _ _ Ho). left. reflexivity. }
  destruct (C174_final _ _ _ _ _ _ _ _ AL R Fi) as (l & P & ->).
  assert (L : l = map (fun _ : unit => atom_op s tlong tint Aadd 1) (repeat tt (nt * ni))).
  { rewrite map_repeat, <- (test_length (atom_op s tlong tint Aadd 1) nt ni), <- (Permutation_length P). apply Forall_eq_repeat.
    rewrite Forall_forall. intros o Ho. symmetry. apply (test_in _ _ nt ni), (Permutation_in _ P), Ho. }
  rewrite L, D. rewrite (steps_fold _ (fun _ v => v + 1) (fun j v => v = Z.of_nat j)); [|reflexivity|].
  - f_equal. clear -Bd. rewrite <- Nat2Z.inj_mul. generalize (nt * ni)%nat. intros k.
    assert (G : forall v, fold_left (fun v (_ : unit) => v + 1) (repeat tt k) v = v + Z.of_nat k).
    { induction k as [|k IH]; intros v; cbn [repeat fold_left]; [lia|]. rewrite IH. lia. }
    rewrite G. lia.
  - intros j _ v _ Hj ->. rewrite repeat_length in Hj. split; [|lia]. apply long_step; [left; auto| |]; nia.
Qed.
Print Assumptions C174_add.
Theorem C174_add_sub : forall (B : Type) (dec : B -> outcome Z) (b0 : B) s npairs niters n h c, dec b0 = Ok 0 -> allowed [s] (2 * npairs) ->
  2 * Z.of_nat npairs * Z.of_nat niters < 2 ^ 63 -> run dec (init b0 (ex_add_sub s npairs niters)) n h c -> finished c -> dec (cell c) = Ok 0.
Proof.
  intros B dec b0 s np ni n h c D A Bd R Fi.
  set (f := fun b : bool => atom_op s tlong tint (if b then Asub else Aadd) 1).
  set (L0 := concat (map (fun i => repeat (Nat.odd i) ni) (seq 0 (2 * np)))).
  assert (E : concat (ex_add_sub s np ni) = map f L0).
  { unfold ex_add_sub, L0. rewrite concat_map, map_map. f_equal. apply map_ext. intros i. rewrite map_repeat. reflexivity. }
  assert (Len : length (ex_add_sub s np ni) = (2 * np)%nat) by (unfold ex_add_sub; rewrite map_length, seq_length; reflexivity).
  assert (AL : allowed (map sch (concat (ex_add_sub s np ni))) (length (ex_add_sub s np ni))).
  { eapply (allowed_map [s]); [exact A|rewrite Len; lia|]. rewrite E. intros o Ho. apply in_map_iff in Ho. destruct Ho as (b & <- & _). left. reflexivity. }
  destruct (C174_final _ _ _ _ _ _ _ _ AL R Fi) as (l & P & ->).
  rewrite E in P. apply Permutation_map_inv in P. destruct P as (l3 & -> & P). rewrite D.
  assert (LL : length l3 = (2 * np * ni)%nat).
  { rewrite <- (Permutation_length P). unfold L0.
    assert (G : forall m a, length (concat (map (fun i => repeat (Nat.odd i) ni) (seq a m))) = (m * ni)%nat).
    { clear. induction m as [|m IH]; intros a; [reflexivity|]. cbn [seq map concat]. rewrite app_length, repeat_length, IH. reflexivity. }
    apply G. }
  rewrite (steps_fold _ (fun (b : bool) v => v + (if b then -1 else 1)) (fun j v => Z.abs v <= Z.of_nat j)); [|cbn; lia|].
  - f_equal. transitivity (fold_left (fun v d => v + d) (map (fun b : bool => if b then -1 else 1) l3) 0).
    { generalize 0. clear. induction l3 as [|b l IH]; intros v; [reflexivity|]. apply IH. }
    rewrite fold_sum, <- (sum_perm _ _ (Permutation_map _ P)). unfold L0.
    assert (G : forall m a, Nat.even a = true -> fold_right Z.add 0 (map (fun b : bool => if b then -1 else 1) (concat (map (fun i => repeat (Nat.odd i) ni) (seq a (2 * m))))) = 0).
    { induction m as [|m IH]; intros a Ha; [reflexivity|]. replace (2 * S m)%nat with (S (S (2 * m))) by lia. cbn [seq map concat].
      rewrite !map_app, !fold_right_app. rewrite IH by (cbn; exact Ha).
      assert (O1 : Nat.odd a = false) by (unfold Nat.odd; rewrite Ha; reflexivity). assert (O2 : Nat.odd (S a) = true) by (rewrite Nat.odd_succ; exact Ha).
      rewrite O1, O2, !map_repeat.
      assert (Rp : forall x k w, fold_right Z.add w (repeat x k) = w + Z.of_nat k * x).
      { intros x k w. induction k as [|k IHk]; cbn [repeat fold_right]; [lia|]. rewrite IHk. lia. }
      rewrite !Rp. lia. }
    rewrite (G np 0%nat eq_refl). reflexivity.
  - intros j b v _ Hj Pj. rewrite LL in Hj. destruct b; unfold f.
    + replace (v + -1) with (v - 1) by lia. split; [|lia]. apply long_step; [right; auto| |]; nia.
    + split; [|lia]. apply long_step; [left; auto| |]; nia.
Qed.
Print Assumptions C174_add_sub.

(** multithreaded-add-sub-inc-dec.cc prints 0, for every number of threads and iterations: the arithmetic is modulo 2^64 *)
Lemma ulong_step s v o d (f : Z -> Z) : (o = Aadd /\ f = Z.add v) \/ (o = Asub /\ f = Z.sub v) -> holds tulong v = true -> holds tint d = true ->
  computes s tulong tint o d v = Ok (wrap tulong (f d)).
Proof.
  intros Ho Hv Hd.
  assert (L : language tulong tint o v d = Ok (wrap tulong (f d))).
  { change (let c := tulong in let a := wrap c v in let b := wrap c d in language tulong tint o v d = Ok (wrap tulong (f d))).
    cbv zeta. destruct Ho as [[-> ->]|[-> ->]]; cbn [language]; change (common tulong tint) with tulong; unfold arith; cbn [signed tulong bind]; fold tulong;
      f_equal; apply wrap_eq; rewrite wrap_mod.
    - rewrite Zplus_mod, !wrap_mod, <- Zplus_mod. reflexivity.
    - rewrite Zminus_mod, !wrap_mod, <- Zminus_mod. reflexivity. }
  apply computes_language; assumption.
Qed.
Lemma fold_wrap l : forall v, holds tulong v = true -> fold_left (fun v d => wrap tulong (v + d)) l v = wrap tulong (v + fold_right Z.add 0 l).
Proof.
  induction l as [|d l IH]; intros v Hv; cbn [fold_left fold_right]; [rewrite Z.add_0_r, wrap_id by exact Hv; reflexivity|].
  rewrite IH by apply wrap_holds. apply wrap_eq. rewrite Zplus_mod, wrap_mod, <- Zplus_mod. f_equal. lia.
Qed.
Definition effect_of (i : nat) : Z := nth i [10; 20; -30; -10; -20; 30; 1; 1; 1; -1; -1; -1] 0.
Theorem C174_inc_dec : forall (B : Type) (dec : B -> outcome Z) (b0 : B) s u p nthreads niters n h c, dec b0 = Ok 0 -> allowed [s; u; p] nthreads ->
  run dec (init b0 (ex_inc_dec s u p nthreads niters)) n h c -> finished c -> dec (cell c) = Ok 0.
Proof.
  intros B dec b0 s u p nt ni n h c D A R Fi.
  set (f := fun i => nth i (body_inc_dec s u p) (atom_op s tulong tint Aadd 0)).
  set (L0 := concat (repeat (concat (repeat (seq 0 12) ni)) nt)).
  assert (E : concat (ex_inc_dec s u p nt ni) = map f L0).
  { unfold ex_inc_dec, L0. change (body_inc_dec s u p) with (map f (seq 0 12)). rewrite !map_concat_repeat. reflexivity. }
  assert (In12 : forall i, In i L0 -> (i < 12)%nat).
  { intros i Hi. unfold L0 in Hi. apply in_concat in Hi. destruct Hi as (x & Hx & Hi). apply repeat_spec in Hx. subst x.
    apply in_concat in Hi. destruct Hi as (x & Hx & Hi). apply repeat_spec in Hx. subst x. apply in_seq in Hi. lia. }
  assert (Cases : forall i (Q : nat -> Prop), (i < 12)%nat -> Q 0%nat -> Q 1%nat -> Q 2%nat -> Q 3%nat -> Q 4%nat -> Q 5%nat -> Q 6%nat -> Q 7%nat -> Q 8%nat -> Q 9%nat -> Q 10%nat -> Q 11%nat -> Q i).
  { intros i Q Hi. intros. do 12 (destruct i as [|i]; [assumption|]). lia. }
  assert (Len : length (ex_inc_dec s u p nt ni) = nt) by apply repeat_length.
  assert (AL : allowed (map sch (concat (ex_inc_dec s u p nt ni))) (length (ex_inc_dec s u p nt ni))).
  { eapply (allowed_map [s; u; p]); [exact A|rewrite Len; lia|]. rewrite E. intros o Ho. apply in_map_iff in Ho. destruct Ho as (i & <- & Hi).
    apply (Cases i (fun i => In (sch (f i)) [s; u; p])); [apply In12, Hi|..]; cbn; auto. }
  destruct (C174_final _ _ _ _ _ _ _ _ AL R Fi) as (l & P & ->).
  rewrite E in P. apply Permutation_map_inv in P. destruct P as (l3 & -> & P). rewrite D.
  rewrite (steps_fold _ (fun i v => wrap tulong (v + effect_of i)) (fun _ v => holds tulong v = true)); [|reflexivity|].
  - f_equal. transitivity (fold_left (fun v d => wrap tulong (v + d)) (map effect_of l3) 0).
    { generalize 0. clear. induction l3 as [|b l IH]; intros v; [reflexivity|]. apply IH. }
    rewrite fold_wrap by reflexivity. rewrite <- (sum_perm _ _ (Permutation_map _ P)).
    assert (Z0 : forall l k, fold_right Z.add 0 l = 0 -> fold_right Z.add 0 (concat (repeat l k)) = 0).
    { intros l k Hl. induction k as [|k IH]; [reflexivity|]. cbn [repeat concat]. rewrite fold_right_app, IH. exact Hl. }
    unfold L0. rewrite !map_concat_repeat, Z0 by (apply Z0; reflexivity). reflexivity.
  - intros j i v Hi _ Hv. split; [|apply wrap_holds].
    apply (Cases i (fun i => fst (fn (f i) (Ok v)) = Ok (wrap tulong (v + effect_of i)))); [apply In12, (Permutation_in _ (Permutation_sym P)), Hi|..].
    all: change (fst (fn (f 8%nat) (Ok v))) with (bind (Ok v) (computes p tulong tint Aadd 1))
      || change (fst (fn (f 11%nat) (Ok v))) with (bind (Ok v) (computes p tulong tint Aadd (-1))) || idtac.
    all: unfold f; cbn [nth body_inc_dec atom_op atom_post fn fst bind effect_of].
    all: first [ apply (ulong_step _ v Aadd _ (Z.add v)); [left; auto|exact Hv|reflexivity]
               | rewrite (ulong_step _ v Asub _ (Z.sub v)); [f_equal; f_equal; unfold effect_of; cbn [nth]; lia|right; auto|exact Hv|reflexivity] ].
Qed.
Print Assumptions C174_inc_dec.

(** multithreaded-mul-div-shift.cc prints 0 - under every mixture of schemes, even serial with many threads: nothing can be
    seen of a lost update *)
Lemma zero_kept {T B} (dec : B -> T) z b0 progs n h c : dec b0 = z -> (forall o, In o (concat progs) -> fst (fn o z) = z) ->
  run dec (init b0 progs) n h c -> dec (cell c) = z.
Proof.
  intros D K R.
  assert (G : dec (cell c) = z /\ forall t, (forall o, In o (todo (th c t)) -> fst (fn o z) = z) /\
    match tpc (th c t) with PCas old => dec old = z | PRead x | PSRead x => x = z | _ => True end).
  2: apply G.
  induction R as [|n h c t e c' R IH S].
  - split; [exact D|]. intros t. cbn. split; [|exact I]. intros o Ho. apply K, in_concat. exists (nth t progs []). split; [|exact Ho].
    destruct (Nat.lt_ge_cases t (length progs)) as [L|G]; [apply nth_In; exact L|rewrite nth_overflow in Ho by exact G; destruct Ho].
  - destruct IH as [Hc Ht]. pose proof (Ht t) as [To Tp].
    assert (Put : forall b m x, dec b = z -> (forall o, In o (todo x) -> fst (fn o z) = z) ->
      match tpc x with PCas old => dec old = z | PRead y | PSRead y => y = z | _ => True end ->
      dec (cell (mk_config b m (setth (th c) t x))) = z /\ forall w, (forall o, In o (todo (th (mk_config b m (setth (th c) t x)) w)) -> fst (fn o z) = z) /\
      match tpc (th (mk_config b m (setth (th c) t x)) w) with PCas old => dec old = z | PRead y | PSRead y => y = z | _ => True end).
    { intros b m x Hb Hx Hp. cbn [cell th]. split; [exact Hb|]. intros w. unfold setth. destruct (w =? t)%nat; [auto|apply Ht]. }
    inversion S as [c1 o r E|c1 o r old E Hs Hd|c1 o r old neu E Hcc Hd|c1 o r old E Hcc|c1 o r neu E Hs Hd
      |c1 o r E|c1 o r neu E Hs Hd|c1 o r E Hs|c1 o r x neu E Hd|c1 o r E Hs Hm|c1 o r E|c1 o r x neu E Hd
      |c1 o r v E|c1 o r E Hs|c1 o r x neu E Hd|c1 o r v E]; subst c1 e c'; rewrite E in To, Tp; cbn [todo tpc] in To, Tp;
    pose proof (To o (or_introl eq_refl)) as Ko; apply Put; cbn [tpc todo]; auto; try congruence.
    all: first [ rewrite Hd; rewrite ?Tp, ?Hc; exact Ko | intros q Hq; apply To; right; exact Hq ].
Qed.
Theorem C174_mul_div : forall (B : Type) (dec : B -> outcome Z) (b0 : B) s nthreads niters n h c, dec b0 = Ok 0 ->
  run dec (init b0 (ex_mul_div s nthreads niters)) n h c -> dec (cell c) = Ok 0.
Proof.
  intros B dec b0 s nt ni n h c D R. apply (zero_kept dec (Ok 0) b0 _ n h c D) in R; [exact R|].
  intros o Ho. unfold ex_mul_div in Ho. apply in_concat in Ho. destruct Ho as (x & Hx & Ho). apply repeat_spec in Hx. subst x.
  apply in_concat in Ho. destruct Ho as (x & Hx & Ho). apply repeat_spec in Hx. subst x.
  cbn [body_mul_div In] in Ho. repeat (destruct Ho as [<-|Ho]; [destruct s; reflexivity|]). destruct Ho.
Qed.
Print Assumptions C174_mul_div.

(** multithreaded-min-max.cc prints the bounds of the two loops *)
Lemma upward_in a b x : In x (upward a b) <-> a <= x <= b.
Proof.
  unfold upward. rewrite in_map_iff. split.
  - intros (i & <- & Hi). apply in_seq in Hi. lia.
  - intros H. exists (Z.to_nat (x - a)). split; [lia|]. apply in_seq. lia.
Qed.
Theorem C174_min_max : forall (B : Type) (dec : B -> outcome Z) (b0 : B) a b m nthreads n h c, holds tint a = true -> holds tint b = true ->
  a <= m <= b -> dec b0 = Ok m -> (0 < nthreads)%nat ->
  (run dec (init b0 (ex_min_max Amin a b nthreads)) n h c -> finished c -> dec (cell c) = Ok a) /\
  (run dec (init b0 (ex_min_max Amax a b nthreads)) n h c -> finished c -> dec (cell c) = Ok b).
Proof.
  intros B dec b0 a b m nt n h c Ha Hb Hm D Hn.
  set (L0 := concat (map (fun i => if Nat.even i then upward a b else rev (upward a b)) (seq 0 nt))).
  assert (E : forall o, concat (ex_min_max o a b nt) = map (atom_op Strong tint tint o) L0).
  { intros o. unfold ex_min_max, L0. rewrite concat_map, map_map. reflexivity. }
  assert (Rng : forall x, In x L0 -> a <= x <= b).
  { intros x Hx. unfold L0 in Hx. apply in_concat in Hx. destruct Hx as (y & Hy & Hx). apply in_map_iff in Hy. destruct Hy as (i & <- & _).
    apply upward_in. destruct (Nat.even i); [exact Hx|apply in_rev, Hx]. }
  assert (Has : forall x, a <= x <= b -> In x L0).
  { intros x Hx. unfold L0. apply in_concat. exists (upward a b). split; [|apply upward_in, Hx]. apply in_map_iff. exists 0%nat. split; [reflexivity|]. apply in_seq. lia. }
  assert (Hl : forall x, a <= x <= b -> holds tint x = true) by (intros x Hx; apply holds_spec; apply holds_spec in Ha, Hb; lia).
  assert (Fin : forall o, run dec (init b0 (ex_min_max o a b nt)) n h c -> finished c -> exists l3, Permutation L0 l3 /\
    dec (cell c) = fold_left (fun v o => fst (fn o v)) (map (atom_op Strong tint tint o) l3) (Ok m)).
  { intros o R Fi. assert (AL : allowed (map sch (concat (ex_min_max o a b nt))) (length (ex_min_max o a b nt))).
    { eapply (allowed_map [Strong] _ (length (ex_min_max o a b nt))); [left; repeat constructor; discriminate|lia|].
      rewrite E. intros q Hq. apply in_map_iff in Hq. destruct Hq as (z & <- & _). left. reflexivity. }
    destruct (C174_final _ _ _ _ _ _ _ _ AL R Fi) as (l & P & ->).
    rewrite E in P. apply Permutation_map_inv in P. destruct P as (l3 & -> & P). exists l3. rewrite D. auto. }
  split; intros R Fi.
  - destruct (Fin Amin R Fi) as (l3 & P & ->). rewrite (steps_fold _ (fun d v => Z.min v d) (fun _ v => a <= v <= b)); [|exact Hm|].
    + f_equal. assert (G : forall l v, (forall x, In x l -> a <= x) -> a <= v -> (v = a \/ In a l) -> fold_left (fun v d => Z.min v d) l v = a).
      { clear. induction l as [|d l IH]; intros v Hl Hv H; cbn [fold_left]; [destruct H as [H|[]]; exact H|].
        pose proof (Hl d (or_introl eq_refl)). apply IH; [intros x Hx; apply Hl; right; exact Hx|lia|].
        destruct H as [->|[->|H]]; [left; lia|left; lia|right; exact H]. }
      apply G; [intros x Hx; apply (Rng x), (Permutation_in _ (Permutation_sym P)), Hx|lia|right; apply (Permutation_in _ P), Has; lia].
    + intros j d v Hd _ Hv. assert (Rd : a <= d <= b) by (apply Rng, (Permutation_in _ (Permutation_sym P)), Hd). split; [|lia].
      cbn [atom_op fn fst bind]. apply computes_language; try (apply Hl; assumption). apply (C172_min_max tint tint); apply Hl; assumption.
  - destruct (Fin Amax R Fi) as (l3 & P & ->). rewrite (steps_fold _ (fun d v => Z.max v d) (fun _ v => a <= v <= b)); [|exact Hm|].
    + f_equal. assert (G : forall l v, (forall x, In x l -> x <= b) -> v <= b -> (v = b \/ In b l) -> fold_left (fun v d => Z.max v d) l v = b).
      { clear. induction l as [|d l IH]; intros v Hl Hv H; cbn [fold_left]; [destruct H as [H|[]]; exact H|].
        pose proof (Hl d (or_introl eq_refl)). apply IH; [intros x Hx; apply Hl; right; exact Hx|lia|].
        destruct H as [->|[->|H]]; [left; lia|left; lia|right; exact H]. }
      apply G; [intros x Hx; apply (Rng x), (Permutation_in _ (Permutation_sym P)), Hx|lia|right; apply (Permutation_in _ P), Has; lia].
    + intros j d v Hd _ Hv. assert (Rd : a <= d <= b) by (apply Rng, (Permutation_in _ (Permutation_sym P)), Hd). split; [|lia].
      cbn [atom_op fn fst bind]. apply computes_language; try (apply Hl; assumption). apply (C172_min_max tint tint); apply Hl; assumption.
Qed.
Print Assumptions C174_min_max.
(** REFUTED for serial with more than one thread, which multithreaded-add.cc accepts on its command line: two threads adding 1
    once each can leave 1 *)
Definition same (x : outcome Z) : outcome Z := x.
Ltac go f := lazymatch goal with R : run same _ _ _ ?c |- _ =>
  let S := f c in let R' := fresh "R" in pose proof (run_snoc same _ _ _ _ _ _ _ R S) as R'; clear R; cbn [cell mux th add_event app init] in R'; rename R' into R end.
Theorem C174_serial_refuted : exists n h c, run same (init (Ok 0) (ex_add Serial 2 1)) n h c /\ finished c /\ cell c = Ok 1.
Proof.
  set (o := atom_op Serial tlong tint Aadd 1). change (ex_add Serial 2 1) with [[o]; [o]].
  pose proof (run_nil same (init (Ok 0) [[o]; [o]])) as R.
  go ltac:(fun c => constr:(s_call same 0 c o [] eq_refl)).
  go ltac:(fun c => constr:(s_call same 1 c o [] eq_refl)).
  go ltac:(fun c => constr:(s_s_read same 0 c o [] eq_refl eq_refl)).
  go ltac:(fun c => constr:(s_s_read same 1 c o [] eq_refl eq_refl)).
  go ltac:(fun c => constr:(s_s_write same 0 c o [] (Ok 0) (Ok 1) eq_refl eq_refl)).
  go ltac:(fun c => constr:(s_s_write same 1 c o [] (Ok 0) (Ok 1) eq_refl eq_refl)).
  go ltac:(fun c => constr:(s_return same 0 c o [] (Ok 1) eq_refl)).
  go ltac:(fun c => constr:(s_return same 1 c o [] (Ok 1) eq_refl)).
  eexists _, _, _. split; [exact R|]. split; [|reflexivity]. intros [|[|[|t]]]; reflexivity.
Qed.
Print Assumptions C174_serial_refuted.
(** a finished run of each kind of program exists: here std::atomic, two threads, the second overtaking the first *)
Example C174_cpp_run : allowed [CppBin] 2 /\ exists n h c, run same (init (Ok 0) (ex_add CppBin 2 1)) n h c /\ finished c /\ cell c = Ok 2.
Proof.
  split; [left; repeat constructor; discriminate|].
  set (o := atom_op CppBin tlong tint Aadd 1). change (ex_add CppBin 2 1) with [[o]; [o]].
  pose proof (run_nil same (init (Ok 0) [[o]; [o]])) as R.
  go ltac:(fun c => constr:(s_call same 0 c o [] eq_refl)).
  go ltac:(fun c => constr:(s_call same 1 c o [] eq_refl)).
  go ltac:(fun c => constr:(s_cpp_rmw same 1 c o [] (Ok 1) eq_refl eq_refl eq_refl)).
  go ltac:(fun c => constr:(s_cpp_rmw same 0 c o [] (Ok 2) eq_refl eq_refl eq_refl)).
  go ltac:(fun c => constr:(s_cpp_ret same 1 c o [] eq_refl)).
  go ltac:(fun c => constr:(s_cpp_ret same 0 c o [] eq_refl)).
  go ltac:(fun c => constr:(s_return same 0 c o [] (Ok 2) eq_refl)).
  go ltac:(fun c => constr:(s_return same 1 c o [] (Ok 2) eq_refl)).
  eexists _, _, _. split; [exact R|]. split; [|reflexivity]. intros [|[|[|t]]]; reflexivity.
Qed.
(** the numbers of multithreaded-min-max.cc meet the hypotheses, and the loops are the ones written there *)
Example C174_min_max_ex : holds tint 1000 = true /\ holds tint 1000000 = true /\ 1000 <= Z.quot (1000 + 1000000) 2 <= 1000000 /\
  upward 3 6 = [3; 4; 5; 6] /\ length (ex_min_max Amin 3 6 10) = 10%nat /\ length (ex_add_sub Strong 3 7) = 6%nat /\
  length (body_inc_dec CppBin CppUn CppUn) = 12%nat.
Proof. repeat split; vm_compute; discriminate. Qed.
(** the examples as programs of sequential steps *)
Example C174_programs : forall s,
  map (fun p => map (fun o => fst (fn o (Ok 100))) p) (ex_add_sub s 1 2) = [[Ok 101; Ok 101]; [Ok 99; Ok 99]] /\
  map (fun o => fn o (Ok 100)) (body_inc_dec s s s) = [(Ok 110, Ok 110); (Ok 120, Ok 120); (Ok 70, Ok 70); (Ok 90, Ok 90); (Ok 80, Ok 80); (Ok 130, Ok 130);
    (Ok 101, Ok 101); (Ok 101, Ok 101); (Ok 101, Ok 100); (Ok 99, Ok 99); (Ok 99, Ok 99); (Ok 99, Ok 100)] /\
  map (fun o => fst (fn o (Ok 101))) (body_mul_div s) = [Ok 202; Ok 50; Ok 202; Ok 50; Ok 202; Ok 50].
Proof. intros []; repeat split. Qed.
