(** Property theorems for ristra/atomics (C30-C36, C79). *)
From Coq Require Import List Arith Bool ZArith Lia Permutation.
From Verif Require Import ListExtra AtomicsModel AtomicsProofs AtomicsRuns AtomicsProgress.
Import ListNotations.

(** every operation of every program satisfies P *)
Definition every_op {T} (progs : list (list (op T))) (P : op T -> Prop) : Prop :=
  forall p o, In p progs -> In o p -> P o.
Lemma every_op_has {T} (progs : list (list (op T))) P : every_op progs P -> forall o, has_op progs o -> P o.
Proof.
  intros H o [t Ht]. destruct (Nat.lt_ge_cases t (length progs)) as [L|G].
  - apply (H (nth t progs [])); [apply nth_In; exact L|exact Ht].
  - rewrite nth_overflow in Ht by exact G. contradiction.
Qed.
Definition cas_like {T} (o : op T) : Prop := sch o = Strong \/ sch o = Weak \/ sch o = CppUn.

(** ** example runs: values are integers, stored as they are *)
Definition idz (x : Z) : Z := x.
Definition add1 (s : scheme) : op Z := mk_op s (op_assign Z.add 1%Z).
(** an executable scheduler, for the examples; [x]: fail this compare-exchange spuriously *)
Definition move (t : nat) (x : bool) (c : config Z Z) : option (option (event Z) * config Z Z) :=
  let put p r v m e := Some (e, mk_config v m (setth (th c) t (mk_thread p r))) in
  match th c t with
  | mk_thread p (o :: r) =>
    match p with
    | PIdle => put PStart (o :: r) (cell c) (mux c) (Some (EInv t o))
    | PStart => match sch o with
      | Strong | Weak => put (PCas (cell c)) (o :: r) (cell c) (mux c) None
      | CppBin => put PCppRet (o :: r) (fst (fn o (cell c))) (mux c) None
      | CppUn => put (PRet (snd (fn o (cell c)))) (o :: r) (fst (fn o (cell c))) (mux c) None
      | KokkosPost => put (PKRead (cell c)) (o :: r) (cell c) (mux c) None
      | Lock => match mux c with None => put PHeld (o :: r) (cell c) (Some t) None | Some _ => None end
      | Serial => put (PSRead (cell c)) (o :: r) (cell c) (mux c) None
      end
    | PCas old =>
        if x then match sch o with Weak => put (PCas (cell c)) (o :: r) (cell c) (mux c) None | _ => None end
        else if Z.eq_dec (cell c) old then put (PRet (snd (fn o old))) (o :: r) (fst (fn o old)) (mux c) None
        else put (PCas (cell c)) (o :: r) (cell c) (mux c) None
    | PCppRet => put (PRet (cell c)) (o :: r) (cell c) (mux c) None
    | PKRead v => put (PRet v) (o :: r) (fst (fn o (cell c))) (mux c) None
    | PHeld => put (PRead (cell c)) (o :: r) (cell c) (mux c) None
    | PRead v => put (PWrote (snd (fn o v))) (o :: r) (fst (fn o v)) (mux c) None
    | PWrote v => put (PRet v) (o :: r) (cell c) None None
    | PSRead v => put (PRet (snd (fn o v))) (o :: r) (fst (fn o v)) (mux c) None
    | PRet v => put PIdle r (cell c) (mux c) (Some (ERes t v))
    end
  | _ => None
  end.
Lemma move_step t x c e c' : move t x c = Some (e, c') -> step idz t c e c'.
Proof.
  unfold move. destruct (th c t) as [p [|o r]] eqn:E; [discriminate|].
  destruct p.
  1: intros H; injection H as <- <-; eapply s_call; exact E.
  2: { destruct x.
    - destruct (sch o) eqn:So; try discriminate. intros H; injection H as <- <-. eapply s_cas_fail; [exact E|auto].
    - destruct (Z.eq_dec (cell c) old) as [K|K]; intros H; injection H as <- <-;
        [exact (s_cas_ok idz t c o r old (fst (fn o old)) E K eq_refl)|eapply s_cas_fail; [exact E|left; exact K]]. }
  1: { destruct (sch o) eqn:So; try destruct (mux c) eqn:M; intros H; try discriminate H; injection H as <- <-;
       try rewrite <- M.
       all: first [ exact (s_load idz t c o r (cell c) E (or_introl So) eq_refl) | exact (s_load idz t c o r (cell c) E (or_intror So) eq_refl) | exact (s_cpp_rmw idz t c o r (fst (fn o (cell c))) E So eq_refl)
         | exact (s_cpp_un idz t c o r (fst (fn o (cell c))) E So eq_refl) | exact (s_k_read idz t c o r E So)
         | eapply s_lock; [exact E|exact So|exact M] | exact (s_s_read idz t c o r E So) ]. }
  all: intros H; injection H as <- <-;
    first [ exact (s_cpp_ret idz t c o r E) | exact (s_k_rmw idz t c o r x0 (fst (fn o (cell c))) E eq_refl) | exact (s_l_read idz t c o r E)
      | exact (s_l_write idz t c o r x0 (fst (fn o x0)) E eq_refl) | eapply s_unlock; exact E
      | exact (s_s_write idz t c o r x0 (fst (fn o x0)) E eq_refl) | eapply s_return; exact E ].
Qed.
Fixpoint play (l : list (nat * bool)) (n : nat) (h : list (event Z)) (c : config Z Z) : option (nat * list (event Z) * config Z Z) :=
  match l with
  | [] => Some (n, h, c)
  | (t, x) :: r => match move t x c with Some (e, c') => play r (S n) (add_event h e) c' | None => None end
  end.
Lemma play_run c0 l : forall n h c n' h' c', run idz c0 n h c -> play l n h c = Some (n', h', c') -> run idz c0 n' h' c'.
Proof.
  induction l as [|[t x] l IH]; intros n h c n' h' c' R E; simpl in E.
  - injection E as <- <- <-. exact R.
  - destruct (move t x c) as [[e d]|] eqn:M; [|discriminate]. eapply IH; [|exact E].
    exact (run_snoc _ _ _ _ _ _ _ _ R (move_step _ _ _ _ _ M)).
Qed.
(** the outcome of a schedule (first step first), for conclusions about it *)
Lemma by_schedule (P : nat -> list (event Z) -> config Z Z -> Prop) v0 progs l n h c :
  play l 0 [] (init v0 progs) = Some (n, h, c) -> P n h c ->
  exists n h c, run idz (init v0 progs) n h c /\ P n h c.
Proof. intros E H. exists n, h, c. split; [|exact H]. eapply play_run; [apply run_nil|exact E]. Qed.
Definition sched (l : list nat) : list (nat * bool) := map (fun t => (t, false)) l.

Lemma inv_linearizable {T B} (dec : B -> T) b0 progs c h l : Inv dec (dec b0) progs c h l ->
  returns_ok (dec b0) h l -> linearizable (dec b0) h (dec (cell c)).
Proof.
  intros IV RO. exists l. split; [apply (i_val _ _ _ _ _ _ IV)|].
  split; [|split; [apply (i_time _ _ _ _ _ _ IV)|exact RO]].
  intros t. pose proof (i_th _ _ _ _ _ _ IV t) as Ht. unfold tinv in Ht. destruct (tpc (th c t)).
  1: { exists []. rewrite app_nil_r. destruct Ht as (_ & Ht & _). auto. }
  1,2,4,5,6,8: destruct Ht as (o & rr & H1 & H2 & H3 & H4 & _); exists [o]; auto.
  all: destruct Ht as (o & rr & pr & H1 & H2 & _); exists []; rewrite app_nil_r; auto.
Qed.
Lemma cas_reach {T B} (dec : B -> T) b0 progs n h c : every_op progs cas_like ->
  run dec (init b0 progs) n h c -> exists l, Inv dec (dec b0) progs c h l /\ returns_ok (dec b0) h l.
Proof.
  intros H R. pose proof (every_op_has _ _ H) as H'.
  destruct (reach_inv dec progs b0 n h c) as (l & IV & _); [|exact R|].
  - left. intros o Ho. destruct (H' o Ho) as [E|[E|E]]; rewrite E; split; discriminate.
  - exists l. split; [exact IV|]. eapply inv_strict; [|exact IV].
    intros o Ho. destruct (H' o Ho) as [E|[E|E]]; rewrite E; split; discriminate.
Qed.
(** C30. Strong scheme (and the punned variant, and std::atomic's own ++/--), any mix, any number of
    threads, any programs, any schedule, at any moment: linearizable. Nothing is assumed about the
    representation except that copies keep the value. *)
Theorem C30_cas_linearizable : forall (T B : Type) (dec : B -> T) (b0 : B) progs n h c,
  every_op progs cas_like -> run dec (init b0 progs) n h c ->
  linearizable (dec b0) h (dec (cell c)).
Proof. intros T B dec b0 progs n h c H R. destruct (cas_reach _ _ _ _ _ _ H R) as (l & IV & RO). eapply inv_linearizable; eauto. Qed.
Print Assumptions C30_cas_linearizable.
(** two threads race; thread 1's first attempt fails *)
Definition race_progs : list (list (op Z)) := [[add1 Strong]; [mk_op Strong (post_op Z.succ)]].
Definition race_history : list (event Z) :=
  [EInv 0 (add1 Strong); EInv 1 (mk_op Strong (post_op Z.succ)); ERes 0 6%Z; ERes 1 6%Z].
Example C30_race : every_op race_progs cas_like /\
  exists n h c, run idz (init 5%Z race_progs) n h c /\ h = race_history /\ cell c = 7%Z.
Proof.
  split.
  - intros p o [<-|[<-|[]]] [<-|[]]; left; reflexivity.
  - eapply (by_schedule _ _ _ (sched [0;1;0;1;0;1;0;1;1])); [lazy; reflexivity|]. split; reflexivity.
Qed.

(** when all operations have returned: an order of exactly the programs' operations explains the
    final value and every thread's returned values *)
Theorem C30_finished : forall (T B : Type) (dec : B -> T) (b0 : B) progs n h c,
  every_op progs cas_like -> run dec (init b0 progs) n h c -> finished c ->
  exists l : order, (forall t, proj t l = nth t progs []) /\ dec (cell c) = value_after (dec b0) l /\
    forall t, ress t h = proj t (returned (dec b0) l).
Proof.
  intros T B dec b0 progs n h c H R Fi. destruct (cas_reach _ _ _ _ _ _ H R) as (l & IV & RO).
  exists l. split; [intros t; apply (finished_order _ _ _ _ _ _ IV Fi)|].
  split; [symmetry; apply (i_val _ _ _ _ _ _ IV)|]. eapply finished_returns; eauto.
Qed.
Print Assumptions C30_finished.

(** C31. The weak scheme may fail spuriously at any attempt (s_cas_fail is always enabled) *)
Theorem C31_weak_linearizable : forall (T B : Type) (dec : B -> T) (b0 : B) progs n h c,
  every_op progs (fun o => sch o = Weak) -> run dec (init b0 progs) n h c ->
  linearizable (dec b0) h (dec (cell c)) /\
  (forall t o r old, th c t = mk_thread (PCas old) (o :: r) -> sch o = Weak ->
     exists c', step dec t c None c' /\ cell c' = cell c /\ th c' t = mk_thread (PCas (cell c)) (o :: r)).
Proof.
  intros T B dec b0 progs n h c H R. split.
  - eapply C30_cas_linearizable; [|exact R]. intros p o Hp Ho. right. left. exact (H p o Hp Ho).
  - intros t o r old E Ho. eexists. split; [eapply s_cas_fail; [exact E|right; exact Ho]|].
    cbn [cell th]. rewrite setth_eq. auto.
Qed.
Print Assumptions C31_weak_linearizable.
Example C31_spurious : exists n h c, run idz (init 5%Z [[add1 Weak]]) n h c /\ h = [EInv 0 (add1 Weak); ERes 0 6%Z] /\
  cell c = 6%Z /\ n = 6.
Proof.
  eapply (by_schedule _ _ _ [(0,false);(0,false);(0,true);(0,true);(0,false);(0,false)]); [lazy; reflexivity|]. repeat split; reflexivity.
Qed.

(** C32. Tickets. First for any type and step function ... *)
Definition all_returned {T} (progs : list (list (op T))) (h : list (event T)) : list T :=
  concat (map (fun t => ress t h) (seq 0 (length progs))).
Lemma returned_iter {T} (inc : T -> T) (l : @order T) v : (forall e, In e l -> fn (snd e) = post_op inc) ->
  map snd (returned v l) = map (fun i => Nat.iter i inc v) (seq 0 (length l)) /\
  value_after v l = Nat.iter (length l) inc v.
Proof.
  revert v; induction l as [|[t o] l IH]; intros v H; simpl; [auto|].
  pose proof (H (t, o) (or_introl eq_refl)) as Ho. cbn in Ho. rewrite Ho. cbn [post_op fst snd].
  destruct (IH (inc v)) as [I1 I2]; [intros e He; apply H; right; exact He|].
  assert (C : forall i, Nat.iter i inc (inc v) = inc (Nat.iter i inc v))
    by (induction i; simpl; congruence).
  split.
  - rewrite I1, <- seq_shift, map_map. f_equal. apply map_ext. intros i. cbn. apply C.
  - unfold value_after in I2 |- *. rewrite I2. apply C.
Qed.
Lemma proj_returned_perm {T} (progs : list (list (op T))) h v l : (forall t, ress t h = proj t (returned v l)) ->
  (forall t, proj t l = nth t progs []) -> Permutation (all_returned progs h) (map snd (returned v l)).
Proof.
  intros H P. unfold all_returned. rewrite <- (tag_snd 0). apply Permutation_map. apply same_proj_perm.
  intros t. rewrite (proj_tag t 0).
  destruct (Nat.lt_ge_cases t (length progs)) as [L|G].
  - rewrite (nth_indep _ [] (ress 0 h)) by (rewrite map_length, seq_length; exact L).
    rewrite (map_nth (fun t => ress t h)), seq_nth by exact L. apply H.
  - rewrite nth_overflow by (rewrite map_length, seq_length; exact G).
    symmetry. apply length_zero_iff_nil. rewrite returned_len, P, nth_overflow by exact G. reflexivity.
Qed.
Theorem C32_tickets : forall (T B : Type) (dec : B -> T) (b0 : B) (inc : T -> T) progs n h c,
  every_op progs (fun o => cas_like o /\ fn o = post_op inc) ->
  run dec (init b0 progs) n h c -> finished c ->
  Permutation (all_returned progs h) (map (fun i => Nat.iter i inc (dec b0)) (seq 0 (length (concat progs)))) /\
  dec (cell c) = Nat.iter (length (concat progs)) inc (dec b0).
Proof.
  intros T B dec b0 inc progs n h c H R Fi.
  destruct (cas_reach dec b0 progs n h c) as (l & IV & RO); [intros p o Hp Ho; apply (H p o Hp Ho)|exact R|].
  destruct (finished_order _ _ _ _ _ _ IV Fi) as [P G].
  assert (L : length l = length (concat progs)).
  { rewrite (Permutation_length P), <- (tag_snd 0 progs), map_length. reflexivity. }
  destruct (returned_iter inc l (dec b0)) as [R1 R2].
  { intros [t o] He. cbn. pose proof (proj2 (proj_in t o l) He) as Hin. rewrite (proj1 (G t)) in Hin.
    apply (every_op_has _ _ H). exists t. exact Hin. }
  rewrite <- L, <- R1, <- R2. split; [|symmetry; apply (i_val _ _ _ _ _ _ IV)].
  apply proj_returned_perm; [|intros t; apply G]. eapply finished_returns; eauto.
Qed.
Print Assumptions C32_tickets.
(** ... then for integers modulo W (W = 2^bits; the unbounded reading is W larger than the range):
    no value is handed out twice as long as there are at most W calls *)
Lemma iter_mod W v i : (0 < W)%Z -> (0 <= v < W)%Z -> Nat.iter i (fun z => ((z + 1) mod W)%Z) v = ((v + Z.of_nat i) mod W)%Z.
Proof.
  intros HW Hv. induction i as [|i IH]; [rewrite Z.add_0_r, Z.mod_small; auto|].
  change (Nat.iter (S i) (fun z => ((z + 1) mod W)%Z) v) with ((Nat.iter i (fun z => ((z + 1) mod W)%Z) v + 1) mod W)%Z.
  rewrite IH, Z.add_mod_idemp_l by lia. f_equal. lia.
Qed.
Theorem C32_tickets_distinct : forall (B : Type) (dec : B -> Z) (b0 : B) (W : Z) progs n h c,
  (0 <= dec b0 < W)%Z -> (Z.of_nat (length (concat progs)) <= W)%Z ->
  every_op progs (fun o => cas_like o /\ fn o = post_op (fun z => ((z + 1) mod W)%Z)) ->
  run dec (init b0 progs) n h c -> finished c ->
  NoDup (all_returned progs h) /\
  Permutation (all_returned progs h) (map (fun i => ((dec b0 + Z.of_nat i) mod W)%Z) (seq 0 (length (concat progs)))) /\
  dec (cell c) = ((dec b0 + Z.of_nat (length (concat progs))) mod W)%Z.
Proof.
  intros B dec b0 W progs n h c Hb HM H R Fi.
  destruct (C32_tickets _ _ dec b0 _ progs n h c H R Fi) as [P E]. rewrite iter_mod in E by lia.
  assert (Q : map (fun i => Nat.iter i (fun z => ((z + 1) mod W)%Z) (dec b0)) (seq 0 (length (concat progs))) =
              map (fun i => ((dec b0 + Z.of_nat i) mod W)%Z) (seq 0 (length (concat progs))))
    by (apply map_ext; intros i; apply iter_mod; lia).
  rewrite Q in P. split; [|auto]. eapply Permutation_NoDup; [apply Permutation_sym; exact P|].
  clear -HM Hb. assert (G : forall m a, (Z.of_nat (a + m) <= W)%Z ->
    NoDup (map (fun i => ((dec b0 + Z.of_nat i) mod W)%Z) (seq a m))).
  { induction m as [|m IH]; intros a Ha; cbn [seq map]; constructor.
    - rewrite in_map_iff. intros (i & Ei & Hi). apply in_seq in Hi.
      assert (K : (((dec b0 + Z.of_nat i) - (dec b0 + Z.of_nat a)) mod W = 0)%Z)
        by (rewrite Zminus_mod, Ei, Z.sub_diag; apply Z.mod_0_l; lia).
      replace (dec b0 + Z.of_nat i - (dec b0 + Z.of_nat a))%Z with (Z.of_nat (i - a)) in K by lia.
      rewrite Z.mod_small in K by lia. lia.
    - apply IH. lia. }
  apply (G _ 0). exact HM.
Qed.
Print Assumptions C32_tickets_distinct.
Definition ticket (s : scheme) : op Z := mk_op s (post_op (fun z => ((z + 1) mod 4)%Z)).
Definition ticket_progs := [[ticket Strong]; [ticket Weak; ticket Strong]].
Example C32_case : every_op ticket_progs (fun o => cas_like o /\ fn o = post_op (fun z => ((z + 1) mod 4)%Z)) /\
  exists n h c, run idz (init 3%Z ticket_progs) n h c /\ finished c /\ all_returned ticket_progs h = [1; 3; 0]%Z.
Proof.
  split.
  - intros p o [<-|[<-|[]]] Ho; repeat (destruct Ho as [<-|Ho]); try contradiction;
      (split; [unfold cas_like; cbn; auto|reflexivity]).
  - eapply (by_schedule _ _ _ (sched [0;1;0;1;1;0;1;1;1;1;1;0;0;0])); [lazy; reflexivity|]. split; [|reflexivity].
    intros [|[|[|t]]]; reflexivity.
Qed.

(** C33. Commuting operations: the final value is that of running the programs one after the other *)
Theorem C33_commutative : forall (T B : Type) (dec : B -> T) (b0 : B) progs n h c,
  every_op progs cas_like ->
  (forall a b, has_op progs a -> has_op progs b -> commute a b) ->
  run dec (init b0 progs) n h c -> finished c ->
  dec (cell c) = fold_left (fun v o => fst (fn o v)) (concat progs) (dec b0).
Proof.
  intros T B dec b0 progs n h c H C R Fi. destruct (cas_reach _ _ _ _ _ _ H R) as (l & IV & RO).
  destruct (finished_order _ _ _ _ _ _ IV Fi) as [P G].
  rewrite <- (i_val _ _ _ _ _ _ IV). rewrite (value_perm l (tag 0 progs)); [|exact P|].
  - unfold value_after. rewrite <- (tag_snd 0 progs). generalize (tag 0 progs), (dec b0). clear.
    induction l as [|e l IH]; intros v; simpl; [reflexivity|apply IH].
  - assert (Ho : forall e, In e l -> has_op progs (snd e)).
    { intros [t o] He. exists t. rewrite <- (proj1 (G t)). apply proj_in. exact He. }
    intros a b Ha Hb. apply C; auto.
Qed.
Print Assumptions C33_commutative.
Lemma mineq_is a b : mineq a b = Z.min a b.
Proof. unfold mineq. destruct (Z.ltb_spec b a); lia. Qed.
Lemma maxeq_is a b : maxeq a b = Z.max a b.
Proof. unfold maxeq. destruct (Z.ltb_spec a b); lia. Qed.
(** add/sub: initial value plus the signed sum; min, max: the minimum, maximum of everything *)
Theorem C33_add_sub_min_max : forall (B : Type) (dec : B -> Z) (b0 : B) (progs : list (list (op Z))) n h c,
  every_op progs cas_like -> run dec (init b0 progs) n h c -> finished c ->
  (forall (ds : list Z), Forall2 (fun o d => fn o = op_assign Z.add d \/ fn o = op_assign Z.sub (- d)%Z) (concat progs) ds ->
     dec (cell c) = (dec b0 + fold_right Z.add 0 ds)%Z) /\
  (forall ds, Forall2 (fun o d => fn o = op_assign mineq d) (concat progs) ds ->
     dec (cell c) = fold_right Z.min (dec b0) ds) /\
  (forall ds, Forall2 (fun o d => fn o = op_assign maxeq d) (concat progs) ds ->
     dec (cell c) = fold_right Z.max (dec b0) ds).
Proof.
  intros B dec b0 progs n h c H R Fi.
  assert (Sel : forall (P : op Z -> Z -> Prop) ds, Forall2 P (concat progs) ds -> forall o, has_op progs o -> exists d, P o d).
  { intros P ds F o [t Ht]. assert (Hin : In o (concat progs)).
    { destruct (Nat.lt_ge_cases t (length progs)) as [L|G]; [|rewrite nth_overflow in Ht by exact G; contradiction].
      apply in_concat. exists (nth t progs []). split; [apply nth_In; exact L|exact Ht]. }
    clear -F Hin. induction F as [|o' d os ds Ho F IH]; [contradiction|]. destruct Hin as [->|Hin]; eauto. }
  split; [|split]; intros ds F.
  - rewrite (C33_commutative _ _ dec b0 progs n h c H); [|..|exact R|exact Fi].
    + clear -F. revert ds F. generalize (dec b0). induction (concat progs) as [|o os IH]; intros v ds F; inversion F; subst; simpl; [lia|].
      rewrite (IH _ l') by assumption. destruct H1 as [E|E]; rewrite E; cbn; lia.
    + intros a b Ha Hb v. destruct (Sel _ _ F a Ha) as [x [Ea|Ea]], (Sel _ _ F b Hb) as [y [Eb|Eb]];
        rewrite Ea, Eb; cbn; lia.
  - rewrite (C33_commutative _ _ dec b0 progs n h c H); [|..|exact R|exact Fi].
    + clear -F. revert ds F. generalize (dec b0). induction (concat progs) as [|o os IH]; intros v ds F; inversion F; subst; simpl; [lia|].
      rewrite (IH _ l') by assumption. rewrite H1. cbn. unfold mineq.
      assert (G : forall l a b, fold_right Z.min (Z.min a b) l = Z.min b (fold_right Z.min a l))
        by (clear; induction l as [|z l IH]; intros; simpl; [lia|rewrite IH; lia]).
      replace (if (y <? v)%Z then y else v) with (Z.min v y) by (destruct (Z.ltb_spec y v); lia). apply G.
    + intros a b Ha Hb v. destruct (Sel _ _ F a Ha) as [x Ea], (Sel _ _ F b Hb) as [y Eb].
      rewrite Ea, Eb. cbn. rewrite !mineq_is. lia.
  - rewrite (C33_commutative _ _ dec b0 progs n h c H); [|..|exact R|exact Fi].
    + clear -F. revert ds F. generalize (dec b0). induction (concat progs) as [|o os IH]; intros v ds F; inversion F; subst; simpl; [lia|].
      rewrite (IH _ l') by assumption. rewrite H1. cbn. unfold maxeq.
      assert (G : forall l a b, fold_right Z.max (Z.max a b) l = Z.max b (fold_right Z.max a l))
        by (clear; induction l as [|z l IH]; intros; simpl; [lia|rewrite IH; lia]).
      replace (if (v <? y)%Z then y else v) with (Z.max v y) by (destruct (Z.ltb_spec v y); lia). apply G.
    + intros a b Ha Hb v. destruct (Sel _ _ F a Ha) as [x Ea], (Sel _ _ F b Hb) as [y Eb].
      rewrite Ea, Eb. cbn. rewrite !maxeq_is. lia.
Qed.
Print Assumptions C33_add_sub_min_max.
Example C33_case : Forall2 (fun o d => fn o = op_assign Z.add d \/ fn o = op_assign Z.sub (- d)%Z)
    (concat [[mk_op Strong (op_assign Z.add 5%Z)]; [mk_op Weak (op_assign Z.sub 3%Z)]]) [5; -3]%Z.
Proof. constructor; [left; reflexivity|constructor; [right; reflexivity|constructor]]. Qed.

(** C34. (a) a failed strong CAS was overtaken: between the moment the thread held the current
    representation and the failing attempt, another thread changed the cell *)
Theorem C34_failure_means_progress : forall (T B : Type) (dec : B -> T) (eqB : forall x y : B, {x = y} + {x <> y})
  t (c c' c'' : config T B) o r x,
  th c t = mk_thread (PCas (cell c)) (o :: r) -> sch o = Strong -> others dec t c c' ->
  step dec t c' None c'' -> tpc (th c'' t) = PCas x ->
  exists c1 u e c2, others dec t c c1 /\ u <> t /\ step dec u c1 e c2 /\ cell c2 <> cell c1 /\ others dec t c2 c'.
Proof.
  intros T B dec eqB t c c' c'' o r x E So O S Fl. apply overtaken; auto.
  pose proof (others_pc _ _ _ _ O) as E'. rewrite E in E'.
  inversion S; subst; match goal with H : th c' t = _ |- _ => rewrite E' in H; try discriminate H; injection H as <- <- <- end.
  - cbn [th] in Fl. rewrite setth_eq in Fl. discriminate Fl.
  - match goal with H : _ \/ sch _ = Weak |- _ => destruct H as [H|H]; congruence end.
Qed.
Print Assumptions C34_failure_means_progress.

(** (b) a thread running alone: load, one attempt, return; with several representations of a value
    at most two attempts *)
Theorem C34_solo : forall (T B : Type) (dec : B -> T) t (c : config T B) o r,
  th c t = mk_thread PStart (o :: r) -> sch o = Strong ->
  forall c1, step dec t c None c1 ->
  exists old, th c1 t = mk_thread (PCas old) (o :: r) /\ cell c1 = cell c /\
   ((forall x y, dec x = dec y -> x = y) -> forall c2, step dec t c1 None c2 ->
      th c2 t = mk_thread (PRet (snd (fn o (dec (cell c))))) (o :: r)) /\
   (forall c2, step dec t c1 None c2 -> th c2 t = mk_thread (PRet (snd (fn o (dec (cell c))))) (o :: r) \/
      (cell c2 = cell c /\ forall c3, step dec t c2 None c3 ->
         th c3 t = mk_thread (PRet (snd (fn o (dec (cell c))))) (o :: r))).
Proof.
  intros T B dec t c o r E So c1 S1.
  inversion S1 as [|? q ? old E' Hs Hd| | | | | | | | | | | | | |]; subst; try congruence.
  rewrite E in E'. injection E' as <- <-. exists old. cbn [th cell]. rewrite setth_eq.
  split; [reflexivity|]. split; [reflexivity|].
  assert (G : forall c2, step dec t (mk_config (cell c) (mux c) (setth (th c) t (mk_thread (PCas old) (o :: r)))) None c2 ->
     (cell c = old /\ th c2 t = mk_thread (PRet (snd (fn o (dec (cell c))))) (o :: r)) \/
     (cell c <> old /\ cell c2 = cell c /\ th c2 t = mk_thread (PCas (cell c)) (o :: r))).
  { intros c2 S2. inversion S2; subst; cbn [th cell mux] in *; rewrite setth_eq in *; try congruence.
    - left. match goal with H : mk_thread (PCas _) _ = _ |- _ => injection H as <- <- <- end. split; congruence.
    - right. match goal with H : mk_thread (PCas _) _ = _ |- _ => injection H as <- <- <- end.
      match goal with H : _ \/ sch _ = Weak |- _ => destruct H as [H|H]; [|congruence] end. auto. }
  split.
  - intros Inj c2 S2. destruct (G c2 S2) as [[_ K]|[K _]]; [exact K|]. apply Inj in Hd. congruence.
  - intros c2 S2. destruct (G c2 S2) as [[_ K]|(K1 & K2 & K3)]; [auto|]. right. split; [exact K2|].
    intros c3 S3. inversion S3; subst; try congruence;
      match goal with H : th c2 t = _ |- _ => rewrite K3 in H; try discriminate H; try (injection H as <- <- <-) end.
    + cbn [th]. rewrite setth_eq. reflexivity.
    + match goal with H : _ \/ sch _ = Weak |- _ => destruct H as [H|H]; congruence end.
Qed.
Print Assumptions C34_solo.

(** (c) lock-freedom, quantitatively: without spurious failures every execution ends within
    (threads + 7) * operations steps, whatever the schedule; and it never gets stuck before *)
Theorem C34_terminates : forall (T B : Type) (dec : B -> T) (eqB : forall x y : B, {x = y} + {x <> y})
  (b0 : B) progs n h c,
  (forall x y, dec x = dec y -> x = y) -> (forall v, exists b, dec b = v) ->
  every_op progs (fun o => sch o = Strong \/ sch o = CppUn \/ sch o = CppBin \/ sch o = KokkosPost) \/
  every_op progs (fun o => sch o = Lock) ->
  run dec (init b0 progs) n h c ->
  n <= (length progs + 7) * length (concat progs) /\
  (finished c \/ exists t e c', step dec t c e c').
Proof.
  intros T B dec eqB b0 progs n h c Inj Sur H R.
  assert (W : well_mixed progs).
  { destruct H as [H|H]; pose proof (every_op_has _ _ H) as H'; [left|right; left; exact H'].
    intros o Ho. destruct (H' o Ho) as [E|[E|[E|E]]]; rewrite E; split; discriminate. }
  split; [|eapply no_deadlock; eauto]. eapply (steps_bounded dec eqB); eauto.
  intros o Ho. destruct H as [H|H]; pose proof (every_op_has _ _ H o Ho) as H'; cbn in H'.
  - destruct H' as [E|[E|[E|E]]]; rewrite E; discriminate.
  - rewrite H'. discriminate.
Qed.
Print Assumptions C34_terminates.
Example C34_case : every_op race_progs (fun o => sch o = Strong \/ sch o = CppUn \/ sch o = CppBin \/ sch o = KokkosPost) /\
  (length race_progs + 7) * length (concat race_progs) = 18.
Proof. split; [intros p o [<-|[<-|[]]] [<-|[]]; left; reflexivity|reflexivity]. Qed.

(** C35. lock scheme *)
Theorem C35_lock_linearizable : forall (T B : Type) (dec : B -> T) (b0 : B) progs n h c,
  every_op progs (fun o => sch o = Lock) -> run dec (init b0 progs) n h c ->
  linearizable (dec b0) h (dec (cell c)).
Proof.
  intros T B dec b0 progs n h c H R. pose proof (every_op_has _ _ H) as H'.
  destruct (reach_inv dec progs b0 n h c) as (l & IV & _); [right; left; exact H'|exact R|].
  eapply inv_linearizable; [exact IV|]. eapply inv_strict; [|exact IV].
  intros o Ho. rewrite (H' o Ho). split; discriminate.
Qed.
Print Assumptions C35_lock_linearizable.
(** whatever else the threads do, at most one is inside the mutex, and it is the one recorded *)
Theorem C35_mutual_exclusion : forall (T B : Type) (dec : B -> T) (b0 : B) progs n h c t u,
  run dec (init b0 progs) n h c ->
  crit (tpc (th c t)) -> crit (tpc (th c u)) -> t = u /\ mux c = Some t.
Proof.
  intros T B dec b0 progs n h c t u R Ht Hu. pose proof (reach_mutex dec progs b0 n h c R) as M.
  apply M in Ht, Hu. split; congruence.
Qed.
Print Assumptions C35_mutual_exclusion.
Example C35_case : exists n h c, run idz (init 5%Z [[add1 Lock]; [add1 Lock]]) n h c /\
  h = [EInv 0 (add1 Lock); EInv 1 (add1 Lock); ERes 1 6%Z; ERes 0 7%Z] /\ cell c = 7%Z.
Proof. eapply (by_schedule _ _ _ (sched [0;1;1;1;1;1;1;0;0;0;0;0])); [lazy; reflexivity|]. split; reflexivity. Qed.

(** two threads, one completed operation each: the only orders are the two obvious ones *)
Lemma two_orders {T} (h : list (event T)) (a b : op T) v0 v :
  linearizable v0 h v -> (forall t, invs t h = nth t [[a]; [b]] []) ->
  length (ress 0 h) = 1 -> length (ress 1 h) = 1 ->
  exists l, (l = [(0, a); (1, b)] \/ l = [(1, b); (0, a)]) /\ v = value_after v0 l /\
    (forall t, ress t h = proj t (returned v0 l)).
Proof.
  intros (l & V & Cv & Tm & RO) Hi H0 H1.
  destruct (Tm h [] (eq_sym (app_nil_r h))) as (l1 & l2 & El & B).
  assert (P : forall t, proj t l = nth t [[a]; [b]] []).
  { intros t. destruct (Cv t) as (pend & E & Lp). rewrite Hi in E. pose proof (B t) as Bt.
    rewrite El, proj_app in *. 
    destruct t as [|[|t]]; cbn [nth] in *.
    - rewrite H0 in Bt. destruct (proj 0 l1) as [|x [|y q]]; simpl in *; try lia; injection E as <- E; 
      [symmetry in E; apply app_eq_nil in E; destruct E as [E _]; rewrite E; reflexivity|discriminate].
    - rewrite H1 in Bt. destruct (proj 1 l1) as [|x [|y q]]; simpl in *; try lia; injection E as <- E; 
      [symmetry in E; apply app_eq_nil in E; destruct E as [E _]; rewrite E; reflexivity|discriminate].
    - destruct t; symmetry in E; apply app_eq_nil in E; destruct E as [E _]; rewrite E; reflexivity. }
  exists l. split; [|split; [auto|]].
  - assert (Pm : Permutation l [(0, a); (1, b)]).
    { apply same_proj_perm. intros t. rewrite P. destruct t as [|[|t]]; try reflexivity. destruct t; reflexivity. }
    apply Permutation_sym in Pm. apply Permutation_length_2_inv in Pm. exact Pm.
  - intros t. pose proof (returns_ok_nth v0 h l RO t) as N.
    pose proof (returned_len t v0 l) as L. rewrite P in L.
    assert (Lr : length (ress t h) = length (nth t [[a]; [b]] [])).
    { destruct t as [|[|t]]; [exact H0|exact H1|]. pose proof (B (S (S t))) as Bt. rewrite Hi in Bt.
      destruct t; cbn in Bt |- *; lia. }
    destruct (ress t h) as [|r [|r' q]]; cbn [length] in Lr.
    + rewrite <- Lr in L. symmetry. apply length_zero_iff_nil. exact L.
    + specialize (N 0 r eq_refl). rewrite <- Lr in L. destruct (proj t (returned v0 l)) as [|x [|y z]]; try discriminate.
      injection N as ->. reflexivity.
    + exfalso. destruct t as [|[|t]]; cbn in Lr; try discriminate. destruct t; discriminate.
Qed.
(** mixing lock with a CAS scheme loses an update: two increments of 5 end in 6 *)
Theorem C35_mixing_loses_update : exists progs,
  every_op progs (fun o => sch o = Lock \/ sch o = Strong) /\ exists n h (c : config Z Z),
  run idz (init 5%Z progs) n h c /\ finished c /\ cell c = 6%Z /\ ~ linearizable 5%Z h (cell c).
Proof.
  exists [[add1 Lock]; [add1 Strong]].
  split; [intros p o [<-|[<-|[]]] [<-|[]]; cbn; auto|].
  eapply (by_schedule _ _ _ (sched [0;0;0;1;1;1;1;0;0;0])); [lazy; reflexivity|].
  split; [intros [|[|[|t]]]; reflexivity|]. split; [reflexivity|].
  intros L. cbn in L. apply (two_orders _ (add1 Lock) (add1 Strong)) in L; try reflexivity.
  - destruct L as (l & [->| ->] & E & _); discriminate E.
  - intros [|[|[|t]]]; reflexivity.
Qed.
Print Assumptions C35_mixing_loses_update.

(** C36. cpp scheme (and kokkos): the update is atomic, mixed with CAS schemes or not; the value
    returned by CppBin operations is the variable's value at some later moment *)
Theorem C36_cpp_partial : forall (T B : Type) (dec : B -> T) (b0 : B) progs n h c,
  every_op progs (fun o => sch o <> Lock /\ sch o <> Serial) -> run dec (init b0 progs) n h c ->
  effect_linearizable (dec b0) h (dec (cell c)).
Proof.
  intros T B dec b0 progs n h c H R.
  destruct (reach_inv dec progs b0 n h c) as (l & IV & _); [left; apply every_op_has; exact H|exact R|].
  eapply inv_effect. exact IV.
Qed.
Print Assumptions C36_cpp_partial.
(** two concurrent x.add(1) on 5 both return 7; under the other schemes one must return 6 *)
Theorem C36_cpp_return_refuted : exists n h (c : config Z Z),
  run idz (init 5%Z [[add1 CppBin]; [add1 CppBin]]) n h c /\ finished c /\
  ress 0 h = [7]%Z /\ ress 1 h = [7]%Z /\ ~ linearizable 5%Z h (cell c).
Proof.
  eapply (by_schedule _ _ _ (sched [0;1;0;1;0;1;0;1])); [lazy; reflexivity|]. split; [intros [|[|[|t]]]; reflexivity|].
  split; [reflexivity|]. split; [reflexivity|].
  intros L. cbn in L. apply (two_orders _ (add1 CppBin) (add1 CppBin)) in L; try reflexivity.
  - destruct L as (l & [->| ->] & _ & E); [specialize (E 0)|specialize (E 1)]; discriminate E.
  - intros [|[|[|t]]]; reflexivity.
Qed.
Print Assumptions C36_cpp_return_refuted.
(** the same for kokkos post-increment: two concurrent calls return the same ticket *)
Theorem C36_kokkos_post_refuted : exists n h (c : config Z Z),
  run idz (init 5%Z [[mk_op KokkosPost (post_op Z.succ)]; [mk_op KokkosPost (post_op Z.succ)]]) n h c /\ finished c /\
  ress 0 h = [5]%Z /\ ress 1 h = [5]%Z /\ ~ linearizable 5%Z h (cell c).
Proof.
  eapply (by_schedule _ _ _ (sched [0;1;0;1;0;1;0;1])); [lazy; reflexivity|]. split; [intros [|[|[|t]]]; reflexivity|].
  split; [reflexivity|]. split; [reflexivity|].
  intros L. cbn in L. apply (two_orders _ (mk_op KokkosPost (post_op Z.succ)) (mk_op KokkosPost (post_op Z.succ))) in L; try reflexivity.
  - destruct L as (l & [->| ->] & _ & E); [specialize (E 1)|specialize (E 0)]; discriminate E.
  - intros [|[|[|t]]]; reflexivity.
Qed.
Print Assumptions C36_kokkos_post_refuted.

(** C79. One thread: whatever mix of schemes (serial included), results are the sequential ones *)
Theorem C79_single_thread : forall (T B : Type) (dec : B -> T) (b0 : B) prog n h c,
  (forall o, In o prog -> op_form o) -> run dec (init b0 [prog]) n h c ->
  linearizable (dec b0) h (dec (cell c)).
Proof.
  intros T B dec b0 prog n h c H R.
  assert (S0 : forall t, t <> 0 -> nth t [prog] [] = []) by (intros [|[|t]] Ht; try congruence; reflexivity).
  destruct (reach_inv dec [prog] b0 n h c) as (l & IV & _); [right; right; exists 0; exact S0|exact R|].
  eapply inv_linearizable; [exact IV|]. eapply inv_single; [exact S0| |exact IV].
  intros o [[|[|t]] Ht]; [apply H; exact Ht|contradiction|destruct t; contradiction].
Qed.
Print Assumptions C79_single_thread.
Example C79_case : exists n h c, run idz (init 5%Z [[add1 Serial; add1 CppBin; mk_op KokkosPost (post_op Z.succ)]]) n h c /\
  ress 0 h = [6;7;7]%Z /\ cell c = 8%Z.
Proof. eapply (by_schedule _ _ _ (sched [0;0;0;0;0;0;0;0;0;0;0;0])); [lazy; reflexivity|]. split; reflexivity. Qed.
(** with two threads the serial scheme loses updates, as its comment warns *)
Example C79_serial_race : exists n h c, run idz (init 5%Z [[add1 Serial]; [add1 Serial]]) n h c /\ finished c /\ cell c = 6%Z.
Proof. eapply (by_schedule _ _ _ (sched [0;1;0;1;0;1;0;1])); [lazy; reflexivity|]. split; [intros [|[|[|t]]]; reflexivity|reflexivity]. Qed.
