(** What one variable sees of a run of AtomicsVarsModel is a run of AtomicsModel. *)
From Coq Require Import List Arith Bool ZArith Lia.
From Verif Require Import ListExtra AtomicsModel AtomicsProofs AtomicsRuns AtomicsVarsModel.
Import ListNotations.

Section Proj.
Context {T B : Type}.
Variable dec : B -> T.
Variable mx : nat -> nat.

(** ** projections onto variable v *)
Fixpoint on_var (v : nat) (l : list (vop T)) : list (op T) :=
  match l with [] => [] | (w, o) :: r => if w =? v then o :: on_var v r else on_var v r end.
Definition ev_on (v : nat) (e : vevent T) : option (event T) :=
  match e with
  | VInv t w o => if w =? v then Some (EInv t o) else None
  | VRes t w r => if w =? v then Some (ERes t r) else None
  end.
Fixpoint hist_on (v : nat) (h : list (vevent T)) : list (event T) :=
  match h with [] => [] | e :: r => match ev_on v e with Some x => x :: hist_on v r | None => hist_on v r end end.
Definition opt_ev (v : nat) (e : option (vevent T)) : option (event T) :=
  match e with Some x => ev_on v x | None => None end.
(** a thread between its (possibly stale) read and its successful compare-exchange has not yet
    touched the variable *)
Definition early (p : pc T B) : pc T B := match p with PCas _ => PStart | _ => p end.
Definition th_on (v : nat) (x : vthread T B) : thread T B :=
  match vtodo x with
  | [] => mk_thread PIdle []
  | (w, o) :: r => if w =? v then mk_thread (early (vpc x)) (o :: on_var v r) else mk_thread PIdle (on_var v r)
  end.
Definition cur_var (x : vthread T B) : option nat := match vtodo x with (w, _) :: _ => Some w | [] => None end.
Definition mux_on (c : vconfig T B) (v : nat) : option nat :=
  match vmux c (mx v) with
  | Some t => match cur_var (vth c t) with Some w => if w =? v then Some t else None | None => None end
  | None => None
  end.
Record sim (v : nat) (c : vconfig T B) (a : config T B) : Prop := {
  sim_cell : cell a = vcell c v;
  sim_mux : mux a = mux_on c v;
  sim_th : forall t, th a t = th_on v (vth c t) }.

(** a mutex is held exactly by the thread inside the critical section of a variable of that type *)
Definition vcrit (p : pc T B) : Prop := match p with PHeld | PRead _ | PWrote _ => True | _ => False end.
Definition vmutex_inv (c : vconfig T B) : Prop :=
  (forall t v o r, vtodo (vth c t) = (v, o) :: r -> vcrit (vpc (vth c t)) -> vmux c (mx v) = Some t) /\
  (forall m t, vmux c m = Some t -> exists v o r, vtodo (vth c t) = (v, o) :: r /\ mx v = m /\ vcrit (vpc (vth c t))).
(** the scheme of the current operation fits the program counter; nothing to do means idle *)
Definition vfits (c : vconfig T B) : Prop :=
  forall t, match vtodo (vth c t) with
            | [] => vpc (vth c t) = PIdle
            | (_, o) :: _ => pc_fits (vpc (vth c t)) (sch o)
            end.

Lemma upd_eq {A} (f : nat -> A) k x : upd f k x k = x.
Proof. unfold upd. rewrite Nat.eqb_refl. reflexivity. Qed.
Lemma upd_ne {A} (f : nat -> A) k x j : j <> k -> upd f k x j = f j.
Proof. intros H. unfold upd. rewrite (proj2 (Nat.eqb_neq j k) H). reflexivity. Qed.

Lemma fits_step c t e c' : vfits c -> vstep dec mx t c e c' -> vfits c'.
Proof.
  intros F S u. pose proof (F u) as Fu. destruct (Nat.eq_dec u t) as [->|N].
  - inversion S; subst; cbn [vth goto wr setm]; rewrite upd_eq; cbn [vtodo vpc]; cbn [pc_fits]; auto;
      try (match goal with H : vth c t = _ |- _ => rewrite H in Fu; cbn in Fu; auto end).
    destruct r as [|[w q] r]; cbn; auto.
  - inversion S; subst; cbn [vth goto wr setm]; rewrite upd_ne by exact N; exact Fu.
Qed.

Lemma vmutex_step c t e c' : vmutex_inv c -> vstep dec mx t c e c' -> vmutex_inv c'.
Proof.
  intros [I1 I2] S. split.
  - intros u v o r E Cr. destruct (Nat.eq_dec u t) as [->|N].
    + inversion S; subst; cbn [vth goto wr setm vmux] in *; rewrite upd_eq in *; cbn [vtodo vpc] in *;
        try contradiction; try (injection E as <- <- <-).
      * rewrite upd_eq. reflexivity.
      * match goal with H : vth c t = _ |- _ => eapply (I1 t); rewrite H; [reflexivity|exact I] end.
      * match goal with H : vth c t = _ |- _ => eapply (I1 t); rewrite H; [reflexivity|exact I] end.
    + assert (E' : vth c' u = vth c u) by (inversion S; subst; cbn; apply upd_ne; exact N).
      rewrite E' in *. pose proof (I1 u v o r E Cr) as M.
      inversion S; subst; cbn [vmux goto wr setm]; auto.
      * destruct (Nat.eq_dec (mx v) (mx v0)) as [K|K]; [rewrite K in M; congruence|rewrite upd_ne by exact K; exact M].
      * destruct (Nat.eq_dec (mx v) (mx v0)) as [K|K]; [|rewrite upd_ne by exact K; exact M].
        exfalso. assert (M' : vmux c (mx v0) = Some t) by (eapply (I1 t); rewrite H; [reflexivity|exact I]). congruence.
  - intros m u M.
    assert (Keep : u <> t -> vmux c m = Some u -> exists v o r, vtodo (vth c' u) = (v, o) :: r /\ mx v = m /\ vcrit (vpc (vth c' u))).
    { intros N M'. assert (E' : vth c' u = vth c u) by (inversion S; subst; cbn; apply upd_ne; exact N).
      rewrite E'. apply I2. exact M'. }
    assert (Own : forall v o r p, vth c t = mk_vthread p ((v, o) :: r) -> vmux c m = Some t -> mx v = m /\ vcrit p).
    { intros v o r p E M'. destruct (I2 m t M') as (v' & o' & r' & K1 & K2 & K3). rewrite E in *. cbn in *.
      injection K1 as <- <- <-. auto. }
    destruct (Nat.eq_dec u t) as [->|N].
    + inversion S; subst; cbn [vmux vth goto wr setm] in *; rewrite upd_eq; cbn [vtodo vpc];
        try (match goal with H : vth c t = _ |- _ => destruct (Own _ _ _ _ H M) as [K1 K2]; try contradiction K2;
             repeat eexists; solve [exact K1|exact I] end).
      * destruct (Nat.eq_dec m (mx v)) as [->|K]; [repeat eexists; exact I|].
        rewrite upd_ne in M by exact K. destruct (Own _ _ _ _ H M) as [_ []].
      * destruct (Nat.eq_dec m (mx v)) as [->|K]; [rewrite upd_eq in M; discriminate|].
        rewrite upd_ne in M by exact K. destruct (Own _ _ _ _ H M) as [K1 _]. congruence.
    + apply Keep; [exact N|]. inversion S; subst; cbn [vmux goto wr setm] in *; auto.
      * destruct (Nat.eq_dec m (mx v)) as [->|K]; [rewrite upd_eq in M; congruence|rewrite upd_ne in M by exact K; exact M].
      * destruct (Nat.eq_dec m (mx v)) as [->|K]; [rewrite upd_eq in M; discriminate|rewrite upd_ne in M by exact K; exact M].
Qed.

(** a step on another variable changes nothing; a step on v is one step, none, or (a successful
    compare-exchange) a fresh read followed by the compare-exchange *)
Definition follows (a0 a a' : config T B) (e : option (event T)) : Prop :=
  forall n h, run dec a0 n h a -> exists n', run dec a0 n' (add_event h e) a'.
Lemma follows_refl a0 a : follows a0 a a None.
Proof. intros n h R. exists n. exact R. Qed.
Lemma follows_one a0 a a' t e : step dec t a e a' -> follows a0 a a' e.
Proof. intros St n h R. exists (S n). eapply run_snoc; eauto. Qed.
Lemma th_on_cur v p o r : th_on v (mk_vthread p ((v, o) :: r)) = mk_thread (early p) (o :: on_var v r).
Proof. unfold th_on. cbn. rewrite Nat.eqb_refl. reflexivity. Qed.
Lemma th_on_other v w p o r : w <> v -> th_on v (mk_vthread p ((w, o) :: r)) = mk_thread PIdle (on_var v r).
Proof. intros H. unfold th_on. cbn. rewrite (proj2 (Nat.eqb_neq w v) H). reflexivity. Qed.
Lemma th_on_idle v r : th_on v (mk_vthread PIdle r) = mk_thread PIdle (on_var v r).
Proof. unfold th_on. cbn. destruct r as [|[w o] r]; [reflexivity|]. cbn. destruct (w =? v); reflexivity. Qed.
Lemma follows_two a0 a a1 a' t u : step dec t a None a1 -> step dec u a1 None a' -> follows a0 a a' None.
Proof. intros S1 S2 n h R. exists (S (S n)). exact (run_snoc _ _ _ _ _ _ _ _ (run_snoc _ _ _ _ _ _ _ _ R S1) S2). Qed.
Lemma mux_on_same c c' v : vmux c' (mx v) = vmux c (mx v) ->
  (forall u, vmux c (mx v) = Some u -> cur_var (vth c' u) = cur_var (vth c u)) -> mux_on c' v = mux_on c v.
Proof.
  intros H1 H2. unfold mux_on. rewrite H1. destruct (vmux c (mx v)) as [u|] eqn:E; [|reflexivity].
  rewrite H2 by reflexivity. reflexivity.
Qed.
(** what has to be checked for a step of t that moves it from x to y *)
Lemma sim_idle v c c' a t x y : sim v c a -> vth c t = x -> (forall u, vth c' u = upd (vth c) t y u) ->
  vcell c' v = vcell c v -> mux_on c' v = mux_on c v -> th_on v y = th_on v x -> sim v c' a.
Proof.
  intros [S1 S2 S3] E Et Ec Em Ey. constructor; [congruence|congruence|].
  intros u. rewrite S3, Et. destruct (Nat.eq_dec u t) as [->|N]; [rewrite upd_eq; congruence|rewrite upd_ne by exact N; reflexivity].
Qed.
Lemma sim_move v c c' a t y b m : sim v c a -> (forall u, vth c' u = upd (vth c) t y u) ->
  vcell c' v = b -> mux_on c' v = m -> sim v c' (mk_config b m (setth (th a) t (th_on v y))).
Proof.
  intros [S1 S2 S3] Et Ec Em. constructor; cbn [cell mux th]; [congruence|congruence|].
  intros u. rewrite Et. destruct (Nat.eq_dec u t) as [->|N]; [rewrite setth_eq, upd_eq; reflexivity|].
  rewrite setth_ne, upd_ne by exact N. apply S3.
Qed.
Lemma sim_step v c t e c' a0 a : vmutex_inv c -> vfits c -> vstep dec mx t c e c' -> sim v c a ->
  exists a', sim v c' a' /\ follows a0 a a' (opt_ev v e).
Proof.
  intros [I1 I2] F S Si. pose proof Si as [Sc Sm St].
  assert (Own : forall w o r p m, vth c t = mk_vthread p ((w, o) :: r) -> vmux c m = Some t -> mx w = m /\ vcrit p).
  { intros w o r p m E M'. destruct (I2 m t M') as (v' & o' & r' & K1 & K2 & K3). rewrite E in *. cbn in *.
    injection K1 as <- <- <-. auto. }
  (* the head of the list does not change: neither does the view of the mutex *)
  assert (Cur : forall w o r p q c1, vth c t = mk_vthread p ((w, o) :: r) ->
            (forall u, vth c1 u = upd (vth c) t (mk_vthread q ((w, o) :: r)) u) ->
            vmux c1 (mx v) = vmux c (mx v) -> mux_on c1 v = mux_on c v).
  { intros w o r p q c1 E Et Em. apply mux_on_same; [exact Em|]. intros u _. rewrite Et.
    destruct (Nat.eq_dec u t) as [->|N]; [rewrite upd_eq, E; reflexivity|rewrite upd_ne by exact N; reflexivity]. }
  (* steps on another variable *)
  assert (Oth : forall w o r p q c1 b, w <> v -> vth c t = mk_vthread p ((w, o) :: r) ->
            c1 = goto c t (mk_vthread q ((w, o) :: r)) \/ c1 = goto (wr c w b) t (mk_vthread q ((w, o) :: r)) ->
            exists a', sim v c1 a' /\ follows a0 a a' None).
  { intros w o r p q c1 b Nw E Ec1. exists a. split; [|apply follows_refl].
    assert (Et : forall u, vth c1 u = upd (vth c) t (mk_vthread q ((w, o) :: r)) u) by (destruct Ec1 as [->| ->]; reflexivity).
    eapply sim_idle; [exact Si|exact E|exact Et| | |].
    - destruct Ec1 as [->| ->]; cbn; [reflexivity|]. apply upd_ne. congruence.
    - eapply Cur; [exact E|exact Et|]. destruct Ec1 as [->| ->]; reflexivity.
    - rewrite !th_on_other by exact Nw. reflexivity. }
  inversion S; subst; cbn [opt_ev ev_on];
    match goal with H : vth c t = mk_vthread ?p ((?w, ?o) :: ?r) |- _ =>
      rename H into E; destruct (Nat.eqb_spec w v) as [Ev|Nw]; [subst w|];
      [pose proof (St t) as Ht; rewrite E, th_on_cur in Ht; cbn [early] in Ht; rewrite <- ?Sc in *|
       try (eapply (Oth _ _ _ _ _ _ (vcell c 0)); [exact Nw|exact E|left; reflexivity]);
       try (eapply Oth; [exact Nw|exact E|right; reflexivity])] end.
  - (* call *)
    eexists. split; [eapply sim_move; [exact Si|reflexivity|reflexivity|eapply Cur; [exact E|reflexivity|reflexivity]]|].
    rewrite th_on_cur. cbn [early]. cbn [goto vcell]. rewrite <- ?Sc, <- Sm. eapply follows_one. eapply s_call. exact Ht.
  - (* load: nothing yet *)
    exists a. split; [|apply follows_refl]. eapply sim_idle; [exact Si|exact E|reflexivity|reflexivity| |].
    + eapply Cur; [exact E|reflexivity|reflexivity].
    + rewrite !th_on_cur. reflexivity.
  - (* successful compare-exchange *)
    pose proof (F t) as Ft. rewrite E in Ft. cbn in Ft.
    pose proof (s_load dec t a o (on_var v r) (cell a) Ht Ft eq_refl) as L1.
    set (a1 := mk_config (cell a) (mux a) (setth (th a) t (mk_thread (PCas (cell a)) (o :: on_var v r)))) in L1.
    pose proof (s_cas_ok dec t a1 o (on_var v r) (cell a) neu (setth_eq _ _ _) eq_refl ltac:(congruence)) as L2.
    eexists. split; [|eapply follows_two; [exact L1|exact L2]].
    constructor; cbn [cell mux th a1].
    + cbn. rewrite upd_eq. reflexivity.
    + rewrite Sm. symmetry. eapply Cur; [exact E|reflexivity|reflexivity].
    + intros u. cbn. destruct (Nat.eq_dec u t) as [->|N].
      * rewrite setth_eq, upd_eq, th_on_cur. cbn [early]. congruence.
      * rewrite !setth_ne, upd_ne by exact N. apply St.
  - (* failed: nothing yet *)
    exists a. split; [|apply follows_refl]. eapply sim_idle; [exact Si|exact E|reflexivity|reflexivity| |].
    + eapply Cur; [exact E|reflexivity|reflexivity].
    + rewrite !th_on_cur. reflexivity.
  - eexists. split; [eapply sim_move; [exact Si|reflexivity|cbn; apply upd_eq|eapply Cur; [exact E|reflexivity|reflexivity]]|].
    rewrite th_on_cur, <- ?Sm. cbn [early]. eapply follows_one. eapply s_cpp_rmw; [exact Ht|assumption|congruence].
  - eexists. split; [eapply sim_move; [exact Si|reflexivity|reflexivity|eapply Cur; [exact E|reflexivity|reflexivity]]|].
    rewrite th_on_cur, <- ?Sm. cbn [early goto vcell]. rewrite <- ?Sc. eapply follows_one. eapply s_cpp_ret. exact Ht.
  - eexists. split; [eapply sim_move; [exact Si|reflexivity|cbn; apply upd_eq|eapply Cur; [exact E|reflexivity|reflexivity]]|].
    rewrite th_on_cur, <- ?Sm. cbn [early]. rewrite <- ?Sc. eapply follows_one. eapply s_cpp_un; [exact Ht|assumption|congruence].
  - eexists. split; [eapply sim_move; [exact Si|reflexivity|reflexivity|eapply Cur; [exact E|reflexivity|reflexivity]]|].
    rewrite th_on_cur, <- ?Sm. cbn [early goto vcell]. rewrite <- ?Sc. eapply follows_one. eapply s_k_read; [exact Ht|assumption].
  - eexists. split; [eapply sim_move; [exact Si|reflexivity|cbn; apply upd_eq|eapply Cur; [exact E|reflexivity|reflexivity]]|].
    rewrite th_on_cur, <- ?Sm. cbn [early]. eapply follows_one. eapply s_k_rmw; [exact Ht|congruence].
  - (* lock *)
    eexists. split; [eapply sim_move with (m := Some t); [exact Si|reflexivity|reflexivity|]|].
    + unfold mux_on. cbn [vmux goto setm vth]. rewrite !upd_eq. cbn. rewrite Nat.eqb_refl. reflexivity.
    + rewrite th_on_cur. cbn [early goto setm vcell]. rewrite <- ?Sc. eapply follows_one. eapply s_lock; [exact Ht|assumption|].
      rewrite Sm. unfold mux_on. rewrite H1. reflexivity.
  - (* lock of another variable *)
    exists a. split; [|apply follows_refl].
    eapply sim_idle; [exact Si|exact E|reflexivity|reflexivity| |rewrite !th_on_other by exact Nw; reflexivity].
    destruct (Nat.eq_dec (mx v) (mx v0)) as [K|K].
    + unfold mux_on. cbn [vmux goto setm vth]. rewrite K, !upd_eq. cbn. rewrite H1, (proj2 (Nat.eqb_neq _ _) Nw). reflexivity.
    + eapply Cur; [exact E|reflexivity|]. cbn. apply upd_ne. exact K.
  - eexists. split; [eapply sim_move; [exact Si|reflexivity|reflexivity|eapply Cur; [exact E|reflexivity|reflexivity]]|].
    rewrite th_on_cur, <- ?Sm. cbn [early goto vcell]. rewrite <- ?Sc. eapply follows_one. eapply s_l_read. exact Ht.
  - eexists. split; [eapply sim_move; [exact Si|reflexivity|cbn; apply upd_eq|eapply Cur; [exact E|reflexivity|reflexivity]]|].
    rewrite th_on_cur, <- ?Sm. cbn [early]. eapply follows_one. eapply s_l_write; [exact Ht|assumption].
  - (* unlock *)
    eexists. split; [eapply sim_move with (m := None); [exact Si|reflexivity|reflexivity|]|].
    + unfold mux_on. cbn [vmux goto setm vth]. rewrite !upd_eq. reflexivity.
    + rewrite th_on_cur. cbn [early goto setm vcell]. rewrite <- ?Sc. eapply follows_one. eapply s_unlock. exact Ht.
  - (* unlock of another variable *)
    exists a. split; [|apply follows_refl].
    eapply sim_idle; [exact Si|exact E|reflexivity|reflexivity| |rewrite !th_on_other by exact Nw; reflexivity].
    destruct (Nat.eq_dec (mx v) (mx v0)) as [K|K].
    + unfold mux_on. cbn [vmux goto setm vth]. rewrite K, !upd_eq.
      assert (M : vmux c (mx v0) = Some t) by (eapply (I1 t); rewrite E; [reflexivity|exact I]).
      rewrite M, E. cbn. rewrite (proj2 (Nat.eqb_neq _ _) Nw). reflexivity.
    + eapply Cur; [exact E|reflexivity|]. cbn. apply upd_ne. exact K.
  - eexists. split; [eapply sim_move; [exact Si|reflexivity|reflexivity|eapply Cur; [exact E|reflexivity|reflexivity]]|].
    rewrite th_on_cur, <- ?Sm. cbn [early goto vcell]. rewrite <- ?Sc. eapply follows_one. eapply s_s_read; [exact Ht|assumption].
  - eexists. split; [eapply sim_move; [exact Si|reflexivity|cbn; apply upd_eq|eapply Cur; [exact E|reflexivity|reflexivity]]|].
    rewrite th_on_cur, <- ?Sm. cbn [early]. eapply follows_one. eapply s_s_write; [exact Ht|assumption].
  - (* return *)
    eexists. split; [eapply sim_move with (m := mux a); [exact Si|reflexivity|reflexivity|]|].
    + rewrite Sm. apply mux_on_same; [reflexivity|]. intros u M. cbn. destruct (Nat.eq_dec u t) as [->|N].
      * destruct (Own _ _ _ _ _ E M) as [_ []].
      * rewrite upd_ne by exact N. reflexivity.
    + rewrite th_on_idle. cbn [goto vcell]. rewrite <- ?Sc. eapply follows_one. eapply s_return. exact Ht.
  - exists a. split; [|apply follows_refl].
    eapply sim_idle; [exact Si|exact E|reflexivity|reflexivity| |rewrite th_on_idle, th_on_other by exact Nw; reflexivity].
    apply mux_on_same; [reflexivity|]. intros u M. cbn. destruct (Nat.eq_dec u t) as [->|N].
    + destruct (Own _ _ _ _ _ E M) as [_ []].
    + rewrite upd_ne by exact N. reflexivity.
Qed.

Lemma init_inv b0 progs : vmutex_inv (vinit b0 progs) /\ vfits (vinit b0 progs).
Proof.
  split; [split|].
  - intros t v o r _ [].
  - intros m t H. discriminate H.
  - intros t. cbn. destruct (nth t progs []) as [|[w o] r]; [reflexivity|exact I].
Qed.
Lemma reach_vinv b0 progs n h c : vrun dec mx (vinit b0 progs) n h c -> vmutex_inv c /\ vfits c.
Proof.
  induction 1 as [|n h c t e c' R [I1 I2] S]; [apply init_inv|].
  split; [eapply vmutex_step|eapply fits_step]; eauto.
Qed.
Lemma hist_on_app v a b : hist_on v (a ++ b) = hist_on v a ++ hist_on v b.
Proof. induction a as [|e a IH]; [reflexivity|]. cbn. destruct (ev_on v e); cbn; congruence. Qed.
Lemma hist_on_add v h e : hist_on v (vadd h e) = add_event (hist_on v h) (opt_ev v e).
Proof.
  destruct e as [e|]; [|reflexivity]. cbn. rewrite hist_on_app. cbn. destruct (ev_on v e); cbn; [reflexivity|apply app_nil_r].
Qed.
(** the run seen by variable v, from its initial value and with the operations on it *)
Theorem project b0 progs n h c v : vrun dec mx (vinit b0 progs) n h c ->
  exists n' a, run dec (init (b0 v) (map (on_var v) progs)) n' (hist_on v h) a /\ sim v c a.
Proof.
  induction 1 as [|n h c t e c' R (n' & a & Ra & Si) S].
  - exists 0. eexists. split; [apply run_nil|]. constructor; cbn; [reflexivity|unfold mux_on; reflexivity|].
    intros t. rewrite th_on_idle. f_equal. change (@nil (op T)) with (on_var v []). apply map_nth.
  - destruct (reach_vinv _ _ _ _ _ R) as [I1 I2].
    destruct (sim_step v c t e c' (init (b0 v) (map (on_var v) progs)) a I1 I2 S Si) as (a' & Si' & Fo).
    destruct (Fo n' (hist_on v h) Ra) as (n2 & R2). exists n2, a'. rewrite hist_on_add. auto.
Qed.
End Proj.
