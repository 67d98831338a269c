(** Linearizability of AtomicsModel. *)
From Coq Require Import List Arith Bool ZArith Lia Permutation.
From Verif Require Import ListExtra AtomicsModel.
Import ListNotations.

(** the entries of thread t in a list tagged with thread numbers, in order *)
Fixpoint proj {A} (t : nat) (l : list (nat * A)) : list A :=
  match l with [] => [] | (u, o) :: r => if u =? t then o :: proj t r else proj t r end.
Lemma proj_app {A} t (a b : list (nat * A)) : proj t (a ++ b) = proj t a ++ proj t b.
Proof. induction a as [|[u o] a IH]; simpl; [reflexivity|]. destruct (u =? t); simpl; congruence. Qed.

Section Spec.
Context {T : Type}.
(** ** Specification: histories and sequential orders *)
(** a sequential order: who performed which operation *)
Definition order := list (nat * op T).
(** the value after performing the operations one after the other *)
Definition value_after (v0 : T) (l : order) : T := fold_left (fun v e => fst (fn (snd e) v)) l v0.
(** invocations and returned values of thread t in a history *)
Fixpoint invs (t : nat) (h : list (event T)) : list (op T) :=
  match h with [] => [] | EInv u o :: r => if u =? t then o :: invs t r else invs t r | _ :: r => invs t r end.
Fixpoint ress (t : nat) (h : list (event T)) : list T :=
  match h with [] => [] | ERes u v :: r => if u =? t then v :: ress t r else ress t r | _ :: r => ress t r end.

(** [l] contains, per thread, the invoked operations in program order (the last may be missing) *)
Definition covers (h : list (event T)) (l : order) : Prop :=
  forall t, exists pend, invs t h = proj t l ++ pend /\ length pend <= 1.
(** real time: cut the history anywhere; the order can be cut so that everything that had returned
    is in the first part and nothing that had not been called is *)
Definition respects_time (h : list (event T)) (l : order) : Prop :=
  forall h1 h2, h = h1 ++ h2 -> exists l1 l2, l = l1 ++ l2 /\
    forall t, length (ress t h1) <= length (proj t l1) <= length (invs t h1).
(** the k-th value returned to t is what its k-th operation returns at its place in the order *)
Definition returns_ok (v0 : T) (h : list (event T)) (l : order) : Prop :=
  forall t k r, nth_error (ress t h) k = Some r ->
    exists l1 o l2, l = l1 ++ (t, o) :: l2 /\ length (proj t l1) = k /\ r = snd (fn o (value_after v0 l1)).
Definition linearizable (v0 : T) (h : list (event T)) (v : T) : Prop :=
  exists l, value_after v0 l = v /\ covers h l /\ respects_time h l /\ returns_ok v0 h l.

(** what each scheme's return value is: for CppBin the value at some moment after the update, for
    KokkosPost at some moment before it, otherwise the operation's own *)
Definition ret_spec (v0 : T) (l : order) (t k : nat) (r : T) : Prop :=
  exists l1 o l2, l = l1 ++ (t, o) :: l2 /\ length (proj t l1) = k /\
    match sch o with
    | CppBin => exists m1 m2, l2 = m1 ++ m2 /\ proj t m1 = [] /\ r = value_after v0 (l1 ++ (t, o) :: m1)
    | KokkosPost => exists m1 m2, l1 = m1 ++ m2 /\ proj t m2 = [] /\ r = value_after v0 m1
    | _ => r = snd (fn o (value_after v0 l1))
    end.
Definition effect_linearizable (v0 : T) (h : list (event T)) (v : T) : Prop :=
  exists l, value_after v0 l = v /\ covers h l /\ respects_time h l /\
    forall t k r, nth_error (ress t h) k = Some r -> ret_spec v0 l t k r.

Lemma value_after_app v0 a b : value_after v0 (a ++ b) = value_after (value_after v0 a) b.
Proof. apply fold_left_app. Qed.
Lemma invs_app t a b : invs t (a ++ b) = invs t a ++ invs t b.
Proof. induction a as [|[u o|u o] a IH]; simpl; try destruct (u =? t); simpl; congruence. Qed.
Lemma ress_app t a b : ress t (a ++ b) = ress t a ++ ress t b.
Proof. induction a as [|[u o|u o] a IH]; simpl; try destruct (u =? t); simpl; congruence. Qed.
Lemma ret_spec_mono v0 l l' t k r : ret_spec v0 l t k r -> ret_spec v0 (l ++ l') t k r.
Proof.
  intros (l1 & o & l2 & -> & K & R). exists l1, o, (l2 ++ l').
  split; [rewrite <- app_assoc; reflexivity|]. split; [exact K|].
  destruct (sch o); try exact R.
  destruct R as (m1 & m2 & -> & P & R). exists m1, (m2 ++ l'). rewrite app_assoc. auto.
Qed.
End Spec.

Section Inv.
Context {T B : Type}.
Variable dec : B -> T.
Variable v0 : T.
Variable progs : list (list (op T)).

Definition pending (k : nat) (t : nat) (l : order) (p : pc T B) : Prop :=
  match p with
  | PRet r | PWrote r => ret_spec v0 l t k r
  | PKRead x => exists l1 l2, l = l1 ++ l2 /\ proj t l2 = [] /\ x = value_after v0 l1
  | _ => True
  end.
(** the scheme of the current operation fits the program counter *)
Definition pc_fits (p : pc T B) (s : scheme) : Prop :=
  match p with
  | PCas _ => s = Strong \/ s = Weak
  | PCppRet => s = CppBin
  | PKRead _ => s = KokkosPost
  | PHeld | PRead _ | PWrote _ => s = Lock
  | PSRead _ => s = Serial
  | _ => True
  end.
Definition tinv (t : nat) (x : thread T B) (h : list (event T)) (l : order) : Prop :=
  let p := nth t progs [] in
  match tpc x with
  | PIdle => invs t h ++ todo x = p /\ proj t l = invs t h /\ length (ress t h) = length (proj t l)
  | PRet _ | PWrote _ | PCppRet =>
      exists o r pr, todo x = o :: r /\ invs t h = proj t l /\ proj t l ++ r = p /\
        proj t l = pr ++ [o] /\ length pr = length (ress t h) /\ pc_fits (tpc x) (sch o) /\
        (tpc x = PCppRet -> exists l1 l2, l = l1 ++ (t, o) :: l2 /\ proj t l1 = pr /\ proj t l2 = [])
  | _ => exists o r, todo x = o :: r /\ invs t h = proj t l ++ [o] /\ proj t l ++ todo x = p /\
        length (ress t h) = length (proj t l) /\ pc_fits (tpc x) (sch o)
  end.
Record Inv (c : config T B) (h : list (event T)) (l : order) : Prop := {
  i_val : value_after v0 l = dec (cell c);
  i_th : forall t, tinv t (th c t) h l;
  i_pend : forall t, pending (length (ress t h)) t l (tpc (th c t));
  i_ret : forall t k r, nth_error (ress t h) k = Some r -> ret_spec v0 l t k r;
  i_time : respects_time h l }.

Lemma setth_eq (f : nat -> thread T B) t x : setth f t x t = x.
Proof. unfold setth. rewrite Nat.eqb_refl. reflexivity. Qed.
Lemma setth_ne (f : nat -> thread T B) t x u : u <> t -> setth f t x u = f u.
Proof. intros H. unfold setth. rewrite (proj2 (Nat.eqb_neq u t) H). reflexivity. Qed.

Lemma proj_other t u (o : op T) l : u <> t -> proj t (l ++ [(u, o)]) = proj t l.
Proof. intros H. rewrite proj_app. simpl. rewrite (proj2 (Nat.eqb_neq u t) H), app_nil_r. reflexivity. Qed.
Lemma proj_same t (o : op T) l : proj t (l ++ [(t, o)]) = proj t l ++ [o].
Proof. rewrite proj_app. simpl. rewrite Nat.eqb_refl. reflexivity. Qed.

Lemma tinv_other t x h h' l l' : invs t h' = invs t h -> ress t h' = ress t h ->
  (l' = l \/ exists u o, u <> t /\ l' = l ++ [(u, o)]) -> tinv t x h l -> tinv t x h' l'.
Proof.
  intros Hi Hr Hl H.
  assert (P : proj t l' = proj t l).
  { destruct Hl as [->|(u & o & Hu & ->)]; [reflexivity|]. apply proj_other. exact Hu. }
  unfold tinv in *. rewrite Hi, Hr, P. destruct (tpc x); try exact H.
  all: destruct H as (o & rr & pr & H1 & H2 & H3 & H4 & H5 & H6 & H7); exists o, rr, pr;
    repeat (split; [assumption|]); intros E.
  all: destruct (H7 E) as (l1 & l2 & -> & P1 & P2); destruct Hl as [->|(u & q & Hu & ->)];
    [exists l1, l2; auto|]; exists l1, (l2 ++ [(u, q)]); rewrite <- app_assoc; split; [reflexivity|];
    split; [exact P1|]; rewrite proj_other by exact Hu; exact P2.
Qed.
Lemma pending_other t p k l l' : (l' = l \/ exists u o, u <> t /\ l' = l ++ [(u, o)]) ->
  pending k t l p -> pending k t l' p.
Proof.
  intros [->|(u & o & Hu & ->)] H; [exact H|]. destruct p; try exact I.
  - destruct H as (l1 & l2 & -> & P1 & P2). exists l1, (l2 ++ [(u, o)]). rewrite app_assoc.
    split; [reflexivity|]. split; [rewrite proj_other by exact Hu; exact P1|exact P2].
  - apply ret_spec_mono. exact H.
  - apply ret_spec_mono. exact H.
Qed.

(** time: extending the order at the end, or the history *)
Lemma time_log h (l : @order T) l' : respects_time h l ->
  (forall t, length (ress t h) <= length (proj t (l ++ l')) <= length (invs t h)) -> respects_time h (l ++ l').
Proof.
  intros H F h1 h2 E. destruct h2 as [|e h2].
  - rewrite app_nil_r in E. subst h1. exists (l ++ l'), []. rewrite app_nil_r. split; [reflexivity|exact F].
  - destruct (H h1 (e :: h2) E) as (l1 & l2 & -> & K). exists l1, (l2 ++ l'). rewrite app_assoc. auto.
Qed.
Lemma time_event h (l : @order T) e : respects_time h l ->
  (forall t, length (ress t (h ++ [e])) <= length (proj t l) <= length (invs t (h ++ [e]))) ->
  respects_time (h ++ [e]) l.
Proof.
  intros H F h1 h2 E. destruct h2 as [|a h2] using rev_ind.
  - rewrite app_nil_r in E. subst h1. exists l, []. rewrite app_nil_r. split; [reflexivity|exact F].
  - rewrite app_assoc in E. apply app_inj_tail in E. destruct E as [E _]. exact (H h1 h2 E).
Qed.
Lemma tinv_bounds t x h l : tinv t x h l -> length (ress t h) <= length (proj t l) <= length (invs t h).
Proof.
  unfold tinv. destruct (tpc x).
  1: intros (H1 & H2 & H3); rewrite H2 in *; lia.
  1,2,4,5,6,8: intros (o & rr & H1 & H2 & H3 & H4 & _); rewrite H2, app_length; lia.
  all: intros (o & rr & pr & H1 & H2 & H3 & H4 & H5 & _); rewrite H2, H4, app_length; simpl; lia.
Qed.

Lemma inv_silent c h l t x' b m : Inv c h l -> dec b = dec (cell c) ->
  tinv t x' h l -> pending (length (ress t h)) t l (tpc x') ->
  Inv (mk_config b m (setth (th c) t x')) h l.
Proof.
  intros [V TH P R TM] E H1 H2. constructor; cbn [cell th]; auto.
  - congruence.
  - intros u. destruct (Nat.eq_dec u t) as [->|N]; [rewrite setth_eq; exact H1|rewrite setth_ne by exact N; apply TH].
  - intros u. destruct (Nat.eq_dec u t) as [->|N]; [rewrite setth_eq; exact H2|rewrite setth_ne by exact N; apply P].
Qed.
Lemma inv_commit c h l t x' b m o : Inv c h l -> dec b = fst (fn o (dec (cell c))) ->
  tinv t x' h (l ++ [(t, o)]) -> pending (length (ress t h)) t (l ++ [(t, o)]) (tpc x') ->
  Inv (mk_config b m (setth (th c) t x')) h (l ++ [(t, o)]).
Proof.
  intros [V TH P R TM] E H1 H2.
  assert (TH' : forall u, tinv u (setth (th c) t x' u) h (l ++ [(t, o)])).
  { intros u. destruct (Nat.eq_dec u t) as [->|N]; [rewrite setth_eq; exact H1|rewrite setth_ne by exact N].
    eapply tinv_other; try reflexivity; [|apply TH]. right. exists t, o. auto. }
  constructor; cbn [cell th]; auto.
  - rewrite value_after_app, V, E. reflexivity.
  - intros u. destruct (Nat.eq_dec u t) as [->|N]; [rewrite setth_eq; exact H2|rewrite setth_ne by exact N].
    eapply pending_other; [|apply P]. right. exists t, o. auto.
  - intros u k r Hk. apply ret_spec_mono. apply R. exact Hk.
  - apply time_log; [exact TM|]. intros u. eapply tinv_bounds. apply TH'.
Qed.
Definition of_thread (e : event T) : nat := match e with EInv u _ => u | ERes u _ => u end.
Lemma invs_other t e h : of_thread e <> t -> invs t (h ++ [e]) = invs t h.
Proof. intros H. rewrite invs_app. destruct e; simpl in *; rewrite ?(proj2 (Nat.eqb_neq _ _) H); apply app_nil_r. Qed.
Lemma ress_other t e h : of_thread e <> t -> ress t (h ++ [e]) = ress t h.
Proof. intros H. rewrite ress_app. destruct e; simpl in *; rewrite ?(proj2 (Nat.eqb_neq _ _) H); apply app_nil_r. Qed.
Lemma inv_event c h l x' m e : let t := of_thread e in Inv c h l ->
  tinv t x' (h ++ [e]) l -> pending (length (ress t (h ++ [e]))) t l (tpc x') ->
  (forall k r, nth_error (ress t (h ++ [e])) k = Some r -> ret_spec v0 l t k r) ->
  Inv (mk_config (cell c) m (setth (th c) t x')) (h ++ [e]) l.
Proof.
  intros t [V TH P R TM] H1 H2 H3.
  assert (TH' : forall u, tinv u (setth (th c) t x' u) (h ++ [e]) l).
  { intros u. destruct (Nat.eq_dec u t) as [->|N]; [rewrite setth_eq; exact H1|rewrite setth_ne by exact N].
    eapply tinv_other; [apply invs_other|apply ress_other|left; reflexivity|apply TH]; intros K; apply N; subst; reflexivity. }
  constructor; cbn [cell th]; auto.
  - intros u. destruct (Nat.eq_dec u t) as [->|N]; [rewrite setth_eq; exact H2|rewrite setth_ne by exact N].
    rewrite ress_other by (intros K; apply N; subst; reflexivity). apply P.
  - intros u k r. destruct (Nat.eq_dec u t) as [->|N]; [apply H3|].
    rewrite ress_other by (intros K; apply N; subst; reflexivity). apply R.
  - apply time_event; [exact TM|]. intros u. eapply tinv_bounds. apply TH'.
Qed.

(** committing the current operation turns a pre-commit thread state into a post-commit one *)
Lemma commit_tinv t h l o r p (Q : pc T B) x : tinv t (mk_thread x (o :: r)) h l ->
  match x with PIdle | PRet _ | PWrote _ | PCppRet => False | _ => True end ->
  match Q with PRet _ | PWrote _ | PCppRet => True | _ => False end -> pc_fits Q (sch o) ->
  p = nth t progs [] ->
  tinv t (mk_thread Q (o :: r)) h (l ++ [(t, o)]).
Proof.
  intros H Hx HQ Hf Hp.
  assert (K : invs t h = proj t l ++ [o] /\ proj t l ++ o :: r = nth t progs [] /\ length (ress t h) = length (proj t l)).
  { unfold tinv in H; cbn [tpc todo] in H. destruct x; try contradiction;
    destruct H as (o' & rr & E & H2 & H3 & H4 & _); injection E as <- <-; auto. }
  destruct K as (K1 & K2 & K3).
  unfold tinv. cbn [tpc todo].
  assert (G : exists o0 r0 pr, o :: r = o0 :: r0 /\ invs t h = proj t (l ++ [(t, o)]) /\
     proj t (l ++ [(t, o)]) ++ r0 = nth t progs [] /\ proj t (l ++ [(t, o)]) = pr ++ [o0] /\
     length pr = length (ress t h) /\ pc_fits Q (sch o0) /\
     (Q = PCppRet -> exists l1 l2, l ++ [(t, o)] = l1 ++ (t, o0) :: l2 /\ proj t l1 = pr /\ proj t l2 = [])).
  { exists o, r, (proj t l). rewrite !proj_same. repeat (split; [try reflexivity; try assumption|]).
    - rewrite <- app_assoc. exact K2.
    - congruence.
    - intros _. exists l, []. auto. }
  destruct Q; try contradiction; exact G.
Qed.
(** moving between pre-commit states *)
Lemma pre_tinv t h l o r (Q x : pc T B) : tinv t (mk_thread x (o :: r)) h l ->
  match x with PIdle | PRet _ | PWrote _ | PCppRet => False | _ => True end ->
  match Q with PIdle | PRet _ | PWrote _ | PCppRet => False | _ => True end ->
  pc_fits Q (sch o) -> tinv t (mk_thread Q (o :: r)) h l.
Proof.
  intros H Hx HQ Hf.
  assert (K : invs t h = proj t l ++ [o] /\ proj t l ++ o :: r = nth t progs [] /\ length (ress t h) = length (proj t l)).
  { unfold tinv in H; cbn [tpc todo] in H. destruct x; try contradiction;
    destruct H as (o' & rr & E & H2 & H3 & H4 & _); injection E as <- <-; auto. }
  destruct K as (K1 & K2 & K3). unfold tinv. cbn [tpc todo].
  destruct Q; try contradiction; exists o, r; auto.
Qed.
Lemma pre_len t h l o r (x : pc T B) : tinv t (mk_thread x (o :: r)) h l ->
  match x with PIdle | PRet _ | PWrote _ | PCppRet => False | _ => True end ->
  length (ress t h) = length (proj t l) /\ pc_fits x (sch o).
Proof.
  unfold tinv; cbn [tpc todo]. intros H Hx. destruct x; try contradiction;
    destruct H as (o' & rr & E & H2 & H3 & H4 & H5); injection E as <- <-; auto.
Qed.
Lemma own_ret l t k o : length (proj t l) = k ->
  match sch o with CppBin | KokkosPost => False | _ => True end ->
  ret_spec v0 (l ++ [(t, o)]) t k (snd (fn o (value_after v0 l))).
Proof. intros H1 H2. exists l, o, []. split; [reflexivity|]. split; [exact H1|]. destruct (sch o); tauto. Qed.

Ltac pre := match goal with H : tinv _ _ _ _ |- _ => eapply pre_tinv; [exact H|exact I|exact I|] end.

Lemma inv_step c h l t e c' : Inv c h l -> step dec t c e c' ->
  (forall x, tpc (th c t) = PRead x \/ tpc (th c t) = PSRead x -> x = dec (cell c)) ->
  exists l', Inv c' (add_event h e) l'.
Proof.
  intros IV S F. pose proof (i_th _ _ _ IV t) as HT. pose proof (i_pend _ _ _ IV t) as HP.
  pose proof (i_val _ _ _ IV) as HV.
  inversion S as [c1 o r E|c1 o r old E Hs Hd|c1 o r old neu E Hc Hd|c1 o r old E Hc|c1 o r neu E Hs Hd
    |c1 o r E|c1 o r neu E Hs Hd|c1 o r E Hs|c1 o r x neu E Hd|c1 o r E Hs Hm|c1 o r E|c1 o r x neu E Hd
    |c1 o r v E|c1 o r E Hs|c1 o r x neu E Hd|c1 o r v E]; subst c1 e c'; cbn [add_event];
  rewrite E in HT, HP; rewrite ?E in F; cbn [tpc] in HP, F.
  - (* call *)
    exists l. apply (inv_event c h l (mk_thread PStart (o :: r)) (mux c) (EInv t o) IV).
    + unfold tinv in *. cbn [tpc todo of_thread] in *. destruct HT as (H1 & H2 & H3).
      exists o, r. rewrite invs_app, ress_app. simpl. rewrite Nat.eqb_refl, app_nil_r, H2.
      repeat split; try assumption. congruence.
    + exact I.
    + intros k v. cbn [of_thread]. rewrite ress_app. simpl. rewrite app_nil_r. apply (i_ret _ _ _ IV).
  - (* load *)
    exists l. apply inv_silent; auto; pre; exact Hs.
  - (* CAS success *)
    exists (l ++ [(t, o)]). destruct (pre_len _ _ _ _ _ _ HT I) as [L Fi]. cbn in Fi.
    apply inv_commit; auto.
    + congruence.
    + eapply commit_tinv; [exact HT|exact I|exact I|exact I|reflexivity].
    + cbn [tpc pending]. rewrite L, <- Hc, <- HV. apply own_ret; [reflexivity|]. destruct (sch o); destruct Fi; try discriminate; exact I.
  - (* CAS failure *)
    exists l. destruct (pre_len _ _ _ _ _ _ HT I) as [L Fi]. apply inv_silent; auto; pre; exact Fi.
  - (* fetch_op *)
    exists (l ++ [(t, o)]). apply inv_commit; auto.
    eapply commit_tinv; [exact HT|exact I|exact I|exact Hs|reflexivity].
  - (* read for return *)
    exists l. unfold tinv in HT; cbn [tpc todo] in HT. destruct HT as (o' & rr & pr & E1 & H2 & H3 & H4 & H5 & H6 & H7).
    injection E1 as <- <-. cbn in H6. apply inv_silent; auto.
    + unfold tinv. cbn [tpc todo]. exists o, r, pr. repeat (split; [assumption||reflexivity|]).
      try (split; [exact I|]). intros K. discriminate K.
    + cbn [tpc pending]. destruct (H7 eq_refl) as (l1 & l2 & -> & P1 & P2).
      exists l1, o, l2. split; [reflexivity|]. split; [congruence|]. rewrite H6.
      exists l2, []. rewrite app_nil_r. auto.
  - (* std::atomic ++ *)
    exists (l ++ [(t, o)]). destruct (pre_len _ _ _ _ _ _ HT I) as [L Fi].
    apply inv_commit; auto.
    + eapply commit_tinv; [exact HT|exact I|exact I|exact I|reflexivity].
    + cbn [tpc pending]. rewrite L, <- HV. apply own_ret; [reflexivity|]. rewrite Hs. exact I.
  - (* kokkos read *)
    exists l. apply inv_silent; auto; [pre; exact Hs|]. cbn [tpc pending]. exists l, []. rewrite app_nil_r. auto.
  - (* kokkos update *)
    exists (l ++ [(t, o)]). destruct (pre_len _ _ _ _ _ _ HT I) as [L Fi].
    apply inv_commit; auto.
    + eapply commit_tinv; [exact HT|exact I|exact I|exact I|reflexivity].
    + cbn [tpc pending] in *. exists l, o, []. split; [reflexivity|]. split; [symmetry; exact L|]. cbn in Fi. rewrite Fi.
      exact HP.
  - (* lock *)
    exists l. apply inv_silent; auto; pre; exact Hs.
  - (* locked read *)
    exists l. destruct (pre_len _ _ _ _ _ _ HT I) as [L Fi]. apply inv_silent; auto; pre; exact Fi.
  - (* locked write *)
    exists (l ++ [(t, o)]). destruct (pre_len _ _ _ _ _ _ HT I) as [L Fi]. cbn in Fi.
    rewrite (F x) in * by auto. apply inv_commit; auto.
    + eapply commit_tinv; [exact HT|exact I|exact I|exact Fi|reflexivity].
    + cbn [tpc pending]. rewrite L, <- HV. apply own_ret; [reflexivity|]. rewrite Fi. exact I.
  - (* unlock *)
    exists l. apply inv_silent; auto.
    unfold tinv in HT |- *; cbn [tpc todo] in HT |- *. destruct HT as (o' & rr & pr & E1 & H2 & H3 & H4 & H5 & H6 & H7).
    exists o', rr, pr. repeat (split; [assumption|]). try (split; [exact I|]). intros K. discriminate K.
  - (* serial read *)
    exists l. apply inv_silent; auto; pre; exact Hs.
  - (* serial write *)
    exists (l ++ [(t, o)]). destruct (pre_len _ _ _ _ _ _ HT I) as [L Fi]. cbn in Fi.
    rewrite (F x) in * by auto. apply inv_commit; auto.
    + eapply commit_tinv; [exact HT|exact I|exact I|exact I|reflexivity].
    + cbn [tpc pending]. rewrite L, <- HV. apply own_ret; [reflexivity|]. rewrite Fi. exact I.
  - (* return *)
    exists l. unfold tinv in HT; cbn [tpc todo] in HT. destruct HT as (o' & rr & pr & E1 & H2 & H3 & H4 & H5 & H6 & _).
    injection E1 as <- <-. apply (inv_event c h l (mk_thread PIdle r) (mux c) (ERes t v) IV).
    + unfold tinv. cbn [tpc todo of_thread]. rewrite invs_app, ress_app. simpl. rewrite Nat.eqb_refl, app_nil_r, H2.
      split; [exact H3|]. split; [reflexivity|]. rewrite H4, !app_length, H5. reflexivity.
    + exact I.
    + intros k w. cbn [of_thread]. rewrite ress_app. simpl. rewrite Nat.eqb_refl. intros Hk.
      destruct (Nat.lt_ge_cases k (length (ress t h))) as [Lt|Ge].
      * rewrite nth_error_app1 in Hk by exact Lt. apply (i_ret _ _ _ IV). exact Hk.
      * assert (k = length (ress t h)) as ->.
        { assert (K : nth_error (ress t h ++ [v]) k <> None) by congruence. apply nth_error_Some in K.
          rewrite app_length in K. simpl in K. lia. }
        rewrite nth_error_app2, Nat.sub_diag in Hk by lia. injection Hk as <-. exact HP.
Qed.

Lemma inv_init b0 : dec b0 = v0 -> Inv (init b0 progs) [] [].
Proof.
  intros E. constructor; [exact (eq_sym E)| | | |].
  - intros t. unfold tinv. cbn. repeat split.
  - intros t. exact I.
  - intros t k r H. destruct k; discriminate.
  - intros h1 h2 H. exists [], []. split; [reflexivity|]. destruct h1; [|discriminate]. auto.
Qed.
Lemma inv_effect c h l : Inv c h l -> effect_linearizable v0 h (dec (cell c)).
Proof.
  intros IV. exists l. split; [apply (i_val _ _ _ IV)|]. split; [|split; [apply (i_time _ _ _ IV)|apply (i_ret _ _ _ IV)]].
  intros t. pose proof (i_th _ _ _ IV t) as H. unfold tinv in H. destruct (tpc (th c t)).
  1: { exists []. rewrite app_nil_r. destruct H as (_ & H & _). auto. }
  1,2,4,5,6,8: destruct H as (o & rr & H1 & H2 & H3 & H4 & _); exists [o]; auto.
  all: destruct H as (o & rr & pr & H1 & H2 & _); exists []; rewrite app_nil_r; auto.
Qed.
End Inv.
