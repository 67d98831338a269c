(** Executions of AtomicsModel: which programs satisfy the invariant, mutual exclusion, progress,
    and consequences at the end of an execution. *)
From Coq Require Import List Arith Bool ZArith Lia Permutation.
From Verif Require Import ListExtra AtomicsModel AtomicsProofs.
Import ListNotations.

(** * tagged lists *)
Lemma proj_in {A} t (o : A) l : In o (proj t l) <-> In (t, o) l.
Proof.
  induction l as [|[u q] l IH]; simpl; [tauto|]. destruct (Nat.eqb_spec u t) as [->|N]; simpl; rewrite IH.
  - split; intros [H|H]; auto; left; congruence.
  - split; [auto|]. intros [H|H]; [congruence|exact H].
Qed.
Lemma proj_split {A} t (o : A) l r : proj t l = o :: r ->
  exists a b, l = a ++ (t, o) :: b /\ proj t a = [] /\ proj t b = r.
Proof.
  induction l as [|[u q] l IH]; simpl; [discriminate|]. destruct (Nat.eqb_spec u t) as [->|N].
  - intros H. injection H as -> <-. exists [], l. auto.
  - intros H. destruct (IH H) as (a & b & -> & P1 & P2). exists ((u, q) :: a), b. simpl.
    rewrite (proj2 (Nat.eqb_neq u t) N). auto.
Qed.
Lemma same_proj_perm {A} (l l' : list (nat * A)) : (forall t, proj t l = proj t l') -> Permutation l l'.
Proof.
  revert l'; induction l as [|[u q] l IH]; intros l' H.
  - destruct l' as [|[w z] l']; [constructor|]. specialize (H w). simpl in H. rewrite Nat.eqb_refl in H. discriminate.
  - pose proof (H u) as Hu. simpl in Hu. rewrite Nat.eqb_refl in Hu. symmetry in Hu.
    destruct (proj_split _ _ _ _ Hu) as (a & b & -> & P1 & P2).
    apply Permutation_cons_app. apply IH. intros t. specialize (H t). rewrite proj_app in *. simpl in H.
    destruct (Nat.eqb_spec u t) as [->|N]; [|exact H]. rewrite P1 in *. simpl in *. congruence.
Qed.
Fixpoint tag {A} (i : nat) (ps : list (list A)) : list (nat * A) :=
  match ps with [] => [] | p :: r => map (pair i) p ++ tag (S i) r end.
Lemma proj_map_pair {A} t i (p : list A) : proj t (map (pair i) p) = if i =? t then p else [].
Proof.
  induction p as [|o p IH]; simpl; [destruct (i =? t); reflexivity|]. rewrite IH. destruct (i =? t); reflexivity.
Qed.
Lemma proj_tag_lt {A} t i (ps : list (list A)) : t < i -> proj t (tag i ps) = [].
Proof.
  revert i; induction ps as [|p ps IH]; intros i H; simpl; [reflexivity|].
  rewrite proj_app, proj_map_pair, IH by lia. rewrite (proj2 (Nat.eqb_neq i t)) by lia. reflexivity.
Qed.
Lemma proj_tag {A} t i (ps : list (list A)) : proj (i + t) (tag i ps) = nth t ps [].
Proof.
  revert i t; induction ps as [|p ps IH]; intros i t; simpl; [destruct t; reflexivity|].
  rewrite proj_app, proj_map_pair. destruct t as [|t].
  - rewrite Nat.add_0_r, Nat.eqb_refl, proj_tag_lt by lia. apply app_nil_r.
  - rewrite (proj2 (Nat.eqb_neq i (i + S t))) by lia. replace (i + S t) with (S i + t) by lia. apply IH.
Qed.
Lemma tag_snd {A} i (ps : list (list A)) : map snd (tag i ps) = concat ps.
Proof.
  revert i; induction ps as [|p ps IH]; intros i; simpl; [reflexivity|].
  rewrite map_app, IH, map_map. f_equal. cbn [snd]. apply map_id.
Qed.

(** * value of an order, commuting operations, list of returned values *)
Section Orders.
Context {T : Type}.
Implicit Types l : @order T.
Definition commute (a b : op T) : Prop := forall v, fst (fn a (fst (fn b v))) = fst (fn b (fst (fn a v))).
Lemma value_perm l l' v0 : Permutation l l' ->
  (forall a b, In a l -> In b l -> commute (snd a) (snd b)) -> value_after v0 l = value_after v0 l'.
Proof.
  intros P. revert v0. induction P as [|x l l' P IH|x y l|l1 l2 l3 P1 IH1 P2 IH2]; intros v0 C; simpl.
  - reflexivity.
  - apply IH. intros a b Ha Hb. apply C; right; assumption.
  - f_equal. apply C; simpl; auto.
  - rewrite IH1 by exact C. apply IH2. intros a b Ha Hb.
    apply C; apply (Permutation_in _ (Permutation_sym P1)); assumption.
Qed.
Fixpoint returned (v0 : T) l : list (nat * T) :=
  match l with [] => [] | (t, o) :: r => (t, snd (fn o v0)) :: returned (fst (fn o v0)) r end.
Lemma returned_app v0 a b : returned v0 (a ++ b) = returned v0 a ++ returned (value_after v0 a) b.
Proof. revert v0; induction a as [|[t o] a IH]; intros v0; simpl; [reflexivity|]. rewrite IH. reflexivity. Qed.
Lemma returned_len t v0 l : length (proj t (returned v0 l)) = length (proj t l).
Proof. revert v0; induction l as [|[u o] l IH]; intros v0; simpl; [reflexivity|]. destruct (u =? t); simpl; rewrite IH; reflexivity. Qed.
(** returns_ok says exactly that the returned values are a prefix of the order's *)
Lemma returns_ok_nth v0 h l : returns_ok v0 h l -> forall t k r, nth_error (ress t h) k = Some r ->
  nth_error (proj t (returned v0 l)) k = Some r.
Proof.
  intros R t k r H. destruct (R t k r H) as (l1 & o & l2 & -> & K & ->).
  rewrite returned_app, proj_app. rewrite nth_error_app2; rewrite returned_len; [|lia].
  rewrite K, Nat.sub_diag. simpl. rewrite Nat.eqb_refl. reflexivity.
Qed.
End Orders.

(** * which executions satisfy the invariant *)
Section Runs.
Context {T B : Type}.
Variable dec : B -> T.
Variable progs : list (list (op T)).
Variable b0 : B.

Definition has_op (o : op T) : Prop := exists t, In o (nth t progs []).
(** no lock or serial operation; or only lock operations; or only one thread *)
Definition well_mixed : Prop :=
  (forall o, has_op o -> sch o <> Lock /\ sch o <> Serial) \/
  (forall o, has_op o -> sch o = Lock) \/
  (exists s, forall t, t <> s -> nth t progs [] = []).

Definition crit (p : pc T B) : Prop := match p with PHeld | PRead _ | PWrote _ => True | _ => False end.
Definition mutex_inv (c : config T B) : Prop := forall t, crit (tpc (th c t)) <-> mux c = Some t.
Definition fresh_inv (c : config T B) : Prop :=
  forall t x, tpc (th c t) = PRead x \/ tpc (th c t) = PSRead x -> x = dec (cell c).

Lemma mutex_step c t e c' : mutex_inv c -> step dec t c e c' -> mutex_inv c'.
Proof using.
  clear b0 progs.
  intros M S. pose proof (M t) as Mt.
  assert (U : forall u v, mux c = Some u -> mux c = Some v -> u = v) by congruence.
  destruct S; rewrite H in Mt; cbn [tpc crit] in Mt; intros u; cbn [th mux];
    (destruct (Nat.eq_dec u t) as [->|N]; [rewrite setth_eq; cbn [tpc crit]; try exact Mt; try tauto
    |rewrite setth_ne by exact N; try exact (M u)]).
  - (* lock, other *) rewrite (M u). rewrite H1. split; [discriminate|]. intros K. injection K as K. congruence.
  - (* unlock, t *) split; [tauto|discriminate].
  - (* unlock, other *) rewrite (M u). split; [|discriminate]. intros K. destruct Mt as [Mt _]. specialize (Mt I). congruence.
Qed.

Lemma cur_in h l t x o r : tinv (B:=B) progs t x h l ->
  todo x = o :: r -> has_op o.
Proof using.
  clear b0 dec.
  intros H E. exists t. unfold tinv in H. destruct (tpc x).
  1: { destruct H as (H & _). rewrite <- H, E. apply in_or_app. right. left. reflexivity. }
  1,2,4,5,6,8: destruct H as (o' & rr & H1 & H2 & H3 & H4 & _); rewrite <- H3, E; apply in_or_app; right; left; reflexivity.
  all: destruct H as (o' & rr & pr & H1 & H2 & H3 & H4 & _); rewrite E in H1; injection H1 as <- <-;
    rewrite <- H3, H4; apply in_or_app; left; apply in_or_app; right; left; reflexivity.
Qed.
Lemma cur_fits h l t x : tinv (B:=B) progs t x h l -> tpc x <> PIdle ->
  exists o r, todo x = o :: r /\ has_op o /\ pc_fits (tpc x) (sch o).
Proof using.
  clear b0 dec.
  intros H N. assert (G : exists o r, todo x = o :: r /\ pc_fits (tpc x) (sch o)).
  { unfold tinv in H. destruct (tpc x); [congruence|..].
    1,2,4,5,6,8: destruct H as (o & rr & H1 & H2 & H3 & H4 & H5); exists o, rr; auto.
    all: destruct H as (o & rr & pr & H1 & H2 & H3 & H4 & H5 & H6 & _); exists o, rr; auto. }
  destruct G as (o & r & G1 & G2). exists o, r. split; [exact G1|]. split; [|exact G2].
  destruct (cur_in h l t x o r H G1) as [u Hu]. exists u. exact Hu.
Qed.
Lemma cur_prog h l t x : tinv (B:=B) progs t x h l -> todo x <> [] -> nth t progs [] <> [].
Proof using.
  clear b0 dec.
  intros H N. unfold tinv in H. destruct (tpc x).
  1: { destruct H as (H & _). intros E. rewrite E in H. apply app_eq_nil in H. tauto. }
  1,2,4,5,6,8: destruct H as (o' & rr & H1 & H2 & H3 & H4 & _); intros E; rewrite E in H3; apply app_eq_nil in H3; tauto.
  all: destruct H as (o' & rr & pr & H1 & H2 & H3 & H4 & _); intros E; rewrite E, H4 in H3;
    apply app_eq_nil in H3; destruct H3 as [H3 _]; apply app_eq_nil in H3; destruct H3; discriminate.
Qed.
Lemma step_todo t c e c' : step dec t c e c' -> todo (th c t) <> [].
Proof using.
  clear b0 progs. intros S. destruct S; rewrite H; discriminate. Qed.

Lemma fresh_step v0 c h l t e c' : well_mixed -> Inv dec v0 progs c h l -> mutex_inv c -> fresh_inv c ->
  step dec t c e c' -> fresh_inv c'.
Proof.
  intros W IV M F S.
  assert (K : forall u x, u <> t -> (tpc (th c u) = PRead x \/ tpc (th c u) = PSRead x) -> cell c' = cell c).
  { intros u x N Hx. pose proof (i_th _ _ _ _ _ _ IV u) as Tu. pose proof (i_th _ _ _ _ _ _ IV t) as Tt.
    destruct (cur_fits _ _ _ _ Tu) as (o & r & E1 & E2 & E3); [destruct Hx as [Hx|Hx]; rewrite Hx; discriminate|].
    destruct W as [W|[W|[s W]]].
    - exfalso. destruct (W o E2). destruct Hx as [Hx|Hx]; rewrite Hx in E3; cbn in E3; congruence.
    - pose proof (W o E2) as Lo. destruct Hx as [Hx|Hx]; rewrite Hx in E3; cbn in E3; [|congruence].
      assert (Mu : mux c = Some u) by (apply M; rewrite Hx; exact I).
      assert (Hn : ~ crit (tpc (th c t))) by (intros C; apply M in C; congruence).
      assert (Wt : forall q rr, todo (th c t) = q :: rr -> sch q = Lock)
        by (intros q rr Eq; apply W; eapply cur_in; [exact Tt|exact Eq]).
      assert (Ft : tpc (th c t) <> PIdle -> exists q rr, todo (th c t) = q :: rr /\ pc_fits (tpc (th c t)) (sch q)).
      { intros Ni. destruct (cur_fits _ _ _ _ Tt Ni) as (q & rr & G1 & _ & G2). eauto. }
      destruct S; cbn [cell]; try reflexivity; exfalso;
        rewrite H in Hn, Wt, Ft; cbn [tpc todo crit] in Hn, Wt, Ft;
        specialize (Wt _ _ eq_refl); try (apply Hn; exact I); try congruence;
        destruct Ft as (q & rr & G1 & G2); try discriminate; injection G1 as <- <-; cbn in G2; 
        try (destruct G2 as [G2|G2]); congruence.
    - exfalso. assert (u <> s -> False) by (intros Nu; eapply cur_prog; [exact Tu|rewrite E1; discriminate|apply W; exact Nu]).
      assert (t <> s -> False) by (intros Nt; eapply cur_prog; [exact Tt|eapply step_todo; exact S|apply W; exact Nt]).
      lia. }
  intros u x Hx. destruct (Nat.eq_dec u t) as [->|N].
  - destruct S; cbn [th cell] in *; rewrite setth_eq in Hx; cbn [tpc] in Hx; destruct Hx as [Hx|Hx]; try discriminate;
      injection Hx as <-; reflexivity.
  - assert (E : tpc (th c u) = PRead x \/ tpc (th c u) = PSRead x)
      by (destruct S; cbn [th] in Hx; rewrite setth_ne in Hx by exact N; exact Hx).
    rewrite (K u x N E). apply (F u). exact E.
Qed.

Theorem reach_inv n h c : well_mixed -> run dec (init b0 progs) n h c ->
  exists l, Inv dec (dec b0) progs c h l /\ mutex_inv c /\ fresh_inv c.
Proof.
  intros W R. induction R as [|n h c t e c' R IH S].
  - exists []. split; [apply inv_init; reflexivity|]. split.
    + intros t. cbn. split; [tauto|discriminate].
    + intros t x [H|H]; discriminate.
  - destruct IH as (l & IV & M & F).
    destruct (inv_step _ _ _ _ _ _ _ _ _ IV S) as [l' IV']; [intros x Hx; apply (F t x Hx)|].
    exists l'. split; [exact IV'|]. split; [exact (mutex_step _ _ _ _ M S)|exact (fresh_step _ _ _ _ _ _ _ W IV M F S)].
Qed.
(** mutual exclusion holds whatever the programs *)
Theorem reach_mutex n h c : run dec (init b0 progs) n h c -> mutex_inv c.
Proof.
  intros R. induction R as [|n h c t e c' R IH S].
  - intros t. cbn. split; [tauto|discriminate].
  - exact (mutex_step _ _ _ _ IH S).
Qed.

(** from the general return rule to the strict one *)
Definition strict_returns : Prop := forall o, has_op o -> sch o <> CppBin /\ sch o <> KokkosPost.
Lemma inv_strict c h l : strict_returns -> Inv dec (dec b0) progs c h l -> returns_ok (dec b0) h l.
Proof.
  intros St IV t k r Hk. destruct (i_ret _ _ _ _ _ _ IV t k r Hk) as (l1 & o & l2 & -> & K & R).
  exists l1, o, l2. split; [reflexivity|]. split; [exact K|].
  assert (Ho : has_op o).
  { exists t. pose proof (i_th _ _ _ _ _ _ IV t) as Ht.
    assert (In o (proj t (l1 ++ (t, o) :: l2))) as Hin
      by (apply proj_in; apply in_or_app; right; left; reflexivity).
    unfold tinv in Ht. destruct (tpc (th c t)).
    1: { destruct Ht as (H1 & H2 & _). rewrite <- H1, <- H2. apply in_or_app. auto. }
    1,2,4,5,6,8: destruct Ht as (o' & rr & H1 & H2 & H3 & _); rewrite <- H3; apply in_or_app; auto.
    all: destruct Ht as (o' & rr & pr & H1 & H2 & H3 & _); rewrite <- H3; apply in_or_app; auto. }
  destruct (St o Ho) as [S1 S2]. destruct (sch o); try congruence; exact R.
Qed.
(** with one thread, provided CppBin operations return the new value and KokkosPost the old one *)
Definition op_form (o : op T) : Prop :=
  match sch o with
  | CppBin => forall v, snd (fn o v) = fst (fn o v)
  | KokkosPost => forall v, snd (fn o v) = v
  | _ => True
  end.
Lemma inv_single s c h l : (forall t, t <> s -> nth t progs [] = []) -> (forall o, has_op o -> op_form o) ->
  Inv dec (dec b0) progs c h l -> returns_ok (dec b0) h l.
Proof.
  intros W Fm IV t k r Hk. destruct (i_ret _ _ _ _ _ _ IV t k r Hk) as (l1 & o & l2 & -> & K & R).
  assert (Pt : forall u, u <> s -> proj u (l1 ++ (t, o) :: l2) = []).
  { intros u Hu. pose proof (i_th _ _ _ _ _ _ IV u) as Ht.
    unfold tinv in Ht. rewrite W in Ht by exact Hu. destruct (tpc (th c u)).
    1: { destruct Ht as (H1 & H2 & _). apply app_eq_nil in H1. rewrite H2. tauto. }
    1,2,4,5,6,8: destruct Ht as (o' & rr & H1 & H2 & H3 & _); apply app_eq_nil in H3; tauto.
    all: destruct Ht as (o' & rr & pr & H1 & H2 & H3 & _); apply app_eq_nil in H3; tauto. }
  assert (All : forall u q, In (u, q) (l1 ++ (t, o) :: l2) -> u = s).
  { intros u q Hin. destruct (Nat.eq_dec u s) as [|N]; [assumption|]. exfalso.
    apply proj_in in Hin. rewrite (Pt u N) in Hin. exact Hin. }
  assert (t = s) as -> by (apply (All t o); apply in_or_app; right; left; reflexivity).
  assert (Nil : forall m, (forall u q, In (u, q) m -> In (u, q) (l1 ++ (s, o) :: l2)) -> proj s m = [] -> m = []).
  { intros [|[u q] m] Hm Pm; [reflexivity|]. exfalso.
    assert (u = s) as -> by (apply (All u q); apply Hm; left; reflexivity). simpl in Pm. rewrite Nat.eqb_refl in Pm. discriminate. }
  exists l1, o, l2. split; [reflexivity|]. split; [exact K|].
  assert (Ho : has_op o).
  { exists s. pose proof (i_th _ _ _ _ _ _ IV s) as Ht.
    assert (In o (proj s (l1 ++ (s, o) :: l2))) as Hin
      by (apply proj_in; apply in_or_app; right; left; reflexivity).
    unfold tinv in Ht. destruct (tpc (th c s)).
    1: { destruct Ht as (H1 & H2 & _). rewrite <- H1, <- H2. apply in_or_app. auto. }
    1,2,4,5,6,8: destruct Ht as (o' & rr & H1 & H2 & H3 & _); rewrite <- H3; apply in_or_app; auto.
    all: destruct Ht as (o' & rr & pr & H1 & H2 & H3 & _); rewrite <- H3; apply in_or_app; auto. }
  specialize (Fm o Ho). unfold op_form in Fm. destruct (sch o); try exact R.
  - destruct R as (m1 & m2 & -> & P & ->).
    rewrite (Nil m1) by (auto; intros u q Hq; apply in_or_app; right; right; apply in_or_app; auto).
    rewrite value_after_app. cbn. rewrite Fm. reflexivity.
  - destruct R as (m1 & m2 & -> & P & ->).
    rewrite (Nil m2) by (auto; intros u q Hq; apply in_or_app; left; apply in_or_app; auto).
    rewrite app_nil_r, Fm. reflexivity.
Qed.

(** the execution is over: every operation has returned *)
Definition finished (c : config T B) : Prop := forall t, todo (th c t) = [].
Lemma finished_order c h l : Inv dec (dec b0) progs c h l -> finished c ->
  Permutation l (tag 0 progs) /\ forall t, proj t l = nth t progs [] /\ length (ress t h) = length (nth t progs []).
Proof.
  intros IV Fi.
  assert (G : forall t, proj t l = nth t progs [] /\ length (ress t h) = length (nth t progs [])).
  { intros t. pose proof (i_th _ _ _ _ _ _ IV t) as Ht. specialize (Fi t). unfold tinv in Ht.
    destruct (tpc (th c t)).
    1: { destruct Ht as (H1 & H2 & H3). rewrite Fi, app_nil_r in H1. rewrite <- H1, <- H2. auto. }
    all: exfalso; destruct Ht as (o' & rr & Ht); rewrite Fi in Ht.
    1,2,4,5,6,8: destruct Ht as (H1 & _); discriminate.
    all: destruct Ht as (pr & H1 & _); discriminate. }
  split; [|exact G]. apply same_proj_perm. intros t. rewrite (proj_tag t 0). apply G.
Qed.
Lemma finished_returns c h l : Inv dec (dec b0) progs c h l -> returns_ok (dec b0) h l -> finished c ->
  forall t, ress t h = proj t (returned (dec b0) l).
Proof.
  intros IV R Fi t. destruct (finished_order c h l IV Fi) as [_ G]. destruct (G t) as [G1 G2].
  pose proof (returned_len t (dec b0) l) as L. rewrite G1 in L.
  assert (E : forall k, nth_error (ress t h) k = nth_error (proj t (returned (dec b0) l)) k).
  { intros k. destruct (nth_error (ress t h) k) as [r|] eqn:Hk.
    - symmetry. eapply returns_ok_nth; eauto.
    - symmetry. apply nth_error_None. apply nth_error_None in Hk. lia. }
  clear -E. revert E. generalize (proj t (returned (dec b0) l)). induction (ress t h) as [|x a IH]; intros [|y b] E.
  - reflexivity.
  - specialize (E 0). discriminate.
  - specialize (E 0). discriminate.
  - pose proof (E 0) as E0. injection E0 as ->. f_equal. apply IH. intros k. apply (E (S k)).
Qed.
End Runs.
