(** Progress in AtomicsModel: bound on the number of steps, absence of deadlock, failing CAS. *)
From Coq Require Import List Arith Bool ZArith Lia.
From Verif Require Import ListExtra AtomicsModel AtomicsProofs AtomicsRuns.
Import ListNotations.

(** sum of f over 0..n-1 *)
Fixpoint sum_to (f : nat -> nat) (n : nat) : nat := match n with 0 => 0 | S k => sum_to f k + f k end.
Lemma sum_to_ext f g n : (forall i, i < n -> f i = g i) -> sum_to f n = sum_to g n.
Proof. induction n as [|n IH]; intros H; simpl; [reflexivity|]. rewrite IH, H by auto. reflexivity. Qed.
(** all terms but number t grow by at most one *)
Lemma sum_to_bound f g n t : t < n -> (forall i, i < n -> i <> t -> f i <= g i + 1) ->
  sum_to f n + g t + 1 <= sum_to g n + f t + n.
Proof.
  induction n as [|n IH]; intros Ht H; [lia|]. simpl. destruct (Nat.eq_dec t n) as [->|N].
  - assert (K : sum_to f n <= sum_to g n + n).
    { clear IH Ht. assert (H' : forall i, i < n -> f i <= g i + 1) by (intros; apply H; lia). clear H.
      induction n as [|n IH]; simpl; [lia|]. specialize (H' n (Nat.lt_succ_diag_r n)) as Hn.
      assert (forall i, i < n -> f i <= g i + 1) as H'' by (intros; apply H'; lia). specialize (IH H''). lia. }
    lia.
  - specialize (IH ltac:(lia)). assert (forall i, i < n -> i <> t -> f i <= g i + 1) as H' by (intros; apply H; lia).
    specialize (IH H'). specialize (H n ltac:(lia) ltac:(lia)). lia.
Qed.
Lemma sum_to_same f g n t : t < n -> (forall i, i < n -> i <> t -> f i = g i) ->
  sum_to f n + g t = sum_to g n + f t.
Proof.
  induction n as [|n IH]; intros Ht H; [lia|]. simpl. destruct (Nat.eq_dec t n) as [->|N].
  - rewrite (sum_to_ext f g n) by (intros; apply H; lia). lia.
  - assert (forall i, i < n -> i <> t -> f i = g i) as H' by (intros; apply H; lia).
    specialize (IH ltac:(lia) H'). rewrite (H n) by lia. lia.
Qed.

Section Progress.
Context {T B : Type}.
Variable dec : B -> T.
Variable eqB : forall x y : B, {x = y} + {x <> y}.
Hypothesis dec_inj : forall x y, dec x = dec y -> x = y.
Variable progs : list (list (op T)).
Variable b0 : B.
Let N := length progs.

Definition no_weak : Prop := forall o, has_op progs o -> sch o <> Weak.

(** remaining work of a thread; the last figure in a CAS loop is whether [old] is outdated *)
Definition local_work (cur : B) (p : pc T B) : nat :=
  match p with
  | PIdle => N + 7
  | PStart => N + 6
  | PCas old => if eqB old cur then N + 5 else N + 6
  | PCppRet => 2
  | PKRead _ => N + 5
  | PHeld => N + 5
  | PRead _ => N + 4
  | PWrote _ => 2
  | PSRead _ => N + 5
  | PRet _ => 1
  end.
Definition work (cur : B) (x : thread T B) : nat :=
  match todo x with [] => 0 | _ :: r => (N + 7) * length r + local_work cur (tpc x) end.
Definition total_work (c : config T B) : nat := sum_to (fun t => work (cell c) (th c t)) N.

Lemma work_cell b b' x : work b x <= work b' x + 1.
Proof.
  unfold work. destruct (todo x) as [|o r]; [lia|]. destruct (tpc x); cbn [local_work]; try lia.
  destruct (eqB old b), (eqB old b'); lia.
Qed.
Lemma total_same c t x' m : t < N ->
  total_work (mk_config (cell c) m (setth (th c) t x')) + work (cell c) (th c t) =
  total_work c + work (cell c) x'.
Proof.
  intros Ht. unfold total_work. cbn [cell th].
  rewrite (sum_to_same (fun u => work (cell c) (setth (th c) t x' u)) (fun u => work (cell c) (th c u)) N t Ht).
  - rewrite setth_eq. reflexivity.
  - intros i Hi Ni. rewrite setth_ne by exact Ni. reflexivity.
Qed.
Lemma total_write c b t x' m : t < N ->
  total_work (mk_config b m (setth (th c) t x')) + work (cell c) (th c t) + 1 <=
  total_work c + work b x' + N.
Proof.
  intros Ht. unfold total_work. cbn [cell th].
  pose proof (sum_to_bound (fun u => work b (setth (th c) t x' u)) (fun u => work (cell c) (th c u)) N t Ht) as H.
  cbn beta in H. rewrite setth_eq in H. apply H.
  intros i Hi Ni. rewrite setth_ne by exact Ni. apply work_cell.
Qed.

Lemma work_step v0 c h l t e c' : Inv dec v0 progs c h l -> no_weak -> step dec t c e c' ->
  total_work c' < total_work c.
Proof.
  intros IV NW S. pose proof (i_th _ _ _ _ _ _ IV t) as Tt.
  assert (Ht : t < N).
  { destruct (Nat.lt_ge_cases t N) as [|G]; [assumption|]. exfalso.
    apply (cur_prog progs _ _ _ _ Tt); [eapply step_todo; exact S|]. apply nth_overflow. exact G. }
  destruct S; match goal with
  | |- total_work (mk_config (cell ?c) ?m (setth _ ?t ?x)) < _ =>
      pose proof (total_same c t x m Ht) as K
  | |- total_work (mk_config ?b ?m (setth _ ?t ?x)) < _ =>
      pose proof (total_write c b t x m Ht) as K
  end; rewrite H in K; unfold work in K; cbn [todo tpc local_work] in K.
  - lia.
  - apply dec_inj in H1. subst old. destruct (eqB (cell c) (cell c)); [lia|congruence].
  - subst old. destruct (eqB (cell c) (cell c)); [lia|congruence].
  - assert (cell c <> old) as Hne.
    { destruct H0 as [H0|H0]; [exact H0|]. exfalso. apply (NW o); [|exact H0].
      destruct (cur_fits progs _ _ _ _ Tt) as (q & rr & G1 & G2 & _); [rewrite H; discriminate|].
      rewrite H in G1. injection G1 as <- <-. exact G2. }
    destruct (eqB (cell c) (cell c)); [|congruence]. destruct (eqB old (cell c)); [congruence|]. lia.
  - lia.
  - lia.
  - lia.
  - lia.
  - lia.
  - lia.
  - lia.
  - lia.
  - lia.
  - lia.
  - lia.
  - destruct r as [|o' r]; cbn [length] in K; lia.
Qed.
Definition total_ops : nat := length (concat progs).
Lemma work_init : total_work (init b0 progs) = (N + 7) * total_ops.
Proof.
  unfold total_work, total_ops, N. cbn [init cell th].
  rewrite (sum_to_ext _ (fun t => (N + 7) * length (nth t progs []))).
  - fold N. generalize (N + 7) as K. intros K. subst N.
    assert (G : forall l : list (list (op T)), sum_to (fun t => K * length (nth t (rev l) [])) (length (rev l)) = K * length (concat (rev l))).
    { induction l as [|p l IH]; [simpl; lia|]. cbn [rev]. rewrite app_length. simpl.
      rewrite Nat.add_1_r. cbn [sum_to]. rewrite concat_app, app_length, Nat.mul_add_distr_l. f_equal.
      - rewrite <- IH. apply sum_to_ext. intros i Hi. rewrite app_nth1 by exact Hi. reflexivity.
      - rewrite app_nth2, Nat.sub_diag by lia. simpl. rewrite app_nil_r. reflexivity. }
    specialize (G (rev progs)). rewrite rev_involutive in G. exact G.
  - intros i _. unfold work. cbn [todo tpc]. fold N. destruct (nth i progs []) as [|o r]; simpl; lia.
Qed.
Theorem steps_bounded n h c : well_mixed progs -> no_weak -> run dec (init b0 progs) n h c ->
  n <= (length progs + 7) * total_ops.
Proof.
  intros W NW R. assert (G : n + total_work c <= (N + 7) * total_ops).
  { induction R as [|n h c t e c' R IH S]; [rewrite work_init; lia|].
    destruct (reach_inv dec progs b0 n h c W R) as (l & IV & _).
    pose proof (work_step _ _ _ _ _ _ _ IV NW S). lia. }
  unfold N in G. lia.
Qed.
End Progress.

(** * no deadlock: as long as some operation is outstanding, some thread can step *)
Section NoDeadlock.
Context {T B : Type}.
Variable dec : B -> T.
Hypothesis dec_surj : forall v, exists b, dec b = v.
Variable eqB : forall x y : B, {x = y} + {x <> y}.
Variable progs : list (list (op T)).
Variable b0 : B.

Lemma crit_steps c h l v0 t : Inv dec v0 progs c h l -> crit (tpc (th c t)) -> exists e c', step dec t c e c'.
Proof.
  intros IV C. pose proof (i_th _ _ _ _ _ _ IV t) as Tt.
  destruct (cur_fits progs _ _ _ _ Tt) as (o & r & G1 & G2 & G3); [destruct (tpc (th c t)); try destruct C; discriminate|].
  destruct (th c t) as [p td] eqn:E. cbn [tpc todo] in *. subst td. destruct p; try destruct C.
  - eexists _, _. eapply s_l_read. exact E.
  - destruct (dec_surj (fst (fn o x))) as [neu Hn]. eexists _, _. eapply s_l_write; [exact E|exact Hn].
  - eexists _, _. eapply s_unlock. exact E.
Qed.
Theorem no_deadlock n h c : well_mixed progs -> run dec (init b0 progs) n h c ->
  finished c \/ exists t e c', step dec t c e c'.
Proof.
  intros W R. destruct (reach_inv dec progs b0 n h c W R) as (l & IV & M & F).
  assert (D : (exists t, t < length progs /\ todo (th c t) <> []) \/ finished c).
  { assert (G : forall k, (exists t, t < k /\ todo (th c t) <> []) \/ forall t, t < k -> todo (th c t) = []).
    { induction k as [|k IH]; [right; intros; lia|]. destruct IH as [(t & H1 & H2)|IH]; [left; exists t; auto|].
      destruct (todo (th c k)) eqn:E.
      - right. intros t Ht. destruct (Nat.eq_dec t k) as [->|]; [exact E|apply IH; lia].
      - left. exists k. rewrite E. split; [lia|discriminate]. }
    destruct (G (length progs)) as [G1|G1]; [left; exact G1|right]. intros t.
    destruct (Nat.lt_ge_cases t (length progs)) as [Lt|Ge]; [auto|].
    destruct (todo (th c t)) eqn:E; [reflexivity|]. exfalso.
    apply (cur_prog progs _ _ _ _ (i_th _ _ _ _ _ _ IV t)); [rewrite E; discriminate|apply nth_overflow; exact Ge]. }
  destruct D as [(t & Ht & Hn)|Fi]; [right|left; exact Fi].
  pose proof (i_th _ _ _ _ _ _ IV t) as Tt.
  destruct (th c t) as [p td] eqn:E. cbn [todo] in Hn. destruct td as [|o r]; [congruence|].
  destruct p.
  - exists t. eexists _, _. eapply s_call. exact E.
  - destruct (sch o) eqn:So.
    + exists t. eexists _, _. eapply s_load; eauto.
    + exists t. eexists _, _. eapply s_load; eauto.
    + destruct (dec_surj (fst (fn o (dec (cell c))))) as [neu Hq]. exists t. eexists _, _. eapply s_cpp_rmw; eauto.
    + destruct (dec_surj (fst (fn o (dec (cell c))))) as [neu Hq]. exists t. eexists _, _. eapply s_cpp_un; eauto.
    + exists t. eexists _, _. eapply s_k_read; eauto.
    + destruct (mux c) as [u|] eqn:Mu.
      * apply M in Mu. destruct (crit_steps c h l _ u IV Mu) as (e & c' & S). exists u, e, c'. exact S.
      * exists t. eexists _, _. eapply s_lock; eauto.
    + exists t. eexists _, _. eapply s_s_read; eauto.
  - destruct (eqB (cell c) old) as [Q|Q].
    + destruct (dec_surj (fst (fn o (dec old)))) as [neu Hq]. exists t. eexists _, _. eapply s_cas_ok; eauto.
    + exists t. eexists _, _. eapply s_cas_fail; eauto.
  - exists t. eexists _, _. eapply s_cpp_ret; eauto.
  - destruct (dec_surj (fst (fn o (dec (cell c))))) as [neu Hq]. exists t. eexists _, _. eapply s_k_rmw; eauto.
  - exists t. eexists _, _. eapply s_l_read; eauto.
  - destruct (dec_surj (fst (fn o x))) as [neu Hq]. exists t. eexists _, _. eapply s_l_write; eauto.
  - exists t. eexists _, _. eapply s_unlock; eauto.
  - destruct (dec_surj (fst (fn o x))) as [neu Hq]. exists t. eexists _, _. eapply s_s_write; eauto.
  - exists t. eexists _, _. eapply s_return; eauto.
Qed.
End NoDeadlock.

(** * a failing strong CAS was overtaken *)
Section Overtaken.
Context {T B : Type}.
Variable dec : B -> T.
Variable eqB : forall x y : B, {x = y} + {x <> y}.
(** steps of threads other than t *)
Inductive others (t : nat) : config T B -> config T B -> Prop :=
| oth_nil c : others t c c
| oth_snoc c c1 c2 u e : others t c c1 -> u <> t -> step dec u c1 e c2 -> others t c c2.
Lemma overtaken t c c' : others t c c' -> cell c' <> cell c ->
  exists c1 u e c2, others t c c1 /\ u <> t /\ step dec u c1 e c2 /\ cell c2 <> cell c1 /\ others t c2 c'.
Proof.
  intros O. induction O as [|c c1 c2 u e O IH Hu S]; intros Hne; [congruence|].
  destruct (eqB (cell c2) (cell c1)) as [E|E].
  - rewrite E in Hne. destruct (IH Hne) as (d1 & w & e' & d2 & H1 & H2 & H3 & H4 & H5).
    exists d1, w, e', d2. split; [exact H1|]; split; [exact H2|]; split; [exact H3|]; split; [exact H4|]. exact (oth_snoc _ _ _ _ _ _ H5 Hu S).
  - exists c1, u, e, c2. split; [exact O|]; split; [exact Hu|]; split; [exact S|]; split; [exact E|]; constructor.
Qed.
Lemma others_pc t c c' : others t c c' -> th c' t = th c t.
Proof.
  intros O. induction O as [|c c1 c2 u e O IH Hu S]; [reflexivity|]. rewrite <- IH.
  destruct S; cbn [th]; apply setth_ne; auto.
Qed.
End Overtaken.
