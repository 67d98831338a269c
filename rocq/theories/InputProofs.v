(** Lemmas for InputModel. *)
From Coq Require Import List String Ascii Bool Arith NArith ZArith Lia Sorting OrderedTypeEx.
From Verif Require Import Outcome InputModel.
Import ListNotations.
Open Scope string_scope.

(** ** maps and sets *)
Lemma kput_same {A} (m : kmap A) k v : kput m k v k = Some v.
Proof. unfold kput. rewrite String.eqb_refl. reflexivity. Qed.
Lemma kput_other {A} (m : kmap A) k v q : q <> k -> kput m k v q = m q.
Proof. intros H. unfold kput. destruct (String.eqb_spec q k); [contradiction|reflexivity]. Qed.
Lemma kemplace_spec {A} (m : kmap A) k v q :
  kemplace m k v q = match m q with Some x => Some x | None => if String.eqb q k then Some v else None end.
Proof.
  unfold kemplace. destruct (m k) eqn:E; [|unfold kput; destruct (String.eqb_spec q k) as [->|]; [rewrite E; reflexivity|destruct (m q); reflexivity]].
  destruct (m q) eqn:F; [reflexivity|]. destruct (String.eqb_spec q k); [congruence|reflexivity].
Qed.
Definition slt (a b : key) : Prop := String.compare a b = Lt.
Lemma slt_trans a b c : slt a b -> slt b c -> slt a c.
Proof.
  unfold slt. intros H1 H2. apply String_as_OT.cmp_lt. eapply String_as_OT.lt_trans; apply String_as_OT.cmp_lt; eassumption.
Qed.
Lemma slt_irrefl a : ~ slt a a.
Proof. unfold slt. pose proof (proj2 (String_as_OT.cmp_eq a a) eq_refl) as H. change String_as_OT.cmp with String.compare in H. congruence. Qed.
Lemma sinsert_in k l q : In q (sinsert k l) <-> q = k \/ In q l.
Proof.
  induction l as [|a l IH]; simpl; [intuition|]. destruct (String.compare k a) eqn:E; simpl.
  - apply String.compare_eq_iff in E. subst. intuition.
  - intuition.
  - rewrite IH. intuition.
Qed.
Lemma sinsert_sorted k l : StronglySorted slt l -> StronglySorted slt (sinsert k l).
Proof.
  induction l as [|a l IH]; intros H; simpl; [repeat constructor|].
  inversion H as [|? ? H1 H2]; subst. destruct (String.compare k a) eqn:E.
  - exact H.
  - constructor; [exact H|]. constructor; [exact E|]. eapply Forall_impl; [|exact H2]. intros q Hq. eapply slt_trans; eassumption.
  - constructor; [apply IH; exact H1|]. apply Forall_forall. intros q Hq. apply sinsert_in in Hq as [->|Hq].
    + unfold slt. rewrite String.compare_antisym, E. reflexivity.
    + rewrite Forall_forall in H2. apply H2; exact Hq.
Qed.
Lemma sorted_nodup l : StronglySorted slt l -> NoDup l.
Proof.
  induction 1 as [|a l Hs IH Hf]; constructor; [|exact IH]. intros Hin. rewrite Forall_forall in Hf.
  exact (slt_irrefl a (Hf a Hin)).
Qed.

(** ** what one resolution does, key by key *)
Section Spec.
Context {P V : Type} (T : ty P V) (e : env P).
Definition found (r : registry V) (k : key) : bool :=
  match lua_lookup T e k with
  | Ok (Some _) => true
  | Ok None => e_hard e && match r_hard r k with Some _ => true | None => false end
  | _ => false
  end.
Definition new_value (r : registry V) (k : key) : option V :=
  match lua_lookup T e k with
  | Ok (Some v) => Some v
  | Ok None =>
      if e_hard e then
        match r_hard r k with
        | Some v => if t_fun T then match r_reg r k with Some o => Some o | None => Some v end else Some v
        | None => r_reg r k
        end
      else r_reg r k
  | _ => r_reg r k
  end.
Definition new_hard (r : registry V) (k : key) : option V :=
  match lua_lookup T e k with
  | Ok None => if e_hard e then option_map (t_moved T) (r_hard r k) else r_hard r k
  | _ => r_hard r k
  end.
Definition lua_quiet (k : key) : Prop := exists o, lua_lookup T e k = Ok o.

Lemma resolve_input_spec r k : lua_quiet k ->
  let '(r', o) := resolve_input T e r k in
  o = Ok (found r k) /\ r_targets r' = r_targets r /\ r_called r' = r_called r /\ r_all r' = r_all r
  /\ r_failed r' = r_failed r
  /\ (forall q, r_reg r' q = if String.eqb q k then new_value r k else r_reg r q)
  /\ (forall q, r_hard r' q = if String.eqb q k then new_hard r k else r_hard r q).
Proof.
  intros [o Ho]. unfold resolve_input, found, new_value, new_hard. rewrite Ho. destruct o as [v|].
  - repeat split; intros q; destruct (String.eqb_spec q k) as [->|N]; try reflexivity;
      try (apply kput_same); try (apply kput_other; exact N).
  - destruct (e_hard e).
    + unfold hard_get. destruct (r_hard r k) as [v|] eqn:E; simpl.
      * split; [reflexivity|]. split; [reflexivity|]. split; [reflexivity|]. split; [reflexivity|]. split; [reflexivity|]. split; intros q.
        -- destruct (t_fun T); [|unfold kput; destruct (String.eqb_spec q k) as [->|N]; reflexivity].
           rewrite kemplace_spec. destruct (String.eqb_spec q k) as [->|N]; destruct (r_reg r _); reflexivity.
        -- unfold kput. destruct (String.eqb_spec q k) as [->|N]; reflexivity.
      * repeat split; intros q; destruct (String.eqb_spec q k) as [->|N]; try reflexivity. exact E.
    + simpl. repeat split; intros q; destruct (String.eqb_spec q k) as [->|N]; reflexivity.
Qed.
Definition mem (k : key) (l : list key) : bool := existsb (String.eqb k) l.
Lemma mem_in k l : mem k l = true <-> In k l.
Proof.
  unfold mem. rewrite existsb_exists. split; [intros (x & H & E); apply String.eqb_eq in E; subst; exact H|].
  intros H. exists k. split; [exact H|apply String.eqb_refl].
Qed.
Lemma mem_cons k a l : mem k (a :: l) = String.eqb k a || mem k l.
Proof. reflexivity. Qed.
Lemma spec_ext r r' k : r_reg r' k = r_reg r k -> r_hard r' k = r_hard r k ->
  found r' k = found r k /\ new_value r' k = new_value r k /\ new_hard r' k = new_hard r k.
Proof. intros E F. unfold found, new_value, new_hard. rewrite E, F. auto. Qed.
Lemma resolve_loop_spec ks : NoDup ks -> (forall k, In k ks -> lua_quiet k) -> forall r missed,
  let '(r', o) := resolve_loop T e ks r missed in
  o = Ok (missed || negb (forallb (found r) ks)) /\ r_targets r' = r_targets r /\ r_called r' = r_called r /\ r_all r' = r_all r
  /\ (forall q, r_failed r' q = r_failed r q || (mem q ks && negb (found r q)))
  /\ (forall q, r_reg r' q = if mem q ks then new_value r q else r_reg r q)
  /\ (forall q, r_hard r' q = if mem q ks then new_hard r q else r_hard r q).
Proof.
  induction ks as [|k ks IH]; intros ND Q r missed; simpl.
  - rewrite orb_false_r. repeat split; intros q; try reflexivity. simpl. rewrite orb_false_r. reflexivity.
  - inversion ND as [|? ? Hk ND']; subst.
    pose proof (resolve_input_spec r k (Q k (or_introl eq_refl))) as S.
    destruct (resolve_input T e r k) as [r1 o1]. destruct S as (-> & St & Sc & Sa & Sf & Sr & Sh).
    assert (Qk : forall q, In q ks -> lua_quiet q) by (intros q Hq; apply Q; right; exact Hq).
    assert (X : forall r2, r_reg r2 = r_reg r1 -> r_hard r2 = r_hard r1 -> forall q, q <> k ->
      found r2 q = found r q /\ new_value r2 q = new_value r q /\ new_hard r2 q = new_hard r q).
    { intros r2 E F q Hq. apply spec_ext; [rewrite E, Sr|rewrite F, Sh]; destruct (String.eqb_spec q k); congruence. }
    assert (Y : forall r2, r_reg r2 = r_reg r1 -> r_hard r2 = r_hard r1 -> forallb (found r2) ks = forallb (found r) ks).
    { intros r2 E F. assert (G : forall q, In q ks -> found r2 q = found r q).
      { intros q Hq. apply (X r2 E F). congruence. }
      clear - G. induction ks as [|a l IH]; [reflexivity|]. simpl. rewrite G by (left; reflexivity). rewrite IH; [reflexivity|].
      intros q Hq. apply G. right; exact Hq. }
    assert (M : mem k ks = false).
    { destruct (mem k ks) eqn:E; [|reflexivity]. apply mem_in in E. contradiction. }
    destruct (found r k) eqn:Fk.
    + specialize (IH ND' Qk r1 missed). destruct (resolve_loop T e ks r1 missed) as [r' o].
      destruct IH as (-> & Jt & Jc & Ja & Jf & Jr & Jh). rewrite (Y r1 eq_refl eq_refl). simpl.
      split; [reflexivity|]. split; [congruence|]. split; [congruence|]. split; [congruence|].
      split; [|split]; intros q; rewrite ?mem_cons.
      * rewrite Jf, Sf. destruct (String.eqb_spec q k) as [->|N]; simpl.
        -- rewrite M, Fk. simpl. rewrite !orb_false_r. reflexivity.
        -- rewrite (proj1 (X r1 eq_refl eq_refl q N)). reflexivity.
      * rewrite Jr. destruct (String.eqb_spec q k) as [->|N]; simpl.
        -- rewrite M, Sr, String.eqb_refl. reflexivity.
        -- destruct (X r1 eq_refl eq_refl q N) as (_ & -> & _). rewrite Sr. destruct (String.eqb_spec q k); [contradiction|]. reflexivity.
      * rewrite Jh. destruct (String.eqb_spec q k) as [->|N]; simpl.
        -- rewrite M, Sh, String.eqb_refl. reflexivity.
        -- destruct (X r1 eq_refl eq_refl q N) as (_ & _ & ->). rewrite Sh. destruct (String.eqb_spec q k); [contradiction|]. reflexivity.
    + specialize (IH ND' Qk (fail_insert r1 k) true). destruct (resolve_loop T e ks (fail_insert r1 k) true) as [r' o].
      destruct IH as (-> & Jt & Jc & Ja & Jf & Jr & Jh). simpl.
      split; [destruct missed; reflexivity|]. split; [exact (eq_trans Jt St)|]. split; [exact (eq_trans Jc Sc)|]. split; [exact (eq_trans Ja Sa)|].
      split; [|split]; intros q; rewrite ?mem_cons.
      * rewrite Jf. simpl. rewrite Sf. destruct (String.eqb_spec q k) as [->|N]; simpl.
        -- rewrite Fk. simpl. rewrite orb_true_r. reflexivity.
        -- rewrite (proj1 (X (fail_insert r1 k) eq_refl eq_refl q N)). reflexivity.
      * rewrite Jr. destruct (String.eqb_spec q k) as [->|N]; simpl.
        -- rewrite M. simpl. rewrite Sr, String.eqb_refl. reflexivity.
        -- destruct (X (fail_insert r1 k) eq_refl eq_refl q N) as (_ & -> & _). simpl. rewrite Sr.
           destruct (String.eqb_spec q k); [contradiction|]. reflexivity.
      * rewrite Jh. destruct (String.eqb_spec q k) as [->|N]; simpl.
        -- rewrite M. simpl. rewrite Sh, String.eqb_refl. reflexivity.
        -- destruct (X (fail_insert r1 k) eq_refl eq_refl q N) as (_ & _ & ->). simpl. rewrite Sh.
           destruct (String.eqb_spec q k); [contradiction|]. reflexivity.
Qed.
Theorem resolve_spec r : NoDup (r_targets r) -> (forall k, In k (r_targets r) -> lua_quiet k) ->
  let '(r', o) := resolve_inputs1 T e r in
  o = Ok (forallb (found r) (r_targets r)) /\ r_targets r' = r_targets r /\ r_called r' = true
  /\ r_all r' = (r_all r || forallb (found r) (r_targets r))
  /\ (forall q, r_failed r' q = r_failed r q || (mem q (r_targets r) && negb (found r q)))
  /\ (forall q, r_reg r' q = if mem q (r_targets r) then new_value r q else r_reg r q)
  /\ (forall q, r_hard r' q = if mem q (r_targets r) then new_hard r q else r_hard r q).
Proof.
  intros ND Q. unfold resolve_inputs1. pose proof (resolve_loop_spec (r_targets r) ND Q r false) as S.
  destruct (resolve_loop T e (r_targets r) r false) as [r' o]. destruct S as (-> & St & Sc & Sa & Sf & Sr & Sh).
  simpl. rewrite negb_involutive. split; [reflexivity|]. split; [exact St|]. split; [reflexivity|].
  split; [|split; [|split]]; try assumption. rewrite Sa. destruct (forallb (found r) (r_targets r)); simpl; [rewrite orb_true_r|rewrite orb_false_r]; reflexivity.
Qed.
End Spec.

(** ** histories of engine operations on one type *)
Inductive op (P V : Type) :=
| ORegister (k : key)                 (* register_target *)
| OSetHard (k : key) (v : V)          (* hard_coded_source_t::set_registry *)
| OClear                              (* clear_registry *)
| OResolve (e : env P)                (* resolve_inputs, with the sources of that moment *)
| OInstant (ins : bool) (e : env P) (k : key).
Arguments ORegister {P V}.
Arguments OSetHard {P V}.
Arguments OClear {P V}.
Arguments OResolve {P V}.
Arguments OInstant {P V}.
Definition step {P V} (T : ty P V) (o : op P V) (r : registry V) : registry V :=
  match o with
  | ORegister k => register_target r k
  | OSetHard k v => set_hard r k v
  | OClear => reg_clear r
  | OResolve e => fst (resolve_inputs1 T e r)
  | OInstant ins e k => fst (get_instant_value ins T e r k)
  end.
Definition run {P V} (T : ty P V) (l : list (op P V)) (r : registry V) : registry V := fold_left (fun r o => step T o r) l r.
Definition reachable {P V} (T : ty P V) (r : registry V) : Prop := exists l, r = run T l reg_init.
Lemma resolve_input_targets {P V} (T : ty P V) e r k : r_targets (fst (resolve_input T e r k)) = r_targets r.
Proof.
  unfold resolve_input. destruct (lua_lookup T e k) as [[v|]| | |]; try reflexivity.
  destruct (e_hard e); [|reflexivity]. unfold hard_get. destruct (r_hard r k); reflexivity.
Qed.
Lemma resolve_loop_targets {P V} (T : ty P V) e ks : forall r m, r_targets (fst (resolve_loop T e ks r m)) = r_targets r.
Proof.
  induction ks as [|k ks IH]; intros r m; simpl; [reflexivity|].
  pose proof (resolve_input_targets T e r k) as H. destruct (resolve_input T e r k) as [r' [[|]| | |]]; simpl in *;
    rewrite ?IH; simpl; congruence.
Qed.
Lemma reachable_sorted {P V} (T : ty P V) r : reachable T r -> StronglySorted slt (r_targets r).
Proof.
  intros [l ->]. unfold run. rewrite <- fold_left_rev_right. induction (rev l) as [|o l' IH]; simpl; [constructor|].
  set (r := fold_right _ _ l') in *. destruct o; simpl; try exact IH.
  - apply sinsert_sorted; exact IH.
  - constructor.
  - unfold resolve_inputs1. pose proof (resolve_loop_targets T e (r_targets r) r false) as H.
    destruct (resolve_loop T e (r_targets r) r false) as [r' [m| | |]]; simpl in *; rewrite H; exact IH.
  - unfold get_instant_value. pose proof (resolve_input_targets T e r k) as H.
    destruct (resolve_input T e r k) as [r' [b| | |]]; simpl in *; rewrite H; exact IH.
Qed.
Lemma reachable_nodup {P V} (T : ty P V) r : reachable T r -> NoDup (r_targets r).
Proof. intros H. apply sorted_nodup. eapply reachable_sorted; exact H. Qed.
Lemma reachable_step {P V} (T : ty P V) o r : reachable T r -> reachable T (step T o r).
Proof. intros [l ->]. exists (l ++ [o])%list. unfold run. rewrite fold_left_app. reflexivity. Qed.
