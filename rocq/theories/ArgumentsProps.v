(** Property theorems for initialization/arguments.h (C123, C124). *)
From Coq Require Import Bool String List Lia Ascii NArith Sorting.Sorted.
From Verif Require Import Outcome ArgumentsModel.
Import ListNotations.
Local Open Scope string_scope.

(** the order of std::string *)
Lemma cmp_lt_trans a : forall b c, String.compare a b = Lt -> String.compare b c = Lt -> String.compare a c = Lt.
Proof.
  induction a as [|x a IH]; intros [|y b] [|z c]; cbn; try discriminate; try reflexivity.
  unfold Ascii.compare.
  destruct (N.compare_spec (N_of_ascii x) (N_of_ascii y)) as [E1|L1|G1]; try discriminate;
  destruct (N.compare_spec (N_of_ascii y) (N_of_ascii z)) as [E2|L2|G2]; try discriminate; intros H1 H2.
  - rewrite E1, E2, N.compare_refl. exact (IH _ _ H1 H2).
  - rewrite E1. rewrite (proj2 (N.compare_lt_iff _ _) L2). reflexivity.
  - rewrite <- E2. rewrite (proj2 (N.compare_lt_iff _ _) L1). reflexivity.
  - rewrite (proj2 (N.compare_lt_iff _ _) (N.lt_trans _ _ _ L1 L2)). reflexivity.
Qed.
Definition slt (a b : string) : Prop := String.compare a b = Lt.
Lemma ltb_slt a b : String.ltb a b = true <-> slt a b.
Proof. unfold String.ltb, slt. destruct (String.compare a b); split; congruence. Qed.
Lemma slt_irrefl a : ~ slt a a.
Proof. unfold slt. intros H. induction a as [|x a IH]; [discriminate|]. cbn in H.
  unfold Ascii.compare in H. rewrite N.compare_refl in H. exact (IH H). Qed.
Lemma slt_total a b : a <> b -> String.ltb a b = false -> slt b a.
Proof.
  unfold String.ltb, slt. intros N H. rewrite String.compare_antisym. destruct (String.compare a b) eqn:E; try discriminate.
  - apply String.compare_eq_iff in E. contradiction.
  - reflexivity.
Qed.
Definition below (k : string) (t : table) := Forall (fun p => slt k (fst p)) t.
Inductive sorted : table -> Prop :=
| s_nil : sorted []
| s_cons k g t : below k t -> sorted t -> sorted ((k, g) :: t).
Lemma below_trans a b t : slt a b -> below b t -> below a t.
Proof. intros H F. eapply Forall_impl; [|exact F]. intros p Hp. exact (cmp_lt_trans _ _ _ H Hp). Qed.
Lemma store_below k g k0 t : slt k0 k -> below k0 t -> below k0 (store k g t).
Proof.
  intros H F. induction t as [|[k' g'] t IH]; cbn; [repeat constructor; exact H|].
  inversion F as [|? ? Hx Ft]; subst. destruct (String.eqb k k'); [constructor; [exact H|exact Ft]|].
  destruct (String.ltb k k'); constructor; try assumption. apply IH. exact Ft.
Qed.
Lemma store_sorted k g t : sorted t -> sorted (store k g t).
Proof.
  induction 1 as [|k' g' t B S IH]; cbn; [repeat constructor|].
  destruct (String.eqb_spec k k') as [->|N]; [constructor; assumption|].
  destruct (String.ltb k k') eqn:L.
  - apply ltb_slt in L. constructor; [constructor; [exact L|exact (below_trans _ _ _ L B)]|constructor; assumption].
  - constructor; [apply store_below; [exact (slt_total _ _ N L)|exact B]|exact IH].
Qed.
Lemma find_below k t : below k t -> find k t = None.
Proof.
  induction 1 as [|[k' g] t H F IH]; cbn; [reflexivity|]. cbn in H.
  destruct (String.eqb_spec k k') as [->|N]; [exfalso; exact (slt_irrefl _ H)|exact IH].
Qed.
Lemma find_store k g t k0 : sorted t -> find k0 (store k g t) = if String.eqb k0 k then Some g else find k0 t.
Proof.
  induction 1 as [|k' g' t B S IH]; cbn; [reflexivity|].
  destruct (String.eqb_spec k k') as [->|N]; cbn.
  - destruct (String.eqb k0 k'); reflexivity.
  - destruct (String.ltb k k') eqn:L; cbn; [destruct (String.eqb k0 k); reflexivity|]. rewrite IH.
    destruct (String.eqb_spec k0 k') as [E2|N2]; [|reflexivity]. destruct (String.eqb_spec k0 k) as [E3|N3]; congruence.
Qed.
Lemma sorted_ext t : forall t', sorted t -> sorted t' -> (forall k, find k t = find k t') -> t = t'.
Proof.
  induction t as [|[k g] t IH]; intros [|[k' g'] t'] S S' E.
  - reflexivity.
  - specialize (E k'). cbn in E. rewrite String.eqb_refl in E. discriminate.
  - specialize (E k). cbn in E. rewrite String.eqb_refl in E. discriminate.
  - inversion S as [|? ? ? B St]; subst. inversion S' as [|? ? ? B' St']; subst.
    assert (K : k = k').
    { destruct (String.eqb_spec k k') as [|N]; [assumption|exfalso].
      destruct (String.ltb k k') eqn:L.
      - apply ltb_slt in L. pose proof (E k) as Ek. cbn in Ek. rewrite String.eqb_refl in Ek.
        destruct (String.eqb_spec k k'); [contradiction|]. rewrite (find_below k t' (below_trans _ _ _ L B')) in Ek. discriminate.
      - pose proof (slt_total _ _ N L) as L'. pose proof (E k') as Ek. cbn in Ek. rewrite String.eqb_refl in Ek.
        destruct (String.eqb_spec k' k); [congruence|]. rewrite (find_below k' t (below_trans _ _ _ L' B)) in Ek. discriminate. }
    subst k'. pose proof (E k) as Ek. cbn in Ek. rewrite String.eqb_refl in Ek. injection Ek as ->. f_equal.
    apply IH; [assumption|assumption|]. intros k0. specialize (E k0). cbn in E.
    destruct (String.eqb_spec k0 k) as [E0|N]; [|exact E]. rewrite E0, !find_below by assumption. reflexivity.
Qed.
(** what the events of one key make of its group *)
Definition group_step (g : option group) (e : event) : option group :=
  match e, g with
  | EGroup _ ti, None => Some (mkgroup ti [])
  | EGroup _ _, Some g => Some g
  | EArg _ o, None => Some (mkgroup "" [o])
  | EArg _ o, Some g => Some (mkgroup (title g) (opts g ++ [o])%list)
  end.
Lemma step_sorted t e : sorted t -> sorted (step t e).
Proof. intros S. destruct e as [k ti|k o]; cbn; [destruct (find k t); [exact S|]|]; apply store_sorted; exact S. Qed.
Lemma find_step t e k : sorted t -> find k (step t e) = if String.eqb k (key_of e) then group_step (find k t) e else find k t.
Proof.
  intros S. destruct e as [k' ti|k' o]; cbn [step key_of register_group register_argument fst].
  - destruct (find k' t) as [g|] eqn:F.
    + destruct (String.eqb_spec k k') as [->|N]; [rewrite F|]; reflexivity.
    + rewrite find_store by exact S. destruct (String.eqb_spec k k') as [->|N]; [rewrite F|]; reflexivity.
  - rewrite find_store by exact S. destruct (String.eqb_spec k k') as [->|N]; [|reflexivity].
    destruct (find k' t); reflexivity.
Qed.
Definition for_key (k : string) (es : list event) := filter (fun e => String.eqb k (key_of e)) es.
Lemma run_gen es : forall t, sorted t -> sorted (fold_left step es t) /\
  forall k, find k (fold_left step es t) = fold_left group_step (for_key k es) (find k t).
Proof.
  induction es as [|e es IH]; intros t S; [split; [exact S|reflexivity]|]. cbn [fold_left].
  destruct (IH (step t e) (step_sorted t e S)) as [S' F]. split; [exact S'|]. intros k. rewrite F, find_step by exact S.
  cbn [for_key filter]. destruct (String.eqb k (key_of e)); reflexivity.
Qed.
(** C123. Groups appear in key order, each once *)
Theorem C123_key_order : forall es, StronglySorted slt (map fst (run es)).
Proof.
  intros es. destruct (run_gen es [] s_nil) as [S _]. unfold run. induction S as [|k g t B S IH]; cbn; constructor; [exact IH|].
  apply Forall_forall. intros k' H. apply in_map_iff in H as (p & <- & Hp). exact (proj1 (Forall_forall _ _) B p Hp).
Qed.
Print Assumptions C123_key_order.
(** the arguments of a group are exactly those registered under its key, in the order of registration *)
Definition args_of (k : string) (es : list event) : list opt :=
  flat_map (fun e => match e with EArg k' o => if String.eqb k k' then [o] else [] | EGroup _ _ => [] end) es.
Lemma group_opts es : forall g, match fold_left group_step es (Some g) with
  | Some g' => title g' = title g /\ opts g' = (opts g ++ flat_map (fun e => match e with EArg _ o => [o] | _ => [] end) es)%list
  | None => False end.
Proof.
  induction es as [|[k ti|k o] es IH]; intros g; cbn [fold_left group_step flat_map].
  - rewrite app_nil_r. split; reflexivity.
  - exact (IH g).
  - specialize (IH (mkgroup (title g) (opts g ++ [o])%list)). destruct (fold_left _ _ _); [|contradiction].
    cbn in IH. rewrite <- app_assoc in IH. exact IH.
Qed.
Lemma args_filter k es : args_of k es = flat_map (fun e => match e with EArg _ o => [o] | _ => [] end) (for_key k es).
Proof.
  unfold args_of, for_key. induction es as [|[k' ti|k' o] es IH]; [reflexivity| |]; cbn [flat_map filter key_of];
  destruct (String.eqb k k'); cbn [flat_map app]; rewrite IH; reflexivity.
Qed.
Theorem C123_group_arguments : forall es k,
  match find k (run es) with
  | Some g => opts g = args_of k es
  | None => forall e, In e es -> key_of e <> k
  end.
Proof.
  intros es k. destruct (run_gen es [] s_nil) as [_ F]. unfold run. rewrite F. cbn [find]. rewrite args_filter.
  destruct (for_key k es) as [|e r] eqn:K.
  - cbn. intros e He E. assert (X : In e (for_key k es)) by (apply filter_In; split; [exact He|rewrite E; apply String.eqb_refl]).
    rewrite K in X. exact X.
  - cbn [fold_left]. destruct e as [k' ti|k' o]; cbn [group_step flat_map app].
    + pose proof (group_opts r (mkgroup ti [])) as H. destruct (fold_left group_step r _); [exact (proj2 H)|contradiction].
    + pose proof (group_opts r (mkgroup "" [o])) as H. destruct (fold_left group_step r _); [exact (proj2 H)|contradiction].
Qed.
Print Assumptions C123_group_arguments.
(** nothing is lost or invented: every registered argument reaches the parser *)
Theorem C123_all_options : forall es o,
  In o (all_options (run es)) <-> exists k, In (EArg k o) es.
Proof.
  intros es o. unfold all_options. rewrite in_flat_map.
  assert (IO : forall k, In o (args_of k es) <-> In (EArg k o) es).
  { intros k. unfold args_of. rewrite in_flat_map. split.
    - intros ([k' ti|k' o'] & He & Ho); [contradiction|]. destruct (String.eqb_spec k k') as [->|]; [|contradiction].
      destruct Ho as [->|[]]. exact He.
    - intros H. exists (EArg k o). split; [exact H|]. rewrite String.eqb_refl. left. reflexivity. }
  assert (S : sorted (run es)) by exact (proj1 (run_gen es [] s_nil)).
  assert (FI : forall t k g, sorted t -> (In (k, g) t <-> find k t = Some g)).
  { induction 1 as [|k' g' t B St IH]; [split; [contradiction|discriminate]|]. cbn.
    destruct (String.eqb_spec k k') as [->|N].
    - split; [|intros [=->]; left; reflexivity]. intros [[=->]|H]; [reflexivity|].
      apply (proj1 (Forall_forall _ _) B) in H. exfalso. exact (slt_irrefl _ H).
    - rewrite <- IH. split; [intros [[= -> ->]|H]; [contradiction|exact H]|right; assumption]. }
  split.
  - intros ((k, g) & Hp & Ho). apply FI in Hp; [|exact S]. pose proof (C123_group_arguments es k) as G. rewrite Hp in G.
    cbn in Ho. rewrite G in Ho. exists k. apply IO. exact Ho.
  - intros (k & H). pose proof (C123_group_arguments es k) as G. destruct (find k (run es)) as [g|] eqn:F.
    + exists (k, g). split; [apply FI; assumption|]. cbn. rewrite G. apply IO. exact H.
    + exfalso. exact (G _ H eq_refl).
Qed.
Print Assumptions C123_all_options.
(** the order in which different groups are registered does not matter: only the order within a key *)
Theorem C123_independent : forall es es', (forall k, for_key k es = for_key k es') -> run es = run es'.
Proof.
  intros es es' H. destruct (run_gen es [] s_nil) as [S F]. destruct (run_gen es' [] s_nil) as [S' F'].
  apply sorted_ext; [exact S|exact S'|]. intros k. unfold run. rewrite F, F', H. reflexivity.
Qed.
Print Assumptions C123_independent.
(** the title of a group: given by the first registration that names the key *)
Theorem C123_title : forall es k g, find k (run es) = Some g ->
  exists e r, for_key k es = e :: r /\ title g = match e with EGroup _ ti => ti | EArg _ _ => "" end.
Proof.
  intros es k g H. destruct (run_gen es [] s_nil) as [_ F]. unfold run in H. rewrite F in H. cbn [find] in H.
  destruct (for_key k es) as [|e r] eqn:K; [discriminate|]. exists e, r. split; [reflexivity|]. cbn [fold_left] in H.
  destruct e as [k' ti|k' o]; cbn [group_step] in H.
  - pose proof (group_opts r (mkgroup ti [])) as G. rewrite H in G. exact (proj1 G).
  - pose proof (group_opts r (mkgroup "" [o])) as G. rewrite H in G. exact (proj1 G).
Qed.
Print Assumptions C123_title.
(** REFUTED: a group registered after one of its arguments keeps an empty title, and registration
    reports success nevertheless *)
Theorem C123_title_refuted : exists k ti o,
  let t := fst (register_argument k o []) in
  snd (register_group k ti t) = true /\ ti <> "" /\
  option_map title (find k (fst (register_group k ti t))) = Some "".
Proof. exists "eos", "Equation of state", (mkopt "gamma" (Some "double") "gas constant"). repeat split. discriminate. Qed.
Print Assumptions C123_title_refuted.
Example C123_case :
  let o f := mkopt f None "" in
  let t := run [EArg "mesh" (o "nx"); EGroup "eos" "EOS"; EArg "eos" (o "gamma"); EGroup "mesh" "Mesh"; EArg "mesh" (o "ny")] in
  all_options t = [o "gamma"; o "nx"; o "ny"] /\ captions t = ["EOS"; ""].
Proof. split; reflexivity. Qed.

(** C124. as: the given value if there is one of that type, the default iff the variable was not given *)
Theorem C124_as : forall m n T def,
  (forall v, lookup m n = Some v -> as_ m n T def = if String.eqb (vtype v) T then Ok (vtext v) else Throw) /\
  (lookup m n = None -> as_ m n T def = Ok def) /\ (count m n = 0%nat <-> lookup m n = None).
Proof.
  intros m n T def.
  assert (C : existsb (fun p => String.eqb n (fst p)) m = match lookup m n with Some _ => true | None => false end).
  { induction m as [|[n' v] m IH]; cbn; [reflexivity|]. destruct (String.eqb n n'); [reflexivity|exact IH]. }
  unfold as_, count. rewrite C. split; [intros v ->; reflexivity|]. split; [intros ->; reflexivity|].
  destruct (lookup m n); split; congruence.
Qed.
Print Assumptions C124_as.
(** process_arguments: parse errors become the error flag and are never thrown; quiet unless print;
    help is shown only on success *)
Theorem C124_process : forall parse t prog args print,
  exists m err out, process_arguments parse t (prog :: args) print = Ok (m, err, out, prog) /\
  (err = true <-> exists w m', parse (all_options t) (prog :: args) = PoError w m') /\
  (print = false -> out = []) /\
  (err = false -> parse (all_options t) (prog :: args) = Parsed m /\
     (out <> [] <-> print = true /\ lookup m "help" <> None)) /\
  (err = true -> print = true -> In (CErrOptions t) out).
Proof.
  intros parse t prog args print. unfold process_arguments. destruct (parse _ _) as [m|w m].
  - exists m, false. eexists. split; [reflexivity|]. split; [split; [discriminate|intros (w & m' & H); discriminate]|].
    split; [intros ->; rewrite andb_false_r; reflexivity|]. split; [|discriminate]. intros _. split; [reflexivity|].
    destruct (C124_as m "help" "" "") as (_ & _ & C). destruct (count m "help") as [|c] eqn:E; cbn.
    + split; [congruence|]. intros (_ & H). exfalso. exact (H (proj1 C eq_refl)).
    + destruct print; split; try congruence; [|intros ([=] & _)]. intros _. split; [reflexivity|]. intros H. apply C in H. discriminate.
  - exists m, true. eexists. split; [reflexivity|]. split; [split; [intros _; exists w, m; reflexivity|reflexivity]|].
    split; [intros ->; reflexivity|]. split; [discriminate|]. intros _ ->. right. right. left. reflexivity.
Qed.
Print Assumptions C124_process.
Example C124_case :
  process_arguments (fun o a => if Nat.eqb (List.length o) 1 then PoError "bad" [] else Parsed [("help", mkvalue "string" "")])
    (run [EArg "g" (mkopt "x" None "")]) ["app"] true
  = Ok ([], true, [CErr "ERROR: bad"; CErr "Usage: app [options]"; CErrOptions (run [EArg "g" (mkopt "x" None "")])], "app").
Proof. reflexivity. Qed.
