(** Properties C61-C68: input engine, sources, init_value, parameters. *)
From Coq Require Import List String Ascii Bool Arith NArith ZArith Lia Sorting.
From Verif Require Import Outcome InputModel InputProofs.
Import ListNotations.
Open Scope string_scope.

(** ** C61 *)
Section C61.
Context {P V : Type} (T : ty P V) (e : env P).
(** r is any registry a history of calls can produce; no Lua lookup of a target throws (see C62) *)
Variables (r : registry V) (Hr : reachable T r) (Hq : forall k, In k (r_targets r) -> exists o, lua_lookup T e k = Ok o).
Let r' := fst (resolve_inputs1 T e r).
Let o := snd (resolve_inputs1 T e r).
Lemma spec : o = Ok (forallb (found T e r) (r_targets r)) /\ r_targets r' = r_targets r /\ r_called r' = true
  /\ (forall q, r_failed r' q = r_failed r q || (mem q (r_targets r) && negb (found T e r q)))
  /\ (forall q, r_reg r' q = if mem q (r_targets r) then new_value T e r q else r_reg r q)
  /\ (forall q, r_hard r' q = if mem q (r_targets r) then new_hard T e r q else r_hard r q).
Proof.
  unfold o, r'. pose proof (resolve_spec T e r (reachable_nodup T r Hr) Hq) as S.
  destruct (resolve_inputs1 T e r) as [a b]. destruct S as (S1 & S2 & S3 & _ & S4 & S5 & S6). simpl. auto 10.
Qed.
Theorem C61_lua_first : forall k v, In k (r_targets r) -> lua_lookup T e k = Ok (Some v) ->
  get_value r' k = Ok v /\ resolved r' k = true.
Proof.
  intros k v Hk E. destruct spec as (_ & _ & C & _ & S & _). unfold get_value, resolved. rewrite S, (proj2 (mem_in k _) Hk), C.
  unfold new_value. rewrite E. split; reflexivity.
Qed.
(** for std::function targets only when the registry holds no older function, see C64 *)
Theorem C61_hard_coded_second : forall k v, In k (r_targets r) -> lua_lookup T e k = Ok None -> e_hard e = true ->
  r_hard r k = Some v -> (t_fun T = true -> r_reg r k = None) -> get_value r' k = Ok v /\ resolved r' k = true.
Proof.
  intros k v Hk E H F G. destruct spec as (_ & _ & C & _ & S & _). unfold get_value, resolved.
  rewrite S, (proj2 (mem_in k _) Hk), C. unfold new_value. rewrite E, H, F.
  destruct (t_fun T); [rewrite G by reflexivity|]; split; reflexivity.
Qed.
(** the result is true exactly when every target is in Lua or in the hard-coded source *)
Theorem C61_success_iff : exists b, o = Ok b /\ (b = true <->
  forall k, In k (r_targets r) -> (exists v, lua_lookup T e k = Ok (Some v)) \/ (e_hard e = true /\ exists v, r_hard r k = Some v)).
Proof.
  destruct spec as (S & _). exists (forallb (found T e r) (r_targets r)). split; [exact S|].
  rewrite forallb_forall. split; intros H k Hk; specialize (H k Hk).
  - unfold found in H. destruct (lua_lookup T e k) as [[v|]| | |]; try discriminate; [left; eauto|right].
    apply andb_prop in H as [H1 H2]. split; [exact H1|]. destruct (r_hard r k); [eauto|discriminate].
  - unfold found. destruct (Hq k Hk) as [x Hx]. rewrite Hx. destruct x as [v|]; [reflexivity|].
    destruct H as [[v H]|[H1 [v H2]]]; [congruence|]. rewrite H1, H2. reflexivity.
Qed.
(** nothing else changes; a target in neither source keeps what it had and is recorded as a failure *)
Theorem C61_frame : (forall k, ~ In k (r_targets r) -> get_value r' k = get_value r k)
  /\ (forall k, In k (r_targets r) -> lua_lookup T e k = Ok None -> e_hard e = false \/ r_hard r k = None ->
      get_value r' k = get_value r k /\ r_failed r' k = true).
Proof.
  destruct spec as (_ & _ & _ & F & S & _). split.
  - intros k Hk. unfold get_value. rewrite S. destruct (mem k (r_targets r)) eqn:M; [apply mem_in in M; contradiction|reflexivity].
  - intros k Hk E H. unfold get_value. rewrite S, F, (proj2 (mem_in k _) Hk). unfold new_value, found. rewrite E.
    destruct H as [->|H]; [simpl; rewrite orb_true_r; split; reflexivity|]. rewrite H.
    destruct (e_hard e); simpl; rewrite orb_true_r; split; reflexivity.
Qed.
End C61.
Print Assumptions C61_lua_first.
Print Assumptions C61_hard_coded_second.
Print Assumptions C61_success_iff.
Print Assumptions C61_frame.
(** what "present in the Lua source" means: the key's table is loaded and its Lua key is not nil there *)
Theorem C61_lua_present : forall (P V : Type) (T : ty P V) s k x,
  lua_lookup T (mk_env true (Some s) true) k = Ok (Some x) <->
  exists tab f, l_table_map s k = Some tab /\ l_tables s tab = Some (LTable f)
    /\ f (match l_key s k with Some q => q | None => k end) <> LNil
    /\ t_as T (f (match l_key s k with Some q => q | None => k end)) = Ok x.
Proof.
  intros P V T s k x. unfold lua_lookup, lua_get. simpl. split.
  - destruct (l_table_map s k) as [tab|]; [|discriminate]. destruct (l_tables s tab) as [[|f|p]|] eqn:E; try discriminate.
    simpl. set (q := match l_key s k with Some q => q | None => k end). intros H. exists tab, f. split; [reflexivity|]. split; [exact E|].
    destruct (lv_empty (f q)) eqn:N; [discriminate|]. destruct (t_as T (f q)) as [y| | |]; try discriminate. simpl in H.
    split; [intros Z; rewrite Z in N; discriminate|congruence].
  - intros (tab & f & -> & -> & N & H). simpl. destruct (f _) eqn:Z; [contradiction| |]; simpl; rewrite H; reflexivity.
Qed.
Print Assumptions C61_lua_present.
(** all types: the values of each type are those of its own resolution, the result is the conjunction *)
Theorem C61_all_types : forall (P V : Type) (e : env P) (l : list (ty P V * registry V)),
  (forall T r, In (T, r) l -> exists b, snd (resolve_inputs1 T e r) = Ok b) ->
  resolve_inputs e l = (map (fun x => fst (resolve_inputs1 (fst x) e (snd x))) l,
    Ok (forallb (fun x => match snd (resolve_inputs1 (fst x) e (snd x)) with Ok b => b | _ => false end) l)).
Proof.
  intros P V e l. unfold resolve_inputs.
  assert (A : (forall T r, In (T, r) l -> exists b, snd (resolve_inputs1 T e r) = Ok b) ->
    resolve_by_tuple e l = (map (fun x => fst (resolve_inputs1 (fst x) e (snd x))) l,
      Ok (map (fun x => match snd (resolve_inputs1 (fst x) e (snd x)) with Ok b => b | _ => false end) l))).
  { induction l as [|[T r] l IH]; intros H; [reflexivity|]. simpl. destruct (H T r (or_introl eq_refl)) as [b Hb].
    destruct (resolve_inputs1 T e r) as [r1 o1]. simpl in *. subst. rewrite IH by (intros; apply H; right; assumption). reflexivity. }
  intros H. rewrite A by exact H. simpl. f_equal. f_equal.
  assert (B : forall bs b, fold_left andb bs b = b && forallb (fun x => x) bs).
  { induction bs as [|x bs IH]; intros b; simpl; [rewrite andb_true_r; reflexivity|]. rewrite IH, andb_assoc. reflexivity. }
  rewrite B. simpl. clear. induction l as [|x l IH]; [reflexivity|]. simpl. rewrite IH. reflexivity.
Qed.
Print Assumptions C61_all_types.

(** concrete types for the examples: Lua payloads and values are strings (moved-from strings are empty) or functions *)
Definition str_ty : ty string string := mk_ty (fun v => match v with LVal p => Ok p | _ => Throw end) false (fun _ => "").
Definition fun_ty : ty string string := mk_ty (fun v => match v with LVal p => Ok p | _ => Throw end) true (fun _ => "").
Definition int_ty : ty string Z := mk_ty (fun v => match v with LVal _ => Ok 7%Z | _ => Throw end) false (fun z => z).
Definition lua1 : lua_source string :=
  mk_lua (fun _ => LNil) (kput (kput kempty "prefix" "hydro") "suffix" "hydro")
    (kput kempty "hydro" (LTable (fun k => if String.eqb k "prefix" then LVal "from_lua" else LNil))) kempty.
Definition env1 : env string := mk_env true (Some lua1) true.
Definition hist1 : list (op string string) :=
  [ORegister "suffix"; ORegister "prefix"; OSetHard "prefix" "hard"; OSetHard "suffix" "dat"].
Example C61_example : let r := run str_ty hist1 reg_init in
  reachable str_ty r /\ (forall k, In k (r_targets r) -> exists o, lua_lookup str_ty env1 k = Ok o)
  /\ get_value (fst (resolve_inputs1 str_ty env1 r)) "prefix" = Ok "from_lua"
  /\ get_value (fst (resolve_inputs1 str_ty env1 r)) "suffix" = Ok "dat"
  /\ snd (resolve_inputs1 str_ty env1 r) = Ok true.
Proof.
  split; [exists hist1; reflexivity|]. split; [|repeat split; reflexivity].
  intros k [<-|[<-|[]]]; [exists (Some "from_lua")|exists None]; reflexivity.
Qed.

(** ** C62 *)
(** exactly when the engine goes on to the hard-coded source: the key's table is loaded and the value there is nil *)
Theorem C62_fallback_iff : forall (P V : Type) (T : ty P V) s k,
  lua_lookup T (mk_env true (Some s) true) k = Ok None <->
  exists tab f, l_table_map s k = Some tab /\ l_tables s tab = Some (LTable f)
    /\ f (match l_key s k with Some q => q | None => k end) = LNil.
Proof.
  intros P V T s k. unfold lua_lookup, lua_get. simpl. split.
  - destruct (l_table_map s k) as [tab|]; [|discriminate]. destruct (l_tables s tab) as [[|f|p]|] eqn:E; try discriminate.
    simpl. set (q := match l_key s k with Some q => q | None => k end). intros H. exists tab, f. split; [reflexivity|]. split; [exact E|].
    destruct (f q); [reflexivity| |]; simpl in H; destruct (t_as T _); discriminate.
  - intros (tab & f & -> & -> & N). simpl. rewrite N. reflexivity.
Qed.
Print Assumptions C62_fallback_iff.
Theorem C62_fallback_partial : forall (P V : Type) (T : ty P V) s r k v tab f, reachable T r ->
  (forall q, In q (r_targets r) -> exists o, lua_lookup T (mk_env true (Some s) true) q = Ok o) -> In k (r_targets r) ->
  l_table_map s k = Some tab -> l_tables s tab = Some (LTable f) ->
  f (match l_key s k with Some q => q | None => k end) = LNil ->
  r_hard r k = Some v -> t_fun T = false ->
  get_value (fst (resolve_inputs1 T (mk_env true (Some s) true) r)) k = Ok v.
Proof.
  intros P V T s r k v tab f Hr Hq Hk E1 E2 E3 Hv Hf.
  apply (C61_hard_coded_second T (mk_env true (Some s) true) r Hr Hq k v Hk); try assumption; try reflexivity.
  - apply C62_fallback_iff. eauto.
  - congruence.
Qed.
Print Assumptions C62_fallback_partial.
(** without a Lua source, or in a build without Lua, the hard-coded source is always used *)
Theorem C62_no_lua : forall (P V : Type) (T : ty P V) e k, e_lua e = None \/ e_lua_built e = false -> lua_lookup T e k = Ok None.
Proof. intros P V T e k [H|H]; unfold lua_lookup; rewrite H; [reflexivity|]. destruct (e_lua e); reflexivity. Qed.
Print Assumptions C62_no_lua.
(** a key that is not in the table map makes the lookup throw: the hard-coded default is never consulted *)
Theorem C62_unknown_key_refuted : forall (P V : Type) (T : ty P V) s r k v,
  r_targets r = [k] -> l_table_map s k = None -> r_hard r k = Some v ->
  resolve_inputs1 T (mk_env true (Some s) true) r = (r, Throw)
  /\ (forall ins, get_instant_value ins T (mk_env true (Some s) true) r k = (r, Throw)).
Proof.
  intros P V T s r k v Ht E Hv.
  assert (L : lua_lookup T (mk_env true (Some s) true) k = Throw) by (unfold lua_lookup, lua_get; simpl; rewrite E; reflexivity).
  split; [unfold resolve_inputs1; rewrite Ht; simpl; unfold resolve_input; rewrite L; reflexivity|].
  intros ins. unfold get_instant_value, resolve_input. rewrite L. reflexivity.
Qed.
Print Assumptions C62_unknown_key_refuted.
(** so does a key registered in the "base_state", the documented default parent, unless a table of that very name is loaded *)
Theorem C62_base_state_refuted : forall (P V : Type) (T : ty P V) s k lkey, l_tables s "base_state" = None ->
  lua_lookup T (mk_env true (Some (fst (register_value s k "base_state" lkey))) true) k = Throw.
Proof.
  intros P V T s k lkey E. unfold lua_lookup, lua_get, register_value. simpl. rewrite kput_same, E. reflexivity.
Qed.
Print Assumptions C62_base_state_refuted.
(** constructed sources: a Lua file with hydro.mesh gives a source that knows 14 keys; every other key throws *)
Lemma put_all (l : list (key * key)) : forall m k, ~ In k (map fst l) ->
  fold_left (fun m kv => kput m (fst kv) (snd kv)) l m k = m k.
Proof.
  induction l as [|[a b] l IH]; intros m k H; simpl; [reflexivity|]. rewrite IH by (intros F; apply H; right; exact F).
  apply kput_other. intros ->. apply H. left. reflexivity.
Qed.
Definition known_keys : list key := ["hydro"; "mesh"; "prefix"; "suffix"; "output_freq"; "CFL"; "final_time"; "max_steps";
  "mesh_type"; "dimensions"; "xmin"; "xmax"; "file"; "ics_func"].
Theorem C62_ctor_keys : forall (P : Type) (g : key -> lv P) s, lua_ctor g = Ok s ->
  forall k, ~ In k known_keys -> l_table_map s k = None.
Proof.
  intros P g s H k Hk. unfold lua_ctor in H.
  destruct (load_table _ "hydro") as [s1 o1] eqn:L1. destruct o1 as [[]| | |]; try discriminate. simpl in H.
  destruct (load_table s1 "mesh") as [s2 o2] eqn:L2. destruct o2 as [[]| | |]; try discriminate. simpl in H.
  assert (E : s = lua_ctor_maps s2) by congruence. subst s. unfold lua_ctor_maps. cbn [l_table_map]. rewrite put_all.
  - assert (A : forall (s s' : lua_source P) n o, load_table s n = (s', o) -> k <> n -> l_table_map s' k = l_table_map s k).
    { intros s s' n o L N. unfold load_table in L.
      assert (B : kemplace (l_table_map s) n "" k = l_table_map s k).
      { rewrite kemplace_spec. destruct (String.eqb_spec k n); [contradiction|]. destruct (l_table_map s k); reflexivity. }
      revert L. match goal with |- context [match ?r with Ok _ => _ | _ => _ end] => destruct r end; intros L; injection L; intros; subst; exact B. }
    rewrite (A s1 s2 "mesh" _ L2), (A _ s1 "hydro" _ L1); simpl.
    + unfold kput. destruct (String.eqb_spec k "mesh") as [->|]; [exfalso; apply Hk; simpl; tauto|].
      destruct (String.eqb_spec k "hydro") as [->|]; [exfalso; apply Hk; simpl; tauto|]. reflexivity.
    + intros ->. apply Hk. simpl. tauto.
    + intros ->. apply Hk. simpl. tauto.
  - simpl. intros F. apply Hk. simpl. tauto.
Qed.
Print Assumptions C62_ctor_keys.
Definition lua_file : key -> lv string := fun k => if String.eqb k "hydro" then LTable (fun q =>
  if String.eqb q "mesh" then LTable (fun _ => LNil) else if String.eqb q "prefix" then LVal "shock_box" else LNil) else LNil.
Example C62_example : exists s, lua_ctor lua_file = Ok s
  /\ lua_lookup str_ty (mk_env true (Some s) true) "prefix" = Ok (Some "shock_box")
  /\ lua_lookup str_ty (mk_env true (Some s) true) "xmin" = Ok None
  /\ lua_lookup str_ty (mk_env true (Some s) true) "gamma" = Throw.
Proof. eexists. split; [reflexivity|]. repeat split; reflexivity. Qed.

(** ** C63: n+1 resolutions give the values of the first *)
Definition again {P V} (T : ty P V) (e : env P) (r : registry V) : registry V := fst (resolve_inputs1 T e r).
Fixpoint times {P V} (T : ty P V) (e : env P) (n : nat) (r : registry V) : registry V :=
  match n with O => r | S m => again T e (times T e m r) end.
Lemma again_spec {P V} (T : ty P V) (e : env P) r : reachable T r ->
  (forall k, In k (r_targets r) -> exists o, lua_lookup T e k = Ok o) ->
  reachable T (again T e r) /\ r_targets (again T e r) = r_targets r
  /\ (forall q, r_reg (again T e r) q = if mem q (r_targets r) then new_value T e r q else r_reg r q)
  /\ (forall q, r_hard (again T e r) q = if mem q (r_targets r) then new_hard T e r q else r_hard r q)
  /\ snd (resolve_inputs1 T e r) = Ok (forallb (found T e r) (r_targets r)).
Proof.
  intros Hr Hq. destruct (spec T e r Hr Hq) as (S1 & S2 & _ & _ & S5 & S6).
  split; [exact (reachable_step T (OResolve e) r Hr)|]. split; [exact S2|]. split; [exact S5|]. split; [exact S6|exact S1].
Qed.
(** types whose values survive being moved from, and function types *)
Theorem C63_idempotent_partial : forall (P V : Type) (T : ty P V) (e : env P) r, reachable T r ->
  (forall k, In k (r_targets r) -> exists o, lua_lookup T e k = Ok o) ->
  (forall v, t_moved T v = v) \/ t_fun T = true ->
  forall n k, get_value (times T e (S n) r) k = get_value (times T e 1 r) k
    /\ snd (resolve_inputs1 T e (times T e n r)) = snd (resolve_inputs1 T e r).
Proof.
  intros P V T e r Hr Hq Hm.
  assert (I : forall n, let x := times T e n r in reachable T x /\ r_targets x = r_targets r
    /\ (forall q, r_hard x q = None <-> r_hard r q = None)
    /\ ((forall v, t_moved T v = v) -> forall q, r_hard x q = r_hard r q)
    /\ (n <> 0 -> forall q, r_reg x q = r_reg (again T e r) q)).
  { induction n as [|n IH].
    - simpl. split; [exact Hr|]. split; [reflexivity|]. split; [tauto|]. split; [reflexivity|congruence].
    - cbn [times]. set (x := times T e n r) in *. destruct IH as (I1 & I2 & I3 & I4 & I5).
      assert (Hq' : forall k, In k (r_targets x) -> exists o, lua_lookup T e k = Ok o) by (rewrite I2; exact Hq).
      destruct (again_spec T e x I1 Hq') as (A1 & A2 & A3 & A4 & _). destruct (again_spec T e r Hr Hq) as (_ & _ & B3 & B4 & _).
      split; [exact A1|]. split; [congruence|]. split; [|split].
      + intros q. rewrite A4. destruct (mem q (r_targets x)); [|apply I3]. unfold new_hard.
        destruct (lua_lookup T e q) as [[v|]| | |]; try apply I3. destruct (e_hard e); [|apply I3].
        rewrite <- I3. destruct (r_hard x q); simpl; split; congruence.
      + intros M q. rewrite A4. destruct (mem q (r_targets x)); [|apply I4; exact M]. unfold new_hard.
        destruct (lua_lookup T e q) as [[v|]| | |]; try (apply I4; exact M). destruct (e_hard e); [|apply I4; exact M].
        rewrite <- (I4 M). destruct (r_hard x q); simpl; [rewrite M|]; reflexivity.
      + intros _ q. destruct (Nat.eq_dec n 0) as [N|N]; [subst n; reflexivity|]. rewrite A3, I2, I5, B3 by exact N.
        destruct (mem q (r_targets r)) eqn:M; [|reflexivity].
        unfold new_value. destruct (lua_lookup T e q) as [[v|]| | |] eqn:L; try reflexivity; try (rewrite I5 by exact N; rewrite B3, M; unfold new_value; rewrite L; reflexivity).
        rewrite I5, B3, M by exact N. unfold new_value. rewrite L. destruct (e_hard e); [|reflexivity].
        destruct Hm as [Hm|Hm].
        * rewrite (I4 Hm). destruct (r_hard r q); [|reflexivity]. destruct (t_fun T); [|reflexivity]. destruct (r_reg r q); reflexivity.
        * rewrite Hm. destruct (r_hard x q) eqn:X, (r_hard r q) eqn:R0; try reflexivity;
            try (apply I3 in X; congruence); try (apply I3 in R0; congruence); destruct (r_reg r q); reflexivity. }
  intros n k. split.
  - unfold get_value. destruct (I (S n)) as (_ & _ & _ & _ & E). rewrite E by lia. reflexivity.
  - destruct (I n) as (I1 & I2 & I3 & _). assert (Hq' : forall k, In k (r_targets (times T e n r)) -> exists o, lua_lookup T e k = Ok o) by (rewrite I2; exact Hq).
    destruct (again_spec T e _ I1 Hq') as (_ & _ & _ & _ & ->). destruct (again_spec T e r Hr Hq) as (_ & _ & _ & _ & ->).
    f_equal. rewrite I2. assert (F : forall q, found T e (times T e n r) q = found T e r q).
    { intros q. unfold found. destruct (lua_lookup T e q) as [[v|]| | |]; try reflexivity. f_equal.
      destruct (r_hard (times T e n r) q) eqn:X, (r_hard r q) eqn:R0; try reflexivity; [apply I3 in R0|apply I3 in X]; congruence. }
    clear - F. induction (r_targets r) as [|a l IH]; [reflexivity|]. simpl. rewrite F, IH. reflexivity.
Qed.
Print Assumptions C63_idempotent_partial.
(** for a string the second resolution delivers the moved-from default *)
Definition env_hard : env string := mk_env true None true.
Theorem C63_idempotent_refuted : exists r, reachable str_ty r
  /\ get_value (times str_ty env_hard 1 r) "prefix" = Ok "out"
  /\ get_value (times str_ty env_hard 2 r) "prefix" = Ok ""
  /\ snd (resolve_inputs1 str_ty env_hard (times str_ty env_hard 1 r)) = Ok true.
Proof.
  exists (run str_ty [ORegister "prefix"; OSetHard "prefix" "out"] reg_init). split; [eexists; reflexivity|]. repeat split; reflexivity.
Qed.
Print Assumptions C63_idempotent_refuted.
(** in general: whatever the type leaves behind when moved from is the value after the second resolution *)
Theorem C63_second_value : forall (P V : Type) (T : ty P V) (e : env P) r k v, reachable T r ->
  (forall q, In q (r_targets r) -> exists o, lua_lookup T e q = Ok o) -> In k (r_targets r) ->
  lua_lookup T e k = Ok None -> e_hard e = true -> r_hard r k = Some v -> t_fun T = false ->
  get_value (times T e 1 r) k = Ok v /\ get_value (times T e 2 r) k = Ok (t_moved T v).
Proof.
  intros P V T e r k v Hr Hq Hk L E H F. destruct (again_spec T e r Hr Hq) as (A1 & A2 & A3 & A4 & _).
  assert (Hq' : forall q, In q (r_targets (again T e r)) -> exists o, lua_lookup T e q = Ok o) by (rewrite A2; exact Hq).
  destruct (again_spec T e _ A1 Hq') as (_ & _ & B3 & _ & _). cbn [times]. unfold get_value.
  assert (M : mem k (r_targets r) = true) by (apply mem_in; exact Hk).
  split; [rewrite A3, M; unfold new_value; rewrite L, E, H, F; reflexivity|].
  rewrite B3, A2, M. unfold new_value. rewrite L, E, A4, M. unfold new_hard. rewrite L, E, H, F. reflexivity.
Qed.
Print Assumptions C63_second_value.
(** get_instant_value after resolve_inputs loses the default in the same way *)
Theorem C63_instant_refuted : exists r, reachable str_ty r
  /\ snd (get_instant_value true str_ty env_hard r "prefix") = Ok "out"
  /\ snd (get_instant_value true str_ty env_hard (fst (get_instant_value true str_ty env_hard r "prefix")) "prefix") = Ok "".
Proof.
  exists (run str_ty [OSetHard "prefix" "out"] reg_init). split; [eexists; reflexivity|]. split; reflexivity.
Qed.
Print Assumptions C63_instant_refuted.
Example C63_example : let r := run int_ty [ORegister "max_steps"; OSetHard "max_steps" 20%Z] reg_init in
  reachable int_ty r /\ get_value (times int_ty env_hard 5 r) "max_steps" = Ok 20%Z.
Proof. split; [eexists; reflexivity|reflexivity]. Qed.

(** ** C64 *)
(** plain values: the new hard-coded value is delivered *)
Theorem C64_plain : forall (P V : Type) (T : ty P V) (e : env P) r k v, reachable T r ->
  (forall q, In q (r_targets r) -> exists o, lua_lookup T e q = Ok o) -> In k (r_targets r) ->
  lua_lookup T e k = Ok None -> e_hard e = true -> t_fun T = false ->
  get_value (again T e (set_hard r k v)) k = Ok v.
Proof.
  intros P V T e r k v Hr Hq Hk L E F.
  apply (C61_hard_coded_second T e (set_hard r k v) (reachable_step T (OSetHard k v) r Hr) Hq k v Hk L E); [|congruence].
  simpl. apply kput_same.
Qed.
Print Assumptions C64_plain.
(** functions from Lua: delivered, too *)
Theorem C64_lua_function : forall (P V : Type) (T : ty P V) (e : env P) r k v, reachable T r ->
  (forall q, In q (r_targets r) -> exists o, lua_lookup T e q = Ok o) -> In k (r_targets r) ->
  lua_lookup T e k = Ok (Some v) -> get_value (again T e r) k = Ok v.
Proof. intros P V T e r k v Hr Hq Hk L. apply (C61_lua_first T e r Hr Hq k v Hk L). Qed.
Print Assumptions C64_lua_function.
(** hard-coded functions: std::map::insert keeps the old one, whatever was registered since *)
Theorem C64_function_refuted : forall (P V : Type) (T : ty P V) (e : env P) r k old new, reachable T r ->
  (forall q, In q (r_targets r) -> exists o, lua_lookup T e q = Ok o) -> In k (r_targets r) ->
  lua_lookup T e k = Ok None -> e_hard e = true -> t_fun T = true -> get_value r k = Ok old ->
  get_value (again T e (set_hard r k new)) k = Ok old.
Proof.
  intros P V T e r k old new Hr Hq Hk L E F H.
  destruct (again_spec T e (set_hard r k new) (reachable_step T (OSetHard k new) r Hr) Hq) as (_ & _ & A & _ & _).
  unfold get_value in *. rewrite A. simpl. rewrite (proj2 (mem_in k _) Hk). unfold new_value. rewrite L, E. simpl.
  rewrite kput_same, F. destruct (r_reg r k); [exact H|discriminate].
Qed.
Print Assumptions C64_function_refuted.
Example C64_witness : let r := run fun_ty [ORegister "ics_func"; OSetHard "ics_func" "f"; OResolve env_hard; OSetHard "ics_func" "g"; OResolve env_hard] reg_init in
  get_value r "ics_func" = Ok "f".
Proof. reflexivity. Qed.
(** clearing the registry and registering the target again is a way round *)
Theorem C64_after_clear_partial : forall (P V : Type) (T : ty P V) (e : env P) r k v, reachable T r ->
  lua_lookup T e k = Ok None -> e_hard e = true ->
  get_value (again T e (register_target (reg_clear (set_hard r k v)) k)) k = Ok v.
Proof.
  intros P V T e r k v Hr L E.
  apply (C61_hard_coded_second T e (register_target (reg_clear (set_hard r k v)) k)); try assumption; try reflexivity.
  - apply (reachable_step T (ORegister k)), (reachable_step T OClear), (reachable_step T (OSetHard k v)). exact Hr.
  - intros q [<-|[]]. eauto.
  - left. reflexivity.
  - simpl. apply kput_same.
Qed.
Print Assumptions C64_after_clear_partial.

(** ** C65 *)
Theorem C65_clear : forall (V : Type) (r : registry V) k, resolved (reg_clear r) k = false /\ get_value (reg_clear r) k = Throw.
Proof. intros V r k. unfold resolved, get_value. simpl. rewrite andb_false_r. split; reflexivity. Qed.
Print Assumptions C65_clear.
(** resolved() after a resolution: found now, or already in the registry from an earlier one *)
Theorem C65_resolved_partial : forall (P V : Type) (T : ty P V) (e : env P) r k, reachable T r ->
  (forall q, In q (r_targets r) -> exists o, lua_lookup T e q = Ok o) ->
  resolved (again T e r) k = true <->
  (In k (r_targets r) /\ ((exists v, lua_lookup T e k = Ok (Some v)) \/
    (lua_lookup T e k = Ok None /\ e_hard e = true /\ exists v, r_hard r k = Some v)))
  \/ (exists v, r_reg r k = Some v).
Proof.
  intros P V T e r k Hr Hq. destruct (spec T e r Hr Hq) as (_ & _ & C & _ & S & _). unfold resolved, again. rewrite C, S. simpl.
  destruct (mem k (r_targets r)) eqn:M.
  - apply mem_in in M. destruct (Hq k M) as [o L]. unfold new_value. rewrite L. destruct o as [v|].
    + split; intros _; [left; split; [exact M|left; eauto]|reflexivity].
    + destruct (e_hard e) eqn:E; [|].
      * destruct (r_hard r k) eqn:H.
        -- split; [intros _; left; split; [exact M|right; eauto]|]. intros _. destruct (t_fun T), (r_reg r k); reflexivity.
        -- destruct (r_reg r k); split; intros X; try (right; eauto; fail); try reflexivity; try discriminate.
           destruct X as [(_ & [[v X]|(_ & _ & v & X)])|[v X]]; congruence.
      * destruct (r_reg r k); split; intros X; try (right; eauto; fail); try reflexivity; try discriminate.
        destruct X as [(_ & [[v X]|(_ & Y & _)])|[v X]]; congruence.
  - destruct (r_reg r k); split; intros X; try (right; eauto; fail); try reflexivity; try discriminate.
    destruct X as [(X & _)|[v X]]; [apply mem_in in X|]; congruence.
Qed.
Print Assumptions C65_resolved_partial.
(** from an empty registry (the first resolution, or the first after clear_registry) it is the truth *)
Corollary C65_first_partial : forall (P V : Type) (T : ty P V) (e : env P) r k, reachable T r ->
  (forall q, In q (r_targets r) -> exists o, lua_lookup T e q = Ok o) -> r_reg r k = None ->
  resolved (again T e r) k = true <->
  In k (r_targets r) /\ ((exists v, lua_lookup T e k = Ok (Some v)) \/
    (lua_lookup T e k = Ok None /\ e_hard e = true /\ exists v, r_hard r k = Some v)).
Proof.
  intros P V T e r k Hr Hq N. rewrite C65_resolved_partial by assumption. split; [intros [H|[v H]]; [exact H|congruence]|tauto].
Qed.
Print Assumptions C65_first_partial.
(** a later resolution that does not find the target returns false but leaves resolved() true with the old value *)
Theorem C65_stale_refuted : exists (r : registry string) e, reachable str_ty r /\ snd (resolve_inputs1 str_ty e r) = Ok false
  /\ r_targets r = ["prefix"] /\ resolved (again str_ty e r) "prefix" = true /\ get_value (again str_ty e r) "prefix" = Ok "out".
Proof.
  exists (run str_ty [ORegister "prefix"; OSetHard "prefix" "out"; OResolve env_hard] reg_init), (mk_env true None false).
  split; [eexists; reflexivity|]. repeat split; reflexivity.
Qed.
Print Assumptions C65_stale_refuted.
(** the failure set is never emptied by a successful resolution *)
Theorem C65_failures_refuted : exists (r : registry string) e, reachable str_ty r /\ snd (resolve_inputs1 str_ty e r) = Ok true
  /\ r_failed (again str_ty e r) "prefix" = true /\ resolved (again str_ty e r) "prefix" = true.
Proof.
  exists (run str_ty [ORegister "prefix"; OResolve env_hard; OSetHard "prefix" "out"] reg_init), env_hard.
  split; [eexists; reflexivity|]. repeat split; reflexivity.
Qed.
Print Assumptions C65_failures_refuted.
(** clear_registry keeps the "resolve called" flag, so a registry that was never resolved again claims it was *)
Theorem C65_flag_refuted : exists (r : registry string), reachable str_ty r /\ r_called (reg_clear r) = true.
Proof. exists (run str_ty [OResolve env_hard] reg_init). split; [eexists; reflexivity|reflexivity]. Qed.
Print Assumptions C65_flag_refuted.

(** ** C66 *)
(** the constructor makes the qualified name a target, and nothing else; the object starts registered *)
Theorem C66_ctor : forall (V : Type) (r : registry V) name val ns,
  let '(r', i) := iv_ctor r name val ns in
  (forall q, In q (r_targets r') <-> q = (if String.eqb ns "" then name else ns ++ ":" ++ name)%string \/ In q (r_targets r))
  /\ iv_key i = (if String.eqb ns "" then name else ns ++ ":" ++ name)%string /\ iv_status i = registered /\ iv_valid i = val
  /\ r_reg r' = r_reg r /\ r_hard r' = r_hard r /\ r_called r' = r_called r /\ r_all r' = r_all r.
Proof.
  intros V r name val ns. unfold iv_ctor. split; [|repeat split]. intros q. cbn [register_target r_targets]. apply sinsert_in.
Qed.
Print Assumptions C66_ctor.
Theorem C66_get_valid : forall (V : Type) ins (r : registry V) i v, snd (iv_get ins r i) = Ok v ->
  iv_valid i v = true /\ r_reg r (iv_key i) = Some v /\ iv_status (fst (iv_get ins r i)) = valid_.
Proof.
  intros V ins r i v. unfold iv_get.
  assert (A : forall j, iv_valid j = iv_valid i -> iv_key j = iv_key i ->
    let p := match get_value r (iv_key j) with
      | Ok t => if iv_valid j t then (with_status j valid_, Ok t) else (with_status j invalid, Throw)
      | Throw => (j, Throw) | AssertFail => (j, AssertFail) | UB => (j, UB) end in
    snd p = Ok v -> iv_valid i v = true /\ r_reg r (iv_key i) = Some v /\ iv_status (fst p) = valid_).
  { intros j E1 E2. rewrite E2, E1. unfold get_value. destruct (r_reg r (iv_key i)) as [t|]; [|discriminate].
    destruct (iv_valid i t) eqn:X; simpl; [|discriminate]. intros H. assert (t = v) by congruence. subst. auto. }
  destruct (iv_status i); try (apply (A i eq_refl eq_refl)).
  destruct (resolved r (iv_key i)); [apply (A (with_status i initialized) eq_refl eq_refl)|].
  destruct ins; [discriminate|]. apply (A (with_status i resolve_failed) eq_refl eq_refl).
Qed.
Print Assumptions C66_get_valid.
(** it throws when the value is missing or the validator rejects it *)
Theorem C66_get_throws : forall (V : Type) ins (r : registry V) i,
  r_reg r (iv_key i) = None \/ (exists v, r_reg r (iv_key i) = Some v /\ iv_valid i v = false) ->
  snd (iv_get ins r i) = Throw.
Proof.
  intros V ins r i H. unfold iv_get.
  assert (A : forall j, iv_valid j = iv_valid i -> iv_key j = iv_key i ->
    snd (match get_value r (iv_key j) with
      | Ok t => if iv_valid j t then (with_status j valid_, Ok t) else (with_status j invalid, Throw)
      | Throw => (j, Throw) | AssertFail => (j, AssertFail) | UB => (j, UB) end) = Throw).
  { intros j E1 E2. rewrite E2, E1. unfold get_value. destruct H as [->|(v & -> & ->)]; reflexivity. }
  destruct (iv_status i); try (apply (A i eq_refl eq_refl)).
  destruct (resolved r (iv_key i)); [apply (A (with_status i initialized) eq_refl eq_refl)|].
  destruct ins; [reflexivity|]. apply (A (with_status i resolve_failed) eq_refl eq_refl).
Qed.
Print Assumptions C66_get_throws.
(** and it succeeds when the value is resolved and accepted *)
Theorem C66_get_succeeds : forall (V : Type) ins (r : registry V) i v, resolved r (iv_key i) = true ->
  r_reg r (iv_key i) = Some v -> iv_valid i v = true -> snd (iv_get ins r i) = Ok v.
Proof.
  intros V ins r i v Hr Hv Hc. unfold iv_get, get_value. rewrite Hr. cbn [iv_key]. change (iv_key (with_status i initialized)) with (iv_key i).
  rewrite Hv. destruct (iv_status i); simpl; rewrite Hc; reflexivity.
Qed.
Print Assumptions C66_get_succeeds.
(** valid() agrees with the validator on the current value as long as no verdict is cached *)
Theorem C66_valid_partial : forall (V : Type) req (r : registry V) i, iv_status i <> valid_ -> iv_status i <> invalid ->
  iv_status i <> unregistered ->
  snd (iv_is_valid req r i) = Ok (resolved r (iv_key i) && match r_reg r (iv_key i) with Some v => iv_valid i v | None => false end).
Proof.
  intros V req r [n ns f st] H1 H2 H3. cbn [iv_status] in *. unfold iv_is_valid, iv_resolved, get_value, resolved.
  unfold iv_key, with_status. cbn [iv_status iv_valid iv_name iv_ns]. set (k := full_name ns n).
  destruct st; try congruence; rewrite ?andb_false_r; destruct (r_called r), (r_reg r k) as [v|] eqn:E;
    cbn [andb]; cbn [iv_status iv_valid iv_name iv_ns snd]; fold k; rewrite ?E; try (destruct (f v)); reflexivity.
Qed.
Print Assumptions C66_valid_partial.
(** a cached verdict survives a re-resolution that changes the value: valid() says yes, get() throws *)
Theorem C66_valid_refuted : exists (r r' : registry Z) i i', reachable int_ty r /\ r' = again int_ty env_hard (set_hard r "CFL" (-1)%Z)
  /\ iv_get true r i = (i', Ok 1%Z)
  /\ snd (iv_is_valid true r' i') = Ok true /\ snd (iv_get true r' i') = Throw
  /\ r_reg r' (iv_key i') = Some (-1)%Z /\ iv_valid i' (-1)%Z = false.
Proof.
  pose (r0 := run int_ty [OSetHard "CFL" 1%Z] reg_init). pose (p := iv_ctor r0 "CFL" (fun z => (0 <? z)%Z) "").
  exists (again int_ty env_hard (fst p)). eexists. exists (snd p). eexists.
  split; [exists [OSetHard "CFL" 1%Z; ORegister "CFL"; OResolve env_hard]; reflexivity|].
  split; [reflexivity|]. split; [reflexivity|]. repeat split; reflexivity.
Qed.
Print Assumptions C66_valid_refuted.
(** likewise a cached rejection *)
Theorem C66_invalid_refuted : exists (r r' : registry Z) i i', reachable int_ty r /\ r' = again int_ty env_hard (set_hard r "CFL" 1%Z)
  /\ iv_get true r i = (i', Throw) /\ snd (iv_is_valid true r' i') = Ok false /\ snd (iv_get true r' i') = Ok 1%Z.
Proof.
  pose (r0 := run int_ty [OSetHard "CFL" (-1)%Z] reg_init). pose (p := iv_ctor r0 "CFL" (fun z => (0 <? z)%Z) "").
  exists (again int_ty env_hard (fst p)). eexists. exists (snd p). eexists.
  split; [exists [OSetHard "CFL" (-1)%Z; ORegister "CFL"; OResolve env_hard]; reflexivity|].
  split; [reflexivity|]. split; [reflexivity|]. repeat split; reflexivity.
Qed.
Print Assumptions C66_invalid_refuted.
(** status names are distinct *)
Theorem C66_status_names : forall s t, status_name s = status_name t -> s = t.
Proof. intros s t. destruct s, t; intros H; try reflexivity; discriminate. Qed.
Print Assumptions C66_status_names.

(** ** C67 *)
Fixpoint has (a : ascii) (s : string) : bool := match s with EmptyString => false | String b s' => Ascii.eqb a b || has a s' end.
Lemma has_app a s t : has a (s ++ t) = has a s || has a t.
Proof. induction s as [|b s IH]; simpl; [reflexivity|]. rewrite IH, orb_assoc. reflexivity. Qed.
Lemma split_unique a : forall s1 t1 s2 t2, has a t1 = false -> has a t2 = false ->
  s1 ++ String a t1 = s2 ++ String a t2 -> s1 = s2 /\ t1 = t2.
Proof.
  induction s1 as [|b s1 IH]; intros t1 [|c s2] t2 H1 H2 E; simpl in E.
  - split; congruence.
  - injection E as E1 E2. subst c t1. rewrite has_app in H1. simpl in H1. rewrite Ascii.eqb_refl, orb_true_r in H1. discriminate.
  - injection E as E1 E2. subst b t2. rewrite has_app in H2. simpl in H2. rewrite Ascii.eqb_refl, orb_true_r in H2. discriminate.
  - injection E as E1 E2. destruct (IH t1 s2 t2 H1 H2 E2). split; congruence.
Qed.
(** names without a colon: the pair is determined by the full name *)
Theorem C67_injective_partial : forall ns1 n1 ns2 n2, has ":" n1 = false -> has ":" n2 = false ->
  full_name ns1 n1 = full_name ns2 n2 -> ns1 = ns2 /\ n1 = n2.
Proof.
  intros ns1 n1 ns2 n2 H1 H2. unfold full_name. destruct (String.eqb_spec ns1 "") as [->|N1], (String.eqb_spec ns2 "") as [->|N2]; intros E.
  - split; [reflexivity|exact E].
  - subst n1. rewrite has_app in H1. simpl in H1. rewrite orb_true_r in H1. discriminate.
  - subst n2. rewrite has_app in H2. simpl in H2. rewrite orb_true_r in H2. discriminate.
  - apply (split_unique ":"%char ns1 n1 ns2 n2 H1 H2 E).
Qed.
Print Assumptions C67_injective_partial.
Theorem C67_injective_refuted : forall a b c, full_name (a ++ "x:" ++ b) c = full_name (a ++ "x") (b ++ ":" ++ c)
  /\ (a ++ "x:" ++ b, c) <> (a ++ "x", b ++ ":" ++ c).
Proof.
  intros a b c. assert (A : forall s t u : string, (s ++ t) ++ u = s ++ t ++ u) by (induction s; intros; simpl; [reflexivity|rewrite IHs; reflexivity]).
  assert (N : forall t : string, (a ++ String "x" t =? "")%string = false) by (intros t; destruct a; reflexivity).
  split.
  - unfold full_name. simpl. rewrite !N. rewrite !A. simpl. reflexivity.
  - intros E. assert (E1 : c = b ++ ":" ++ c) by congruence.
    assert (F : String.length c = String.length (b ++ ":" ++ c)) by (rewrite <- E1; reflexivity).
    assert (Ln : forall s t : string, String.length (s ++ t) = String.length s + String.length t) by (induction s; intros; simpl; [reflexivity|rewrite IHs; reflexivity]).
    rewrite !Ln in F. simpl in F. lia.
Qed.
Print Assumptions C67_injective_refuted.
(** so two init_values of the same type share one input *)
Theorem C67_shared_refuted : exists n1 ns1 n2 ns2, (ns1, n1) <> (ns2, n2) /\
  forall V (r : registry V) f g, iv_key (snd (iv_ctor r n1 f ns1)) = iv_key (snd (iv_ctor r n2 g ns2)).
Proof. exists "b", "a", "a:b", "". split; [discriminate|]. intros. reflexivity. Qed.
Print Assumptions C67_shared_refuted.
Example C67_example : full_name "hydro" "CFL" = "hydro:CFL" /\ has ":" "CFL" = false.
Proof. split; reflexivity. Qed.

(** ** C68 *)
(** nothing already stored ever changes *)
Theorem C68_keeps : forall m k v msg d m' b q x, register_parameter m k v msg d = Ok (m', b) -> m q = Some x -> m' q = Some x.
Proof.
  intros m k v msg d m' b q x H E. unfold register_parameter in H. destruct (encode d) as [[by_ t]| | |]; try discriminate.
  simpl in H. assert (m' = kemplace m (param_key k v) (msg, by_, t)) by congruence. subst. rewrite kemplace_spec, E. reflexivity.
Qed.
Print Assumptions C68_keeps.
Theorem C68_stores_partial : forall m k v msg d by_ t, encode d = Ok (by_, t) -> m (param_key k v) = None ->
  exists m', register_parameter m k v msg d = Ok (m', true) /\ m' (param_key k v) = Some (msg, by_, t)
    /\ forall q, q <> param_key k v -> m' q = m q.
Proof.
  intros m k v msg d by_ t E N. unfold register_parameter. rewrite E. simpl. eexists. split; [reflexivity|]. split.
  - rewrite kemplace_spec, N, String.eqb_refl. reflexivity.
  - intros q Hq. rewrite kemplace_spec. destruct (String.eqb_spec q (param_key k v)); [contradiction|]. destruct (m q); reflexivity.
Qed.
Print Assumptions C68_stores_partial.
(** pairs are told apart when the variable name has no question mark *)
Theorem C68_keys_partial : forall k1 v1 k2 v2, has "?" v1 = false -> has "?" v2 = false ->
  param_key k1 v1 = param_key k2 v2 -> k1 = k2 /\ v1 = v2.
Proof. intros k1 v1 k2 v2 H1 H2 E. exact (split_unique "?"%char k1 v1 k2 v2 H1 H2 E). Qed.
Print Assumptions C68_keys_partial.
(** true is returned although the second registration had no effect *)
Theorem C68_report_refuted : exists m m1 m2, register_parameter m "g" "n" "" (PSize 1) = Ok (m1, true)
  /\ register_parameter m1 "g" "n" "" (PSize 2) = Ok (m2, true) /\ m2 (param_key "g" "n") = m1 (param_key "g" "n")
  /\ m2 (param_key "g" "n") = Some ("", bytes_le 8 1, TSize).
Proof. exists kempty. eexists. eexists. split; [reflexivity|]. split; [reflexivity|]. split; reflexivity. Qed.
Print Assumptions C68_report_refuted.
Theorem C68_collision_refuted : exists m1 m2, register_parameter kempty "a?b" "c" "" (PSize 1) = Ok (m1, true)
  /\ register_parameter m1 "a" "b?c" "" (PSize 2) = Ok (m2, true)
  /\ m2 (param_key "a" "b?c") = Some ("", bytes_le 8 1, TSize).
Proof. eexists. eexists. split; [reflexivity|]. split; reflexivity. Qed.
Print Assumptions C68_collision_refuted.
(** for a type other than std::string, size_t, float, double an uninitialised variable is copied *)
Theorem C68_other_types_refuted : forall m k v msg, register_parameter m k v msg POther = UB.
Proof. reflexivity. Qed.
Print Assumptions C68_other_types_refuted.
(** the bytes hold the value: a size_t can be read back, a string keeps its characters *)
Fixpoint of_le (l : list N) : N := match l with [] => 0 | b :: l' => b + 256 * of_le l' end%N.
Theorem C68_bytes : (forall n x, (x < 256 ^ N.of_nat n)%N -> of_le (bytes_le n x) = x)
  /\ (forall s, string_of_list_ascii (map ascii_of_N (bytes_of_string s)) = s)
  /\ (forall n x, List.length (bytes_le n x) = n).
Proof.
  split; [|split].
  - induction n as [|n IH]; intros x H.
    + simpl in *. lia.
    + cbn [bytes_le of_le]. rewrite IH.
      * pose proof (N.div_mod x 256 ltac:(lia)). lia.
      * apply N.div_lt_upper_bound; [lia|]. rewrite Nat2N.inj_succ, N.pow_succ_r' in H. lia.
  - induction s as [|a s IH]; simpl; [reflexivity|]. rewrite ascii_N_embedding, IH. reflexivity.
  - induction n as [|n IH]; intros x; [reflexivity|]. cbn [bytes_le List.length]. rewrite IH. reflexivity.
Qed.
Print Assumptions C68_bytes.
(** the stored bytes and tag: eight bytes for size_t and double, four for float, the characters for a string *)
Theorem C68_encode : forall d by_ t, encode d = Ok (by_, t) ->
  match d with
  | PString s => t = TString /\ map ascii_of_N by_ = list_ascii_of_string s
  | PSize n => t = TSize /\ List.length by_ = 8%nat /\ ((n < 2 ^ 64)%N -> of_le by_ = n)
  | PFloat b => t = TFloat /\ List.length by_ = 4%nat /\ ((b < 2 ^ 32)%N -> of_le by_ = b)
  | PDouble b => t = TDouble /\ List.length by_ = 8%nat /\ ((b < 2 ^ 64)%N -> of_le by_ = b)
  | POther => False
  end.
Proof.
  destruct C68_bytes as (B & _ & Ln).
  intros d by_ t H. destruct d as [s|n|b|b|]; cbn -[bytes_le] in H; try discriminate;
    injection H as <- <-; (split; [reflexivity|]).
  - clear. induction s as [|a s IH]; simpl; [reflexivity|]. rewrite ascii_N_embedding, IH. reflexivity.
  - split; [reflexivity|]. intros X. apply (B 8%nat). exact X.
  - split; [reflexivity|]. intros X. apply (B 4%nat). exact X.
  - split; [reflexivity|]. intros X. apply (B 8%nat). exact X.
Qed.
Print Assumptions C68_encode.
Example C68_encode_example : encode (PSize 258) = Ok ([2; 1; 0; 0; 0; 0; 0; 0]%N, TSize)
  /\ encode (PFloat 1065353216) = Ok ([0; 0; 128; 63]%N, TFloat).
Proof. split; reflexivity. Qed.
(** register_group likewise *)
Theorem C68_group : forall m k t, snd (register_group m k t) = true /\
  (m k = None -> fst (register_group m k t) k = Some t) /\ (forall q x, m q = Some x -> fst (register_group m k t) q = Some x).
Proof.
  intros m k t. split; [reflexivity|]. unfold register_group. simpl. split.
  - intros N. rewrite kemplace_spec, N, String.eqb_refl. reflexivity.
  - intros q x E. rewrite kemplace_spec, E. reflexivity.
Qed.
Print Assumptions C68_group.

(** ** C86 the source is constructed exactly when hydro is a table with a mesh entry *)
Theorem C86_ctor : forall (P : Type) (g : key -> lv P),
  (exists s, lua_ctor g = Ok s) <-> (exists f, g "hydro" = LTable f /\ f "mesh" <> LNil).
Proof.
  intros P g. unfold lua_ctor, load_table. simpl. split.
  - intros [s H]. destruct (g "hydro") as [|f|p]; simpl in H; try discriminate.
    exists f. split; [reflexivity|]. intros E. rewrite E in H. simpl in H. discriminate.
  - intros (f & E & N). rewrite E. simpl. destruct (f "mesh"); [contradiction| |]; simpl; eauto.
Qed.
Print Assumptions C86_ctor.
(** it then reads the fourteen names from hydro and hydro.mesh under their Lua names *)
Theorem C86_ctor_reads : forall (P : Type) (g : key -> lv P) s f, lua_ctor g = Ok s -> g "hydro" = LTable f ->
  l_tables s "hydro" = Some (g "hydro") /\ l_tables s "mesh" = Some (f "mesh")
  /\ (forall k, In k ["prefix"; "suffix"; "output_freq"; "CFL"; "final_time"; "max_steps"; "ics_func"] -> l_table_map s k = Some "hydro")
  /\ (forall k, In k ["mesh_type"; "dimensions"; "xmin"; "xmax"; "file"] -> l_table_map s k = Some "mesh")
  /\ (forall k, l_key s k = if String.eqb k "suffix" then Some "postfix" else if String.eqb k "mesh_type" then Some "type"
        else if String.eqb k "ics_func" then Some "ics" else None).
Proof.
  intros P g s f H E. unfold lua_ctor, load_table in H. simpl in H. rewrite E in H. simpl in H.
  destruct (f "mesh") as [|f'|p] eqn:M; simpl in H; try discriminate;
    (injection H as <-; simpl; rewrite E; split; [reflexivity|]; split; [reflexivity|]; split;
     [intros k Hk; simpl in Hk; repeat (destruct Hk as [<-|Hk]; [reflexivity|]); destruct Hk|]; split;
     [intros k Hk; simpl in Hk; repeat (destruct Hk as [<-|Hk]; [reflexivity|]); destruct Hk|];
     intros k; unfold kput, kempty;
     destruct (String.eqb_spec k "ics_func") as [->|]; [reflexivity|];
     destruct (String.eqb_spec k "mesh_type") as [->|]; [reflexivity|];
     destruct (String.eqb_spec k "suffix"); reflexivity).
Qed.
Print Assumptions C86_ctor_reads.
(** ** C87 register_table *)
(** register_value: from then on the name is read in that table, under the Lua key if one was given; other names are unaffected *)
Theorem C87_register_value : forall (P V : Type) (T : ty P V) (s : lua_source P) k t lkey f,
  l_tables s t = Some (LTable f) ->
  let s' := fst (register_value s k t lkey) in
  lua_get T s' k = (let q := if String.eqb lkey "" then match l_key s k with Some q => q | None => k end else lkey in
                    match f q with LNil => Ok None | v => bind (t_as T v) (fun x => Ok (Some x)) end)
  /\ (forall q, q <> k -> lua_get T s' q = lua_get T s q)
  /\ (snd (register_value s k t lkey) = true <-> l_table_map s k <> None).
Proof.
  intros P V T s k t lkey f H. unfold register_value, lua_get. cbn -[String.eqb kput]. rewrite kput_same, H. split; [|split].
  - cbn -[String.eqb kput]. destruct (String.eqb lkey "").
    + destruct (f match l_key s k with Some q => q | None => k end); reflexivity.
    + rewrite kput_same. destruct (f lkey); reflexivity.
  - intros q N. rewrite (kput_other _ _ _ _ N). destruct (String.eqb lkey ""); [reflexivity|]. rewrite (kput_other _ _ _ _ N). reflexivity.
  - destruct (l_table_map s k); simpl; split; congruence.
Qed.
Print Assumptions C87_register_value.
(** a new table name directly under a loaded table: loaded from that table, without a different Lua key *)
Theorem C87_register_table_partial : forall (P : Type) (s : lua_source P) t p f, p <> "base_state" -> l_tables s p = Some (LTable f) ->
  l_tables s t = None -> f t <> LNil ->
  exists s', register_table s t p "" = (s', Ok (match l_table_map s t with Some _ => true | None => false end))
    /\ l_tables s' t = Some (f t) /\ l_table_map s' t = Some p /\ (forall q, q <> t -> l_tables s' q = l_tables s q).
Proof.
  intros P s t p f Hp Ht N F. unfold register_table, register_value, load_table. cbn -[String.eqb try_access lv_index].
  rewrite kput_same. destruct (String.eqb_spec "base_state" p) as [E|_]; [congruence|]. rewrite Ht. simpl.
  destruct (f t) as [|g|x] eqn:Z; [contradiction| |]; simpl; (eexists; split; [reflexivity|]); simpl;
    rewrite !kemplace_spec, N, kput_same, String.eqb_refl; (split; [reflexivity|]); (split; [reflexivity|]);
    intros q Hq; rewrite kemplace_spec; destruct (String.eqb_spec q t); try contradiction; destruct (l_tables s q); reflexivity.
Qed.
Print Assumptions C87_register_table_partial.
(** the Lua key given for a table plays no role in loading it *)
Theorem C87_lua_key_refuted : forall (P : Type) (s : lua_source P) t p lkey,
  snd (register_table s t p lkey) = snd (register_table s t p "")
  /\ l_tables (fst (register_table s t p lkey)) = l_tables (fst (register_table s t p "")).
Proof.
  intros P s t p lkey. unfold register_table, register_value, load_table. cbn -[String.eqb try_access lv_index]. rewrite !kput_same.
  destruct (String.eqb "base_state" p).
  - destruct (try_access (Ok (l_globals s t))); split; reflexivity.
  - destruct (l_tables s p) as [x|]; [|split; reflexivity]. destruct (try_access (lv_index x t)); split; reflexivity.
Qed.
Print Assumptions C87_lua_key_refuted.
Example C87_lua_key_witness : let g := fun k => if String.eqb k "hydro" then LTable (fun q => if String.eqb q "mesh" then LVal "m" else
    if String.eqb q "materials" then LTable (fun _ => LVal "steel") else LNil) else LNil in
  exists s, lua_ctor g = Ok s /\ snd (register_table s "mats" "hydro" "materials") = Throw.
Proof. eexists. split; reflexivity. Qed.
(** moving an already loaded table reports a replacement but keeps the old contents *)
Theorem C87_replace_refuted : forall (P : Type) (s : lua_source P) t p lkey s' b old, l_tables s t = Some old ->
  register_table s t p lkey = (s', Ok b) -> l_tables s' t = Some old.
Proof.
  intros P s t p lkey s' b old H. unfold register_table, register_value.
  match goal with |- context [load_table ?x t] => assert (A : l_tables (fst (load_table x t)) t = Some old) end.
  { unfold load_table. cbn -[String.eqb try_access lv_index]. rewrite kput_same. destruct (String.eqb "base_state" p).
    - destruct (try_access (Ok (l_globals s t))); simpl; rewrite ?kemplace_spec, ?H; auto.
    - destruct (l_tables s p) as [x|]; [|exact H]. destruct (try_access (lv_index x t)); simpl; rewrite ?kemplace_spec, ?H; auto. }
  destruct (load_table _ t) as [s1 o1]. simpl in *. intros E. assert (s' = s1) by congruence. subst. exact A.
Qed.
Print Assumptions C87_replace_refuted.
(** ** C88 one throwing lookup aborts the resolution of everything after it *)
Theorem C88_abort_refuted : exists (r : registry string) e, reachable str_ty r
  /\ snd (resolve_inputs1 str_ty e r) = Throw /\ In "prefix" (r_targets r)
  /\ lua_lookup str_ty e "prefix" = Ok (Some "from_lua") /\ resolved (again str_ty e r) "prefix" = false
  /\ get_value (again str_ty e r) "prefix" = Throw.
Proof.
  exists (run str_ty [ORegister "prefix"; ORegister "gamma"; OSetHard "gamma" "1.4"] reg_init), env1.
  split; [eexists; reflexivity|]. repeat split; try reflexivity. right. left. reflexivity.
Qed.
Print Assumptions C88_abort_refuted.
(** targets before the throwing one (in string order) are filled in, but nothing says so *)
Theorem C88_prefix_partial : forall (P V : Type) (T : ty P V) (e : env P) r, reachable T r ->
  snd (resolve_inputs1 T e r) = Throw -> r_called (again T e r) = r_called r.
Proof.
  intros P V T e r _ H. unfold again. unfold resolve_inputs1 in *.
  assert (A : forall ks r m, r_called (fst (resolve_loop T e ks r m)) = r_called r).
  { assert (B : forall r k, r_called (fst (resolve_input T e r k)) = r_called r).
    { intros r0 k. unfold resolve_input. destruct (lua_lookup T e k) as [[v|]| | |]; try reflexivity.
      destruct (e_hard e); [|reflexivity]. unfold hard_get. destruct (r_hard r0 k); reflexivity. }
    induction ks as [|k ks IH]; intros r0 m; simpl; [reflexivity|]. specialize (B r0 k).
    destruct (resolve_input T e r0 k) as [r1 [[|]| | |]]; simpl in *; rewrite ?IH; simpl; congruence. }
  specialize (A (r_targets r) r false). destruct (resolve_loop T e (r_targets r) r false) as [r1 [m| | |]]; simpl in *; try discriminate; exact A.
Qed.
Print Assumptions C88_prefix_partial.
Example C86_example : exists s f, lua_ctor lua_file = Ok s /\ lua_file "hydro" = LTable f /\ f "mesh" <> LNil.
Proof. eexists. eexists. split; [reflexivity|]. split; [reflexivity|]. simpl. discriminate. Qed.
Example C87_example : exists s f, lua_ctor lua_file = Ok s /\ l_tables s "hydro" = Some (LTable f) /\ l_tables s "prefix" = None /\ f "prefix" <> LNil.
Proof. eexists. eexists. split; [reflexivity|]. split; [reflexivity|]. split; [reflexivity|]. simpl. discriminate. Qed.
