(** Properties C69-C71, C89-C94: the Lua interface. *)
From Coq Require Import String Ascii List Bool Arith ZArith Lia.
From Verif Require Import Outcome LuaModel LuaProofs.
Import ListNotations.

Section General.
Context {W F : Type} (L : lua W F).
Notation val := (val F).
Notation M := (M W F).
Notation mk_st := (@mk_st W F).
Lemma reads_map {A B} k (g : M A) c (f : A -> B) : reads k g c ->
  reads k (bnd g (fun a => ret (f a))) (fun w v => bind (c w v) (fun a => Ok (f a))).
Proof.
  intros R v l cp rf w H. destruct (R v l cp rf w H) as (rest & G & Y & N). exists rest.
  destruct (ok_dec (c w v)) as [[a E]|E].
  - rewrite E in *. rewrite (bnd_ok _ _ _ _ _ G). cbn [bind ret]. split; [reflexivity|].
    split; [intros _; apply Y; eexists; reflexivity|]. intros Z. exfalso. apply Z. eexists. reflexivity.
  - rewrite (bnd_fail _ _ _ _ _ G E). split; [f_equal; symmetry; apply bind_fail; exact E|].
    split; [intros Z; exfalso; exact (bind_not_ok _ _ E Z)|intros _; exact (N E)].
Qed.
Lemma check_function_ok f l cp rf (w : W) : check_function (mk_st (VFun f :: l) cp rf w) = (mk_st (VFun f :: l) cp rf w, Ok tt).
Proof.
  unfold check_function, check_nil. rewrite (bnd_ok _ _ _ (mk_st (VFun f :: l) cp rf w) tt).
  - rewrite (bnd_ok _ _ _ _ _ (at_top _ _ _ _ _)). reflexivity.
  - rewrite (bnd_ok _ _ _ _ _ (at_top _ _ _ _ _)). reflexivity.
Qed.
Lemma check_table_ok t l cp rf (w : W) : check_table (mk_st (VTab t :: l) cp rf w) = (mk_st (VTab t :: l) cp rf w, Ok tt).
Proof.
  unfold check_table, check_nil. rewrite (bnd_ok _ _ _ (mk_st (VTab t :: l) cp rf w) tt).
  - rewrite (bnd_ok _ _ _ _ _ (at_top _ _ _ _ _)). reflexivity.
  - rewrite (bnd_ok _ _ _ _ _ (at_top _ _ _ _ _)). reflexivity.
Qed.
Lemma skipn_len {A} (a b : list A) : skipn (length a) (a ++ b) = b.
Proof. induction a; [reflexivity|exact IHa]. Qed.
Lemma firstn_len {A} (a b : list A) : firstn (length a) (a ++ b) = a.
Proof. induction a as [|x a IH]; [reflexivity|]. cbn [length app firstn]. rewrite IH. reflexivity. Qed.
Lemma pcall_ok f vals l cp rf w : pcall L (length vals) (mk_st (rev vals ++ VFun f :: l) cp rf w) =
  match call L w f vals with
  | (w', inl rs) => (mk_st (rev rs ++ l) (Nat.max cp (length rs + length l)) rf w', Ok true)
  | (w', inr e) => (mk_st (e :: l) cp rf w', Ok false)
  end.
Proof.
  unfold pcall. cbn [stk cap refs world]. rewrite <- (rev_length vals), skipn_len, firstn_len, rev_involutive. reflexivity.
Qed.
(* everything up to and including lua_pcall *)
Lemma call_prefix r x rest f args l cp rf (w : W) (K : bool -> nat -> M (@result F)) : rev (res_refs r) = x :: rest -> deref rf x = VFun f ->
  length l + length (args_vals args) + 2 <= cp -> cp <= max_stack L ->
  bnd gettop (fun pos0 => bnd (check_stack L 1) (fun _ => bnd (push_last L r) (fun _ => bnd check_function (fun _ =>
    bnd (push_args L args) (fun n => bnd (pcall L n) (fun ok => K ok pos0)))))) (mk_st l cp rf w) =
  bnd (pcall L (length (args_vals args))) (fun ok => K ok (length l)) (mk_st (rev (args_vals args) ++ VFun f :: l) cp rf w).
Proof.
  intros E D H Hm. rewrite (bnd_ok _ _ _ _ _ (eq_refl : gettop (mk_st l cp rf w) = (_, Ok (length l)))).
  rewrite (bnd_ok _ _ _ _ _ (check_stack_ok L 1 l cp rf w ltac:(lia))). replace (Nat.max cp (length l + 1)) with cp by lia.
  rewrite (bnd_ok _ _ _ _ _ (push_last_ok L r x rest l cp rf w E ltac:(lia))). replace (Nat.max cp (length l + 1)) with cp by lia.
  rewrite D. rewrite (bnd_ok _ _ _ _ _ (check_function_ok f l cp rf w)).
  rewrite (bnd_ok _ _ _ _ _ (push_args_ok L args (VFun f :: l) cp rf w ltac:(cbn [length]; lia) Hm)). reflexivity.
Qed.
Lemma call_spec r x rest f args l cp rf w w' rs last : rev (res_refs r) = x :: rest -> deref rf x = VFun f ->
  length l + length (args_vals args) + 2 <= cp -> cp <= max_stack L ->
  call L w f (args_vals args) = (w', inl (rs ++ [last])) -> last <> VNil ->
  exists rf' r', call_op L r args (mk_st l cp rf w) = (mk_st l (Nat.max cp (length (rs ++ [last]) + length l)) (rf ++ rf') w', Ok r')
    /\ map (deref (rf ++ rf')) (res_refs r') = rev (rs ++ [last]) /\ Forall (live (rf ++ rf')) (res_refs r').
Proof.
  intros E D H Hm C N. unfold call_op. rewrite (call_prefix r x rest f args l cp rf w _ E D H Hm).
  set (cp' := Nat.max cp (length (rs ++ [last]) + length l)).
  assert (P : pcall L (length (args_vals args)) (mk_st (rev (args_vals args) ++ VFun f :: l) cp rf w) = (mk_st (rev (rs ++ [last]) ++ l) cp' rf w', Ok true))
    by (rewrite pcall_ok, C; reflexivity).
  rewrite (bnd_ok _ _ _ _ _ P).
  assert (Q : check_result (mk_st (rev (rs ++ [last]) ++ l) cp' rf w') = (mk_st (rev (rs ++ [last]) ++ l) cp' rf w', Ok tt)).
  { rewrite rev_app_distr. cbn [rev app]. unfold check_result. rewrite (bnd_ok _ _ _ _ _ (at_top _ _ _ _ _)). destruct last; try reflexivity. contradiction. }
  rewrite (bnd_ok _ _ _ _ _ Q). unfold gettop at 1. unfold bnd at 1. cbn [stk].
  replace (length (rev (rs ++ [last]) ++ l) - length l) with (length (rev (rs ++ [last]))) by (rewrite app_length; lia).
  destruct (make_refs_spec (rev (rs ++ [last])) l cp' rf w') as (rf' & rl & R1 & R2 & R3).
  rewrite (bnd_ok _ _ _ _ _ R1). exists rf', (mk_res rl (length rl)). split; [reflexivity|]. split; [exact R2|exact R3].
Qed.
Lemma as_one_spec {A} k (g : M A) c r x l cp rf w a : reads k g c -> res_refs r = [x] -> length l + 1 + k <= cp -> cp <= max_stack L ->
  c w (deref rf x) = Ok a -> as_one L g r (mk_st l cp rf w) = (mk_st l cp rf w, Ok a).
Proof.
  intros R E H Hm C. unfold as_one. rewrite E. cbn [length Nat.eqb negb].
  rewrite (bnd_ok _ _ _ _ _ (push_last_ok L r x [] l cp rf w ltac:(rewrite E; reflexivity) ltac:(lia))).
  replace (Nat.max cp (length l + 1)) with cp by lia. apply (reads_pops k g c _ l cp rf w a R ltac:(cbn [length]; lia) C).
Qed.
Lemma get_results_ok {A} k (w : W) : forall (cs : list (M A * (W -> val -> outcome A))) (vas : list (val * A)) l cp rf,
  Forall (fun p => reads k (fst p) (snd p)) cs -> Forall2 (fun p va => snd p w (fst va) = Ok (snd va)) cs vas ->
  length (map fst vas ++ l) + k <= cp ->
  get_results (map fst cs) (mk_st (map fst vas ++ l) cp rf w) = (mk_st l cp rf w, Ok (map snd vas)).
Proof.
  intros cs vas l cp rf HF H2. revert HF. induction H2 as [|p va cs vas C H2 IH]; intros HF H; [reflexivity|].
  inversion HF as [|? ? R HF']; subst. cbn [map app get_results] in *.
  rewrite (bnd_ok _ _ _ _ _ (reads_pops k _ _ _ _ cp rf w _ R H C)).
  rewrite (bnd_ok _ _ _ _ _ (IH HF' ltac:(cbn [length] in H; lia))). reflexivity.
Qed.
Lemma as_tuple_spec {A} k (cs : list (M A * (W -> val -> outcome A))) vas r l cp rf w :
  Forall (fun p => reads k (fst p) (snd p)) cs -> Forall2 (fun p va => snd p w (fst va) = Ok (snd va)) cs vas ->
  map (deref rf) (res_refs r) = rev (map fst vas) -> length l + length vas + k <= cp -> cp <= max_stack L ->
  as_tuple L (map fst cs) r (mk_st l cp rf w) = (mk_st l cp rf w, Ok (map snd vas)).
Proof.
  intros HF H2 E H Hm. assert (N : length (res_refs r) = length vas) by (rewrite <- (map_length (deref rf)), E, rev_length, map_length; reflexivity).
  assert (N2 : length (map fst cs) = length vas) by (rewrite map_length; clear - H2; induction H2; cbn [length]; congruence).
  unfold as_tuple. rewrite N2, N, Nat.eqb_refl. cbn [negb]. unfold push_all.
  assert (P : bnd (check_stack L (length (res_refs r))) (fun _ => push_refs (res_refs r)) (mk_st l cp rf w) = (mk_st (map fst vas ++ l) cp rf w, Ok tt)).
  { rewrite (bnd_ok _ _ _ _ _ (check_stack_ok L (length (res_refs r)) l cp rf w ltac:(lia))). replace (Nat.max cp (length l + length (res_refs r))) with cp by lia.
    rewrite push_refs_ok by lia. rewrite E, rev_involutive. reflexivity. }
  rewrite (bnd_ok _ _ _ _ _ P). apply (get_results_ok k); try assumption. rewrite app_length, map_length. lia.
Qed.

(** ** C69: what leaves the stack as it found it.  Every statement is for every stack l, capacity cp with the room it
    states, registry rf and world w. *)
Theorem C69_global_partial : forall key l cp rf (w : W), length l < cp -> exists rf' r,
  get_global L key (mk_st l cp rf w) = (mk_st l cp (rf ++ rf') w, Ok r)
  /\ map (deref (rf ++ rf')) (res_refs r) = [global L w (cstr key)].
Proof.
  intros key l cp rf w H. unfold get_global. rewrite (bnd_ok _ _ _ _ _ (push_ok (global L w (cstr key)) l cp rf w H : (fun s => push (global L (world s) (cstr key)) s) _ = _)).
  rewrite (bnd_ok _ _ _ _ _ (at_top _ _ _ _ _)). unfold rawlen at 1. unfold bnd at 1.
  destruct (make_ref_spec (global L w (cstr key)) l cp rf w) as (rf' & r & E & D & _).
  rewrite (bnd_ok _ _ _ _ _ E). eexists. eexists. split; [reflexivity|]. cbn [res_refs map]. rewrite D. reflexivity.
Qed.
Theorem C69_convert_partial : forall A k (g : M A) c r x l cp rf w a, reads k g c -> res_refs r = [x] ->
  length l + 1 + k <= cp -> cp <= max_stack L -> c w (deref rf x) = Ok a ->
  as_one L g r (mk_st l cp rf w) = (mk_st l cp rf w, Ok a).
Proof. exact @as_one_spec. Qed.
Theorem C69_call_partial : forall r x rest f args l cp rf w w' rs last, rev (res_refs r) = x :: rest -> deref rf x = VFun f ->
  length l + length (args_vals args) + 2 <= cp -> cp <= max_stack L ->
  call L w f (args_vals args) = (w', inl (rs ++ [last])) -> last <> VNil ->
  exists cp' rf' r', call_op L r args (mk_st l cp rf w) = (mk_st l cp' (rf ++ rf') w', Ok r') /\ cp <= cp'.
Proof.
  intros r x rest f args l cp rf w w' rs last E D H Hm C N.
  destruct (call_spec r x rest f args l cp rf w w' rs last E D H Hm C N) as (rf' & r' & S & _). eexists. eexists. eexists. split; [exact S|lia].
Qed.
(** a field or element access empties the whole stack, whatever was on it *)
Theorem C69_index_refuted : forall r x rest t l cp rf (w : W), rev (res_refs r) = x :: rest -> deref rf x = VTab t ->
  length l + 3 <= cp -> cp <= max_stack L ->
  (forall key, exists rf' r', index_key L r key (mk_st l cp rf w) = (mk_st [] cp (rf ++ rf') w, Ok r')
     /\ map (deref (rf ++ rf')) (res_refs r') = [t_gets L w t key])
  /\ (forall n, exists rf' r', index_int L r n (mk_st l cp rf w) = (mk_st [] cp (rf ++ rf') w, Ok r')
     /\ map (deref (rf ++ rf')) (res_refs r') = [t_geti L w t n]).
Proof.
  intros r x rest t l cp rf w E D H Hm.
  assert (P : push_last L r (mk_st l cp rf w) = (mk_st (VTab t :: l) cp rf w, Ok tt)).
  { rewrite (push_last_ok L r x rest l cp rf w E ltac:(lia)), D. f_equal. f_equal. lia. }
  assert (Z : forall v, exists rf' r', bnd (at_ (-1)) (fun v => bnd (rawlen L v) (fun len => bnd make_ref (fun x => bnd pop_minus_one (fun _ => ret (mk_res [x] len)))))
    (mk_st (v :: VTab t :: l) cp rf w) = (mk_st [] cp (rf ++ rf') w, Ok r') /\ map (deref (rf ++ rf')) (res_refs r') = [v]).
  { intros v. rewrite (bnd_ok _ _ _ _ _ (at_top _ _ _ _ _)). unfold rawlen at 1. unfold bnd at 1.
    destruct (make_ref_spec v (VTab t :: l) cp rf w) as (rf' & r1 & E1 & D1 & _). rewrite (bnd_ok _ _ _ _ _ E1).
    unfold pop_minus_one, settop. unfold bnd at 1. cbn [stk cap refs world with_stk]. rewrite Nat.sub_0_r, skipn_all.
    eexists. eexists. split; [reflexivity|]. cbn [res_refs map]. rewrite D1. reflexivity. }
  split.
  - intros key. unfold index_key. rewrite (bnd_ok _ _ _ _ _ P), (bnd_ok _ _ _ _ _ (check_table_ok t l cp rf w)).
    rewrite (bnd_ok _ _ _ _ _ (check_stack_ok L 1 (VTab t :: l) cp rf w ltac:(cbn [length]; lia))). replace (Nat.max cp (length (VTab t :: l) + 1)) with cp by (cbn [length]; lia).
    rewrite (bnd_ok _ _ _ _ _ (push_ok (VStr key) (VTab t :: l) cp rf w ltac:(cbn [length]; lia))).
    assert (Q : rawget_string L key (mk_st (VStr key :: VTab t :: l) cp rf w) = (mk_st (t_gets L w t key :: VTab t :: l) cp rf w, Ok tt)).
    { unfold rawget_string. rewrite (bnd_ok _ _ _ _ _ (at_second _ _ _ _ _ _)), (bnd_ok _ _ _ _ _ (remove_top _ _ _ _ _)).
      apply push_ok. cbn [length]. lia. }
    rewrite (bnd_ok _ _ _ _ _ Q). apply Z.
  - intros n. unfold index_int. rewrite (bnd_ok _ _ _ _ _ P), (bnd_ok _ _ _ _ _ (check_table_ok t l cp rf w)).
    rewrite (bnd_ok _ _ _ _ _ (rawgeti_top L t n l cp rf w ltac:(cbn [length]; lia))). apply Z.
Qed.
(** a conversion that fails leaves its operand on the stack *)
Theorem C69_convert_refuted : forall A k (g : M A) c r x l cp rf w, reads k g c -> res_refs r = [x] ->
  length l + 1 + k <= cp -> cp <= max_stack L -> c w (deref rf x) = Throw ->
  exists junk, as_one L g r (mk_st l cp rf w) = (mk_st (junk ++ deref rf x :: l) cp rf w, Throw).
Proof.
  intros A k g c r x l cp rf w R E H Hm C. unfold as_one. rewrite E. cbn [length Nat.eqb negb].
  rewrite (bnd_ok _ _ _ _ _ (push_last_ok L r x [] l cp rf w ltac:(rewrite E; reflexivity) ltac:(lia))).
  replace (Nat.max cp (length l + 1)) with cp by lia. destruct (R (deref rf x) l cp rf w ltac:(cbn [length]; lia)) as (s & G & _ & N).
  rewrite G, C. destruct N as [junk ->]; [rewrite C; intros [b X]; discriminate|]. exists junk. reflexivity.
Qed.
(** a call that raises a Lua error leaves the error value on the stack *)
Theorem C69_call_refuted : forall r x rest f args l cp rf w w' e, rev (res_refs r) = x :: rest -> deref rf x = VFun f ->
  length l + length (args_vals args) + 2 <= cp -> cp <= max_stack L -> call L w f (args_vals args) = (w', inr e) ->
  call_op L r args (mk_st l cp rf w) = (mk_st (e :: l) cp rf w', Throw).
Proof.
  intros r x rest f args l cp rf w w' e E D H Hm C. unfold call_op. rewrite (call_prefix r x rest f args l cp rf w _ E D H Hm).
  rewrite (bnd_ok _ _ _ (mk_st (e :: l) cp rf w') false); [reflexivity|]. rewrite pcall_ok, C. reflexivity.
Qed.
(** calling something that is no function leaves it on the stack *)
Theorem C69_not_function_refuted : forall r x rest args l cp rf (w : W), rev (res_refs r) = x :: rest ->
  (forall f, deref rf x <> VFun f) -> length l + 1 <= cp -> cp <= max_stack L ->
  call_op L r args (mk_st l cp rf w) = (mk_st (deref rf x :: l) cp rf w, Throw).
Proof.
  intros r x rest args l cp rf w E D H Hm. unfold call_op.
  rewrite (bnd_ok _ _ _ _ _ (eq_refl : gettop (mk_st l cp rf w) = (_, Ok (length l)))).
  rewrite (bnd_ok _ _ _ _ _ (check_stack_ok L 1 l cp rf w ltac:(lia))). replace (Nat.max cp (length l + 1)) with cp by lia.
  rewrite (bnd_ok _ _ _ _ _ (push_last_ok L r x rest l cp rf w E ltac:(lia))). replace (Nat.max cp (length l + 1)) with cp by lia.
  rewrite (bnd_fail _ _ _ (mk_st (deref rf x :: l) cp rf w) Throw); [reflexivity| |intros [b X]; discriminate].
  unfold check_function, check_nil, bnd. rewrite at_top. destruct (deref rf x) eqn:Z; try (exfalso; exact (D _ eq_refl));
    cbn [ret fail]; rewrite ?at_top; reflexivity.
Qed.

(** ** C70 *)
Theorem C70_tuple : forall A k (cs : list (M A * (W -> val -> outcome A))) r x rest f args l cp rf w w' vas,
  rev (res_refs r) = x :: rest -> deref rf x = VFun f ->
  length l + length (args_vals args) + 2 <= cp -> length l + length vas + k <= cp ->
  length l + length vas <= max_stack L -> cp <= max_stack L ->
  call L w f (args_vals args) = (w', inl (map fst vas)) -> vas <> [] -> List.last (map fst vas) VNil <> VNil ->
  Forall (fun p => reads k (fst p) (snd p)) cs -> Forall2 (fun p va => snd p w' (fst va) = Ok (snd va)) cs vas ->
  exists cp' rf', bnd (call_op L r args) (as_tuple L (map fst cs)) (mk_st l cp rf w) = (mk_st l cp' rf' w', Ok (map snd vas)).
Proof.
  intros A k cs r x rest f args l cp rf w w' vas E D H Hk Hv Hm C Nv Nl HF H2.
  assert (X : exists rs la, map fst vas = rs ++ [la] /\ la <> VNil).
  { destruct (exists_last (l := map fst vas)) as (rs & la & X); [intros Y; destruct vas; [contradiction|discriminate]|].
    exists rs, la. split; [exact X|]. rewrite X, last_last in Nl. exact Nl. }
  destruct X as (rs & la & X & Nla). rewrite X in C. destruct (call_spec r x rest f args l cp rf w w' rs la E D H Hm C Nla) as (rf' & r' & S & Dr & Lv).
  rewrite (bnd_ok _ _ _ _ _ S). rewrite <- X in *. rewrite map_length in *. eexists. eexists.
  apply (as_tuple_spec k); try assumption; lia.
Qed.
(** a single result *)
Theorem C70_single : forall A k (g : M A) c r x rest f args l cp rf w w' v a, reads k g c ->
  rev (res_refs r) = x :: rest -> deref rf x = VFun f ->
  length l + length (args_vals args) + 2 <= cp -> length l + 1 + k <= cp -> cp <= max_stack L ->
  call L w f (args_vals args) = (w', inl [v]) -> v <> VNil -> c w' v = Ok a ->
  exists cp' rf', func_wrapper L g r args (mk_st l cp rf w) = (mk_st l cp' rf' w', Ok a).
Proof.
  intros A k g c r x rest f args l cp rf w w' v a R E D H Hk Hm C N Cv.
  destruct (call_spec r x rest f args l cp rf w w' [] v E D H Hm C N) as (rf' & r' & S & Dr & Lv). unfold func_wrapper.
  rewrite (bnd_ok _ _ _ _ _ S). cbn [app length rev] in *. destruct (res_refs r') as [|y [|? ?]] eqn:Er; try discriminate. cbn [map] in Dr.
  injection Dr as Dr. eexists. eexists. apply (as_one_spec k g c r' y); try assumption; try lia. rewrite Dr. exact Cv.
Qed.
(** the counts must match: no adjustment to the number of values wanted *)
Theorem C70_adjust_refuted : forall A (gs : list (M A)) r s, length (res_refs r) <> length gs ->
  as_tuple L gs r s = (s, Throw).
Proof. intros A gs r s H. unfold as_tuple. rewrite (proj2 (Nat.eqb_neq _ _) H). reflexivity. Qed.
Theorem C70_adjust_single_refuted : forall A (g : M A) r s, length (res_refs r) <> 1 -> as_one L g r s = (s, Throw).
Proof. intros A g r s H. unfold as_one. rewrite (proj2 (Nat.eqb_neq _ _) H). reflexivity. Qed.
(** results whose last one is nil are thrown away, and stay on the stack *)
Theorem C70_trailing_nil_refuted : forall r x rest f args l cp rf w w' rs, rev (res_refs r) = x :: rest -> deref rf x = VFun f ->
  length l + length (args_vals args) + 2 <= cp -> cp <= max_stack L ->
  call L w f (args_vals args) = (w', inl (rs ++ [VNil])) ->
  exists cp', call_op L r args (mk_st l cp rf w) = (mk_st (VNil :: rev rs ++ l) cp' rf w', Throw).
Proof.
  intros r x rest f args l cp rf w w' rs E D H Hm C. unfold call_op. rewrite (call_prefix r x rest f args l cp rf w _ E D H Hm).
  eexists. rewrite (bnd_ok _ _ _ _ true (eq_trans (pcall_ok f _ l cp rf w) ltac:(rewrite C; reflexivity))).
  rewrite rev_app_distr. cbn [rev app].
  rewrite (bnd_fail _ _ _ (mk_st (VNil :: rev rs ++ l) (Nat.max cp (length (rs ++ [VNil]) + length l)) rf w') Throw);
    [reflexivity| |intros [b Z]; discriminate].
  unfold check_result. rewrite (bnd_ok _ _ _ _ _ (at_top _ _ _ _ _)). reflexivity.
Qed.
(** a function without results: the check looks at whatever is below, and off the end of an empty stack *)
Theorem C70_no_result_refuted : forall r x rest f args l cp rf w w', rev (res_refs r) = x :: rest -> deref rf x = VFun f ->
  length l + length (args_vals args) + 2 <= cp -> cp <= max_stack L -> call L w f (args_vals args) = (w', inl []) ->
  exists s', call_op L r args (mk_st l cp rf w) = (s', match l with [] => UB | VNil :: _ => Throw | _ => Ok (mk_res [] 0) end).
Proof.
  intros r x rest f args l cp rf w w' E D H Hm C. unfold call_op. rewrite (call_prefix r x rest f args l cp rf w _ E D H Hm).
  assert (P : pcall L (length (args_vals args)) (mk_st (rev (args_vals args) ++ VFun f :: l) cp rf w) = (mk_st l cp rf w', Ok true)).
  { rewrite pcall_ok, C. cbn [rev app length]. f_equal. f_equal. lia. }
  rewrite (bnd_ok _ _ _ _ _ P). destruct l as [|v l]; [eexists; reflexivity|].
  unfold check_result at 1. destruct v;
    (eexists; unfold bnd at 1 2; rewrite at_top; cbn [ret fail]; unfold gettop, bnd; cbn [stk]; rewrite ?Nat.sub_diag; reflexivity).
Qed.

(** ** C71 *)
(** pushing a value and reading it back at the top *)
Lemma round_trip {A} (a : arg (F := F)) v (g : M A) c x l cp rf w : arg_vals a = [v] -> reads 0 g c -> c w v = Ok x ->
  length l < cp -> cp <= max_stack L -> bnd (lua_push L a) (fun _ => g) (mk_st l cp rf w) = (mk_st l cp rf w, Ok x).
Proof.
  intros E R C H Hm. rewrite (bnd_ok _ _ _ _ _ (lua_push_ok L a l cp rf w ltac:(rewrite E; cbn [length]; lia) Hm)). rewrite E. cbn [rev app].
  apply (reads_pops 0 g c v l cp rf w x R ltac:(cbn [length]; lia) C).
Qed.
Definition wrap_s (bits : Z) (z : Z) : Z := ((z + 2 ^ (bits - 1)) mod 2 ^ bits - 2 ^ (bits - 1))%Z.
Definition wrap_u (bits : Z) (z : Z) : Z := (z mod 2 ^ bits)%Z.
Lemma wrap64_id z : (- 2 ^ 63 <= z < 2 ^ 63)%Z -> wrap64 z = z.
Proof. intros H. unfold wrap64. rewrite Z.mod_small; lia. Qed.
Lemma wrap_s_id b z : (0 < b)%Z -> (- 2 ^ (b - 1) <= z < 2 ^ (b - 1))%Z -> wrap_s b z = z.
Proof.
  intros Hb H. unfold wrap_s. assert (2 ^ b = 2 * 2 ^ (b - 1))%Z by (rewrite <- Z.pow_succ_r by lia; f_equal; lia).
  rewrite Z.mod_small; lia.
Qed.
(** signed types of up to 64 bits, and size_t over its whole range *)
Theorem C71_signed : forall b z l cp rf w, (0 < b <= 64)%Z -> (- 2 ^ (b - 1) <= z < 2 ^ (b - 1))%Z -> length l < cp -> cp <= max_stack L ->
  bnd (lua_push L (AInt z)) (fun _ => get_int L (wrap_s b) (-1)) (mk_st l cp rf w) = (mk_st l cp rf w, Ok z).
Proof.
  intros b z l cp rf w Hb Hz. apply (round_trip (AInt z) (VInt (wrap64 z)) _ _ z l cp rf w eq_refl (reads_int L (wrap_s b))).
  unfold conv_int. cbn [is_number]. unfold to_integer. cbn [num_of].
  assert (2 ^ (b - 1) <= 2 ^ 63)%Z by (apply Z.pow_le_mono_r; lia). rewrite wrap64_id by lia. rewrite wrap_s_id by lia. reflexivity.
Qed.
Theorem C71_size_t : forall z l cp rf w, (0 <= z < 2 ^ 64)%Z -> length l < cp -> cp <= max_stack L ->
  bnd (lua_push L (AInt z)) (fun _ => get_int L (wrap_u 64) (-1)) (mk_st l cp rf w) = (mk_st l cp rf w, Ok z).
Proof.
  intros z l cp rf w Hz. apply (round_trip (AInt z) (VInt (wrap64 z)) _ _ z l cp rf w eq_refl (reads_int L (wrap_u 64))).
  unfold conv_int. cbn [is_number]. unfold to_integer, wrap_u, wrap64. cbn [num_of]. f_equal.
  rewrite Zminus_mod, Zmod_mod, <- Zminus_mod. replace (z + 2 ^ 63 - 2 ^ 63)%Z with z by lia. apply Z.mod_small. exact Hz.
Qed.
(** double, and float when widening and narrowing again is the identity *)
Theorem C71_double : forall (x : F) l cp rf w, length l < cp -> cp <= max_stack L ->
  bnd (lua_push L (ANum x)) (fun _ => get_flt L (fun y => y) (-1)) (mk_st l cp rf w) = (mk_st l cp rf w, Ok x).
Proof. intros x l cp rf w. apply (round_trip (ANum x) (VFlt x) _ _ x l cp rf w eq_refl (reads_flt L (fun y => y))). reflexivity. Qed.
Theorem C71_float : forall (S : Type) (widen : S -> F) (narrow : F -> S) x l cp rf w, narrow (widen x) = x -> length l < cp -> cp <= max_stack L ->
  bnd (lua_push L (ANum (widen x))) (fun _ => get_flt L narrow (-1)) (mk_st l cp rf w) = (mk_st l cp rf w, Ok x).
Proof.
  intros S widen narrow x l cp rf w E. apply (round_trip (ANum (widen x)) (VFlt (widen x)) _ _ x l cp rf w eq_refl (reads_flt L narrow)).
  unfold conv_flt. cbn [is_number]. unfold to_number. cbn [num_of]. rewrite E. reflexivity.
Qed.
Theorem C71_bool : forall b l cp rf w, length l < cp -> cp <= max_stack L ->
  bnd (lua_push L (ABool b)) (fun _ => get_bool (-1)) (mk_st l cp rf w) = (mk_st l cp rf w, Ok b).
Proof. intros b l cp rf w. apply (round_trip (ABool b) (VBool b) _ _ b l cp rf w eq_refl reads_bool). reflexivity. Qed.
(** strings come back up to their first NUL *)
Lemma cstr_idem x : cstr (cstr x) = cstr x.
Proof. induction x as [|c x IH]; [reflexivity|]. cbn [cstr]. destruct (Ascii.eqb c zero) eqn:E; [reflexivity|]. cbn [cstr]. rewrite E, IH. reflexivity. Qed.
Theorem C71_string_upto_nul : forall x l cp rf w, length l < cp -> cp <= max_stack L ->
  bnd (lua_push L (AStr x)) (fun _ => get_string L (-1)) (mk_st l cp rf w) = (mk_st l cp rf w, Ok (cstr x))
  /\ bnd (lua_push L (ACstr x)) (fun _ => get_string L (-1)) (mk_st l cp rf w) = (mk_st l cp rf w, Ok (cstr x)).
Proof.
  intros x l cp rf w H Hm. split.
  - apply (round_trip (AStr x) (VStr x) _ _ (cstr x) l cp rf w eq_refl (reads_string L)); [reflexivity|exact H|exact Hm].
  - apply (round_trip (ACstr x) (VStr (cstr x)) _ _ (cstr x) l cp rf w eq_refl (reads_string L)); [|exact H|exact Hm].
    unfold conv_string. cbn. rewrite cstr_idem. reflexivity.
Qed.
Fixpoint no_nul (x : string) : Prop := match x with EmptyString => True | String c x' => c <> zero /\ no_nul x' end.
Lemma cstr_id x : no_nul x <-> cstr x = x.
Proof.
  induction x as [|c x IH]; cbn [cstr no_nul]; [tauto|]. destruct (Ascii.eqb_spec c zero) as [->|N].
  - split; [intros [H _]; contradiction|discriminate].
  - rewrite IH. split; [intros [_ ->]; reflexivity|]. intros E. injection E as E. split; [exact N|exact E].
Qed.
Theorem C71_string_partial : forall x l cp rf w, no_nul x -> length l < cp -> cp <= max_stack L ->
  bnd (lua_push L (AStr x)) (fun _ => get_string L (-1)) (mk_st l cp rf w) = (mk_st l cp rf w, Ok x).
Proof. intros x l cp rf w N H Hm. destruct (C71_string_upto_nul x l cp rf w H Hm) as [E _]. rewrite E, (proj1 (cstr_id x) N). reflexivity. Qed.
Theorem C71_string_refuted : forall x l cp rf w, ~ no_nul x -> length l < cp -> cp <= max_stack L ->
  exists y, bnd (lua_push L (AStr x)) (fun _ => get_string L (-1)) (mk_st l cp rf w) = (mk_st l cp rf w, Ok y) /\ y <> x.
Proof.
  intros x l cp rf w N H Hm. exists (cstr x). destruct (C71_string_upto_nul x l cp rf w H Hm) as [E _]. split; [exact E|].
  intros Y. apply N, cstr_id, Y.
Qed.
(** an array is pushed as separate numbers, so reading an array back fails *)
Theorem C71_array_push_refuted : forall A xs N (g : M A) l cp rf w, xs <> [] -> length l + length xs <= cp -> cp <= max_stack L ->
  exists s', bnd (lua_push L (AArr xs)) (fun _ => get_array L N g (-1)) (mk_st l cp rf w) = (s', Throw).
Proof.
  intros A xs N g l cp rf w Hx H Hm.
  rewrite (bnd_ok _ _ _ _ _ (lua_push_ok L (AArr xs) l cp rf w ltac:(cbn [arg_vals]; rewrite map_length; lia) Hm)). cbn [arg_vals].
  destruct (exists_last Hx) as (ys & y & ->). rewrite map_app, rev_app_distr. cbn [map rev app].
  eexists. unfold get_array. rewrite (bnd_ok _ _ _ _ _ (at_top _ _ _ _ _)). reflexivity.
Qed.
(** a table read as a vector: exactly its elements 1..n, each converted; the table is popped *)
Theorem C71_vector : forall A k (g : M A) c t l cp rf w xs, reads k g c -> length l + 1 + S k <= cp ->
  get_vector L g (-1) (mk_st (VTab t :: l) cp rf w) = (mk_st l cp rf w, Ok xs) <->
  length xs = t_len L w t /\ forall j a, nth_error xs j = Some a -> c w (t_geti L w t (1 + Z.of_nat j)) = Ok a.
Proof.
  intros A k g c t l cp rf w xs R H. destruct (reads_vector L k g c R (VTab t) l cp rf w ltac:(cbn [length]; lia)) as (rest & G & Y & _).
  rewrite G. pose proof (conv_elems_ok L c w t (t_len L w t) 0 xs) as S. cbn [conv_vector] in *. rewrite <- S. split.
  - intros E. congruence.
  - intros E. rewrite Y, E by (eexists; exact E). reflexivity.
Qed.
(** likewise for an array of N; any other length is rejected *)
Theorem C71_array : forall A N k (g : M A) c t l cp rf w xs, reads k g c -> length l + 1 + S k <= cp ->
  get_array L N g (-1) (mk_st (VTab t :: l) cp rf w) = (mk_st l cp rf w, Ok xs) <->
  t_len L w t = N /\ length xs = N /\ forall j a, nth_error xs j = Some a -> c w (t_geti L w t (1 + Z.of_nat j)) = Ok a.
Proof.
  intros A N k g c t l cp rf w xs R H. destruct (reads_array L N k g c R (VTab t) l cp rf w ltac:(cbn [length]; lia)) as (rest & G & Y & _).
  rewrite G. pose proof (conv_elems_ok L c w t N 0 xs) as S. cbn [conv_array] in *.
  destruct (Nat.eqb_spec (t_len L w t) N) as [E|E].
  - split; [intros Z; split; [exact E|]; apply S; congruence|]. intros [_ Z]. apply S in Z. rewrite Y, Z by (eexists; exact Z). reflexivity.
  - split; [discriminate|]. intros [Z _]. contradiction.
Qed.
(** with a default: the default exactly when every reference is nil, otherwise the conversion *)
Theorem C71_default : forall A (g : M A) d r s,
  (Forall (fun x => ref_empty x = true) (res_refs r) -> as_default L g d r s = (s, Ok d))
  /\ (Exists (fun x => ref_empty x = false) (res_refs r) -> as_default L g d r s = as_one L g r s).
Proof.
  intros A g d r s. unfold as_default, res_empty. split; intros H.
  - rewrite (proj2 (forallb_forall _ _)); [reflexivity|]. apply Forall_forall. exact H.
  - apply Exists_exists in H as (x & I & E). destruct (forallb ref_empty (res_refs r)) eqn:B; [|reflexivity].
    rewrite forallb_forall in B. rewrite (B x I) in E. discriminate.
Qed.
Theorem C71_array_length : forall A N (g : M A) t l cp rf w, t_len L w t <> N ->
  get_array L N g (-1) (mk_st (VTab t :: l) cp rf w) = (mk_st (VTab t :: l) cp rf w, Throw).
Proof.
  intros A N g t l cp rf w H. unfold get_array. rewrite (bnd_ok _ _ _ _ _ (at_top _ _ _ _ _)), (bnd_ok _ _ _ _ _ (at_top _ _ _ _ _)).
  unfold rawlen, bnd. cbn [world]. rewrite (proj2 (Nat.eqb_neq _ _) H). reflexivity.
Qed.

(** ** C89: the recorded type is that of the value below *)
Theorem C89_type_refuted : forall v u l cp rf (w : W), exists s' r, make_ref (mk_st (v :: u :: l) cp rf w) = (s', Ok r) /\ r_type r = Some u.
Proof.
  intros v u l cp rf w. destruct (make_ref_spec v (u :: l) cp rf w) as (rf' & r & E & _ & _ & _ & T). eexists. exists r. split; [exact E|exact T].
Qed.
Theorem C89_value_partial : forall v l cp rf (w : W), exists rf' r, make_ref (mk_st (v :: l) cp rf w) = (mk_st l cp (rf ++ rf') w, Ok r)
  /\ (ref_empty r = true <-> v = VNil)
  /\ forall more l2 cp2 w2, length l2 < cp2 -> push_ref r (mk_st l2 cp2 (rf ++ rf' ++ more) w2) = (mk_st (v :: l2) cp2 (rf ++ rf' ++ more) (w2 : W), Ok tt).
Proof.
  intros v l cp rf w. destruct (make_ref_spec v l cp rf w) as (rf' & r & E & D & Lv & Em & _). exists rf', r. split; [exact E|]. split; [exact Em|].
  intros more l2 cp2 w2 H. rewrite push_ref_ok by exact H. rewrite app_assoc, deref_app by exact Lv. rewrite D. reflexivity.
Qed.
(** ** C90: slots *)
(** Array<double,N>: after the caller's check for one slot, a check for N-1 slots does not make room for N *)
Theorem C90_array_refuted : forall (xs : list F) l rf w, length xs >= 2 -> length l + length xs - 1 <= max_stack L ->
  let cp := length l + length xs - 1 in snd (push_args L [AArr xs] (mk_st l cp rf w)) = UB.
Proof.
  intros xs l rf w Hx Hm cp. cbn [push_args].
  rewrite (bnd_ok _ _ _ _ _ (check_stack_ok L 1 l cp rf w ltac:(unfold cp; lia))). replace (Nat.max cp (length l + 1)) with cp by (unfold cp; lia).
  assert (P : lua_push L (AArr xs) (mk_st l cp rf w) = (mk_st (rev (map VFlt (removelast xs)) ++ l) cp rf w, UB)).
  { cbn [lua_push]. unfold bnd at 1. unfold checkstack. cbn [stk cap refs world].
    rewrite (proj2 (Nat.leb_le _ _)) by lia. replace (Nat.max cp (length l + (length xs - 1))) with cp by (unfold cp; lia).
    assert (Nx : xs <> []) by (destruct xs; [cbn [length] in Hx; lia|discriminate]).
    destruct (exists_last Nx) as (ys & y & ->). rewrite removelast_last, map_app. cbn [map].
    assert (Q : forall (a b : list val) (s : st W F), push_each (a ++ b) s = bnd (push_each a) (fun _ => push_each b) s).
    { induction a as [|x a IH]; intros b s; [reflexivity|]. cbn [app push_each]. unfold bnd at 1 2 3. destruct (push x s) as [s1 [u| | |]]; try reflexivity. rewrite IH. reflexivity. }
    assert (Hcp : cp = length l + length ys) by (unfold cp; rewrite app_length; cbn [length]; lia). clearbody cp.
    rewrite (bnd_fail _ _ _ (mk_st (rev (map VFlt ys) ++ l) cp rf w) UB); [reflexivity| |intros [b X]; discriminate].
    rewrite Q, (bnd_ok _ _ _ _ _ (push_each_ok (map VFlt ys) l cp rf w ltac:(rewrite map_length; lia))).
    cbn [push_each]. rewrite (bnd_fail _ _ _ _ _ (push_full (VFlt y) (rev (map VFlt ys) ++ l) cp rf w ltac:(rewrite app_length, rev_length, map_length; lia)));
      [reflexivity|intros [b X]; discriminate]. }
  rewrite (bnd_fail _ _ _ _ _ P) by (intros [b X]; discriminate). reflexivity.
Qed.
(** reading a global or an element of a table checks nothing: with a full frame it overflows *)
Theorem C90_unchecked_refuted : forall l cp rf w, cp <= length l ->
  (forall key, snd (get_global L key (mk_st l cp rf w)) = UB)
  /\ (forall A (g : M A) t l', l = VTab t :: l' -> t_len L w t <> 0 -> snd (get_vector L g (-1) (mk_st l cp rf w)) = UB).
Proof.
  intros l cp rf w H. split.
  - intros key. unfold get_global. rewrite (bnd_fail _ _ _ (mk_st l cp rf w) UB); [reflexivity|apply push_full; exact H|intros [b X]; discriminate].
  - intros A g t l' -> N. unfold get_vector. rewrite (bnd_ok _ _ _ _ _ (at_top _ _ _ _ _)), (bnd_ok _ _ _ _ _ (at_top _ _ _ _ _)).
    unfold rawlen at 1. unfold bnd at 1. cbn [world]. destruct (t_len L w t) as [|n]; [contradiction|]. cbn [get_elems].
    unfold bnd at 1 2. unfold rawgeti, bnd. rewrite at_top. rewrite push_full by exact H. reflexivity.
Qed.
(** with n+1 free slots a call with n pushed argument values never overflows *)
Theorem C90_call_partial : forall r x rest f args l cp rf w, rev (res_refs r) = x :: rest -> deref rf x = VFun f ->
  length l + length (args_vals args) + 2 <= cp -> cp <= max_stack L -> (forall w' rs, call L w f (args_vals args) = (w', inl rs) -> rs <> []) ->
  snd (call_op L r args (mk_st l cp rf w)) <> UB.
Proof.
  intros r x rest f args l cp rf w E D H Hm N. destruct (call L w f (args_vals args)) as [w' [rs|e]] eqn:C.
  - destruct (exists_last (N w' rs eq_refl)) as (ys & y & ->). assert (X : y = VNil \/ y <> VNil) by (destruct y; [left; reflexivity|right; discriminate..]).
    destruct X as [->|X].
    + destruct (C70_trailing_nil_refuted r x rest f args l cp rf w w' ys E D H Hm C) as [cp' Z]. rewrite Z. discriminate.
    + destruct (call_spec r x rest f args l cp rf w w' ys y E D H Hm C X) as (rf' & r' & Z & _). rewrite Z. discriminate.
  - rewrite (C69_call_refuted r x rest f args l cp rf w w' e E D H Hm C). discriminate.
Qed.
(** ** C91: matrices *)
(** rows longer than N are silently cut; a row that is no table is API misuse *)
Theorem C91_matrix_partial : forall A Mm N k (g : M A) c t l cp rf w rows, reads k g c -> length l + 1 + S (S k) <= cp ->
  t_len L w t = Mm -> length rows = Mm ->
  (forall i row, nth_error rows i = Some row -> exists ti, t_geti L w t (1 + Z.of_nat i) = VTab ti /\ length row = N
     /\ forall j a, nth_error row j = Some a -> c w (t_geti L w ti (1 + Z.of_nat j)) = Ok a) ->
  get_matrix L Mm N g (-1) (mk_st (VTab t :: l) cp rf w) = (mk_st l cp rf w, Ok rows).
Proof.
  intros A Mm N k g c t l cp rf w rows R H Hl Hr He. apply (reads_pops (S (S k)) _ _ _ l cp rf w _ (reads_matrix L Mm N k g c R) ltac:(cbn [length]; lia)).
  cbn [conv_matrix]. rewrite Hl, Nat.eqb_refl. apply conv_elems_ok. split; [exact Hr|]. intros i row Hi.
  destruct (He i row Hi) as (ti & T & Ln & Hj). change (0 + 1)%Z with 1%Z. rewrite T. cbn [conv_row]. apply conv_elems_ok. split; [exact Ln|exact Hj].
Qed.
Theorem C91_matrix_row_refuted : forall A Mm N k (g : M A) c t l cp rf w, reads k g c -> length l + 1 + S (S k) <= cp ->
  t_len L w t = S Mm -> N <> 0 -> (forall ti, t_geti L w t 1 <> VTab ti) ->
  snd (get_matrix L (S Mm) N g (-1) (mk_st (VTab t :: l) cp rf w)) = UB.
Proof.
  intros A Mm N k g c t l cp rf w R H Hl Hn Ht. destruct (reads_matrix L (S Mm) N k g c R (VTab t) l cp rf w ltac:(cbn [length]; lia)) as (rest & G & _).
  rewrite G. cbn [snd conv_matrix]. rewrite Hl, Nat.eqb_refl. cbn [conv_elems Z.add]. destruct (t_geti L w t 1) eqn:E; cbn [conv_row];
    try (rewrite (proj2 (Nat.eqb_neq _ _) Hn); reflexivity). exfalso. exact (Ht _ eq_refl).
Qed.
(** ** C92: reading a table that is not on top *)
Theorem C92_index_refuted : forall A (g : M A) t (v : val) l cp rf w, (forall u, v <> VTab u) -> (forall x, v = VStr x -> x <> EmptyString) ->
  let s := mk_st (v :: VTab t :: l) cp rf w in
  snd (get_vector L g (-2) s) = match v with VStr _ => UB | _ => Ok [] end.
Proof.
  intros A g t v l cp rf w Hv Hs. cbv zeta. unfold get_vector. rewrite (bnd_ok _ _ _ _ _ (at_second _ _ _ _ _ _)), (bnd_ok _ _ _ _ _ (at_top _ _ _ _ _)).
  unfold rawlen at 1. unfold bnd at 1. cbn [world].
  assert (Q : remove (-2) (mk_st (v :: VTab t :: l) cp rf w) = (mk_st (v :: l) cp rf w, Ok tt)).
  { unfold remove, depth. cbn [stk]. destruct (Z.ltb_spec 0 (-2)); [lia|]. destruct (Z.ltb_spec (-2) 0); [|lia].
    destruct (Z.leb_spec (- (-2)) (Z.of_nat (length (v :: VTab t :: l)))) as [_|H1]; [reflexivity|cbn [length] in H1; lia]. }
  destruct v as [|b|z|x|x|u|f]; try (cbn [get_elems]; unfold bnd at 1; cbn [ret]; rewrite (bnd_ok _ _ _ _ _ Q); reflexivity).
  - destruct x as [|ch x]; [exfalso; exact (Hs _ eq_refl eq_refl)|]. cbn [String.length get_elems]. unfold bnd, rawgeti, bnd. rewrite at_top. reflexivity.
  - exfalso. exact (Hv u eq_refl).
Qed.
(** ** C93: integers *)
Theorem C93_not_an_integer_refuted : forall (x : F) wrap l cp rf w, f_to_int L x = None ->
  get_int L wrap (-1) (mk_st (VFlt x :: l) cp rf w) = (mk_st l cp rf w, Ok (wrap 0%Z)).
Proof.
  intros x wrap l cp rf w E. unfold get_int. rewrite (bnd_ok _ _ _ _ _ (at_top _ _ _ _ _)). cbn [is_number].
  rewrite (bnd_ok _ _ _ _ _ (remove_top _ _ _ _ _)). unfold to_integer. cbn [num_of]. rewrite E. reflexivity.
Qed.
Theorem C93_out_of_range_refuted : forall z l cp rf w,
  get_int L (wrap_s 32) (-1) (mk_st (VInt (z + 2 ^ 32) :: l) cp rf w) = get_int L (wrap_s 32) (-1) (mk_st (VInt z :: l) cp rf w).
Proof.
  intros z l cp rf w. unfold get_int. rewrite !(bnd_ok _ _ _ _ _ (at_top _ _ _ _ _)). cbn [is_number]. rewrite !(bnd_ok _ _ _ _ _ (remove_top _ _ _ _ _)).
  unfold to_integer, ret. cbn [num_of]. do 2 f_equal. unfold wrap_s. f_equal.
  replace (z + 2 ^ 32 + 2 ^ (32 - 1))%Z with (z + 2 ^ (32 - 1) + 1 * 2 ^ 32)%Z by lia. apply Z_mod_plus_full.
Qed.
Theorem C93_integer_partial : forall z b l cp rf w, (0 < b)%Z -> (- 2 ^ (b - 1) <= z < 2 ^ (b - 1))%Z ->
  (get_int L (wrap_s b) (-1) (mk_st (VInt z :: l) cp rf w) = (mk_st l cp rf w, Ok z))
  /\ (forall x, f_to_int L x = Some z -> get_int L (wrap_s b) (-1) (mk_st (VFlt x :: l) cp rf w) = (mk_st l cp rf w, Ok z)).
Proof.
  intros z b l cp rf w Hb Hz. split; [|intros x E]; unfold get_int; rewrite (bnd_ok _ _ _ _ _ (at_top _ _ _ _ _)); cbn [is_number];
    rewrite (bnd_ok _ _ _ _ _ (remove_top _ _ _ _ _)); unfold to_integer; cbn [num_of]; rewrite ?E, wrap_s_id by assumption; reflexivity.
Qed.
(** ** C94: scripts *)
Theorem C94_script_refuted : forall src l cp rf w w' rs, chunk L w (cstr src) = (w', inl rs) ->
  exists cp', run_string L src (mk_st l cp rf w) = (mk_st (rev rs ++ l) cp' rf w', Ok tt).
Proof. intros src l cp rf w w' rs E. eexists. unfold run_string. cbn [world stk cap refs]. rewrite E. reflexivity. Qed.
Theorem C94_script_partial : forall src l cp rf w w', chunk L w (cstr src) = (w', inl []) -> length l <= cp ->
  run_string L src (mk_st l cp rf w) = (mk_st l cp rf w', Ok tt).
Proof. intros src l cp rf w w' E H. unfold run_string. cbn [world stk cap refs]. rewrite E. cbn [rev app length]. f_equal. f_equal. lia. Qed.
End General.
Print Assumptions C69_global_partial.
Print Assumptions C69_convert_partial.
Print Assumptions C69_call_partial.
Print Assumptions C69_index_refuted.
Print Assumptions C69_convert_refuted.
Print Assumptions C69_call_refuted.
Print Assumptions C69_not_function_refuted.
Print Assumptions C70_tuple.
Print Assumptions C70_single.
Print Assumptions C70_adjust_refuted.
Print Assumptions C70_adjust_single_refuted.
Print Assumptions C70_trailing_nil_refuted.
Print Assumptions C70_no_result_refuted.
Print Assumptions C71_signed.
Print Assumptions C71_size_t.
Print Assumptions C71_double.
Print Assumptions C71_float.
Print Assumptions C71_bool.
Print Assumptions C71_string_upto_nul.
Print Assumptions C71_string_partial.
Print Assumptions C71_string_refuted.
Print Assumptions C71_array_push_refuted.
Print Assumptions C71_vector.
Print Assumptions C71_array.
Print Assumptions C71_array_length.
Print Assumptions C71_default.
Print Assumptions C89_type_refuted.
Print Assumptions C89_value_partial.
Print Assumptions C90_array_refuted.
Print Assumptions C90_unchecked_refuted.
Print Assumptions C90_call_partial.
Print Assumptions C91_matrix_partial.
Print Assumptions C91_matrix_row_refuted.
Print Assumptions C92_index_refuted.
Print Assumptions C93_not_an_integer_refuted.
Print Assumptions C93_out_of_range_refuted.
Print Assumptions C93_integer_partial.
Print Assumptions C94_script_refuted.
Print Assumptions C94_script_partial.

(** ** examples: an interpretation with halves as numbers (F = Z, x stands for x/2) *)
Definition demo : lua unit Z := mk_lua_api unit Z
  (fun z => 2 * z)%Z (fun x => if Z.even x then Some (x / 2)%Z else None) (fun _ => None) (fun _ => EmptyString)
  (fun _ t => match t with 0 => 3 | 1 => 2 | 2 => 2 | _ => 0 end)
  (fun _ t i => match t with
     | 0 => if (1 <=? i)%Z && (i <=? 3)%Z then VInt (10 * i) else VNil              (* {10,20,30} *)
     | 1 => if (i =? 1)%Z then VTab 0 else if (i =? 2)%Z then VTab 2 else VNil      (* {{10,20,30},{7,8}} *)
     | 2 => if (i =? 1)%Z then VInt 7 else if (i =? 2)%Z then VInt 8 else VNil
     | _ => VNil end)
  (fun _ t k => if (t =? 0) && String.eqb k "x" then VStr "field" else VNil)
  (fun _ k => if String.eqb k "t" then VTab 0 else if String.eqb k "f" then VFun 0 else if String.eqb k "n" then VInt 5 else VNil)
  (fun w f args => (w, match f with
     | 0 => inl (args ++ [VInt 99])            (* all arguments and one more *)
     | 1 => inl []                             (* no result *)
     | 2 => inl [VInt 1; VNil]
     | _ => inr (VStr "error") end))
  (fun w src => (w, inl [VInt 42])) 1000.
Definition int32 := get_int demo (wrap_s 32) (-1).
Definition s0 : st unit Z := mk_st [VBool true] 20 [] tt.
Example C69_example : exists rf r, get_global demo "f" s0 = (mk_st [VBool true] 20 rf tt, Ok r)
  /\ rev (res_refs r) = [mk_ref (Some 0) (Some (VBool true))] /\ deref rf (mk_ref (Some 0) (Some (VBool true))) = VFun 0.
Proof. eexists. eexists. split; [reflexivity|]. split; reflexivity. Qed.
Example C69_index_witness : fst (bnd (get_global demo "t") (fun r => index_key demo r "x") s0) = mk_st [] 20 [VTab 0; VStr "field"] tt.
Proof. reflexivity. Qed.
Example C69_convert_witness : exists rf, bnd (get_global demo "t") (as_one demo int32) s0 = (mk_st [VTab 0; VBool true] 20 rf tt, Throw).
Proof. eexists. reflexivity. Qed.
Example C70_example : let p := bnd (get_global demo "f") (fun f => bnd (call_op demo f [AInt 3; AInt 4]) (as_tuple demo [int32; int32; int32])) s0 in
  snd p = Ok [3; 4; 99]%Z /\ stk (fst p) = [VBool true].
Proof. split; vm_compute; reflexivity. Qed.
Example C70_hypotheses : Forall (fun p => reads 0 (fst p) (snd p)) [(int32, conv_int demo (wrap_s 32)); (int32, conv_int demo (wrap_s 32))]
  /\ Forall2 (fun p va => snd p tt (fst va) = Ok (snd va)) [(int32, conv_int demo (wrap_s 32)); (int32, conv_int demo (wrap_s 32))] [(VInt 1, 1%Z); (VInt 99, 99%Z)].
Proof.
  split; [repeat constructor; exact (reads_int demo (wrap_s 32))|]. repeat constructor.
Qed.
Example C71_example : get_vector demo int32 (-1) (mk_st [VTab 0; VNil] 20 [] tt) = (mk_st [VNil] 20 [] tt, Ok [10; 20; 30]%Z)
  /\ snd (get_array demo 2 int32 (-1) (mk_st [VTab 0; VNil] 20 [] tt)) = Throw
  /\ bnd (lua_push demo (AStr (String "a" (String zero (String "b" EmptyString))))) (fun _ => get_string demo (-1)) s0 = (s0, Ok "a"%string).
Proof. split; [vm_compute; reflexivity|]. split; vm_compute; reflexivity. Qed.
(** {{10,20,30},{7,8}} as a 2x2 matrix loses the 30 *)
Theorem C91_cut_refuted : get_matrix demo 2 2 int32 (-1) (mk_st [VTab 1] 20 [] tt) = (mk_st [] 20 [] tt, Ok [[10; 20]; [7; 8]]%Z).
Proof. vm_compute. reflexivity. Qed.
Example C91_row_witness : snd (get_matrix demo 3 2 int32 (-1) (mk_st [VTab 0] 20 [] tt)) = UB.
Proof. vm_compute. reflexivity. Qed.
Example C92_witness : snd (get_vector demo int32 (-2) (mk_st [VBool true; VTab 0] 20 [] tt)) = Ok [].
Proof. vm_compute. reflexivity. Qed.
(** 2.5 read as an int is 0 *)
Example C93_witness : get_int demo (wrap_s 32) (-1) (mk_st [VFlt 5%Z] 20 [] tt) = (mk_st [] 20 [] tt, Ok 0%Z).
Proof. vm_compute. reflexivity. Qed.
(** twenty failed conversions fill the frame of a new state; the next global access overflows it *)
Fixpoint leak (n : nat) : M unit Z unit := match n with O => ret tt | S m =>
  fun s => leak m (fst (bnd (get_global demo "t") (as_one demo int32) s)) end.
Example C90_witness : snd (bnd (leak 20) (fun _ => get_global demo "n") (mk_st [] 20 [] tt)) = UB
  /\ snd (bnd (get_global demo "f") (fun f => call_op demo f [AArr (repeat 1%Z 20)]) (mk_st [] 20 [] tt)) = UB.
Proof. split; vm_compute; reflexivity. Qed.
Print Assumptions C91_cut_refuted.
