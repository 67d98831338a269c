(** Property theorems for the lifetimes of Lua references and function wrappers (C158, C159). *)
From Coq Require Import List Arith Bool Lia.
From Verif Require Import Outcome LuaRefModel LuaRefProofs.
Import ListNotations.

(** * C158. References behave as plain values: whatever copies are made, moved and destroyed, a reference pushes the value
    it was made from, the registry holds nothing else, and the state is open exactly as long as something uses it *)
Section C158.
Context {V : Type} (fresh : list (nat * V) -> nat).
Definition srun (l : list (@op V)) : option (list (option (@sobj V))) :=
  fold_left (fun s p => match s with Some s => sstep s p | None => None end) l (Some [Some SBase]).
Lemma run_inv (fresh_ok : forall l, ~ In (fresh l) (map fst l)) l : match srun l with
  | Some s => exists w, run fresh start l = Ok w /\ inv w s
  | None => run fresh start l = UB end.
Proof.
  unfold srun, run. induction l as [|p l IH] using rev_ind.
  - exists start. split; [reflexivity|apply inv_start].
  - rewrite !fold_left_app. cbn. destruct (fold_left _ l (Some [Some SBase])) as [s|].
    + destruct IH as (w & -> & I). cbn. destruct (sstep s p) as [s'|] eqn:E.
      * exact (inv_step fresh fresh_ok _ _ _ _ I E).
      * exact (inv_misuse fresh _ _ _ I E).
    + now rewrite IH.
Qed.
(** a program that uses existing objects only has no undefined behaviour, and every reference pushes its value *)
Theorem C158_values : (forall l, ~ In (fresh l) (map fst l)) -> forall l s, srun l = Some s ->
  exists w, run fresh start l = Ok w /\
  forall o v, nth_error s o = Some (Some (SVal v)) -> push w o = Ok v /\ is_empty w o = Ok (match v with None => true | Some _ => false end).
Proof.
  intros Hf l s E. pose proof (run_inv Hf l) as H. rewrite E in H. destruct H as (w & R & I). exists w. split; [exact R|].
  intros o v Eo. destruct (Forall2_nth' _ _ _ _ _ (i_rel _ _ I) Eo) as (y & Ey & Q). destruct y as [[|b|]|]; cbn in Q; try contradiction.
  pose proof (inv_open _ _ _ _ I Ey eq_refl) as O. unfold push, is_empty. rewrite Ey, O. cbn. rewrite nth_error_map in Q.
  destruct (nth_error (w_blocks w) b) as [x|]; cbn in Q; [|contradiction]. destruct (b_key x) as [k|].
  - destruct Q as [-> Q]. split; [reflexivity|]. destruct (lookup k (w_reg w)); [reflexivity|congruence].
  - subst v. split; reflexivity.
Qed.
Print Assumptions C158_values.
(** nothing else stays in the registry, and no key is there twice *)
Theorem C158_registry : (forall l, ~ In (fresh l) (map fst l)) -> forall l w, run fresh start l = Ok w ->
  NoDup (map fst (w_reg w)) /\ forall k v, In (k, v) (w_reg w) -> exists o, push w o = Ok (Some v).
Proof.
  intros Hf l w R. pose proof (run_inv Hf l) as H. destruct (srun l) as [s|]; [|congruence]. destruct H as (w' & R' & I).
  rewrite R in R'. injection R' as <-. split; [apply (i_nodup _ _ I)|]. intros k v Ik.
  destruct (i_reg _ _ I k (in_map fst _ _ Ik)) as (b & x & Eb & Lx & Kx).
  destruct (cnt_pos (is_ref b) (w_objs w)) as (o & y & Ey & Ry).
  { rewrite <- (i_cnt _ _ I _ _ Eb). unfold live in Lx. destruct (b_uses x); [discriminate|lia]. }
  destruct y as [[|c|]|]; cbn in Ry; try discriminate. apply Nat.eqb_eq in Ry; subst c. exists o.
  pose proof (inv_open _ _ _ _ I Ey eq_refl) as O. unfold push. rewrite Ey, O, Eb, Kx. cbn. f_equal.
  pose proof (i_nodup _ _ I) as N. revert Ik N. generalize (w_reg w). induction l0 as [|[i u] l0 IH]; cbn; [tauto|].
  intros [[= -> ->]|Ik] N; [now rewrite Nat.eqb_refl|]. inversion N as [|? ? N1 N2]; subst. destruct (Nat.eqb_spec i k) as [->|]; [|auto].
  exfalso. apply N1. apply (in_map fst _ _ Ik).
Qed.
Print Assumptions C158_registry.
(** the state is open exactly if an object with a state is left; using a destroyed object is undefined *)
Theorem C158_state : (forall l, ~ In (fresh l) (map fst l)) -> forall l s w, srun l = Some s -> run fresh start l = Ok w ->
  w_open w = existsb (fun x => match x with Some SBase | Some (SVal _) => true | _ => false end) s.
Proof.
  intros Hf l s w E R. pose proof (run_inv Hf l) as H. rewrite E in H. destruct H as (w' & R' & I). rewrite R in R'. injection R' as <-.
  destruct (existsb _ s) eqn:X.
  - apply existsb_exists in X. destruct X as (y & Iy & Uy). apply In_nth_error in Iy. destruct Iy as [o Eo].
    destruct (Forall2_nth' _ _ _ _ _ (i_rel _ _ I) Eo) as (x & Ex & Q). apply (inv_open _ _ _ _ I Ex).
    destruct x as [[| |]|], y as [[| |]|]; cbn in Q; try contradiction; try discriminate; reflexivity.
  - rewrite (i_open _ _ I), (i_uses _ _ I).
    assert (NU : forall o x, nth_error (w_objs w) o = Some x -> LuaRefProofs.user x = false).
    { intros o x Ex. destruct (Forall2_nth _ _ _ _ _ (i_rel _ _ I) Ex) as (y & Ey & Q).
      assert (Z : (match y with Some SBase | Some (SVal _) => true | _ => false end) = false).
      { destruct (match y with Some SBase | Some (SVal _) => true | _ => false end) eqn:T; [|reflexivity].
        rewrite <- X. symmetry. apply existsb_exists. exists y. split; [exact (nth_error_In _ _ Ey)|exact T]. }
      destruct x as [[| |]|], y as [[| |]|]; cbn in Q; try contradiction; try discriminate; reflexivity. }
    assert (C1 : cnt LuaRefProofs.user (w_objs w) = 0).
    { destruct (cnt LuaRefProofs.user (w_objs w)) eqn:C; [reflexivity|].
      destruct (cnt_pos LuaRefProofs.user (w_objs w)) as (o & x & Ex & Ux); [lia|]. rewrite (NU _ _ Ex) in Ux. discriminate. }
    assert (C2 : cnt live (w_blocks w) = 0).
    { destruct (cnt live (w_blocks w)) eqn:C; [reflexivity|].
      destruct (cnt_pos live (w_blocks w)) as (b & x & Ex & Ux); [lia|]. unfold live in Ux. rewrite (i_cnt _ _ I _ _ Ex) in Ux.
      destruct (cnt_pos (is_ref b) (w_objs w)) as (o & y & Ey & Uy); [destruct (cnt (is_ref b) (w_objs w)); [discriminate|lia]|].
      pose proof (NU _ _ Ey). destruct y as [[| |]|]; discriminate. }
    rewrite C1, C2. reflexivity.
Qed.
Print Assumptions C158_state.
Theorem C158_misuse : (forall l, ~ In (fresh l) (map fst l)) -> forall l, srun l = None -> run fresh start l = UB.
Proof. intros Hf l E. pose proof (run_inv Hf l) as H. now rewrite E in H. Qed.
Print Assumptions C158_misuse.
End C158.
(** keys are reused, references are not confused *)
Definition next_key (l : list (nat * nat)) : nat := S (list_max (map fst l)).
Lemma next_key_ok l : ~ In (next_key l) (map fst l).
Proof. intros H. pose proof (proj1 (Forall_forall _ _) (proj1 (list_max_le (map fst l) (list_max (map fst l))) (Nat.le_refl _)) _ H). cbn in *. unfold next_key in *. lia. Qed.
Example C158_ex :
  (* lua_t 0; reference 1 to value 7; copy 2; 1 destroyed; reference 3 to value 8; 2 moved to 4; lua_t destroyed *)
  let l := [MakeRef 0 (Some 7); Copy 1; Destroy 1; MakeRef 0 (Some 8); Move 2; Destroy 0] in
  srun l = Some [None; None; Some SMoved; Some (SVal (Some 8)); Some (SVal (Some 7))] /\
  match run next_key start l with
  | Ok w => push w 4 = Ok (Some 7) /\ push w 3 = Ok (Some 8) /\ push w 2 = UB /\ w_open w = true
  | _ => False end /\
  match run next_key start (l ++ [Destroy 4; Destroy 3]) with Ok w => w_open w = false /\ w_reg w = [] | _ => False end.
Proof. vm_compute. repeat split. Qed.

(** * C159. A function wrapper calls the function it was made from as long as it lives *)
Section C159.
Context {R : Type}.
Definition swrun (l : list (@wop R)) : option (@sworld R) :=
  fold_left (fun s p => match s with Some s => swstep s p | None => None end) l (Some (mk_sw [] [] [])).
(** as long as no object that a wrapper was made from by reference is destroyed or assigned to *)
Theorem C159_wrappers : forall (l : list (@wop R)) s, swrun l = Some s -> exists w, wrun l = Ok w /\
  forall j r, nth_error (s_wraps s) j = Some (Some r) -> called w j = Ok r.
Proof.
  intros l s E.
  assert (H : exists w, wrun l = Ok w /\ winv w s).
  { revert s E. unfold swrun, wrun. induction l as [|p l IH] using rev_ind; intros s E.
    - injection E as <-. eexists. split; [reflexivity|apply winv_start].
    - rewrite fold_left_app in *. cbn in *. destruct (fold_left _ l (Some _)) as [s0|]; [|discriminate].
      destruct (IH s0 eq_refl) as (w & -> & I). cbn. exact (wstep_ok _ _ _ _ I E). }
  destruct H as (w & Rw & I). exists w. split; [exact Rw|]. intros j r Ej.
  destruct (Forall2_nth' _ _ _ _ _ (wi_rel _ _ I) Ej) as ([x|] & Ex & Q); [|contradiction]. destruct Q as [Q _].
  unfold called. rewrite Ex. unfold alive. now rewrite Q.
Qed.
Print Assumptions C159_wrappers.
(** wrappers made from unique pointers only: no condition is left but that objects given away are not used *)
Theorem C159_unique : forall (l : list (@wop R)) s, swrun l = Some s -> (forall i, ~ In (WrapRef i) l) -> s_referred s = [].
Proof.
  intros l. unfold swrun. induction l as [|p l IH] using rev_ind; intros s E N; [now injection E as <-|].
  rewrite fold_left_app in E. cbn in E. destruct (fold_left _ l (Some _)) as [s0|]; [|discriminate].
  assert (S0 : s_referred s0 = []). { apply IH; [reflexivity|]. intros i H. apply (N i). apply in_or_app. now left. }
  destruct p as [r|i|i r|i|i|j|j]; cbn [swstep] in E.
  all: try (now injection E as <-).
  all: try (destruct (nth_error (s_objs s0) i) as [[q|]|]; try discriminate).
  all: try (destruct (mem i (s_referred s0)); try discriminate).
  all: try (destruct (nth_error (s_wraps s0) j) as [[q|]|]; try discriminate).
  all: injection E as <-; cbn; auto.
  all: exfalso; apply (N i); apply in_or_app; right; now left.
Qed.
Print Assumptions C159_unique.
(** REFUTED in general: although it keeps a copy, a wrapper made from a reference uses the original, which may be gone *)
Theorem C159_dangling_refuted : forall r : R, exists w, wrun [New r; WrapRef 0; Kill 0] = Ok w /\ called w 0 = UB.
Proof. intros r. eexists. split; reflexivity. Qed.
Print Assumptions C159_dangling_refuted.
(** or hold another function *)
Theorem C159_assigned_refuted : forall r q : R, exists w, wrun [New r; WrapRef 0; Assign 0 q] = Ok w /\ called w 0 = Ok q.
Proof. intros r q. eexists. split; reflexivity. Qed.
Print Assumptions C159_assigned_refuted.
End C159.
Example C159_ex : let l := [New 5; WrapUnique 0; CopyW 0; KillW 0; New 6; WrapRef 1; CopyW 2; KillW 2] in
  match wrun l with Ok w => called w 1 = Ok 5 /\ called w 3 = Ok 6 | _ => False end /\
  swrun l = Some (mk_sw [None; Some 6; None] [1] [None; Some 5; None; Some 6]).
Proof. vm_compute. repeat split. Qed.
