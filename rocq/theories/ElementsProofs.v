(** Lemmas for ElementsModel. *)
From Coq Require Import Reals List Arith Lia Lra.
From Verif Require Import Outcome VectorModel VectorProofs ElementsModel.
Import ListNotations.
Open Scope R_scope.

(** ** loops *)
Lemma steps_loop {S : Type} (body : nat -> S -> S) n : forall k s,
  steps n k 1 body s = loop n (fun i => body (k + i)%nat) s.
Proof.
  assert (G : forall n k s, steps (Datatypes.S n) k 1 body s = body (k + n)%nat (steps n k 1 body s)).
  { clear. induction n; intros k s; [cbn; rewrite Nat.add_0_r; reflexivity|].
    change (steps (Datatypes.S (Datatypes.S n)) k 1 body s)
      with (steps (Datatypes.S n) (k + 1) 1 body (body k s)).
    rewrite IHn. change (steps (Datatypes.S n) k 1 body s) with (steps n (k + 1) 1 body (body k s)).
    f_equal. lia. }
  induction n; intros k s; [reflexivity|]. rewrite G, IHn. reflexivity.
Qed.
Lemma for_step_loop {S : Type} (body : nat -> S -> S) n s : for_step 0 n 1 body s = loop n body s.
Proof.
  unfold for_step. replace (n - 0 + 1 - 1)%nat with n by lia. rewrite Nat.div_1_r, steps_loop. reflexivity.
Qed.
Lemma loop_accum D (g : nat -> R) (xp : vec) d :
  loop D (fun d xp => set xp d (xp d + g d)) xp d = if Nat.ltb d D then xp d + g d else xp d.
Proof.
  induction D; simpl; [reflexivity|]. unfold set at 1.
  destruct (Nat.eqb_spec d D) as [->|N].
  - rewrite IHD. destruct (Nat.ltb_spec D D); [lia|]. destruct (Nat.ltb_spec D (S D)); [reflexivity|lia].
  - rewrite IHD. destruct (Nat.ltb_spec d D), (Nat.ltb_spec d (S D)); try reflexivity; lia.
Qed.
Lemma zero_point_spec D xp d : (d < D)%nat -> zero_point D xp d = 0.
Proof. intros H. unfold zero_point. rewrite for_step_loop. rewrite (loop_set D (fun _ => 0)); [reflexivity|exact H]. Qed.
Lemma position_spec n D shape vertices xp d : (d < D)%nat ->
  position n D shape vertices xp d = sum n (fun v => vertices v d * shape v).
Proof.
  intros H. unfold position. rewrite for_step_loop.
  induction n; simpl; [apply zero_point_spec, H|].
  rewrite for_step_loop, loop_accum. destruct (Nat.ltb_spec d D); [|lia]. rewrite IHn. reflexivity.
Qed.
Lemma position_dim_first_spec n D shape vertices xp d : (d < D)%nat ->
  position_dim_first n D shape vertices xp d = sum n (fun v => vertices v d * shape v).
Proof.
  intros H. unfold position_dim_first. rewrite for_step_loop.
  assert (I : forall k e (y : vec), for_step 0 n 1 (fun v xp => set xp k (xp k + vertices v k * shape v)) y e
               = if Nat.eqb e k then y e + sum n (fun v => vertices v k * shape v) else y e).
  { intros k e y. rewrite for_step_loop. clear. induction n; simpl; [destruct (Nat.eqb e k); ring|].
    unfold set at 1. destruct (Nat.eqb_spec e k) as [->|N].
    - rewrite IHn. ring.
    - rewrite IHn. destruct (Nat.eqb_spec e k); [contradiction|reflexivity]. }
  assert (G : forall m, loop m (fun d xp => for_step 0 n 1 (fun v xp => set xp d (xp d + vertices v d * shape v)) xp)
                (zero_point D xp) d
              = if Nat.ltb d m then sum n (fun v => vertices v d * shape v) else 0).
  { induction m; simpl; [apply zero_point_spec, H|]. rewrite I, IHm.
    destruct (Nat.eqb_spec d m) as [->|N].
    - destruct (Nat.ltb_spec m m); [lia|]. destruct (Nat.ltb_spec m (S m)); [ring|lia].
    - destruct (Nat.ltb_spec d m), (Nat.ltb_spec d (S m)); try reflexivity; lia. }
  rewrite G. destruct (Nat.ltb_spec d D); [reflexivity|lia].
Qed.

(** ** specifications *)
(** [n] nodes at [ref], basis [sh x junk]; [junk] is the uninitialised array it is written into *)
Definition unity (n : nat) (sh : vec -> vec -> vec) : Prop := forall x junk, sum n (sh x junk) = 1.
Definition nodal (n : nat) (ref : nat -> vec) (sh : vec -> vec -> vec) : Prop :=
  forall junk i j, (i < n)%nat -> (j < n)%nat -> sh (ref i) junk j = if Nat.eqb i j then 1 else 0.
Definition linear (n D : nat) (ref : nat -> vec) (sh : vec -> vec -> vec) : Prop :=
  forall x junk d, (d < D)%nat -> sum n (fun i => ref i d * sh x junk i) = x d.
(** the d-th partial: derivative of t |-> sh (x with x_d := t) at x_d *)
Definition partial_of (n d : nat) (sh pd : vec -> vec -> vec) : Prop :=
  forall x junk junk' i, (i < n)%nat -> derivable_pt_lim (fun t => sh (set x d t) junk i) (x d) (pd x junk' i).

(** ** evaluation *)
Ltac elem := cbv [sum loop for_step steps set Nat.div Nat.divmod Nat.sub Nat.add Nat.eqb Nat.mul fst snd tab nth
  quad4_ref quad4_shape quad4_basis quad4_partial_xi quad4_partial_eta
  quad8_ref quad8_shape quad8_basis quad8_partial_xi quad8_partial_eta
  quad12_ref quad12_shape quad12_basis quad12_partial_xi quad12_partial_eta
  hex8_ref hex8_shape hex8_basis hex8_partial_xi hex8_partial_eta hex8_partial_mu
  hex20_ref hex20_shape hex20_basis hex20_partial_xi hex20_partial_eta hex20_partial_mu
  hex32_ref hex32_shape hex32_basis hex32_partial_xi hex32_partial_eta hex32_partial_mu
  tess16_ref tess16_shape tess16_partial_xi tess16_partial_eta tess16_partial_mu tess16_partial_tau].
Ltac cases_lt i H tac :=
  lazymatch type of H with
  | (?k < O)%nat => exfalso; exact (Nat.nlt_0_r _ H)
  | (i < S ?n)%nat => destruct i as [|i]; [clear H; tac | apply Nat.succ_lt_mono in H; cases_lt i H tac]
  end.
Ltac prove_unity := intros x junk; elem; field.
Ltac prove_nodal := intros junk i j Hi Hj; cases_lt i Hi ltac:(revert j Hj; intros j Hj; cases_lt j Hj ltac:(elem; lra)).
Ltac prove_linear := intros x junk d Hd; cases_lt d Hd ltac:(elem; field).

Lemma derivable_pt_lim_val f x l l' : derivable_pt_lim f x l -> l = l' -> derivable_pt_lim f x l'.
Proof. intros H <-. exact H. Qed.
Lemma D_mult f g x a b : derivable_pt_lim f x a -> derivable_pt_lim g x b ->
  derivable_pt_lim (fun t => f t * g t) x (a * g x + f x * b).
Proof. intros. apply (derivable_pt_lim_mult f g); assumption. Qed.
Lemma D_plus f g x a b : derivable_pt_lim f x a -> derivable_pt_lim g x b ->
  derivable_pt_lim (fun t => f t + g t) x (a + b).
Proof. intros. apply (derivable_pt_lim_plus f g); assumption. Qed.
Lemma D_minus f g x a b : derivable_pt_lim f x a -> derivable_pt_lim g x b ->
  derivable_pt_lim (fun t => f t - g t) x (a - b).
Proof. intros. apply (derivable_pt_lim_minus f g); assumption. Qed.
Lemma D_const c x : derivable_pt_lim (fun _ => c) x 0.
Proof. apply (derivable_pt_lim_const c). Qed.
Lemma D_id x : derivable_pt_lim (fun t => t) x 1.
Proof. apply derivable_pt_lim_id. Qed.
Ltac derive :=
  lazymatch goal with
  | |- derivable_pt_lim (fun _ => ?c) _ _ => apply D_const
  | |- derivable_pt_lim (fun t => t) _ _ => apply D_id
  | |- derivable_pt_lim (fun t => @?f t * @?g t) _ _ => apply (D_mult f g); derive
  | |- derivable_pt_lim (fun t => @?f t + @?g t) _ _ => apply (D_plus f g); derive
  | |- derivable_pt_lim (fun t => @?f t - @?g t) _ _ => apply (D_minus f g); derive
  end.
Ltac prove_partial := intros x junk junk' i Hi;
  cases_lt i Hi ltac:(elem; eapply derivable_pt_lim_val; [derive | cbv beta; field]).

Lemma quad4_unity : unity 4 quad4_shape. Proof. prove_unity. Qed.
Lemma quad8_unity : unity 8 quad8_shape. Proof. prove_unity. Qed.
Lemma quad12_unity : unity 12 quad12_shape. Proof. prove_unity. Qed.
Lemma hex8_unity : unity 8 hex8_shape. Proof. prove_unity. Qed.
Lemma hex20_unity : unity 20 hex20_shape. Proof. prove_unity. Qed.
Lemma hex32_unity : unity 32 hex32_shape. Proof. prove_unity. Qed.
Lemma tess16_unity : unity 16 (tess16_shape tess16_ref). Proof. prove_unity. Qed.

Lemma quad4_nodal : nodal 4 quad4_ref quad4_shape. Proof. prove_nodal. Qed.
Lemma quad8_nodal : nodal 8 quad8_ref quad8_shape. Proof. prove_nodal. Qed.
Lemma quad12_nodal : nodal 12 quad12_ref quad12_shape. Proof. prove_nodal. Qed.
Lemma hex8_nodal : nodal 8 hex8_ref hex8_shape. Proof. prove_nodal. Qed.
Lemma hex20_nodal : nodal 20 hex20_ref hex20_shape. Proof. prove_nodal. Qed.
Lemma hex32_nodal : nodal 32 hex32_ref hex32_shape. Proof. prove_nodal. Qed.
Lemma tess16_nodal : nodal 16 tess16_ref (tess16_shape tess16_ref). Proof. prove_nodal. Qed.

Lemma quad4_linear : linear 4 2 quad4_ref quad4_shape. Proof. prove_linear. Qed.
Lemma quad8_linear : linear 8 2 quad8_ref quad8_shape. Proof. prove_linear. Qed.
Lemma quad12_linear : linear 12 2 quad12_ref quad12_shape. Proof. prove_linear. Qed.
Lemma hex8_linear : linear 8 3 hex8_ref hex8_shape. Proof. prove_linear. Qed.
Lemma hex20_linear : linear 20 3 hex20_ref hex20_shape. Proof. prove_linear. Qed.
Lemma hex32_linear : linear 32 3 hex32_ref hex32_shape. Proof. prove_linear. Qed.
Lemma tess16_linear : linear 16 4 tess16_ref (tess16_shape tess16_ref). Proof. prove_linear. Qed.

Lemma quad4_partials : partial_of 4 0 quad4_shape quad4_partial_xi /\ partial_of 4 1 quad4_shape quad4_partial_eta.
Proof. split; prove_partial. Qed.
Lemma quad8_partials : partial_of 8 0 quad8_shape quad8_partial_xi /\ partial_of 8 1 quad8_shape quad8_partial_eta.
Proof. split; prove_partial. Qed.
Lemma quad12_partials :
  partial_of 12 0 quad12_shape quad12_partial_xi /\ partial_of 12 1 quad12_shape quad12_partial_eta.
Proof. split; prove_partial. Qed.
Lemma hex8_partials : partial_of 8 0 hex8_shape hex8_partial_xi /\ partial_of 8 1 hex8_shape hex8_partial_eta
  /\ partial_of 8 2 hex8_shape hex8_partial_mu.
Proof. split; [|split]; prove_partial. Qed.
Lemma hex20_partials : partial_of 20 0 hex20_shape hex20_partial_xi /\ partial_of 20 1 hex20_shape hex20_partial_eta
  /\ partial_of 20 2 hex20_shape hex20_partial_mu.
Proof. split; [|split]; prove_partial. Qed.
Lemma hex32_partials : partial_of 32 0 hex32_shape hex32_partial_xi /\ partial_of 32 1 hex32_shape hex32_partial_eta
  /\ partial_of 32 2 hex32_shape hex32_partial_mu.
Proof. split; [|split]; prove_partial. Qed.
Lemma tess16_partials rv :
  partial_of 16 0 (tess16_shape rv) (tess16_partial_xi rv) /\ partial_of 16 1 (tess16_shape rv) (tess16_partial_eta rv)
  /\ partial_of 16 2 (tess16_shape rv) (tess16_partial_mu rv) /\ partial_of 16 3 (tess16_shape rv) (tess16_partial_tau rv).
Proof. split; [|split; [|split]]; prove_partial. Qed.
