(** Proofs about [ElementsMemModel]: the list model runs without undefined behaviour exactly for the sizes given, and then
    computes the entries of the function models. *)
From Coq Require Import Reals List ZArith Arith Lia Bool.
From Verif Require Import Outcome VectorModel QuadratureModel JacobianModel LagrangeModel ElementsMemModel.
Import ListNotations.
Local Open Scope R_scope.

(** ** lists *)
Lemma rd_ok {T} (l : list T) i d : (i < length l)%nat -> rd l i = Ok (nth i l d).
Proof. intros H. unfold rd. rewrite (nth_error_nth' l d H). reflexivity. Qed.
Lemma rd_inv {T} (l : list T) i x d : rd l i = Ok x -> (i < length l)%nat /\ x = nth i l d.
Proof.
  unfold rd. destruct (nth_error l i) eqn:E; [|discriminate]. intros [= <-].
  split; [apply nth_error_Some; congruence|]. symmetry. apply nth_error_nth. exact E.
Qed.
Lemma length_upd {T} (l : list T) : forall i x, length (upd l i x) = length l.
Proof. induction l as [|a l IH]; intros [|i] x; cbn; auto. Qed.
Lemma nth_upd {T} (l : list T) : forall i x k d, (i < length l)%nat ->
  nth k (upd l i x) d = if Nat.eqb k i then x else nth k l d.
Proof.
  induction l as [|a l IH]; intros [|i] x [|k] d H; cbn in H |- *; try lia; try reflexivity.
  apply IH. lia.
Qed.
Lemma wr_ok {T} (l : list T) i x : (i < length l)%nat -> wr l i x = Ok (upd l i x).
Proof. intros H. unfold wr. apply Nat.ltb_lt in H. rewrite H. reflexivity. Qed.
Lemma wr_inv {T} (l : list T) i x l' : wr l i x = Ok l' -> (i < length l)%nat /\ l' = upd l i x.
Proof. unfold wr. destruct (Nat.ltb_spec i (length l)); [|discriminate]. intros [= <-]. auto. Qed.

(** ** vectors of vectors *)
Definition row (m : vv) (i : nat) : list R := nth i m [].
Definition same (m m0 : vv) : Prop := length m = length m0 /\ forall i, length (row m i) = length (row m0 i).
Definition repr (l : list R) (f : vec) : Prop := forall i, (i < length l)%nat -> nth i l 0 = f i.
Definition repr2 (m : vv) (F : nat -> vec) : Prop :=
  forall i j, (i < length m)%nat -> (j < length (row m i))%nat -> nth j (row m i) 0 = F i j.
Lemma same_refl m : same m m. Proof. split; auto. Qed.
Lemma same_trans a b c : same a b -> same b c -> same a c.
Proof. intros [A B] [C D]. split; [congruence|]. intros i. rewrite B. apply D. Qed.
Lemma row_lt m i j : (j < length (row m i))%nat -> (i < length m)%nat.
Proof.
  unfold row. intros H. destruct (Nat.lt_ge_cases i (length m)) as [L|L]; [exact L|].
  rewrite nth_overflow in H by exact L. cbn in H. lia.
Qed.
Lemma rd2_ok m i j : (j < length (row m i))%nat -> rd2 m i j = Ok (nth j (row m i) 0).
Proof.
  intros H. unfold rd2. rewrite (rd_ok m i []) by (eapply row_lt; exact H). cbn [bind]. apply rd_ok. exact H.
Qed.
Lemma rd2_inv m i j x : rd2 m i j = Ok x -> (j < length (row m i))%nat /\ x = nth j (row m i) 0.
Proof.
  unfold rd2. destruct (rd m i) as [r| | |] eqn:E; try discriminate. cbn [bind]. intros H.
  apply rd_inv with (d := []) in E. destruct E as [_ ->]. apply rd_inv. exact H.
Qed.
Lemma row_upd m i r k : (i < length m)%nat -> row (upd m i r) k = if Nat.eqb k i then r else row m k.
Proof. intros H. unfold row. apply nth_upd. exact H. Qed.
Lemma wr2_eq m i j x m' : (j < length (row m i))%nat -> m' = upd m i (upd (row m i) j x) ->
  same m' m /\ forall a b, nth b (row m' a) 0 = if (Nat.eqb a i && Nat.eqb b j)%bool then x else nth b (row m a) 0.
Proof.
  intros H ->. pose proof (row_lt _ _ _ H) as L. split.
  - split; [apply length_upd|]. intros k. rewrite row_upd by exact L.
    destruct (Nat.eqb_spec k i) as [->|]; [apply length_upd|reflexivity].
  - intros a b. rewrite row_upd by exact L. destruct (Nat.eqb_spec a i) as [->|]; cbn [andb]; [|reflexivity].
    apply nth_upd. exact H.
Qed.
Lemma wr2_ok m i j x : (j < length (row m i))%nat -> exists m', wr2 m i j x = Ok m' /\ same m' m /\
  forall a b, nth b (row m' a) 0 = if (Nat.eqb a i && Nat.eqb b j)%bool then x else nth b (row m a) 0.
Proof.
  intros H. pose proof (row_lt _ _ _ H) as L. unfold wr2. rewrite (rd_ok m i []) by exact L. cbn [bind].
  fold (row m i). rewrite wr_ok by exact H. cbn [bind]. rewrite wr_ok by exact L.
  eexists. split; [reflexivity|]. apply (wr2_eq m i j x _ H eq_refl).
Qed.
Lemma wr2_inv m i j x m' : wr2 m i j x = Ok m' -> (j < length (row m i))%nat /\ same m' m.
Proof.
  unfold wr2. destruct (rd m i) as [r| | |] eqn:E; try discriminate. cbn [bind].
  apply rd_inv with (d := []) in E. destruct E as [L ->]. fold (row m i).
  destruct (wr (row m i) j x) as [r| | |] eqn:E; try discriminate. cbn [bind]. apply wr_inv in E. destruct E as [H ->].
  rewrite wr_ok by exact L. intros [= <-]. split; [exact H|]. apply (wr2_eq m i j x _ H eq_refl).
Qed.
Lemma repr_at l : repr l (fun i => nth i l 0). Proof. intros i _. reflexivity. Qed.
Lemma repr2_at m : repr2 m (fun i j => nth j (row m i) 0). Proof. intros i j _ _. reflexivity. Qed.
Lemma repr_upd l f i x : (i < length l)%nat -> repr l f -> repr (upd l i x) (set f i x).
Proof.
  intros H Rl k L. rewrite length_upd in L. rewrite nth_upd by exact H. unfold set.
  destruct (Nat.eqb k i); [reflexivity|]. apply Rl. exact L.
Qed.
Lemma repr2_wr m F i j x m' : same m' m ->
  (forall a b, nth b (row m' a) 0 = if (Nat.eqb a i && Nat.eqb b j)%bool then x else nth b (row m a) 0) ->
  repr2 m F -> repr2 m' (fun a b => if (Nat.eqb a i && Nat.eqb b j)%bool then x else F a b).
Proof.
  intros [L S] E Rm a b La Lb. rewrite E. destruct (Nat.eqb a i && Nat.eqb b j)%bool; [reflexivity|].
  apply Rm; [rewrite <- L; exact La | rewrite <- S; exact Lb].
Qed.
Lemma repr2_ext m F G : repr2 m F -> (forall a b, F a b = G a b) -> repr2 m G.
Proof. intros H E i j A B. rewrite <- E. apply H; assumption. Qed.
Lemma repr_ext l f g : repr l f -> (forall a, f a = g a) -> repr l g.
Proof. intros H E i A. rewrite <- E. apply H; assumption. Qed.
Lemma repr2_rd m F i j x : repr2 m F -> rd2 m i j = Ok x -> x = F i j.
Proof. intros H E. apply rd2_inv in E. destruct E as [L ->]. apply H; [eapply row_lt; exact L | exact L]. Qed.
Lemma set2_eq (F : nat -> vec) i j x a b : set2 F i j x a b = if (Nat.eqb a i && Nat.eqb b j)%bool then x else F a b.
Proof. unfold set2, set. destruct (Nat.eqb_spec a i) as [->|]; cbn [andb]; reflexivity. Qed.

(** ** loops *)
Lemma mloop_ok {S} (P : nat -> S -> Prop) n body (s : S) : P O s ->
  (forall i t, (i < n)%nat -> P i t -> exists t', body i t = Ok t' /\ P (Datatypes.S i) t') ->
  exists s', mloop n body s = Ok s' /\ P n s'.
Proof.
  intros H0 Hs. induction n as [|n IH]; [exists s; auto|].
  destruct IH as [t [E Pt]]; [intros i t L; apply Hs; lia|].
  destruct (Hs n t ltac:(lia) Pt) as [t' [E' Pt']]. exists t'. cbn [mloop]. rewrite E. auto.
Qed.
Lemma bind_inv {A B} (x : outcome A) (k : A -> outcome B) b : bind x k = Ok b -> exists a, x = Ok a /\ k a = Ok b.
Proof. destruct x; try discriminate. eauto. Qed.
Lemma mloop_inv {S} (Q : S -> Prop) n body (s s' : S) : mloop n body s = Ok s' -> Q s ->
  (forall i t t', (i < n)%nat -> Q t -> body i t = Ok t' -> Q t') ->
  Q s' /\ forall i, (i < n)%nat -> exists t t', Q t /\ body i t = Ok t'.
Proof.
  intros E Qs Hs. revert s' E. induction n as [|n IH]; intros s' E.
  - cbn in E. injection E as <-. split; [exact Qs|]. intros i L; lia.
  - cbn [mloop] in E. apply bind_inv in E. destruct E as [t [E1 E2]].
    destruct (IH (fun i t t' L => Hs i t t' (Nat.lt_lt_succ_r _ _ L)) t E1) as [Qt All]. split.
    + apply (Hs n t s'); auto.
    + intros i L. destruct (Nat.eq_dec i n) as [->|]; [exists t, s'; auto|]. apply All. lia.
Qed.
Ltac inv_binds := repeat match goal with H : bind _ _ = Ok _ |- _ =>
  let a := fresh "a" in let E := fresh "E" in apply bind_inv in H; destruct H as [a [E H]] end.

(** ** chebyshev_nodes_1D *)
Lemma chebyshev_ok pi order v : (order < length v)%nat -> exists v', m_chebyshev pi order v = Ok v' /\ length v' = length v /\
  repr v' (chebyshev_nodes_1D pi order (fun i => nth i v 0)).
Proof.
  intros L. unfold m_chebyshev, chebyshev_nodes_1D.
  set (b := fun (i0 : nat) (v : vec) => set v (S i0 - 1) (- cos (pi * (2 * INR (S i0) - 1) / (2 * (INR order + 1))))).
  destruct (mloop_ok (fun i w => length w = length v /\ repr w (loop i b (fun i => nth i v 0))) order
    (fun i0 v => wr v (S i0 - 1) (- cos (pi * (2 * INR (S i0) - 1) / (2 * (INR order + 1))))) v) as [w [E [Lw Rw]]].
  - split; [reflexivity | apply repr_at].
  - intros i t Li [Lt Rt]. eexists. split; [apply wr_ok; lia|]. split; [rewrite length_upd; exact Lt|].
    cbn [loop]. apply repr_upd; [lia | exact Rt].
  - cbv zeta. rewrite E. cbn [bind]. rewrite wr_ok by lia. cbn [bind]. rewrite wr_ok by (rewrite length_upd; lia).
    eexists. split; [reflexivity|]. split; [rewrite !length_upd; exact Lw|].
    apply repr_upd; [rewrite length_upd; lia|]. apply repr_upd; [lia | exact Rw].
Qed.
Lemma chebyshev_need pi order v v' : m_chebyshev pi order v = Ok v' -> (order < length v)%nat.
Proof.
  unfold m_chebyshev. intros H. apply bind_inv in H. destruct H as [w [E H]].
  apply (mloop_inv (fun t => length t = length v)) in E; [|reflexivity|].
  - destruct E as [Lw _]. apply bind_inv in H. destruct H as [u [E H]]. apply wr_inv in E. destruct E as [_ ->].
    apply wr_inv in H. destruct H as [H _]. rewrite length_upd in H. lia.
  - intros i t t' _ Lt Et. apply wr_inv in Et. destruct Et as [_ ->]. rewrite length_upd. exact Lt.
Qed.

(** ** lagrange_1D *)
Lemma lag_s_ok order x xi f i j : (order < length xi)%nat -> repr xi f ->
  m_lag_s order x xi i j = Ok (lag_s order x f i j).
Proof.
  intros L Rx. unfold m_lag_s, lag_s.
  match goal with |- mloop ?n ?b ?s = Ok (loop ?n ?c ?s) =>
    destruct (mloop_ok (fun i r => r = loop i c s) n b s) as [r [-> ->]]; [reflexivity| |reflexivity] end.
  intros N s LN ->. cbn [loop].
  destruct (negb (N =? j) && negb (N =? i))%bool; eexists; [|split; reflexivity].
  rewrite (rd_ok xi N 0) by lia. cbn [bind]. split; [reflexivity|]. rewrite Rx by lia. reflexivity.
Qed.
Lemma lag_body_ok order x xi f i j s : (order < length xi \/ order = 0)%nat -> (i <= order)%nat -> (j <= order)%nat -> repr xi f ->
  m_lag_body order x xi i j s = Ok (lag_body order x f i j s).
Proof.
  intros L Li Lj Rx. unfold m_lag_body, lag_body. destruct (Nat.eqb_spec j i) as [->|N]; cbn [negb]; [reflexivity|].
  assert (order < length xi)%nat by (destruct L; lia).
  rewrite (rd_ok xi j 0), (rd_ok xi i 0) by lia. cbn [bind]. rewrite (lag_s_ok order x xi f) by assumption. cbn [bind].
  rewrite !Rx by lia. reflexivity.
Qed.
Lemma lagrange_ok order x xi a b f fa fb : (order < length xi \/ order = 0)%nat -> (order < length a)%nat -> (order < length b)%nat ->
  repr xi f -> repr a fa -> repr b fb ->
  exists a' b', m_lagrange_1D order x xi a b = Ok (a', b') /\ length a' = length a /\ length b' = length b /\
    repr a' (fst (lagrange_1D order x f fa fb)) /\ repr b' (snd (lagrange_1D order x f fa fb)).
Proof.
  intros L La Lb Rx Ra Rb. unfold m_lagrange_1D, lagrange_1D.
  match goal with |- context [ loop (order + 1) ?c ((fa, fb), 0) ] => set (C := c) end.
  destruct (mloop_ok (fun i st => length (fst (fst st)) = length a /\ length (snd (fst st)) = length b /\
      repr (fst (fst st)) (fst (fst (loop i C ((fa, fb), 0)))) /\ repr (snd (fst st)) (snd (fst (loop i C ((fa, fb), 0)))) /\
      snd st = snd (loop i C ((fa, fb), 0)))
    (order + 1)%nat (m_lag_node order x xi) ((a, b), 0)) as [[[a' b'] q] [E [Ha [Hb [R1 [R2 _]]]]]].
  - cbn. auto.
  - intros i [[u v] q] Li [Hu [Hv [Ru [Rv Rq]]]]. cbn [fst snd] in *. cbn [loop].
    destruct (loop i C ((fa, fb), 0)) as [[fu fv] fq] eqn:EL. cbn [fst snd] in *. subst fq.
    unfold m_lag_node. set (s0 := {| lag_n := 1; lag_d := 1; lag_c := 1; lag_p := 0; lag_q := q |}).
    destruct (mloop_ok (fun j s => s = loop j (lag_body order x f i) s0) (order + 1) (m_lag_body order x xi i) s0)
      as [s [-> ->]]; [reflexivity| |].
    + intros j s Lj ->. eexists. split; [apply (lag_body_ok order x xi f); auto; lia|]. reflexivity.
    + cbn [bind]. rewrite wr_ok by lia. cbn [bind]. rewrite wr_ok by lia. cbn [bind].
      eexists. split; [reflexivity|]. unfold C. cbn [fst snd]. fold s0. rewrite !length_upd.
      repeat split; auto; apply repr_upd; auto; lia.
  - rewrite E. cbn [bind fst]. exists a', b'. cbn [fst snd] in *. auto.
Qed.
Lemma lag_node_inv order x xi i st st' : (i <= order)%nat -> m_lag_node order x xi i st = Ok st' ->
  (order = 0 \/ order < length xi)%nat /\ (i < length (fst (fst st)))%nat /\ (i < length (snd (fst st)))%nat /\
  length (fst (fst st')) = length (fst (fst st)) /\ length (snd (fst st')) = length (snd (fst st)).
Proof.
  intros Li H. destruct st as [[u v] q]. unfold m_lag_node in H. inv_binds.
  apply wr_inv in E0, E1. destruct E0 as [Lu ->], E1 as [Lv ->]. injection H as <-. cbn [fst snd].
  rewrite !length_upd. repeat split; auto.
  destruct (Nat.eq_dec order 0) as [Z|N]; [left; exact Z|right].
  apply (mloop_inv (fun _ => True)) in E; [|exact I|auto]. destruct E as [_ All].
  assert (exists j : nat, (j <= order)%nat /\ j <> i /\ (order = i \/ j = order)) as [j [Lj [Nj Dj]]].
  { destruct (Nat.eq_dec order i) as [->|]; [exists 0%nat; lia | exists order; lia]. }
  destruct (All j ltac:(lia)) as [t [t' [_ Et]]]. unfold m_lag_body in Et.
  destruct (Nat.eqb_spec j i) as [|_]; [lia|]. cbn [negb] in Et. inv_binds.
  apply (rd_inv _ _ _ 0) in E, E0. destruct Dj as [->| ->]; [exact (proj1 E0) | exact (proj1 E)].
Qed.
Lemma lagrange_inv order x xi a b r : m_lagrange_1D order x xi a b = Ok r ->
  (order = 0 \/ order < length xi)%nat /\ (order < length a)%nat /\ (order < length b)%nat /\
  length (fst r) = length a /\ length (snd r) = length b.
Proof.
  unfold m_lagrange_1D. intros H. inv_binds. injection H as <-.
  apply (mloop_inv (fun st => length (fst (fst st)) = length a /\ length (snd (fst st)) = length b)) in E; [| cbn; auto |].
  - destruct E as [[Ha Hb] All]. destruct (All order ltac:(lia)) as [t [t' [[Ta Tb] Et]]].
    apply lag_node_inv in Et; [|lia]. destruct Et as [X [A [B _]]]. repeat split; auto; lia.
  - intros i t t' Li [Ta Tb] Et. apply lag_node_inv in Et; [|lia]. destruct Et as [_ [_ [_ [A B]]]]. split; congruence.
Qed.

(** ** basis_partials *)
(* what the writable vectors must have room for: N entries per direction, P nodes, D coordinates *)
Definition wide (m : vv) (P D : nat) : Prop := forall p, (p < P)%nat -> (D <= length (row m p))%nat.
Definition mt_same (t t0 : mtensor) : Prop :=
  same (mt_nodes t) (mt_nodes t0) /\ length (mt_val1 t) = length (mt_val1 t0) /\ length (mt_dval1 t) = length (mt_dval1 t0) /\
  same (mt_val t) (mt_val t0) /\ same (mt_dval t) (mt_dval t0) /\ length (mt_basis t) = length (mt_basis t0) /\
  same (mt_partial t) (mt_partial t0).
Definition mt_repr (t : mtensor) (f : tensor) : Prop :=
  repr2 (mt_nodes t) (t_nodes f) /\ repr (mt_val1 t) (t_val1 f) /\ repr (mt_dval1 t) (t_dval1 f) /\
  repr2 (mt_val t) (t_val f) /\ repr2 (mt_dval t) (t_dval f) /\ repr (mt_basis t) (t_basis f) /\
  repr2 (mt_partial t) (t_partial f).
Lemma mt_same_refl t : mt_same t t.
Proof. unfold mt_same. repeat split; auto using same_refl. Qed.
Lemma mt_same_trans a b c : mt_same a b -> mt_same b c -> mt_same a c.
Proof.
  unfold mt_same. intros [A [B [C [D [E [F G]]]]]] [A' [B' [C' [D' [E' [F' G']]]]]].
  repeat split; try congruence; eapply same_trans; eauto.
Qed.
Lemma wr2_set2 m F i j x : (j < length (row m i))%nat -> repr2 m F ->
  exists m', wr2 m i j x = Ok m' /\ same m' m /\ repr2 m' (set2 F i j x).
Proof.
  intros L Rm. destruct (wr2_ok m i j x L) as [m' [E [S V]]]. exists m'. split; [exact E|]. split; [exact S|].
  apply (repr2_ext m' _ _ (repr2_wr m F i j x m' S V Rm)). intros a b. symmetry. apply set2_eq.
Qed.
Lemma m_node_ok nodes1 f m d i t g : (i - 1 < length nodes1)%nat -> (d < length (row (mt_nodes t) m))%nat ->
  repr nodes1 f -> mt_repr t g ->
  exists t', m_node nodes1 m d i t = Ok t' /\ mt_same t' t /\
    mt_repr t' (with_nodes g (set2 (t_nodes g) m d (f (i - 1)%nat))).
Proof.
  intros L1 L2 Rn [R1 [R2 [R3 [R4 [R5 [R6 R7]]]]]]. unfold m_node. rewrite (rd_ok nodes1 _ 0) by exact L1. cbn [bind].
  rewrite (Rn _ L1). destruct (wr2_set2 (mt_nodes t) (t_nodes g) m d (f (i - 1)%nat) L2 R1) as [n' [E [S R']]]. rewrite E. cbn [bind].
  eexists. split; [reflexivity|]. split; [unfold mt_same; cbn; repeat split; auto using same_refl; apply S|].
  unfold mt_repr. cbn. auto 10.
Qed.
Lemma direction_ok order nodes1 f xi fx m d i t g : (order < length nodes1)%nat -> (d < length xi)%nat ->
  (1 <= i <= order + 1)%nat -> (order < length (mt_val1 t))%nat -> (order < length (mt_dval1 t))%nat ->
  (d < length (row (mt_val t) m))%nat -> (d < length (row (mt_dval t) m))%nat ->
  repr nodes1 f -> repr xi fx -> mt_repr t g ->
  exists t', m_direction order nodes1 xi m d i t = Ok t' /\ mt_same t' t /\ mt_repr t' (direction order f fx m d i g).
Proof.
  intros Ln Lx Li Lv Ld L4 L5 Rn Rx [R1 [R2 [R3 [R4 [R5 [R6 R7]]]]]].
  unfold m_direction, direction. rewrite (rd_ok xi d 0) by exact Lx. cbn [bind]. rewrite (Rx _ Lx).
  destruct (lagrange_ok order (fx d) nodes1 (mt_val1 t) (mt_dval1 t) f _ _ (or_introl Ln) Lv Ld Rn R2 R3)
    as [v [dv [E [Hv [Hd [Rv Rd]]]]]]. rewrite E. cbn [bind fst snd].
  destruct (lagrange_1D order (fx d) f (t_val1 g) (t_dval1 g)) as [fv fd]. cbn [fst snd] in *.
  rewrite (rd_ok v _ 0) by lia. cbn [bind]. rewrite Rv by lia.
  destruct (wr2_set2 (mt_val t) (t_val g) m d (fv (i - 1)%nat) L4 R4) as [n4 [E4 [S4 R4']]]. rewrite E4. cbn [bind].
  rewrite (rd_ok dv _ 0) by lia. cbn [bind]. rewrite Rd by lia.
  destruct (wr2_set2 (mt_dval t) (t_dval g) m d (fd (i - 1)%nat) L5 R5) as [n5 [E5 [S5 R5']]]. rewrite E5. cbn [bind].
  match goal with |- context [ mloop (order + 1) ?b (v, dv) ] =>
    destruct (mloop_ok (fun i vd => length (fst vd) = length v /\ length (snd vd) = length dv /\
      repr (fst vd) (loop i (fun i v => set v i 0) fv) /\ repr (snd vd) (loop i (fun i v => set v i 0) fd)) (order + 1)%nat b (v, dv))
      as [[v' dv'] [E' [Hv' [Hd' [Rv' Rd']]]]] end.
  - cbn. auto.
  - intros k [u w] Lk [Hu [Hw [Ru Rw]]]. cbn [fst snd] in *. rewrite wr_ok by lia. cbn [bind]. rewrite wr_ok by lia. cbn [bind].
    eexists. split; [reflexivity|]. cbn [fst snd loop]. rewrite !length_upd. repeat split; auto; apply repr_upd; auto; lia.
  - rewrite E'. cbn [bind fst snd] in *. eexists. split; [reflexivity|].
    split; [unfold mt_same; cbn; repeat split; auto using same_refl; try apply S4; try apply S5; congruence|].
    unfold mt_repr. cbn. auto 10.
Qed.
Lemma m_basis_ok m x t g : (m < length (mt_basis t))%nat -> mt_repr t g ->
  exists t', m_basis m x t = Ok t' /\ mt_same t' t /\ mt_repr t' (with_result g (set (t_basis g) m x) (t_partial g)).
Proof.
  intros L [R1 [R2 [R3 [R4 [R5 [R6 R7]]]]]]. unfold m_basis. rewrite wr_ok by exact L. cbn [bind].
  eexists. split; [reflexivity|]. split; [unfold mt_same; cbn; rewrite length_upd; repeat split; auto using same_refl|].
  unfold mt_repr. cbn. repeat split; auto. apply repr_upd; auto.
Qed.
Lemma m_partial_ok m d x t g : (d < length (row (mt_partial t) m))%nat -> mt_repr t g ->
  exists t', m_partial m d x t = Ok t' /\ mt_same t' t /\ mt_repr t' (with_result g (t_basis g) (set2 (t_partial g) m d x)).
Proof.
  intros L [R1 [R2 [R3 [R4 [R5 [R6 R7]]]]]]. unfold m_partial.
  destruct (wr2_set2 _ _ m d x L R7) as [p [E [S R']]]. rewrite E. cbn [bind].
  eexists. split; [reflexivity|]. split; [unfold mt_same; cbn; repeat split; auto using same_refl; apply S|].
  unfold mt_repr. cbn. auto 10.
Qed.

(* what basis_partials needs of its arguments *)
Definition room (N P D : nat) (nodes1 xi : list R) (t : mtensor) : Prop :=
  (N <= length nodes1)%nat /\ (D <= length xi)%nat /\ wide (mt_nodes t) P D /\ (N <= length (mt_val1 t))%nat /\
  (N <= length (mt_dval1 t))%nat /\ wide (mt_val t) P D /\ wide (mt_dval t) P D /\ (P <= length (mt_basis t))%nat /\
  wide (mt_partial t) P D.
Lemma wide_same m m0 P D : same m m0 -> wide m0 P D -> wide m P D.
Proof. intros [_ S] W p L. rewrite S. apply W. exact L. Qed.
Lemma room_same N P D nodes1 xi t t0 : mt_same t t0 -> room N P D nodes1 xi t0 -> room N P D nodes1 xi t.
Proof.
  unfold room. intros [A [B [C [E [F [G H]]]]]] [R1 [R2 [R3 [R4 [R5 [R6 [R7 [R8 R9]]]]]]]].
  repeat split; try lia; eapply wide_same; eauto.
Qed.
Lemma quadn_idx_range N m : (m < N * N)%nat -> let '(i, j) := quadn_idx N m in (1 <= i <= N)%nat /\ (1 <= j <= N)%nat.
Proof.
  intros L. unfold quadn_idx. assert (N <> 0)%nat by (intros ->; lia).
  pose proof (Nat.div_mod m N H). pose proof (Nat.mod_upper_bound m N H).
  assert (m / N < N)%nat by (apply Nat.div_lt_upper_bound; lia).
  replace (m / N + 1 - 1)%nat with (m / N)%nat by lia. lia.
Qed.
Lemma hexn_idx_range N m : (m < N * (N * N))%nat ->
  let '(i, j, k) := hexn_idx N m in (1 <= i <= N)%nat /\ (1 <= j <= N)%nat /\ (1 <= k <= N)%nat.
Proof.
  intros L. unfold hexn_idx. assert (N <> 0)%nat by (intros ->; lia).
  assert (N * N <> 0)%nat by (apply Nat.neq_mul_0; auto).
  pose proof (Nat.div_mod m (N * N) H0). pose proof (Nat.mod_upper_bound m (N * N) H0).
  assert (m / (N * N) < N)%nat by (apply Nat.div_lt_upper_bound; lia).
  replace (m / (N * N) + 1 - 1)%nat with (m / (N * N))%nat by lia.
  set (q := (m / (N * N))%nat) in *.
  replace (m + 1 - N * N * q - 1)%nat with (m mod (N * N))%nat by lia.
  set (r := (m mod (N * N))%nat) in *.
  pose proof (Nat.div_mod r N H). pose proof (Nat.mod_upper_bound r N H).
  assert (r / N < N)%nat by (apply Nat.div_lt_upper_bound; lia).
  replace (r / N + 1 - 1)%nat with (r / N)%nat by lia. lia.
Qed.
Ltac step_ok L := let t := fresh "t" in let E := fresh "E" in let S := fresh "S" in let Rt := fresh "Rt" in
  destruct L as [t [E [S Rt]]]; rewrite E; cbn [bind]; clear E.
Lemma quadn_body_ok order nodes1 f xi fx m t g : (m < (order + 1) * (order + 1))%nat ->
  room (order + 1) ((order + 1) * (order + 1)) 2 nodes1 xi t -> repr nodes1 f -> repr xi fx -> mt_repr t g ->
  exists t', m_quadn_body order nodes1 xi m t = Ok t' /\ mt_same t' t /\ mt_repr t' (quadn_body order f fx m g).
Proof.
  intros Lm Rm Rn Rx Rt. unfold m_quadn_body, quadn_body. pose proof (quadn_idx_range _ _ Lm) as Lij.
  destruct (quadn_idx (order + 1) m) as [i j]. destruct Lij as [Li Lj].
  pose proof Rm as [A1 [A2 [A3 [A4 [A5 [A6 [A7 [A8 A9]]]]]]]].
  pose proof (A3 m Lm) as B3. pose proof (A6 m Lm) as B6. pose proof (A7 m Lm) as B7. pose proof (A9 m Lm) as B9.
  step_ok (m_node_ok nodes1 f m 0 i t g ltac:(lia) ltac:(lia) Rn Rt).
  assert (B3' : (2 <= length (row (mt_nodes t0) m))%nat) by (destruct S as [[_ S] _]; rewrite S; lia).
  step_ok (m_node_ok nodes1 f m 1 j t0 _ ltac:(lia) ltac:(lia) Rn Rt0).
  pose proof (mt_same_trans _ _ _ S0 S) as T1. pose proof (room_same _ _ _ _ _ _ _ T1 Rm) as M1.
  destruct M1 as [_ [_ [_ [M4 [M5 [M6 [M7 _]]]]]]]. pose proof (M6 m Lm). pose proof (M7 m Lm).
  step_ok (direction_ok order nodes1 f xi fx m 0 i t1 _ ltac:(lia) ltac:(lia) Li ltac:(lia) ltac:(lia) ltac:(lia) ltac:(lia) Rn Rx Rt1).
  pose proof (mt_same_trans _ _ _ S1 T1) as T2. pose proof (room_same _ _ _ _ _ _ _ T2 Rm) as M2.
  destruct M2 as [_ [_ [_ [M4' [M5' [M6' [M7' _]]]]]]]. pose proof (M6' m Lm). pose proof (M7' m Lm).
  step_ok (direction_ok order nodes1 f xi fx m 1 j t2 _ ltac:(lia) ltac:(lia) Lj ltac:(lia) ltac:(lia) ltac:(lia) ltac:(lia) Rn Rx Rt2).
  pose proof (mt_same_trans _ _ _ S2 T2) as T3. pose proof (room_same _ _ _ _ _ _ _ T3 Rm) as M3.
  destruct M3 as [_ [_ [_ [_ [_ [M6'' [M7'' [M8 M9]]]]]]]]. pose proof (M6'' m Lm) as N6. pose proof (M7'' m Lm) as N7. pose proof (M9 m Lm) as N9.
  match type of Rt3 with mt_repr _ ?h => set (G := h) in * end.
  pose proof Rt3 as [_ [_ [_ [V [W _]]]]].
  rewrite !rd2_ok by lia. cbn [bind].
  assert (E : forall d, (d < 2)%nat -> nth d (row (mt_val t3) m) 0 = t_val G m d)
    by (intros d Ld; apply V; [eapply row_lt with (j := d); lia | lia]).
  assert (E' : forall d, (d < 2)%nat -> nth d (row (mt_dval t3) m) 0 = t_dval G m d)
    by (intros d Ld; apply W; [eapply row_lt with (j := d); lia | lia]).
  rewrite !E, !E' by lia.
  step_ok (m_basis_ok m (t_val G m 0%nat * t_val G m 1%nat) t3 G ltac:(lia) Rt3).
  assert (N9' : (2 <= length (row (mt_partial t4) m))%nat) by (destruct S3 as [_ [_ [_ [_ [_ [_ [_ S3]]]]]]]; rewrite S3; lia).
  step_ok (m_partial_ok m 0 (t_dval G m 0%nat * t_val G m 1%nat) t4 _ ltac:(lia) Rt4).
  assert (N9'' : (2 <= length (row (mt_partial t5) m))%nat) by (destruct S4 as [_ [_ [_ [_ [_ [_ [_ S4]]]]]]]; rewrite S4; lia).
  destruct (m_partial_ok m 1 (t_val G m 0%nat * t_dval G m 1%nat) t5 _ ltac:(lia) Rt5) as [t6 [-> [S6 R6]]].
  exists t6. split; [reflexivity|]. split; [|exact R6].
  eapply mt_same_trans; [exact S6|]. eapply mt_same_trans; [exact S4|]. eapply mt_same_trans; [exact S3 | exact T3].
Qed.
Lemma hexn_body_ok order nodes1 f xi fx m t g : (m < (order + 1) * ((order + 1) * (order + 1)))%nat ->
  room (order + 1) ((order + 1) * ((order + 1) * (order + 1))) 3 nodes1 xi t -> repr nodes1 f -> repr xi fx -> mt_repr t g ->
  exists t', m_hexn_body order nodes1 xi m t = Ok t' /\ mt_same t' t /\ mt_repr t' (hexn_body order f fx m g).
Proof.
  intros Lm Rm Rn Rx Rt. unfold m_hexn_body, hexn_body. pose proof (hexn_idx_range _ _ Lm) as Lij.
  destruct (hexn_idx (order + 1) m) as [[i j] k]. destruct Lij as [Li [Lj Lk]].
  pose proof Rm as [A1 [A2 [A3 _]]]. pose proof (A3 m Lm) as B3.
  step_ok (m_node_ok nodes1 f m 0 i t g ltac:(lia) ltac:(lia) Rn Rt).
  assert (B3' : (3 <= length (row (mt_nodes t0) m))%nat) by (destruct S as [[_ S] _]; rewrite S; lia).
  step_ok (m_node_ok nodes1 f m 1 j t0 _ ltac:(lia) ltac:(lia) Rn Rt0).
  assert (B3'' : (3 <= length (row (mt_nodes t1) m))%nat) by (destruct S0 as [[_ S0] _]; rewrite S0; lia).
  step_ok (m_node_ok nodes1 f m 2 k t1 _ ltac:(lia) ltac:(lia) Rn Rt1).
  pose proof (mt_same_trans _ _ _ S1 (mt_same_trans _ _ _ S0 S)) as T1. pose proof (room_same _ _ _ _ _ _ _ T1 Rm) as M1.
  destruct M1 as [_ [_ [_ [M4 [M5 [M6 [M7 _]]]]]]]. pose proof (M6 m Lm). pose proof (M7 m Lm).
  step_ok (direction_ok order nodes1 f xi fx m 0 i t2 _ ltac:(lia) ltac:(lia) Li ltac:(lia) ltac:(lia) ltac:(lia) ltac:(lia) Rn Rx Rt2).
  pose proof (mt_same_trans _ _ _ S2 T1) as T2. pose proof (room_same _ _ _ _ _ _ _ T2 Rm) as M2.
  destruct M2 as [_ [_ [_ [M4' [M5' [M6' [M7' _]]]]]]]. pose proof (M6' m Lm). pose proof (M7' m Lm).
  step_ok (direction_ok order nodes1 f xi fx m 1 j t3 _ ltac:(lia) ltac:(lia) Lj ltac:(lia) ltac:(lia) ltac:(lia) ltac:(lia) Rn Rx Rt3).
  pose proof (mt_same_trans _ _ _ S3 T2) as T3. pose proof (room_same _ _ _ _ _ _ _ T3 Rm) as M3.
  destruct M3 as [_ [_ [_ [K4 [K5 [K6 [K7 _]]]]]]]. pose proof (K6 m Lm). pose proof (K7 m Lm).
  step_ok (direction_ok order nodes1 f xi fx m 2 k t4 _ ltac:(lia) ltac:(lia) Lk ltac:(lia) ltac:(lia) ltac:(lia) ltac:(lia) Rn Rx Rt4).
  pose proof (mt_same_trans _ _ _ S4 T3) as T4. pose proof (room_same _ _ _ _ _ _ _ T4 Rm) as M4''.
  destruct M4'' as [_ [_ [_ [_ [_ [M6'' [M7'' [M8 M9]]]]]]]]. pose proof (M6'' m Lm) as N6. pose proof (M7'' m Lm) as N7. pose proof (M9 m Lm) as N9.
  match type of Rt5 with mt_repr _ ?h => set (G := h) in * end.
  pose proof Rt5 as [_ [_ [_ [V [W _]]]]].
  rewrite !rd2_ok by lia. cbn [bind].
  assert (E : forall d, (d < 3)%nat -> nth d (row (mt_val t5) m) 0 = t_val G m d)
    by (intros d Ld; apply V; [eapply row_lt with (j := d); lia | lia]).
  assert (E' : forall d, (d < 3)%nat -> nth d (row (mt_dval t5) m) 0 = t_dval G m d)
    by (intros d Ld; apply W; [eapply row_lt with (j := d); lia | lia]).
  rewrite !E, !E' by lia.
  step_ok (m_basis_ok m (t_val G m 0%nat * t_val G m 1%nat * t_val G m 2%nat) t5 G ltac:(lia) Rt5).
  assert (N9' : (3 <= length (row (mt_partial t6) m))%nat) by (destruct S5 as [_ [_ [_ [_ [_ [_ [_ S5]]]]]]]; rewrite S5; lia).
  step_ok (m_partial_ok m 0 (t_dval G m 0%nat * t_val G m 1%nat * t_val G m 2%nat) t6 _ ltac:(lia) Rt6).
  assert (N9'' : (3 <= length (row (mt_partial t7) m))%nat) by (destruct S6 as [_ [_ [_ [_ [_ [_ [_ S6]]]]]]]; rewrite S6; lia).
  step_ok (m_partial_ok m 1 (t_val G m 0%nat * t_dval G m 1%nat * t_val G m 2%nat) t7 _ ltac:(lia) Rt7).
  assert (N93 : (3 <= length (row (mt_partial t8) m))%nat) by (destruct S7 as [_ [_ [_ [_ [_ [_ [_ S7]]]]]]]; rewrite S7; lia).
  destruct (m_partial_ok m 2 (t_val G m 0%nat * t_val G m 1%nat * t_dval G m 2%nat) t8 _ ltac:(lia) Rt8) as [t9 [-> [S9 R9]]].
  exists t9. split; [reflexivity|]. split; [|exact R9].
  eapply mt_same_trans; [exact S9|]. eapply mt_same_trans; [exact S7|]. eapply mt_same_trans; [exact S6|].
  eapply mt_same_trans; [exact S5 | exact T4].
Qed.
Definition as_tensor (t : mtensor) : tensor :=
  {| t_nodes := fun i j => nth j (row (mt_nodes t) i) 0; t_val1 := fun i => nth i (mt_val1 t) 0; t_dval1 := fun i => nth i (mt_dval1 t) 0;
     t_val := fun i j => nth j (row (mt_val t) i) 0; t_dval := fun i j => nth j (row (mt_dval t) i) 0;
     t_basis := fun i => nth i (mt_basis t) 0; t_partial := fun i j => nth j (row (mt_partial t) i) 0 |}.
Lemma as_tensor_repr t : mt_repr t (as_tensor t).
Proof. unfold mt_repr. cbn. repeat split; intros ?; intros; reflexivity. Qed.
Lemma quadn_ok order nodes1 xi t : room (order + 1) ((order + 1) * (order + 1)) 2 nodes1 xi t ->
  exists t', m_quadn order nodes1 xi t = Ok t' /\ mt_same t' t /\
    mt_repr t' (quadn_basis_partials order (fun i => nth i nodes1 0) (fun i => nth i xi 0) (as_tensor t)).
Proof.
  intros Rm. unfold m_quadn, quadn_basis_partials.
  apply (mloop_ok (fun i u => mt_same u t /\ mt_repr u (loop i (quadn_body order (fun i => nth i nodes1 0) (fun i => nth i xi 0)) (as_tensor t)))).
  - split; [apply mt_same_refl | apply as_tensor_repr].
  - intros m u Lm [Su Ru].
    destruct (quadn_body_ok order nodes1 _ xi _ m u _ Lm (room_same _ _ _ _ _ _ _ Su Rm) (repr_at nodes1) (repr_at xi) Ru) as [u' [E [S' R']]].
    exists u'. split; [exact E|]. split; [eapply mt_same_trans; eauto | exact R'].
Qed.
Lemma hexn_ok order nodes1 xi t : room (order + 1) ((order + 1) * ((order + 1) * (order + 1))) 3 nodes1 xi t ->
  exists t', m_hexn order nodes1 xi t = Ok t' /\ mt_same t' t /\
    mt_repr t' (hexn_basis_partials order (fun i => nth i nodes1 0) (fun i => nth i xi 0) (as_tensor t)).
Proof.
  intros Rm. unfold m_hexn, hexn_basis_partials.
  apply (mloop_ok (fun i u => mt_same u t /\ mt_repr u (loop i (hexn_body order (fun i => nth i nodes1 0) (fun i => nth i xi 0)) (as_tensor t)))).
  - split; [apply mt_same_refl | apply as_tensor_repr].
  - intros m u Lm [Su Ru].
    destruct (hexn_body_ok order nodes1 _ xi _ m u _ Lm (room_same _ _ _ _ _ _ _ Su Rm) (repr_at nodes1) (repr_at xi) Ru) as [u' [E [S' R']]].
    exists u'. split; [exact E|]. split; [eapply mt_same_trans; eauto | exact R'].
Qed.

(** ** the sizes are needed *)
Lemma m_node_inv nodes1 m d i t t' : m_node nodes1 m d i t = Ok t' ->
  (i - 1 < length nodes1)%nat /\ (d < length (row (mt_nodes t) m))%nat /\ mt_same t' t.
Proof.
  unfold m_node. intros H. inv_binds. injection H as <-. apply (rd_inv _ _ _ 0) in E. apply wr2_inv in E0.
  destruct E0 as [L S]. split; [apply E|]. split; [exact L|]. unfold mt_same; cbn. repeat split; auto using same_refl; apply S.
Qed.
Lemma m_direction_inv order nodes1 xi m d i t t' : m_direction order nodes1 xi m d i t = Ok t' ->
  (d < length xi)%nat /\ (order < length (mt_val1 t))%nat /\ (order < length (mt_dval1 t))%nat /\
  (d < length (row (mt_val t) m))%nat /\ (d < length (row (mt_dval t) m))%nat /\ mt_same t' t.
Proof.
  unfold m_direction. intros H. inv_binds. injection H as <-.
  apply (rd_inv _ _ _ 0) in E. apply lagrange_inv in E0. destruct E0 as [_ [La [Lb [Ea Eb]]]].
  apply wr2_inv in E2, E4. destruct E2 as [L2 S2], E4 as [L4 S4].
  apply (mloop_inv (fun vd => length (fst vd) = length (fst a0) /\ length (snd vd) = length (snd a0))) in E5; [|auto|].
  - destruct E5 as [[Q1 Q2] _]. repeat split; try apply E; auto; unfold mt_same; cbn; try apply S2; try apply S4; try congruence.
  - intros k u u' _ [Q1 Q2] Eu. inv_binds. apply wr_inv in E0, E2. destruct E0 as [_ ->], E2 as [_ ->]. injection Eu as <-.
    cbn [fst snd]. rewrite !length_upd. auto.
Qed.
Lemma m_basis_inv m x t t' : m_basis m x t = Ok t' -> (m < length (mt_basis t))%nat /\ mt_same t' t.
Proof.
  unfold m_basis. intros H. inv_binds. injection H as <-. apply wr_inv in E. destruct E as [L ->]. split; [exact L|].
  unfold mt_same; cbn. rewrite length_upd. repeat split; auto using same_refl.
Qed.
Lemma m_partial_inv m d x t t' : m_partial m d x t = Ok t' -> (d < length (row (mt_partial t) m))%nat /\ mt_same t' t.
Proof.
  unfold m_partial. intros H. inv_binds. injection H as <-. apply wr2_inv in E. destruct E as [L S]. split; [exact L|].
  unfold mt_same; cbn. repeat split; auto using same_refl; apply S.
Qed.
(* one iteration: sizes needed for point m of D coordinates *)
Definition needs (order m D : nat) (xi : list R) (t : mtensor) : Prop :=
  (D <= length xi)%nat /\ (D <= length (row (mt_nodes t) m))%nat /\ (order < length (mt_val1 t))%nat /\ (order < length (mt_dval1 t))%nat /\
  (D <= length (row (mt_val t) m))%nat /\ (D <= length (row (mt_dval t) m))%nat /\ (m < length (mt_basis t))%nat /\
  (D <= length (row (mt_partial t) m))%nat.
Lemma mt_same_sym a b : mt_same a b -> mt_same b a.
Proof. unfold mt_same, same. intuition. Qed.
Lemma needs_same order m D xi t t0 : mt_same t t0 -> needs order m D xi t -> needs order m D xi t0.
Proof.
  unfold needs. intros [[_ A] [B [C [[_ E] [[_ F] [G [_ H]]]]]]]. rewrite !A, B, C, !E, !F, G, !H. auto.
Qed.
Ltac chain := eapply mt_same_trans; [eassumption|]; try eassumption.
Lemma quadn_body_inv order nodes1 xi m t t' : m_quadn_body order nodes1 xi m t = Ok t' ->
  needs order m 2 xi t /\ mt_same t' t /\ (fst (quadn_idx (order + 1) m) - 1 < length nodes1)%nat.
Proof.
  unfold m_quadn_body. destruct (quadn_idx (order + 1) m) as [i j]. intros H. inv_binds.
  apply m_node_inv in E, E0. apply m_direction_inv in E1, E2. apply rd2_inv in E3, E4, E5, E6. apply m_basis_inv in E7.
  apply m_partial_inv in E8, H.
  destruct E as [N1 [N2 S1]], E0 as [N3 [N4 S2]], E1 as [D1 [D2 [D3 [D4 [D5 S3]]]]], E2 as [D6 [D7 [D8 [D9 [D10 S4]]]]],
    E7 as [B1 S5], E8 as [P1 S6], H as [P2 S7].
  assert (T2 : mt_same a0 t) by chain. assert (T3 : mt_same a1 t) by chain. assert (T4 : mt_same a2 t) by chain.
  assert (T5 : mt_same a7 t) by chain. assert (T6 : mt_same a8 t) by chain. assert (T7 : mt_same t' t) by chain.
  split; [|split; [exact T7 | exact N1]].
  unfold needs. destruct S1 as [[_ S1n] _]. rewrite S1n in N4. destruct T3 as [_ [V1 [V2 [[_ V3] [[_ V4] _]]]]].
  rewrite V1 in D7. rewrite V2 in D8. rewrite V3 in D9. rewrite V4 in D10. destruct T4 as [_ [_ [_ [_ [_ [W1 _]]]]]]. rewrite W1 in B1.
  destruct T6 as [_ [_ [_ [_ [_ [_ [_ W2]]]]]]]. rewrite W2 in P2. repeat split; lia.
Qed.
Lemma hexn_body_inv order nodes1 xi m t t' : m_hexn_body order nodes1 xi m t = Ok t' ->
  needs order m 3 xi t /\ mt_same t' t /\ (fst (fst (hexn_idx (order + 1) m)) - 1 < length nodes1)%nat.
Proof.
  unfold m_hexn_body. destruct (hexn_idx (order + 1) m) as [[i j] k]. intros H. inv_binds.
  apply m_node_inv in E, E0, E1. apply m_direction_inv in E2, E3, E4. apply m_basis_inv in E11.
  apply m_partial_inv in E12, E13, H.
  destruct E as [N1 [N2 S1]], E0 as [N3 [N4 S2]], E1 as [N5 [N6 S2']], E2 as [D1 [D2 [D3 [D4 [D5 S3]]]]], E3 as [D6 [D7 [D8 [D9 [D10 S4]]]]],
    E4 as [F1 [F2 [F3 [F4 [F5 S4']]]]], E11 as [B1 S5], E12 as [P1 S6], E13 as [P2 S7], H as [P3 S8].
  assert (T2 : mt_same a0 t) by chain. assert (T2' : mt_same a1 t) by chain. assert (T3 : mt_same a2 t) by chain.
  assert (T4 : mt_same a3 t) by chain. assert (T5 : mt_same a4 t) by chain. assert (T6 : mt_same a11 t) by chain.
  assert (T7 : mt_same a12 t) by chain. assert (T8 : mt_same a13 t) by chain. assert (T9 : mt_same t' t) by chain.
  split; [|split; [exact T9 | exact N1]].
  unfold needs. destruct T2 as [[_ S1n] _]. rewrite S1n in N6. destruct T4 as [_ [V1 [V2 [[_ V3] [[_ V4] _]]]]].
  rewrite V1 in F2. rewrite V2 in F3. rewrite V3 in F4. rewrite V4 in F5. destruct T5 as [_ [_ [_ [_ [_ [W1 _]]]]]]. rewrite W1 in B1.
  destruct T8 as [_ [_ [_ [_ [_ [_ [_ W2]]]]]]]. rewrite W2 in P3. repeat split; lia.
Qed.
Lemma needs_room order P D nodes1 xi t : (0 < P)%nat -> (order < length nodes1)%nat ->
  (forall m, (m < P)%nat -> needs order m D xi t) -> room (order + 1) P D nodes1 xi t.
Proof.
  intros L0 Ln All. destruct (All 0%nat L0) as [X [_ [V1 [V2 _]]]]. destruct (All (P - 1)%nat ltac:(lia)) as [_ [_ [_ [_ [_ [_ [B _]]]]]]].
  unfold room. repeat split; try lia; intros p Lp; apply (All p Lp).
Qed.
Lemma quadn_need order nodes1 xi t t' : m_quadn order nodes1 xi t = Ok t' ->
  room (order + 1) ((order + 1) * (order + 1)) 2 nodes1 xi t.
Proof.
  unfold m_quadn. intros H. apply (mloop_inv (fun u => mt_same u t)) in H; [|apply mt_same_refl|].
  - destruct H as [_ All]. apply needs_room; [nia| |].
    + destruct (All order ltac:(nia)) as [u [u' [_ Eu]]]. apply quadn_body_inv in Eu. destruct Eu as [_ [_ L]].
      unfold quadn_idx in L. rewrite Nat.div_small in L by lia. cbn [fst] in L. lia.
    + intros m Lm. destruct (All m Lm) as [u [u' [Su Eu]]]. apply quadn_body_inv in Eu. destruct Eu as [Nu _].
      eapply needs_same; eauto.
  - intros m u u' _ Su Eu. apply quadn_body_inv in Eu. destruct Eu as [_ [S' _]]. eapply mt_same_trans; eauto.
Qed.
Lemma hexn_need order nodes1 xi t t' : m_hexn order nodes1 xi t = Ok t' ->
  room (order + 1) ((order + 1) * ((order + 1) * (order + 1))) 3 nodes1 xi t.
Proof.
  unfold m_hexn. intros H. apply (mloop_inv (fun u => mt_same u t)) in H; [|apply mt_same_refl|].
  - destruct H as [_ All]. apply needs_room; [nia| |].
    + destruct (All order ltac:(nia)) as [u [u' [_ Eu]]]. apply hexn_body_inv in Eu. destruct Eu as [_ [_ L]].
      unfold hexn_idx in L. rewrite (Nat.div_small order ((order + 1) * (order + 1))) in L by nia. cbn [fst] in L.
      replace (order + 1 - (order + 1) * (order + 1) * (0 + 1 - 1) - 1)%nat with order in L by lia.
      rewrite Nat.div_small in L by lia. lia.
    + intros m Lm. destruct (All m Lm) as [u [u' [Su Eu]]]. apply hexn_body_inv in Eu. destruct Eu as [Nu _].
      eapply needs_same; eauto.
  - intros m u u' _ Su Eu. apply hexn_body_inv in Eu. destruct Eu as [_ [S' _]]. eapply mt_same_trans; eauto.
Qed.

(** ** physical_position *)
Lemma position_ok P D nodes basis x fn fb f : wide nodes P D -> (P <= length basis)%nat -> (D <= length x)%nat ->
  repr2 nodes fn -> repr basis fb -> repr x f ->
  exists x', m_position P D nodes basis x = Ok x' /\ length x' = length x /\ repr x' (lag_position P D fn fb f).
Proof.
  intros W Lb Lx Rn Rb Rx. unfold m_position, lag_position.
  match goal with |- context [ loop P ?c f ] => set (C := c) end.
  apply (mloop_ok (fun i y => length y = length x /\ repr y (loop i C f))); [auto|].
  intros v y Lv [Hy Ry]. pose proof (W v Lv) as Wv. cbn [loop]. set (g := loop v C f) in *. unfold C.
  match goal with |- context [ loop D ?c g ] => set (B := c) end.
  destruct (mloop_ok (fun i z => length z = length x /\ repr z (loop i B g)) D
    (fun dim x => bind (rd x dim) (fun a => bind (rd2 nodes v dim) (fun n => bind (rd basis v) (fun b => wr x dim (a + n * b))))) y)
    as [z [E [Hz Rz]]]; [auto| |exists z; auto].
  intros d z Ld [Hz Rz]. rewrite (rd_ok z d 0) by lia. cbn [bind]. rewrite rd2_ok by lia. cbn [bind].
  rewrite (rd_ok basis v 0) by lia. cbn [bind]. rewrite wr_ok by lia. eexists. split; [reflexivity|].
  split; [rewrite length_upd; exact Hz|]. cbn [loop]. unfold B at 1.
  rewrite (Rz d) by lia. rewrite (Rn v d) by (try (eapply row_lt with (j := d)); lia). rewrite (Rb v) by lia.
  apply repr_upd; [lia | exact Rz].
Qed.
Lemma position_need P D nodes basis x x' : (0 < P)%nat -> (0 < D)%nat -> m_position P D nodes basis x = Ok x' ->
  wide nodes P D /\ (P <= length basis)%nat /\ (D <= length x)%nat.
Proof.
  intros LP LD H. unfold m_position in H.
  assert (In1 : forall v d z z' : _, bind (rd z d) (fun a => bind (rd2 nodes v d) (fun n => bind (rd basis v) (fun b => wr z d (a + n * b)))) = Ok z' ->
    length z' = length z /\ (d < length z)%nat /\ (d < length (row nodes v))%nat /\ (v < length basis)%nat).
  { intros v d z z' E. inv_binds. apply (rd_inv _ _ _ 0) in E0, E2. apply rd2_inv in E1. apply wr_inv in E. destruct E as [L ->].
    rewrite length_upd. repeat split; auto; [apply E1 | apply E2]. }
  assert (In2 : forall v y y', length y = length x -> mloop D (fun dim x => bind (rd x dim) (fun a => bind (rd2 nodes v dim) (fun n =>
      bind (rd basis v) (fun b => wr x dim (a + n * b))))) y = Ok y' ->
    length y' = length x /\ (D <= length x)%nat /\ (D <= length (row nodes v))%nat /\ (v < length basis)%nat).
  { intros v y y' Ly E. apply (mloop_inv (fun z => length z = length x)) in E; [|exact Ly|].
    - destruct E as [Hy' All]. destruct (All (D - 1)%nat ltac:(lia)) as [z [z' [Hz Ez]]]. apply In1 in Ez. lia.
    - intros d z z' _ Hz Ez. apply In1 in Ez. lia. }
  apply (mloop_inv (fun z => length z = length x)) in H; [|reflexivity|].
  - destruct H as [_ All]. split; [|split].
    + intros v Lv. destruct (All v Lv) as [z [z' [Hz Ez]]]. apply In2 in Ez; [apply Ez|exact Hz].
    + destruct (All (P - 1)%nat ltac:(lia)) as [z [z' [Hz Ez]]]. apply In2 in Ez; [lia|exact Hz].
    + destruct (All 0%nat LP) as [z [z' [Hz Ez]]]. apply In2 in Ez; [lia|exact Hz].
  - intros v z z' _ Hz Ez. apply In2 in Ez; [apply Ez|exact Hz].
Qed.

(** ** corners *)
Definition corner_rows (nodes corner : vv) (index : nat -> nat) (n D : nat) : Prop :=
  (n <= length corner)%nat /\ forall c, (c < n)%nat -> (D <= length (row nodes (index c)))%nat /\ (index c < length nodes)%nat.
Lemma m_corner_ok nodes D c index corner : (index < length nodes)%nat -> (D <= length (row nodes index))%nat -> (c < length corner)%nat ->
  m_corner nodes D c index corner = Ok (upd corner c (row nodes index)).
Proof.
  intros L LD Lc. unfold m_corner. rewrite (rd_ok nodes index []) by exact L. cbn [bind]. fold (row nodes index).
  rewrite wr_ok by exact Lc. cbn [bind].
  destruct (mloop_ok (fun _ _ => True) D (fun d (_ : Datatypes.unit) => bind (rd2 (upd corner c (row nodes index)) c d) (fun _ => Ok tt)) tt I)
    as [u [E _]]; [|rewrite E; reflexivity].
  intros d u Ld _. rewrite rd2_ok by (rewrite row_upd, Nat.eqb_refl by exact Lc; lia). exists tt. auto.
Qed.
Lemma m_corner_inv nodes D c index corner r : m_corner nodes D c index corner = Ok r ->
  (index < length nodes)%nat /\ (D <= length (row nodes index))%nat /\ (c < length corner)%nat /\ length r = length corner.
Proof.
  unfold m_corner. intros H. inv_binds. injection H as <-. apply (rd_inv _ _ _ []) in E. destruct E as [L ->]. fold (row nodes index) in *.
  apply wr_inv in E0. destruct E0 as [Lc ->]. rewrite length_upd. repeat split; auto.
  destruct D as [|D]; [lia|]. apply (mloop_inv (fun _ => True)) in E1; auto. destruct E1 as [_ All].
  destruct (All D ltac:(lia)) as [u [u' [_ Eu]]]. inv_binds. apply rd2_inv in E. destruct E as [E _].
  rewrite row_upd, Nat.eqb_refl in E by exact Lc. lia.
Qed.
Lemma corners_ok nodes corner index n D : corner_rows nodes corner index n D ->
  exists r, mloop n (fun c => m_corner nodes D c (index c)) corner = Ok r /\ length r = length corner /\
    forall c, row r c = if (c <? n)%nat then row nodes (index c) else row corner c.
Proof.
  intros [Lc All].
  apply (mloop_ok (fun i r => length r = length corner /\ forall c, row r c = if (c <? i)%nat then row nodes (index c) else row corner c)).
  - split; [reflexivity|]. intros c. reflexivity.
  - intros i r Li [Hr Er]. destruct (All i Li) as [L1 L2]. rewrite m_corner_ok by (auto; lia). eexists. split; [reflexivity|].
    split; [rewrite length_upd; exact Hr|]. intros c. rewrite row_upd by lia. destruct (Nat.eqb_spec c i) as [->|N].
    + rewrite (proj2 (Nat.ltb_lt i (S i))) by lia. reflexivity.
    + rewrite Er. destruct (Nat.ltb_spec c i), (Nat.ltb_spec c (S i)); try reflexivity; lia.
Qed.
Lemma corners_need nodes corner index n D r : mloop n (fun c => m_corner nodes D c (index c)) corner = Ok r ->
  corner_rows nodes corner index n D.
Proof.
  intros H. apply (mloop_inv (fun t => length t = length corner)) in H; [|reflexivity|].
  - destruct H as [_ All]. split.
    + destruct n as [|n]; [lia|]. destruct (All n ltac:(lia)) as [t [t' [Ht Et]]]. apply m_corner_inv in Et. lia.
    + intros c Lc. destruct (All c Lc) as [t [t' [Ht Et]]]. apply m_corner_inv in Et. split; apply Et.
  - intros c t t' _ Ht Et. apply m_corner_inv in Et. lia.
Qed.

(** ** Jacobians *)
Lemma wr2_setm m F i j x : (j < length (row m i))%nat -> repr2 m F ->
  exists m', wr2 m i j x = Ok m' /\ same m' m /\ repr2 m' (setm F i j x).
Proof.
  intros L Rm. destruct (wr2_ok m i j x L) as [m' [E [S V]]]. exists m'. split; [exact E|]. split; [exact S|].
  exact (repr2_wr m F i j x m' S V Rm).
Qed.
Lemma jac_zero_ok dim J : forall F, wide J dim dim -> repr2 J F -> exists J', m_jac_zero dim J = Ok J' /\ same J' J /\ repr2 J' (jac_zero dim F).
Proof.
  intros F W Rj. unfold m_jac_zero, jac_zero.
  match goal with |- context [ loop dim ?c F ] => set (C := c) end.
  apply (mloop_ok (fun i A => same A J /\ repr2 A (loop i C F))); [split; [apply same_refl|exact Rj]|].
  intros j A Lj [SA RA]. cbn [loop]. set (G := loop j C F) in *. unfold C.
  match goal with |- context [ loop dim ?c G ] => set (B := c) end.
  apply (mloop_ok (fun k K => same K J /\ repr2 K (loop k B G)) dim (fun k J => wr2 J j k 0)); [auto|].
  intros k K Lk [SK RK]. pose proof (W j Lj). destruct (wr2_setm K _ j k 0 ltac:(rewrite (proj2 SK); lia) RK) as [K' [E [S' R']]].
  exists K'. split; [exact E|]. split; [eapply same_trans; eauto | exact R'].
Qed.
Lemma jac_fill_ok n dim vertices partial fv fp J : forall F, wide J dim dim -> wide vertices n dim -> wide partial n dim ->
  repr2 vertices fv -> repr2 partial fp -> repr2 J F ->
  exists J', m_jac_fill n dim vertices partial J = Ok J' /\ same J' J /\ repr2 J' (jac_fill n dim fv fp F).
Proof.
  intros F W Wv Wp Rv Rp Rj. unfold m_jac_fill, jac_fill.
  match goal with |- context [ loop dim ?c F ] => set (C := c) end.
  apply (mloop_ok (fun i A => same A J /\ repr2 A (loop i C F))); [split; [apply same_refl|exact Rj]|].
  intros j A Lj [SA RA]. cbn [loop]. set (G := loop j C F) in *. unfold C.
  match goal with |- context [ loop dim ?c G ] => set (B := c) end.
  match goal with |- exists t', mloop dim ?b A = _ /\ _ => apply (mloop_ok (fun k K => same K J /\ repr2 K (loop k B G)) dim b) end; [auto|].
  intros k K Lk [SK RK]. cbn [loop]. set (H := loop k B G) in *. unfold B.
  match goal with |- context [ loop n ?c H ] => set (D := c) end.
  match goal with |- exists t', mloop n ?b K = _ /\ _ => apply (mloop_ok (fun v K => same K J /\ repr2 K (loop v D H)) n b) end; [auto|].
  intros v M Lv [SM RM]. pose proof (W j Lj). pose proof (Wv v Lv). pose proof (Wp v Lv).
  assert (LM : (k < length (row M j))%nat) by (rewrite (proj2 SM); lia).
  rewrite !rd2_ok by lia. cbn [bind].
  rewrite (RM j k) by (try (eapply row_lt; exact LM); exact LM).
  rewrite (Rv v k), (Rp v j) by (try (eapply row_lt with (j := k)); try (eapply row_lt with (j := j)); lia).
  destruct (wr2_setm M _ j k (loop v D H j k + fv v k * fp v j) LM RM) as [K' [E [S' R']]].
  exists K'. split; [exact E|]. split; [eapply same_trans; eauto | exact R'].
Qed.
Lemma firstn_last (l : list R) : forall c, (c < length l)%nat -> firstn (S c) l = firstn c l ++ [nth c l 0].
Proof.
  induction l as [|x l IH]; intros [|c] L; cbn [length] in L; try lia; [reflexivity|].
  change (firstn (S (S c)) (x :: l)) with (x :: firstn (S c) l). rewrite IH by lia. reflexivity.
Qed.
Lemma rd_row_ok J i c : (c <= length (row J i))%nat -> rd_row J i c = Ok (firstn c (row J i)).
Proof.
  induction c as [|c IH]; intros L; [reflexivity|]. cbn [rd_row]. rewrite IH by lia. cbn [bind]. rewrite rd2_ok by lia. cbn [bind].
  f_equal. symmetry. apply firstn_last. lia.
Qed.
Lemma rd_row_inv J i c l : rd_row J i c = Ok l -> (c <= length (row J i))%nat.
Proof. destruct c as [|c]; [lia|]. cbn [rd_row]. intros H. inv_binds. apply rd2_inv in E0. lia. Qed.
Lemma rd_block_ok J r c : wide J r c -> exists B, rd_block J r c = Ok B /\ length B = r /\
  forall i j, (i < r)%nat -> (j < c)%nat -> nth j (nth i B []) 0 = nth j (row J i) 0.
Proof.
  induction r as [|r IH]; intros W; [exists []; repeat split; lia|].
  destruct IH as [B [E [L V]]]; [intros p Lp; apply W; lia|].
  exists (B ++ [firstn c (row J r)]). cbn [rd_block]. rewrite E. cbn [bind]. rewrite rd_row_ok by (apply W; lia). cbn [bind].
  split; [reflexivity|]. split; [rewrite app_length; cbn; lia|]. intros i j Li Lj.
  destruct (Nat.eq_dec i r) as [->|N].
  - rewrite app_nth2 by lia. rewrite L, Nat.sub_diag. cbn [nth]. pose proof (W r ltac:(lia)).
    rewrite <- (firstn_skipn c (row J r)) at 2. rewrite app_nth1; [reflexivity|]. rewrite firstn_length. lia.
  - rewrite app_nth1 by lia. apply V; lia.
Qed.
Lemma rd_block_inv J r c B : rd_block J r c = Ok B -> wide J r c.
Proof.
  revert B. induction r as [|r IH]; intros B H p L; [lia|]. cbn [rd_block] in H. inv_binds. apply rd_row_inv in E0.
  destruct (Nat.eq_dec p r) as [->|]; [exact E0|]. apply (IH _ E). lia.
Qed.
Lemma wide_back m m0 P D : same m m0 -> wide m P D -> wide m0 P D.
Proof. intros [_ S] W p L. rewrite <- S. apply W. exact L. Qed.
Lemma jac_zero_inv dim J J' : m_jac_zero dim J = Ok J' -> same J' J /\ wide J dim dim.
Proof.
  unfold m_jac_zero. intros H.
  assert (In : forall j t t', same t J -> mloop dim (fun k J => wr2 J j k 0) t = Ok t' -> same t' J /\ ((j < dim)%nat -> (dim <= length (row J j))%nat)).
  { intros j t t' St E. apply (mloop_inv (fun u => same u J)) in E; [|exact St|].
    - destruct E as [S' All]. split; [exact S'|]. intros Lj. destruct (All (dim - 1)%nat ltac:(lia)) as [u [u' [Su Eu]]].
      apply wr2_inv in Eu. rewrite (proj2 Su) in Eu. lia.
    - intros k u u' _ Su Eu. apply wr2_inv in Eu. eapply same_trans; [apply Eu|exact Su]. }
  apply (mloop_inv (fun u => same u J)) in H; [|apply same_refl|].
  - destruct H as [S' All]. split; [exact S'|]. intros j Lj. destruct (All j Lj) as [t [t' [St Et]]]. exact (proj2 (In j t t' St Et) Lj).
  - intros j t t' _ St Et. exact (proj1 (In j t t' St Et)).
Qed.
Lemma jac_fill_inv n dim vertices partial J J' : m_jac_fill n dim vertices partial J = Ok J' ->
  same J' J /\ wide vertices n dim /\ wide partial n dim.
Proof.
  unfold m_jac_fill. intros H.
  assert (I1 : forall j k t t', same t J -> mloop n (fun v J => bind (rd2 J j k) (fun a => bind (rd2 vertices v k) (fun x =>
     bind (rd2 partial v j) (fun p => wr2 J j k (a + x * p))))) t = Ok t' ->
     same t' J /\ forall v, (v < n)%nat -> (k < length (row vertices v))%nat /\ (j < length (row partial v))%nat).
  { intros j k t t' St E. apply (mloop_inv (fun u => same u J)) in E; [|exact St|].
    - destruct E as [S' All]. split; [exact S'|]. intros v Lv. destruct (All v Lv) as [u [u' [Su Eu]]]. inv_binds.
      apply rd2_inv in E0, E1. split; [apply E0 | apply E1].
    - intros v u u' _ Su Eu. inv_binds. apply wr2_inv in Eu. eapply same_trans; [apply Eu|exact Su]. }
  assert (I2 : forall j t t', same t J -> mloop dim (fun k J => mloop n (fun v J => bind (rd2 J j k) (fun a => bind (rd2 vertices v k) (fun x =>
     bind (rd2 partial v j) (fun p => wr2 J j k (a + x * p))))) J) t = Ok t' ->
     same t' J /\ forall k v, (k < dim)%nat -> (v < n)%nat -> (k < length (row vertices v))%nat /\ (j < length (row partial v))%nat).
  { intros j t t' St E. apply (mloop_inv (fun u => same u J)) in E; [|exact St|].
    - destruct E as [S' All]. split; [exact S'|]. intros k v Lk Lv. destruct (All k Lk) as [u [u' [Su Eu]]].
      exact (proj2 (I1 _ _ _ _ Su Eu) v Lv).
    - intros k u u' _ Su Eu. exact (proj1 (I1 _ _ _ _ Su Eu)). }
  apply (mloop_inv (fun u => same u J)) in H; [|apply same_refl|].
  - destruct H as [S' All].
    assert (W : forall j k v, (j < dim)%nat -> (k < dim)%nat -> (v < n)%nat -> (k < length (row vertices v))%nat /\ (j < length (row partial v))%nat).
    { intros j k v Lj Lk Lv. destruct (All j Lj) as [t [t' [St Et]]]. exact (proj2 (I2 _ _ _ St Et) k v Lk Lv). }
    split; [exact S'|]. split; intros v Lv; destruct dim as [|d]; try lia;
      destruct (W d d v ltac:(lia) ltac:(lia) Lv); lia.
  - intros j t t' _ St Et. exact (proj1 (I2 _ _ _ St Et)).
Qed.
(* matrices given as lists *)
Definition at2 (m : vv) : nat -> vec := fun i j => nth j (row m i) 0.
Lemma jac_ok r dim n J vertices partial : wide J dim dim -> wide J r r -> wide vertices n dim -> wide partial n dim ->
  exists J' B, bind (m_jac_zero dim J) (m_jac_fill n dim vertices partial) = Ok J' /\ same J' J /\
    rd_block J' r r = Ok B /\
    repr2 J' (jac_fill n dim (at2 vertices) (at2 partial) (jac_zero dim (at2 J))) /\
    forall i j, (i < r)%nat -> (j < r)%nat -> mat_of B i j = jac_fill n dim (at2 vertices) (at2 partial) (jac_zero dim (at2 J)) i j.
Proof.
  intros W Wr Wv Wp.
  destruct (jac_zero_ok dim J (at2 J) W (repr2_at J)) as [K [E [S R1]]].
  destruct (jac_fill_ok n dim vertices partial _ _ K _ (wide_same _ _ _ _ S W) Wv Wp (repr2_at vertices) (repr2_at partial) R1) as [L [E' [S' R2]]].
  pose proof (same_trans _ _ _ S' S) as SL.
  destruct (rd_block_ok L r r (wide_same _ _ _ _ SL Wr)) as [B [EB [LB VB]]].
  exists L, B. rewrite E. cbn [bind]. rewrite E'. split; [reflexivity|]. split; [exact SL|]. split; [exact EB|]. split; [exact R2|].
  intros i j Li Lj. unfold mat_of. rewrite VB by assumption. pose proof (wide_same _ _ _ _ SL Wr i Li).
  apply R2; [eapply row_lt with (j := j); lia | lia].
Qed.
Lemma jacobian_ok dim n J vertices partial : wide J dim dim -> wide J 3 3 -> wide vertices n dim -> wide partial n dim ->
  exists J' det, m_jacobian J vertices partial n dim = Ok (J', det) /\ same J' J /\
    repr2 J' (jac_fill n dim (at2 vertices) (at2 partial) (jac_zero dim (at2 J))) /\
    det = jac_det23 (jac_fill n dim (at2 vertices) (at2 partial) (jac_zero dim (at2 J)))
            (IZR (Z.abs (Z.of_nat dim - 3))) (IZR (Z.abs (Z.of_nat dim - 2))).
Proof.
  intros W Wr Wv Wp. destruct (jac_ok 3 dim n J vertices partial W Wr Wv Wp) as [J' [B [E [S [EB [Rj V]]]]]].
  eexists J', _. unfold m_jacobian. apply bind_inv in E. destruct E as [K [E1 E2]]. rewrite E1. cbn [bind]. rewrite E2. cbn [bind].
  rewrite EB. cbn [bind]. split; [reflexivity|]. split; [exact S|]. split; [exact Rj|].
  unfold jac_det23. rewrite !V by lia. reflexivity.
Qed.
Lemma jacobian4D_ok dim n J vertices partial : wide J dim dim -> wide J 4 4 -> wide vertices n dim -> wide partial n dim ->
  exists J' det, m_jacobian4D J vertices partial n dim = Ok (J', det) /\ same J' J /\
    repr2 J' (jac_fill n dim (at2 vertices) (at2 partial) (jac_zero dim (at2 J))) /\
    det = jac_det4 (jac_fill n dim (at2 vertices) (at2 partial) (jac_zero dim (at2 J))).
Proof.
  intros W Wr Wv Wp. destruct (jac_ok 4 dim n J vertices partial W Wr Wv Wp) as [J' [B [E [S [EB [Rj V]]]]]].
  eexists J', _. unfold m_jacobian4D. apply bind_inv in E. destruct E as [K [E1 E2]]. rewrite E1. cbn [bind]. rewrite E2. cbn [bind].
  rewrite EB. cbn [bind]. split; [reflexivity|]. split; [exact S|]. split; [exact Rj|].
  unfold jac_det4. rewrite !V by lia. reflexivity.
Qed.
Lemma jacobian_need dim n J vertices partial r : m_jacobian J vertices partial n dim = Ok r ->
  wide J dim dim /\ wide J 3 3 /\ wide vertices n dim /\ wide partial n dim.
Proof.
  unfold m_jacobian. intros H. inv_binds. apply jac_zero_inv in E. apply jac_fill_inv in E0. apply rd_block_inv in E1.
  destruct E as [S W], E0 as [S' [Wv Wp]]. repeat split; auto. eapply wide_back; [|exact E1]. eapply same_trans; eauto.
Qed.
Lemma jacobian4D_need dim n J vertices partial r : m_jacobian4D J vertices partial n dim = Ok r ->
  wide J dim dim /\ wide J 4 4 /\ wide vertices n dim /\ wide partial n dim.
Proof.
  unfold m_jacobian4D. intros H. inv_binds. apply jac_zero_inv in E. apply jac_fill_inv in E0. apply rd_block_inv in E1.
  destruct E as [S W], E0 as [S' [Wv Wp]]. repeat split; auto. eapply wide_back; [|exact E1]. eapply same_trans; eauto.
Qed.
Lemma inverse_4d_ok Jinv J det : wide Jinv 4 4 -> wide J 4 4 ->
  exists K, m_inverse_4d Jinv J det = Ok K /\ same K Jinv /\ repr2 K (jacobian_inverse_4d (at2 Jinv) (at2 J) det).
Proof.
  intros Wi Wj. unfold m_inverse_4d. destruct (rd_block_ok J 4 4 Wj) as [B [EB [LB VB]]]. rewrite EB. cbn [bind]. cbv zeta.
  set (I := fun a => inv16 (flat4 (mat_of B)) a * (1 / det)).
  assert (EI : forall i j, (i < 4)%nat -> (j < 4)%nat -> I (4 * i + j)%nat = inv16 (flat4 (at2 J)) (4 * i + j) * (1 / det)).
  { intros i j Li Lj. unfold I. f_equal.
    assert (F : forall a, (a < 16)%nat -> flat4 (mat_of B) a = flat4 (at2 J) a).
    { intros a La. unfold flat4, mat_of, at2. apply VB; [apply Nat.div_lt_upper_bound; lia | apply Nat.mod_upper_bound; lia]. }
    do 4 (destruct i as [|i]; [do 4 (destruct j as [|j]; [cbv [Nat.add Nat.mul inv16]; rewrite !F by lia; reflexivity|]); lia|]). lia. }
  clearbody I. unfold m_put4.
  destruct (mloop_ok (fun i K => same K Jinv /\ forall a b, nth b (row K a) 0 = if ((a <? i) && (b <? 4))%nat%bool then I (4 * a + b)%nat else nth b (row Jinv a) 0)
    4 (fun i Jinv => mloop 4 (fun j Jinv => wr2 Jinv i j (I (4 * i + j)%nat)) Jinv) Jinv) as [K [E [S V]]].
  - split; [apply same_refl|]. reflexivity.
  - intros i K Li [SK VK].
    destruct (mloop_ok (fun j M => same M Jinv /\ forall a b, nth b (row M a) 0 =
        if (((a <? i) && (b <? 4)) || ((a =? i) && (b <? j)))%nat%bool then I (4 * a + b)%nat else nth b (row Jinv a) 0)
      4 (fun j Jinv => wr2 Jinv i j (I (4 * i + j)%nat)) K) as [M [EM [SM VM]]].
    + split; [exact SK|]. intros a b. rewrite VK. rewrite andb_false_r, orb_false_r. reflexivity.
    + intros j M Lj [SM VM]. pose proof (Wi i Li).
      destruct (wr2_ok M i j (I (4 * i + j)%nat) ltac:(rewrite (proj2 SM); lia)) as [M' [EM [SM' VM']]].
      exists M'. split; [exact EM|]. split; [eapply same_trans; eauto|]. intros a b. rewrite VM', VM.
      destruct (Nat.eqb_spec a i) as [->|Na]; cbn [andb orb]; [|rewrite !orb_false_r; reflexivity].
      rewrite Nat.ltb_irrefl. cbn [andb orb]. destruct (Nat.eqb_spec b j) as [->|Nb].
      * rewrite (proj2 (Nat.ltb_lt j (S j))) by lia. reflexivity.
      * destruct (Nat.ltb_spec b j), (Nat.ltb_spec b (S j)); try reflexivity; lia.
    + exists M. split; [exact EM|]. split; [exact SM|]. intros a b. rewrite VM.
      destruct (Nat.ltb_spec a i), (Nat.ltb_spec a (S i)), (Nat.eqb_spec a i), (b <? 4)%nat; cbn [andb orb]; try reflexivity; lia.
  - exists K. split; [exact E|]. split; [exact S|]. intros a b _ _. rewrite V. unfold jacobian_inverse_4d.
    destruct (Nat.ltb_spec a 4), (Nat.ltb_spec b 4); cbn [andb]; try reflexivity. apply EI; assumption.
Qed.
Lemma inverse_4d_need Jinv J det K : m_inverse_4d Jinv J det = Ok K -> wide Jinv 4 4 /\ wide J 4 4.
Proof.
  unfold m_inverse_4d. intros H. inv_binds. apply rd_block_inv in E. cbv zeta in H. split; [|exact E].
  set (I := fun a0 => inv16 (flat4 (mat_of a)) a0 * (1 / det)) in H. clearbody I. unfold m_put4 in H.
  assert (In : forall j t t', same t Jinv -> mloop 4 (fun k J => wr2 J j k (I (4 * j + k)%nat)) t = Ok t' ->
    same t' Jinv /\ (4 <= length (row Jinv j))%nat).
  { intros j t t' St Et. apply (mloop_inv (fun u => same u Jinv)) in Et; [|exact St|].
    - destruct Et as [S' All]. split; [exact S'|]. destruct (All 3%nat ltac:(lia)) as [u [u' [Su Eu]]].
      apply wr2_inv in Eu. rewrite (proj2 Su) in Eu. lia.
    - intros k u u' _ Su Eu. apply wr2_inv in Eu. eapply same_trans; [apply Eu|exact Su]. }
  apply (mloop_inv (fun u => same u Jinv)) in H; [|apply same_refl|].
  - destruct H as [S' All]. intros j Lj. destruct (All j Lj) as [t [t' [St Et]]]. exact (proj2 (In j t t' St Et)).
  - intros j t t' _ St Et. exact (proj1 (In j t t' St Et)).
Qed.
Lemma inverse_2d_ok J : wide J 2 2 -> exists K, m_inverse_2d J = Ok K /\ length K = 2%nat /\ (forall i, (i < 2)%nat -> length (row K i) = 2%nat) /\
  forall i j, (i < 2)%nat -> (j < 2)%nat -> at2 K i j = jacobian_inverse_2d (at2 J) i j.
Proof.
  intros W. unfold m_inverse_2d. destruct (rd_block_ok J 2 2 W) as [B [EB [LB VB]]]. rewrite EB. cbn [bind]. cbv zeta.
  eexists. split; [reflexivity|]. split; [reflexivity|]. split.
  - intros i Li. do 2 (destruct i as [|i]; [reflexivity|]). lia.
  - intros i j Li Lj. do 2 (destruct i as [|i]; [do 2 (destruct j as [|j]; [unfold at2, row, jacobian_inverse_2d, mat_of; cbn [nth];
      change (nth 0 J []) with (row J 0); change (nth 1 J []) with (row J 1); rewrite !VB by lia; reflexivity|]); lia|]). lia.
Qed.
Lemma inverse_3d_ok J : wide J 3 3 -> exists K, m_inverse_3d J = Ok K /\ length K = 3%nat /\ (forall i, (i < 3)%nat -> length (row K i) = 3%nat) /\
  forall i j, (i < 3)%nat -> (j < 3)%nat -> at2 K i j = jacobian_inverse_3d (at2 J) i j.
Proof.
  intros W. unfold m_inverse_3d. destruct (rd_block_ok J 3 3 W) as [B [EB [LB VB]]]. rewrite EB. cbn [bind]. cbv zeta.
  eexists. split; [reflexivity|]. split; [reflexivity|]. split.
  - intros i Li. do 3 (destruct i as [|i]; [reflexivity|]). lia.
  - intros i j Li Lj. do 3 (destruct i as [|i]; [do 3 (destruct j as [|j]; [unfold at2, row, jacobian_inverse_3d, mat_of; cbn [nth];
      change (nth 0 J []) with (row J 0); change (nth 1 J []) with (row J 1); change (nth 2 J []) with (row J 2); rewrite !VB by lia; reflexivity|]); lia|]). lia.
Qed.

(** ** quadrature rules *)
Fixpoint m_axes (line : Z -> Z -> outcome (R * R)) (n m d : nat) (is : list Z) (s : vv * vv) : outcome (vv * vv) :=
  match is with [] => Ok s | i :: is => bind (m_axis line n m d i s) (m_axes line n m (S d) is) end.
Fixpoint lines (line : Z -> Z -> outcome (R * R)) (n : Z) (is : list Z) : outcome (list R * list R) :=
  match is with
  | [] => Ok ([], [])
  | i :: is => bind (line i n) (fun xw => bind (lines line n is) (fun r => Ok (fst xw :: fst r, 1 * snd xw :: snd r)))
  end.
Lemma bind_ret {A} (x : outcome A) : bind x (fun a => Ok a) = x. Proof. destruct x; reflexivity. Qed.
Lemma lines_length line n is xs ws : lines line n is = Ok (xs, ws) -> length xs = length is /\ length ws = length is.
Proof.
  revert xs ws. induction is as [|i is IH]; intros xs ws H; [injection H as <- <-; auto|]. cbn [lines] in H. inv_binds.
  destruct a0 as [u v]. injection H as <- <-. cbn [fst snd length]. destruct (IH _ _ E0) as [-> ->]. auto.
Qed.
Definition others (m : nat) (a b : vv) : Prop := length a = length b /\ forall k, k <> m -> row a k = row b k.
Lemma others_trans m a b c : others m a b -> others m b c -> others m a c.
Proof. intros [A B] [C D]. split; [congruence|]. intros k N. rewrite B by exact N. apply D. exact N. Qed.
Lemma wr2_row m i j x : (j < length (row m i))%nat -> exists m', wr2 m i j x = Ok m' /\ others i m' m /\ row m' i = upd (row m i) j x.
Proof.
  intros H. pose proof (row_lt _ _ _ H) as L. unfold wr2. rewrite (rd_ok m i []) by exact L. cbn [bind].
  fold (row m i). rewrite wr_ok by exact H. cbn [bind]. rewrite wr_ok by exact L. eexists. split; [reflexivity|]. split.
  - split; [apply length_upd|]. intros k N. rewrite row_upd by exact L. destruct (Nat.eqb_spec k i); [contradiction|reflexivity].
  - rewrite row_upd, Nat.eqb_refl by exact L. reflexivity.
Qed.
Lemma upd_app {T} (a b : list T) x : upd (a ++ b) (length a) x = a ++ upd b 0 x.
Proof. induction a as [|y a IH]; [reflexivity|]. cbn. rewrite IH. reflexivity. Qed.
Lemma m_axes_ok line n m is : forall d xs ws pts wts pre prew suf, lines line (Z.of_nat n) is = Ok (xs, ws) ->
  row pts m = pre ++ suf -> length pre = d -> (length is <= length suf)%nat ->
  row wts m = prew ++ repeat 1 (length is) -> length prew = d ->
  exists pts' wts', m_axes line n m d is (pts, wts) = Ok (pts', wts') /\ others m pts' pts /\ others m wts' wts /\
    row pts' m = pre ++ xs ++ skipn (length is) suf /\ row wts' m = prew ++ ws.
Proof.
  induction is as [|i is IH]; intros d xs ws pts wts pre prew suf El Ep Lp Ls Ew Lw.
  - injection El as <- <-. exists pts, wts. cbn in *. repeat split; auto.
  - cbn [lines] in El. inv_binds. destruct a as [x w], a0 as [xs' ws']. injection El as <- <-. cbn [fst snd] in *.
    destruct suf as [|y suf]; [cbn in Ls; lia|]. cbn [length] in *. cbn [repeat] in Ew.
    cbn [m_axes]. unfold m_axis. rewrite E. cbn [bind fst snd].
    destruct (wr2_row pts m d x) as [p1 [E1 [O1 R1]]]; [rewrite Ep, app_length; cbn; lia|]. rewrite E1. cbn [bind].
    rewrite rd2_ok by (rewrite Ew, app_length; cbn; lia). cbn [bind].
    destruct (wr2_row wts m d (nth d (row wts m) 0 * w)) as [w1 [E2 [O2 R2]]]; [rewrite Ew, app_length; cbn; lia|]. rewrite E2. cbn [bind].
    rewrite Ep, <- Lp, upd_app in R1. cbn [upd] in R1.
    assert (Hn : nth d (row wts m) 0 = 1) by (rewrite Ew, app_nth2 by lia; rewrite Lw, Nat.sub_diag; reflexivity).
    rewrite Hn, Ew, <- Lw, upd_app in R2. cbn [upd] in R2.
    destruct (IH (S d) xs' ws' p1 w1 (pre ++ [x]) (prew ++ [1 * w]) suf E0) as [p2 [w2 [E3 [O3 [O4 [R3 R4]]]]]].
    + rewrite R1, <- app_assoc. reflexivity.
    + rewrite app_length. cbn. lia.
    + lia.
    + rewrite R2, <- app_assoc. reflexivity.
    + rewrite app_length. cbn. lia.
    + exists p2, w2. split; [exact E3|]. split; [eapply others_trans; eauto|]. split; [eapply others_trans; eauto|].
      rewrite R3, R4, <- !app_assoc. cbn. auto.
Qed.
Lemma m_axes_inv line n m is : forall d s s', m_axes line n m d is s = Ok s' ->
  (exists r, lines line (Z.of_nat n) is = Ok r) /\ same (fst s') (fst s) /\ same (snd s') (snd s) /\
  (is <> [] -> (d + length is <= length (row (fst s) m))%nat).
Proof.
  induction is as [|i is IH]; intros d s s' H.
  - injection H as <-. split; [eexists; reflexivity|]. split; [apply same_refl|]. split; [apply same_refl|]. congruence.
  - cbn [m_axes] in H. inv_binds. apply IH in H. destruct H as [[r El] [S1 [S2 L]]]. unfold m_axis in E. inv_binds.
    apply wr2_inv in E1, E3. injection E as <-. cbn [fst snd] in *. destruct E1 as [L1 T1], E3 as [L3 T3].
    split; [eexists; cbn [lines]; rewrite E0; cbn [bind]; rewrite El; reflexivity|].
    split; [eapply same_trans; eauto|]. split; [eapply same_trans; eauto|]. intros _. cbn [length].
    destruct is as [|i' is]; [cbn; lia|]. specialize (L ltac:(congruence)). rewrite (proj2 T1) in L. lia.
Qed.
(* the loop over the points, with the list [idx m] of the line indices of point m *)
Definition m_points (line : Z -> Z -> outcome (R * R)) (n P D : nat) (idx : nat -> list Z) (s : vv * vv) : outcome (vv * vv) :=
  mloop P (fun m s => bind (wr (snd s) m (repeat 1 D)) (fun wts => m_axes line n m 0 (idx m) (fst s, wts))) s.
Lemma bind_ext {A B} (x : outcome A) (f g : A -> outcome B) : (forall a, f a = g a) -> bind x f = bind x g.
Proof. intros H. destruct x; cbn; auto. Qed.
Lemma mloop_ext {S} n (b c : nat -> S -> outcome S) s : (forall i t, b i t = c i t) -> mloop n b s = mloop n c s.
Proof. intros H. induction n as [|n IH]; [reflexivity|]. cbn [mloop]. rewrite IH. destruct (mloop n c s); cbn; auto. Qed.
Lemma m_tensor2_points line n s : m_tensor2 line n s = m_points line n (n * n) 2 (fun m => let '(i, j) := idx2 (Z.of_nat n) (Z.of_nat m) in [i; j]) s.
Proof.
  unfold m_tensor2, m_points. apply mloop_ext. intros m t. destruct (idx2 (Z.of_nat n) (Z.of_nat m)) as [i j].
  cbn [repeat m_axes]. apply bind_ext; intros ?. apply bind_ext; intros ?. symmetry. apply bind_ret.
Qed.
Lemma m_tensor3_points line n s : m_tensor3 line n s = m_points line n (n * n * n) 3 (fun m => let '(i, j, k) := idx3 (Z.of_nat n) (Z.of_nat m) in [i; j; k]) s.
Proof.
  unfold m_tensor3, m_points. apply mloop_ext. intros m t. destruct (idx3 (Z.of_nat n) (Z.of_nat m)) as [[i j] k].
  cbn [repeat m_axes]. apply bind_ext; intros ?. apply bind_ext; intros ?. apply bind_ext; intros ?. symmetry. apply bind_ret.
Qed.
Lemma m_tensor4_points line n dim s : m_tensor4 line n dim s =
  m_points line n (n * n * n * n) 4 (fun m => let '(i, j, k, l) := idx4 (Z.of_nat n) dim (Z.of_nat m) in [i; j; k; l]) s.
Proof.
  unfold m_tensor4, m_points. apply mloop_ext. intros m t. destruct (idx4 (Z.of_nat n) dim (Z.of_nat m)) as [[[i j] k] l].
  cbn [repeat m_axes]. apply bind_ext; intros ?. apply bind_ext; intros ?. apply bind_ext; intros ?. apply bind_ext; intros ?. symmetry. apply bind_ret.
Qed.
(* after P points: the first D coordinates of point m are the nodes, the weights are the row of weights *)
Definition filled (P D : nat) (pw : nat -> outcome (list R * list R)) (pts wts pts' wts' : vv) : Prop :=
  length pts' = length pts /\ length wts' = length wts /\
  (forall m, (m < P)%nat -> exists xs ws, pw m = Ok (xs, ws) /\ row pts' m = xs ++ skipn D (row pts m) /\ row wts' m = ws) /\
  (forall m, (P <= m)%nat -> row pts' m = row pts m /\ row wts' m = row wts m).
Lemma m_points_ok line n P D idx pts wts : (forall m, (m < P)%nat -> length (idx m) = D) ->
  (forall m, (m < P)%nat -> exists r, lines line (Z.of_nat n) (idx m) = Ok r) -> wide pts P D -> (P <= length wts)%nat ->
  exists pts' wts', m_points line n P D idx (pts, wts) = Ok (pts', wts') /\
    filled P D (fun m => lines line (Z.of_nat n) (idx m)) pts wts pts' wts'.
Proof.
  intros LI OKs Wp Lw. unfold m_points.
  destruct (mloop_ok (fun i s => filled i D (fun m => lines line (Z.of_nat n) (idx m)) pts wts (fst s) (snd s)) P
    (fun m s => bind (wr (snd s) m (repeat 1 D)) (fun wts => m_axes line n m 0 (idx m) (fst s, wts))) (pts, wts)) as [[p w] [E F]].
  - split; [reflexivity|]. split; [reflexivity|]. split; [intros m L; lia|]. auto.
  - intros m [p w] Lm [H1 [H2 [H3 H4]]]. cbn [fst snd] in *. rewrite wr_ok by lia. cbn [bind].
    destruct (OKs m Lm) as [[xs ws] El]. pose proof (LI m Lm) as Lm'. pose proof (Wp m Lm) as Wm.
    destruct (H4 m (le_n m)) as [Rp Rw].
    destruct (m_axes_ok line n m (idx m) 0 xs ws p (upd w m (repeat 1 D)) [] [] (row p m) El eq_refl eq_refl) as [p' [w' [E [O1 [O2 [R1 R2]]]]]].
    + rewrite Rp, Lm'. exact Wm.
    + rewrite row_upd, Nat.eqb_refl, Lm' by lia. reflexivity.
    + reflexivity.
    + exists (p', w'). split; [exact E|]. cbn [fst snd]. split; [rewrite (proj1 O1); exact H1|].
      split; [rewrite (proj1 O2), length_upd; exact H2|]. cbn [app] in R1, R2. split.
      * intros k Lk. destruct (Nat.eq_dec k m) as [->|N].
        -- exists xs, ws. split; [exact El|]. split; [rewrite R1, Rp, Lm'; reflexivity | exact R2].
        -- destruct (H3 k ltac:(lia)) as [xs' [ws' [A [B C]]]]. exists xs', ws'. split; [exact A|].
           rewrite (proj2 O1) by exact N. rewrite (proj2 O2) by exact N. rewrite row_upd by lia.
           destruct (Nat.eqb_spec k m); [contradiction|]. auto.
      * intros k Lk. rewrite (proj2 O1) by lia. rewrite (proj2 O2) by lia. rewrite row_upd by lia.
        destruct (Nat.eqb_spec k m); [lia|]. apply H4. lia.
  - exists p, w. auto.
Qed.
Lemma m_points_need line n P D idx pts wts s : (0 < D)%nat -> (forall m, (m < P)%nat -> length (idx m) = D) ->
  m_points line n P D idx (pts, wts) = Ok s ->
  (forall m, (m < P)%nat -> exists r, lines line (Z.of_nat n) (idx m) = Ok r) /\ wide pts P D /\ (P <= length wts)%nat.
Proof.
  intros LD LI H. unfold m_points in H.
  assert (In : forall m t t', (m < P)%nat -> same (fst t) pts -> length (snd t) = length wts ->
     bind (wr (snd t) m (repeat 1 D)) (fun wts => m_axes line n m 0 (idx m) (fst t, wts)) = Ok t' ->
     same (fst t') pts /\ length (snd t') = length wts /\ (m < length wts)%nat /\ (D <= length (row pts m))%nat /\
     exists r, lines line (Z.of_nat n) (idx m) = Ok r).
  { intros m t t' Lm St Lt E. inv_binds. apply wr_inv in E0. destruct E0 as [L ->]. apply m_axes_inv in E. cbn [fst snd] in E.
    destruct E as [El [S1 [S2 L']]]. split; [eapply same_trans; eauto|]. split; [rewrite (proj1 S2), length_upd; exact Lt|].
    split; [lia|]. split; [|exact El]. rewrite <- (proj2 St). rewrite (LI m Lm) in L'. apply L'. intros Z.
    pose proof (LI m Lm) as X. rewrite Z in X. cbn in X. lia. }
  apply (mloop_inv (fun t => same (fst t) pts /\ length (snd t) = length wts)) in H; [|split; [apply same_refl|reflexivity]|].
  - destruct H as [_ All]. split; [|split].
    + intros m Lm. destruct (All m Lm) as [t [t' [[St Lt] Et]]]. apply (In m t t' Lm St Lt Et).
    + intros m Lm. destruct (All m Lm) as [t [t' [[St Lt] Et]]]. apply (In m t t' Lm St Lt Et).
    + destruct P as [|p]; [lia|]. destruct (All p ltac:(lia)) as [t [t' [[St Lt] Et]]].
      pose proof (In p t t' ltac:(lia) St Lt Et). lia.
  - intros m t t' Lm [St Lt] Et. pose proof (In m t t' Lm St Lt Et). tauto.
Qed.
Lemma tensor2_lines line n m : tensor2 line n m = lines line n (let '(i, j) := idx2 n m in [i; j]).
Proof.
  unfold tensor2, axis. destruct (idx2 n m) as [i j]. cbn [lines].
  destruct (line i n) as [a| | |]; cbn [bind]; try reflexivity. destruct (line j n) as [b| | |]; reflexivity.
Qed.
Lemma tensor3_lines line n m : tensor3 line n m = lines line n (let '(i, j, k) := idx3 n m in [i; j; k]).
Proof.
  unfold tensor3, axis. destruct (idx3 n m) as [[i j] k]. cbn [lines].
  destruct (line i n) as [a| | |]; cbn [bind]; try reflexivity. destruct (line j n) as [b| | |]; cbn [bind]; try reflexivity.
  destruct (line k n) as [c| | |]; reflexivity.
Qed.
Lemma tensor4_lines line n dim m : tensor4 line n dim m = lines line n (let '(i, j, k, l) := idx4 n dim m in [i; j; k; l]).
Proof.
  unfold tensor4, axis. destruct (idx4 n dim m) as [[[i j] k] l]. cbn [lines].
  destruct (line i n) as [a| | |]; cbn [bind]; try reflexivity. destruct (line j n) as [b| | |]; cbn [bind]; try reflexivity.
  destruct (line k n) as [c| | |]; cbn [bind]; try reflexivity. destruct (line l n) as [d| | |]; reflexivity.
Qed.

(* tot_g_weight *)
Lemma tot_ok P (f : nat -> outcome R) (g : nat -> R) tot : (forall v, (v < P)%nat -> f v = Ok (g v)) -> (P <= length tot)%nat ->
  exists t, mloop P (fun v t => bind (f v) (wr t v)) tot = Ok t /\ length t = length tot /\
    forall v, nth v t 0 = if (v <? P)%nat then g v else nth v tot 0.
Proof.
  intros F L.
  apply (mloop_ok (fun i t => length t = length tot /\ forall v, nth v t 0 = if (v <? i)%nat then g v else nth v tot 0)); [auto|].
  intros i t Li [Lt Et]. rewrite F by exact Li. cbn [bind]. rewrite wr_ok by lia. eexists. split; [reflexivity|].
  split; [rewrite length_upd; exact Lt|]. intros v. rewrite nth_upd by lia. destruct (Nat.eqb_spec v i) as [->|N].
  - rewrite (proj2 (Nat.ltb_lt i (S i))) by lia. reflexivity.
  - rewrite Et. destruct (Nat.ltb_spec v i), (Nat.ltb_spec v (S i)); try reflexivity; lia.
Qed.
Lemma tot_need P (f : nat -> outcome R) tot t : mloop P (fun v t => bind (f v) (wr t v)) tot = Ok t -> (P <= length tot)%nat.
Proof.
  intros H. apply (mloop_inv (fun t => length t = length tot)) in H; [|reflexivity|].
  - destruct H as [_ All]. destruct P as [|p]; [lia|]. destruct (All p ltac:(lia)) as [u [u' [Lu Eu]]]. inv_binds. apply wr_inv in Eu. lia.
  - intros i u u' _ Lu Eu. inv_binds. apply wr_inv in Eu. destruct Eu as [_ ->]. rewrite length_upd. exact Lu.
Qed.
Lemma bind_assoc {A B C} (x : outcome A) (f : A -> outcome B) (g : B -> outcome C) : bind (bind x f) g = bind x (fun a => bind (f a) g).
Proof. destruct x; reflexivity. Qed.
Lemma m_tot2_eq n wts tot : m_tot2 n wts tot =
  mloop (n * n) (fun v t => bind (bind (rd2 wts v 0) (fun a => bind (rd2 wts v 1) (fun b => Ok (a * b)))) (wr t v)) tot.
Proof.
  unfold m_tot2. apply mloop_ext. intros i t. rewrite bind_assoc. apply bind_ext. intros a. rewrite bind_assoc. reflexivity.
Qed.
Lemma m_tot3_eq n wts tot : m_tot3 n wts tot =
  mloop (n * n * n) (fun v t => bind (bind (rd2 wts v 0) (fun a => bind (rd2 wts v 1) (fun b => bind (rd2 wts v 2) (fun c => Ok (a * b * c))))) (wr t v)) tot.
Proof.
  unfold m_tot3. apply mloop_ext. intros i t. rewrite bind_assoc. apply bind_ext. intros a. rewrite bind_assoc.
  apply bind_ext. intros b. rewrite bind_assoc. reflexivity.
Qed.

(** ** only undefined behaviour goes wrong *)
Definition clean {A} (x : outcome A) : Prop := x <> Throw /\ x <> AssertFail.
Lemma clean_ok {A} (a : A) : clean (Ok a). Proof. split; discriminate. Qed.
Lemma clean_bind {A B} (x : outcome A) (k : A -> outcome B) : clean x -> (forall a, clean (k a)) -> clean (bind x k).
Proof. intros [H1 H2] K. destruct x; cbn [bind]; try congruence; [apply K | split; discriminate]. Qed.
Lemma clean_rd {T} (l : list T) i : clean (rd l i).
Proof. unfold rd. destruct (nth_error l i); split; discriminate. Qed.
Lemma clean_wr {T} (l : list T) i x : clean (wr l i x).
Proof. unfold wr. destruct (i <? length l)%nat; split; discriminate. Qed.
Lemma clean_rd2 m i j : clean (rd2 m i j).
Proof. apply clean_bind; intros; apply clean_rd. Qed.
Lemma clean_wr2 m i j x : clean (wr2 m i j x).
Proof. apply clean_bind; [apply clean_rd|]. intros. apply clean_bind; intros; apply clean_wr. Qed.
Lemma clean_mloop {S} n (b : nat -> S -> outcome S) s : (forall i t, clean (b i t)) -> clean (mloop n b s).
Proof. intros H. induction n as [|n IH]; [apply clean_ok|]. cbn [mloop]. apply clean_bind; auto. Qed.
Lemma clean_rd_row J i c : clean (rd_row J i c).
Proof.
  induction c as [|c IH]; [apply clean_ok|]. cbn [rd_row]. apply clean_bind; [exact IH|]. intros. apply clean_bind; [apply clean_rd2|].
  intros. apply clean_ok.
Qed.
Lemma clean_rd_block J r c : clean (rd_block J r c).
Proof.
  induction r as [|r IH]; [apply clean_ok|]. cbn [rd_block]. apply clean_bind; [exact IH|]. intros. apply clean_bind; [apply clean_rd_row|].
  intros. apply clean_ok.
Qed.
Lemma clean_look a b m : clean (look a b m).
Proof. unfold look. destruct (m <? 0)%Z; [split; discriminate|]. destruct (nth_error a (Z.to_nat m)), (nth_error b (Z.to_nat m)); split; discriminate. Qed.
Lemma clean_gauss m p : clean (line_gauss m p).
Proof. unfold line_gauss. repeat match goal with |- clean (match ?x with _ => _ end) => destruct x end; first [apply clean_ok | apply clean_look | split; discriminate]. Qed.
Lemma clean_lobatto m p : clean (line_lobatto m p).
Proof. unfold line_lobatto. repeat match goal with |- clean (match ?x with _ => _ end) => destruct x end; first [apply clean_ok | apply clean_look | split; discriminate]. Qed.
Ltac cleaning1 := first [ apply clean_ok | apply clean_rd2 | apply clean_wr2 | apply clean_rd | apply clean_wr | apply clean_rd_block
  | apply clean_bind; [|intros] | apply clean_mloop; intros
  | match goal with |- clean (if ?x then _ else _) => destruct x end
  | match goal with |- clean (match ?x with pair _ _ => _ end) => destruct x end ].
Ltac cleaning := repeat cleaning1.
Lemma not_ok_ub {A} (x : outcome A) : clean x -> (forall a, x <> Ok a) -> x = UB.
Proof. intros [H1 H2] H. destruct x; congruence. Qed.
Lemma clean_lagrange order x xi a b : clean (m_lagrange_1D order x xi a b).
Proof. unfold m_lagrange_1D, m_lag_node, m_lag_body, m_lag_s. cleaning. Qed.
Lemma clean_direction order nodes1 xi m d i t : clean (m_direction order nodes1 xi m d i t).
Proof. unfold m_direction. repeat first [apply clean_lagrange | progress cleaning1]. Qed.
Lemma clean_quadn order nodes1 xi t : clean (m_quadn order nodes1 xi t).
Proof.
  unfold m_quadn, m_quadn_body. apply clean_mloop. intros m u. destruct (quadn_idx (order + 1) m) as [i j].
  unfold m_node, m_basis, m_partial. repeat first [apply clean_direction | progress cleaning1].
Qed.
Lemma clean_hexn order nodes1 xi t : clean (m_hexn order nodes1 xi t).
Proof.
  unfold m_hexn, m_hexn_body. apply clean_mloop. intros m u. destruct (hexn_idx (order + 1) m) as [[i j] k].
  unfold m_node, m_basis, m_partial. repeat first [apply clean_direction | progress cleaning1].
Qed.
Lemma clean_axes line n m is : (forall a b, clean (line a b)) -> forall d s, clean (m_axes line n m d is s).
Proof.
  intros Hl. induction is as [|i is IH]; intros d s; [apply clean_ok|]. cbn [m_axes]. apply clean_bind; [|intros; apply IH].
  unfold m_axis. cleaning. apply Hl.
Qed.
Lemma clean_points line n P D idx s : (forall a b, clean (line a b)) -> clean (m_points line n P D idx s).
Proof. intros Hl. unfold m_points. cleaning. apply clean_axes. exact Hl. Qed.
