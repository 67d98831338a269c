(** C48, C49, C50, C84: tetrahedra, hexahedra and polyhedra. *)
From Coq Require Import Reals List Bool Lia Lra Psatz Permutation.
From Verif Require Import Outcome VectorModel GeometryModel GeometryProofs.
Import ListNotations.
Local Open Scope R_scope.

(** ** C48: tetrahedron *)
Definition lin3 (m : v3 * v3 * v3) (a : v3) : v3 := let '(r0, r1, r2) := m in V3 (dot3 r0 a) (dot3 r1 a) (dot3 r2 a).
Definition ldet (m : v3 * v3 * v3) : R := let '(r0, r1, r2) := m in det3 r0 r1 r2.
Theorem C48_volume (p0 p1 p2 p3 : v3) :
  tet_volume p0 p1 p2 p3 = Rabs (dot3 (sub3 p1 p0) (cross3 (sub3 p2 p0) (sub3 p3 p0))) / 6.
Proof.
  unfold tet_volume. f_equal. rewrite <- Rabs_Ropp. f_equal. unfold tet_det, dot3; simpl. ring.
Qed.
Print Assumptions C48_volume.
Theorem C48_permutation (p : nat -> v3) (s : nat -> nat) :
  (forall i, (i < 4)%nat -> (s i < 4)%nat) -> (forall i j, (i < 4)%nat -> (j < 4)%nat -> s i = s j -> i = j) ->
  tet_volume (p (s 0%nat)) (p (s 1%nat)) (p (s 2%nat)) (p (s 3%nat)) = tet_volume (p 0%nat) (p 1%nat) (p 2%nat) (p 3%nat).
Proof.
  intros B I.
  assert (D : tet_det (p (s 0%nat)) (p (s 1%nat)) (p (s 2%nat)) (p (s 3%nat)) = tet_det (p 0%nat) (p 1%nat) (p 2%nat) (p 3%nat) \/
              tet_det (p (s 0%nat)) (p (s 1%nat)) (p (s 2%nat)) (p (s 3%nat)) = - tet_det (p 0%nat) (p 1%nat) (p 2%nat) (p 3%nat)).
  { assert (C : forall n, (n < 4)%nat -> (n = 0 \/ n = 1 \/ n = 2 \/ n = 3)%nat) by (intros; lia).
    pose proof (C _ (B 0%nat ltac:(lia))) as C0. pose proof (C _ (B 1%nat ltac:(lia))) as C1.
    pose proof (C _ (B 2%nat ltac:(lia))) as C2. pose proof (C _ (B 3%nat ltac:(lia))) as C3.
    assert (I01 : s 0%nat <> s 1%nat) by (intro E; apply I in E; lia). assert (I02 : s 0%nat <> s 2%nat) by (intro E; apply I in E; lia).
    assert (I03 : s 0%nat <> s 3%nat) by (intro E; apply I in E; lia). assert (I12 : s 1%nat <> s 2%nat) by (intro E; apply I in E; lia).
    assert (I13 : s 1%nat <> s 3%nat) by (intro E; apply I in E; lia). assert (I23 : s 2%nat <> s 3%nat) by (intro E; apply I in E; lia).
    clear B I C. generalize dependent (s 0%nat). generalize dependent (s 1%nat). generalize dependent (s 2%nat). generalize dependent (s 3%nat).
    intros d C3 c C2 I23 b C1 I12 I13 a C0 I01 I02 I03. unfold tet_det.
    destruct C0 as [->|[->|[->| ->]]], C1 as [->|[->|[->| ->]]]; try congruence;
    destruct C2 as [->|[->|[->| ->]]]; try congruence; destruct C3 as [->|[->|[->| ->]]]; try congruence; clear;
    first [left; ring | right; ring]. }
  unfold tet_volume. destruct D as [->| ->]; [reflexivity|]. rewrite Rabs_Ropp. reflexivity.
Qed.
Print Assumptions C48_permutation.
Theorem C48_affine (p0 p1 p2 p3 t : v3) m :
  tet_volume (add3 t p0) (add3 t p1) (add3 t p2) (add3 t p3) = tet_volume p0 p1 p2 p3 /\
  tet_volume (lin3 m p0) (lin3 m p1) (lin3 m p2) (lin3 m p3) = Rabs (ldet m) * tet_volume p0 p1 p2 p3.
Proof.
  split.
  - unfold tet_volume. do 2 f_equal. unfold tet_det; simpl. ring.
  - destruct m as [[r0 r1] r2]. unfold tet_volume, Rdiv. rewrite <- Rmult_assoc, <- Rabs_mult. do 2 f_equal.
    unfold tet_det, ldet, lin3, det3, dot3, cross3; cbn [x3 y3 z3]. ring.
Qed.
Print Assumptions C48_affine.
(** an orthogonal matrix has determinant 1 or -1, so rotations and reflections keep the volume *)
Theorem C48_rotation (p0 p1 p2 p3 : v3) r0 r1 r2 :
  dot3 r0 r0 = 1 -> dot3 r1 r1 = 1 -> dot3 r2 r2 = 1 -> dot3 r0 r1 = 0 -> dot3 r0 r2 = 0 -> dot3 r1 r2 = 0 ->
  let m := (r0, r1, r2) in tet_volume (lin3 m p0) (lin3 m p1) (lin3 m p2) (lin3 m p3) = tet_volume p0 p1 p2 p3.
Proof.
  intros A B C D E F m. rewrite (proj2 (C48_affine p0 p1 p2 p3 zero3 m)).
  assert (G : det3 r0 r1 r2 * det3 r0 r1 r2 = 1).
  { transitivity (dot3 r0 r0 * (dot3 r1 r1 * dot3 r2 r2 - dot3 r1 r2 * dot3 r1 r2)
      - dot3 r0 r1 * (dot3 r0 r1 * dot3 r2 r2 - dot3 r1 r2 * dot3 r0 r2)
      + dot3 r0 r2 * (dot3 r0 r1 * dot3 r1 r2 - dot3 r1 r1 * dot3 r0 r2)).
    - unfold det3, dot3; simpl. ring.
    - rewrite A, B, C, D, E, F. ring. }
  replace (Rabs (ldet m)) with 1; [ring|]. simpl. destruct (Rcase_abs (det3 r0 r1 r2)).
  - rewrite Rabs_left by assumption. nra.
  - rewrite Rabs_right by assumption. nra.
Qed.
Print Assumptions C48_rotation.
Definition coplanar (l : list v3) := exists n, n <> zero3 /\ exists d, forall p, In p l -> dot3 n p = d.
Lemma zero3_dec a : a = zero3 \/ a <> zero3.
Proof.
  destruct a as [a b c]. destruct (Req_dec a 0) as [->|], (Req_dec b 0) as [->|], (Req_dec c 0) as [->|];
  try (left; reflexivity); right; unfold zero3; congruence.
Qed.
Lemma cross_zero_parallel u v : u <> zero3 -> cross3 u v = zero3 -> exists k, v = scale3 k u.
Proof.
  destruct u as [a b c], v as [p q r]. unfold cross3, zero3, scale3; simpl. intros N E. injection E as E1 E2 E3.
  destruct (Req_dec a 0) as [->|A].
  - destruct (Req_dec b 0) as [->|B].
    + assert (C : c <> 0) by (intro; subst; congruence). exists (r / c). f_equal.
      * assert (p = 0) by (apply Rmult_eq_reg_l with c; [lra|assumption]). subst. field. assumption.
      * assert (q = 0) by (apply Rmult_eq_reg_l with c; [lra|assumption]). subst. field. assumption.
      * field. assumption.
    + exists (q / b). f_equal.
      * assert (p = 0) by (apply Rmult_eq_reg_l with b; [lra|assumption]). subst. field. assumption.
      * field. assumption.
      * apply Rmult_eq_reg_l with b; [|assumption]. field_simplify; [lra|assumption].
  - exists (p / a). f_equal; [field; assumption| |]; (apply Rmult_eq_reg_l with a; [|assumption]); field_simplify; try assumption; lra.
Qed.
Lemma orthogonal_exists u : exists n, n <> zero3 /\ dot3 n u = 0.
Proof.
  destruct u as [a b c]. destruct (Req_dec a 0) as [->|A].
  - exists (V3 1 0 0). split; [unfold zero3; intro E; injection E; lra|]. unfold dot3; simpl. ring.
  - exists (V3 b (- a) 0). split; [unfold zero3; intro E; injection E; lra|]. unfold dot3; simpl. ring.
Qed.
Lemma det_zero_normal u v w : det3 u v w = 0 -> exists n, n <> zero3 /\ dot3 n u = 0 /\ dot3 n v = 0 /\ dot3 n w = 0.
Proof.
  intro H. destruct (zero3_dec (cross3 u v)) as [E|E].
  2:{ exists (cross3 u v). split; [assumption|]. repeat split; try (unfold dot3; simpl; ring). rewrite <- H. unfold det3, dot3; simpl. ring. }
  destruct (zero3_dec (cross3 u w)) as [F|F].
  2:{ exists (cross3 u w). split; [assumption|]. repeat split; try (unfold dot3; simpl; ring).
      transitivity (- det3 u v w); [unfold det3, dot3; simpl; ring|rewrite H; ring]. }
  destruct (zero3_dec u) as [->|U].
  - destruct (zero3_dec (cross3 v w)) as [G|G].
    2:{ exists (cross3 v w). split; [assumption|]. repeat split; unfold dot3; simpl; ring. }
    destruct (zero3_dec v) as [->|V].
    + destruct (orthogonal_exists w) as (n & N & O). exists n. split; [assumption|]. repeat split; try assumption; unfold dot3; simpl; ring.
    + destruct (cross_zero_parallel v w V G) as (k & ->). destruct (orthogonal_exists v) as (n & N & O). exists n.
      split; [assumption|]. repeat split; try assumption; [unfold dot3; simpl; ring|].
      transitivity (k * dot3 n v); [unfold dot3; simpl; ring|rewrite O; ring].
  - destruct (cross_zero_parallel u v U E) as (k & ->). destruct (cross_zero_parallel u w U F) as (j & ->).
    destruct (orthogonal_exists u) as (n & N & O). exists n. split; [assumption|]. repeat split; try assumption.
    + transitivity (k * dot3 n u); [unfold dot3; simpl; ring|rewrite O; ring].
    + transitivity (j * dot3 n u); [unfold dot3; simpl; ring|rewrite O; ring].
Qed.
Theorem C48_zero_iff_coplanar (p0 p1 p2 p3 : v3) : tet_volume p0 p1 p2 p3 = 0 <-> coplanar [p0; p1; p2; p3].
Proof.
  rewrite C48_volume. change (dot3 (sub3 p1 p0) (cross3 (sub3 p2 p0) (sub3 p3 p0))) with (det3 (sub3 p1 p0) (sub3 p2 p0) (sub3 p3 p0)). split.
  - intro H. assert (D : det3 (sub3 p1 p0) (sub3 p2 p0) (sub3 p3 p0) = 0).
    { destruct (Req_dec (det3 (sub3 p1 p0) (sub3 p2 p0) (sub3 p3 p0)) 0) as [E|E]; [exact E|]. apply Rabs_pos_lt in E. lra. }
    destruct (det_zero_normal _ _ _ D) as (n & N & A & B & C). exists n. split; [assumption|]. exists (dot3 n p0).
    unfold dot3 in A, B, C; simpl in A, B, C.
    intros p [<-|[<-|[<-|[<-|[]]]]]; unfold dot3; lra.
  - intros (n & N & d & H).
    assert (A : dot3 n p0 = d) by (apply H; simpl; tauto). assert (B : dot3 n p1 = d) by (apply H; simpl; tauto).
    assert (C : dot3 n p2 = d) by (apply H; simpl; tauto). assert (D : dot3 n p3 = d) by (apply H; simpl; tauto).
    assert (A1 : dot3 n (sub3 p1 p0) = 0) by (transitivity (dot3 n p1 - dot3 n p0); [unfold dot3; simpl; ring|lra]).
    assert (A2 : dot3 n (sub3 p2 p0) = 0) by (transitivity (dot3 n p2 - dot3 n p0); [unfold dot3; simpl; ring|lra]).
    assert (A3 : dot3 n (sub3 p3 p0) = 0) by (transitivity (dot3 n p3 - dot3 n p0); [unfold dot3; simpl; ring|lra]).
    set (u := sub3 p1 p0) in *. set (v := sub3 p2 p0) in *. set (w := sub3 p3 p0) in *.
    assert (Z : det3 u v w = 0).
    { (* Cramer: det * n_i is a combination of the three vanishing dot products *)
      assert (X : det3 u v w * x3 n = 0).
      { transitivity (dot3 n u * x3 (cross3 v w) + dot3 n v * x3 (cross3 w u) + dot3 n w * x3 (cross3 u v)); [unfold det3, dot3; simpl; ring|rewrite A1, A2, A3; ring]. }
      assert (Y : det3 u v w * y3 n = 0).
      { transitivity (dot3 n u * y3 (cross3 v w) + dot3 n v * y3 (cross3 w u) + dot3 n w * y3 (cross3 u v)); [unfold det3, dot3; simpl; ring|rewrite A1, A2, A3; ring]. }
      assert (Zz : det3 u v w * z3 n = 0).
      { transitivity (dot3 n u * z3 (cross3 v w) + dot3 n v * z3 (cross3 w u) + dot3 n w * z3 (cross3 u v)); [unfold det3, dot3; simpl; ring|rewrite A1, A2, A3; ring]. }
      destruct (Req_dec (det3 u v w) 0) as [E|E]; [exact E|]. exfalso. apply N.
      apply v3_ext; simpl; (eapply Rmult_eq_reg_l; [|exact E]); rewrite ?X, ?Y, ?Zz; ring. }
    rewrite Z, Rabs_R0. field.
Qed.
Print Assumptions C48_zero_iff_coplanar.
Example C48_example : tet_volume (V3 0 0 0) (V3 1 0 0) (V3 0 1 0) (V3 0 0 1) = 1 / 6.
Proof. rewrite C48_volume. unfold dot3; simpl. rewrite Rabs_pos_eq by lra. field. Qed.

(** ** Sums over the triangles of a polyhedron: (previous vertex, vertex, face midpoint) *)
Definition tsum (f : v3 -> v3 -> v3 -> R) (p : polyhedron) : R :=
  rsum (fun l => rsum (fun e => f (fst e) (snd e) (mean l)) (edges l)) p.
Definition all_edges (p : polyhedron) : list (v3 * v3) := flat_map edges p.
Lemma tsum_ext f g p : (forall a b c, f a b c = g a b c) -> tsum f p = tsum g p.
Proof. intro H. unfold tsum. apply rsum_ext. intros. apply rsum_ext. intros. apply H. Qed.
Lemma tsum_plus f g p : tsum (fun a b c => f a b c + g a b c) p = tsum f p + tsum g p.
Proof. unfold tsum. rewrite <- rsum_plus. apply rsum_ext. intros. apply rsum_plus. Qed.
Lemma tsum_scal k f p : tsum (fun a b c => k * f a b c) p = k * tsum f p.
Proof. unfold tsum. rewrite <- rsum_scal. apply rsum_ext. intros. apply rsum_scal. Qed.
(** Stokes: edge terms towards the face midpoint cancel within each face *)
Lemma tsum_boundary (g : v3 -> v3 -> R) p : (forall a b, g b a = - g a b) ->
  tsum (fun a b c => g a b + g b c + g c a) p = rsum (fun e => g (fst e) (snd e)) (all_edges p).
Proof.
  intro H. unfold tsum, all_edges. induction p as [|l p IH]; [reflexivity|]. cbn [rsum flat_map]. rewrite rsum_app, IH. f_equal.
  rewrite (rsum_ext _ (fun e => g (fst e) (snd e) + (g (snd e) (mean l) - g (fst e) (mean l)))).
  - rewrite rsum_plus, (telescope (fun q => g q (mean l))). ring.
  - intros [a b] _. cbn [fst snd]. rewrite (H a (mean l)). ring.
Qed.
(** a polyhedron is closed when every directed edge is matched by its reverse *)
Definition closed (p : polyhedron) := Permutation (all_edges p) (map swap (all_edges p)).
Lemma closed_sum p (g : v3 -> v3 -> R) : closed p -> (forall a b, g b a = - g a b) ->
  rsum (fun e => g (fst e) (snd e)) (all_edges p) = 0.
Proof.
  intros C H. set (x := rsum _ _). assert (E : x = - x).
  { unfold x at 1. rewrite (rsum_perm _ _ _ C), rsum_map. replace (- x) with ((-1) * x) by ring. unfold x. rewrite <- rsum_scal.
    apply rsum_ext. intros [a b] _. simpl. rewrite H. ring. }
  lra.
Qed.
Lemma tsum_closed p (g : v3 -> v3 -> R) : closed p -> (forall a b, g b a = - g a b) ->
  tsum (fun a b c => g a b + g b c + g c a) p = 0.
Proof. intros C H. rewrite tsum_boundary by assumption. apply closed_sum; assumption. Qed.

Lemma faces_spec {S} dbg (body : v3 -> v3 -> v3 -> S -> S) p s : (forall l, In l p -> l <> nil) ->
  exists s', faces dbg body p s = Ok s' /\
  forall (pi : S -> R) f, (forall xm a b s, pi (body xm a b s) = pi s + f a b xm) -> pi s' = pi s + tsum f p.
Proof.
  unfold faces, tsum. revert s. induction p as [|l p IH]; intros s N.
  - exists s. split; [reflexivity|]. intros. simpl. ring.
  - simpl fold_left. assert (Nl : l <> nil) by (apply N; left; reflexivity).
    assert (E : face dbg body l s = Ok (edge_loop (body (mean l)) l s)).
    { unfold face. rewrite average3_ok, bind_ok by assumption. destruct l; [congruence|reflexivity]. }
    rewrite E. destruct (IH (edge_loop (body (mean l)) l s)) as (s' & E' & H); [intros; apply N; right; assumption|].
    exists s'. split; [exact E'|]. intros pi f Hf. rewrite (H pi f Hf).
    rewrite (edge_loop_spec (body (mean l)) pi (fun e => f (fst e) (snd e) (mean l))) by (intros; apply Hf).
    cbn [rsum]. ring.
Qed.
Definition nonempty (p : polyhedron) := forall l, In l p -> l <> nil.
(** six times the signed volume *)
Definition vol6 (p : polyhedron) : R := tsum det3 p.
Theorem C50_volume dbg p : nonempty p -> polyhedron_volume dbg p = Ok (Rabs (vol6 p) / 6).
Proof.
  intro N. unfold polyhedron_volume. destruct (faces_spec dbg volume_body p 0 N) as (v & -> & H). rewrite bind_ok. f_equal.
  rewrite (H (fun s => s) (fun a b c => 1 / 2 * det3 a b c)) by (intros; unfold volume_body; rewrite normal_dot; reflexivity).
  rewrite tsum_scal. fold (vol6 p). rewrite Rplus_0_l, Rabs_mult, (Rabs_pos_eq (1 / 2)) by lra. field.
Qed.
Print Assumptions C50_volume.
Theorem C50_empty_face p : In nil p -> (forall l, In l p -> l = nil) -> polyhedron_volume true p = AssertFail.
Proof.
  intros I A. destruct p as [|l p]; [destruct I|]. assert (l = nil) by (apply A; left; reflexivity). subst l.
  unfold polyhedron_volume, faces. simpl. clear.
  induction p as [|l p IH]; [reflexivity|]. simpl. exact IH.
Qed.
Print Assumptions C50_empty_face.
Lemma rsum_flat {A B} (f : A -> list B) (g : B -> R) l : rsum g (flat_map f l) = rsum (fun a => rsum g (f a)) l.
Proof. induction l; simpl; [reflexivity|]. rewrite rsum_app, IHl. reflexivity. Qed.
Lemma det3_translate t a b c : det3 (add3 t a) (add3 t b) (add3 t c) = det3 a b c + dot3 t (nvec a b c).
Proof. unfold det3, dot3; simpl. ring. Qed.
Lemma mean_translate t l : l <> nil -> mean (map (add3 t) l) = add3 t (mean l).
Proof.
  intro N. assert (RL : INR (length l) <> 0) by (destruct l; [congruence|]; apply not_0_INR; discriminate).
  apply v3_comp. intros c Hc. rewrite comp_add, !comp_mean, map_length, rsum_map by assumption.
  rewrite (rsum_ext _ (fun p => c t + c p)) by (intros; apply comp_add; assumption). rewrite rsum_plus.
  replace (rsum (fun _ : v3 => c t) l) with (INR (length l) * c t); [field; assumption|].
  clear. induction l; [simpl; ring|]. cbn [length rsum]. rewrite S_INR, <- IHl. ring.
Qed.
Lemma dot3_comm a b : dot3 a b = dot3 b a. Proof. unfold dot3. ring. Qed.
Lemma lin_mean m l : mean (map (lin3 m) l) = lin3 m (mean l).
Proof.
  assert (G : forall r, rsum (fun q => dot3 r q) l / INR (length l) = dot3 r (mean l)).
  { intro r. unfold dot3, mean; simpl. generalize (/ INR (length l)). intro k. unfold Rdiv.
    replace (rsum (fun q => 0 + x3 r * x3 q + y3 r * y3 q + z3 r * z3 q) l) with (x3 r * rsum x3 l + y3 r * rsum y3 l + z3 r * rsum z3 l).
    - ring.
    - induction l as [|q l IH]; [simpl; ring|]. cbn [rsum]. rewrite <- IH. ring. }
  destruct m as [[r0 r1] r2]. unfold mean at 1. rewrite map_length, !rsum_map. unfold lin3; simpl. rewrite !G. reflexivity.
Qed.
Lemma tsum_map (f : v3 -> v3 -> v3 -> R) (g : v3 -> v3) p : nonempty p -> (forall l, l <> nil -> mean (map g l) = g (mean l)) ->
  tsum f (map (map g) p) = tsum (fun a b c => f (g a) (g b) (g c)) p.
Proof.
  intros N H. unfold tsum. rewrite rsum_map. apply rsum_ext. intros l Hl. rewrite edges_map, rsum_map, H by (apply N, Hl). reflexivity.
Qed.
Lemma nonempty_map g p : nonempty p -> nonempty (map (map g) p).
Proof. intros N l H. apply in_map_iff in H. destruct H as (l' & <- & H). specialize (N l' H). destruct l'; [congruence|discriminate]. Qed.
Lemma nonempty_rev p : nonempty p -> nonempty (map (@rev v3) p).
Proof.
  intros N l H. apply in_map_iff in H. destruct H as (l' & <- & H). specialize (N l' H). intro E.
  apply N. rewrite <- (rev_involutive l'), E. reflexivity.
Qed.
Lemma tsum_rev f p : tsum f (map (@rev v3) p) = tsum (fun a b c => f b a c) p.
Proof.
  unfold tsum. rewrite rsum_map. apply rsum_ext. intros l _. rewrite (mean_perm (rev l) l) by (apply Permutation_sym, Permutation_rev).
  rewrite (rsum_perm _ _ _ (edges_rev l)), rsum_map. reflexivity.
Qed.
Lemma tsum_perm f p p' : Permutation p p' -> tsum f p = tsum f p'.
Proof. apply rsum_perm. Qed.
(** rotating the starting vertex of each face *)
Definition relabelled (l l' : list v3) := exists a b, l = a ++ b /\ l' = b ++ a.
Lemma tsum_relabel f p p' : Forall2 relabelled p p' -> tsum f p = tsum f p'.
Proof.
  unfold tsum. induction 1 as [|l l' p p' (a & b & -> & ->) _ IH]; [reflexivity|]. cbn [rsum]. rewrite IH. f_equal.
  rewrite (mean_perm (b ++ a) (a ++ b)) by apply Permutation_app_comm. symmetry. apply rsum_perm, edges_rot.
Qed.
Lemma nonempty_relabel p p' : Forall2 relabelled p p' -> nonempty p -> nonempty p'.
Proof.
  induction 1 as [|l l' p p' (a & b & -> & ->) _ IH]; intros N q Hq; [destruct Hq|]. destruct Hq as [<-|Hq].
  - intro E. apply app_eq_nil in E. destruct E; subst. apply (N nil); [left; reflexivity|reflexivity].
  - apply IH; [|assumption]. intros r Hr. apply N. right. assumption.
Qed.

(** sum of the directed edges' cross products: twice the sum of the face normals *)
Definition normal_sum2 (c : v3 -> R) (p : polyhedron) : R := rsum (fun e => c (cross3 (fst e) (snd e))) (all_edges p).
Lemma tsum_nvec c p : comp c -> tsum (fun x y z => c (nvec x y z)) p = normal_sum2 c p.
Proof.
  intro H. unfold normal_sum2. rewrite <- (tsum_boundary (fun x y => c (cross3 x y))).
  - apply tsum_ext. intros. unfold nvec. rewrite !comp_add by assumption. reflexivity.
  - intros. destruct H as [->|[->| ->]]; simpl; ring.
Qed.
Lemma vol6_translate t p : nonempty p ->
  vol6 (map (map (add3 t)) p) = vol6 p + (x3 t * normal_sum2 x3 p + y3 t * normal_sum2 y3 p + z3 t * normal_sum2 z3 p).
Proof.
  intro N. unfold vol6. rewrite tsum_map by (assumption || apply mean_translate).
  rewrite (tsum_ext _ (fun a b c => det3 a b c + (x3 t * x3 (nvec a b c) + (y3 t * y3 (nvec a b c) + z3 t * z3 (nvec a b c))))).
  - rewrite !tsum_plus, !tsum_scal, !tsum_nvec by (unfold comp; tauto). ring.
  - intros. rewrite det3_translate. unfold dot3. ring.
Qed.
Lemma lin_mean' m l : l <> nil -> mean (map (lin3 m) l) = lin3 m (mean l). Proof. intros _. apply lin_mean. Qed.
Lemma det3_lin m a b c : det3 (lin3 m a) (lin3 m b) (lin3 m c) = ldet m * det3 a b c.
Proof. destruct m as [[r0 r1] r2]. unfold ldet, lin3, det3, dot3, cross3; cbn [x3 y3 z3]. ring. Qed.
Lemma vol6_lin m p : nonempty p -> vol6 (map (map (lin3 m)) p) = ldet m * vol6 p.
Proof. intro N. unfold vol6. rewrite tsum_map, <- tsum_scal by (assumption || apply lin_mean'). apply tsum_ext. intros. apply det3_lin. Qed.

(** C50: translation, when the face normals sum to zero; in particular for a closed surface *)
Theorem C50_translation dbg p t : nonempty p ->
  normal_sum2 x3 p = 0 -> normal_sum2 y3 p = 0 -> normal_sum2 z3 p = 0 ->
  polyhedron_volume dbg (map (map (add3 t)) p) = polyhedron_volume dbg p.
Proof.
  intros N A B C. rewrite !C50_volume by (try apply nonempty_map; assumption).
  rewrite vol6_translate, A, B, C by assumption. do 3 f_equal. ring.
Qed.
Print Assumptions C50_translation.
Theorem C50_closed_normals p : closed p -> normal_sum2 x3 p = 0 /\ normal_sum2 y3 p = 0 /\ normal_sum2 z3 p = 0.
Proof.
  intro C. unfold normal_sum2.
  assert (G : forall c, comp c -> rsum (fun e => c (cross3 (fst e) (snd e))) (all_edges p) = 0).
  { intros c Hc. apply (closed_sum p (fun a b => c (cross3 a b)) C). intros. destruct Hc as [->|[->| ->]]; simpl; ring. }
  unfold comp in G. split; [|split]; apply G; tauto.
Qed.
Print Assumptions C50_closed_normals.
(** the sum of the triangle normals the code accumulates in nsum (polyhedron.h 89) is half that vector *)
Theorem C50_nsum dbg p : nonempty p -> exists cx nsum v,
  faces dbg pcentroid_body p (zero3, zero3, 0) = Ok (cx, nsum, v) /\
  nsum = V3 (normal_sum2 x3 p / 2) (normal_sum2 y3 p / 2) (normal_sum2 z3 p / 2).
Proof.
  intro N. destruct (faces_spec dbg pcentroid_body p (zero3, zero3, 0) N) as ([[cx nsum] v] & E & H). exists cx, nsum, v. split; [exact E|].
  assert (G : forall c, comp c -> c nsum = normal_sum2 c p / 2).
  { intros c Hc. change (c nsum) with ((fun s : v3 * v3 * R => c (snd (fst s))) (cx, nsum, v)).
    rewrite (H _ (fun a b d => 1 / 2 * c (nvec a b d))).
    - rewrite tsum_scal, tsum_nvec by assumption. cbn [fst snd]. rewrite comp_zero by assumption. field.
    - intros xm a b [[u w] r]. unfold pcentroid_body. cbn [fst snd]. rewrite comp_add, triangle3_normal_nvec, comp_scale by assumption. reflexivity. }
  unfold comp in G. apply v3_ext; simpl; apply G; tauto.
Qed.
Print Assumptions C50_nsum.
(** reversal of all faces, reordering of the faces, choice of first vertex, linear maps *)
Theorem C50_invariance dbg p p' p'' m : nonempty p -> Permutation p p' -> Forall2 relabelled p p'' ->
  polyhedron_volume dbg (map (@rev v3) p) = polyhedron_volume dbg p /\
  polyhedron_volume dbg p' = polyhedron_volume dbg p /\
  polyhedron_volume dbg p'' = polyhedron_volume dbg p /\
  polyhedron_volume dbg (map (map (lin3 m)) p) = bind (polyhedron_volume dbg p) (fun v => Ok (Rabs (ldet m) * v)).
Proof.
  intros N P F. assert (N' : nonempty p') by (intros l Hl; apply N; eapply Permutation_in; [apply Permutation_sym, P|exact Hl]).
  pose proof (nonempty_relabel _ _ F N) as N''.
  rewrite !C50_volume by (try apply nonempty_map; try apply nonempty_rev; assumption). rewrite bind_ok.
  split; [|split; [|split]]; f_equal.
  - unfold vol6. rewrite tsum_rev, <- (Rabs_Ropp (tsum det3 p)). do 2 f_equal.
    replace (- tsum det3 p) with ((-1) * tsum det3 p) by ring. rewrite <- tsum_scal. apply tsum_ext. intros. unfold det3, dot3; simpl. ring.
  - unfold vol6. rewrite (tsum_perm _ _ _ P). reflexivity.
  - unfold vol6. rewrite (tsum_relabel _ _ _ F). reflexivity.
  - rewrite vol6_lin, Rabs_mult by assumption. field.
Qed.
Print Assumptions C50_invariance.
(** without closedness the volume does depend on position: an open box side *)
Theorem C50_closedness_needed : ~ (forall p t, nonempty p -> polyhedron_volume true (map (map (add3 t)) p) = polyhedron_volume true p).
Proof.
  intro H. specialize (H [[V3 0 0 0; V3 1 0 0; V3 0 1 0]] (V3 0 0 6)).
  assert (N : nonempty [[V3 0 0 0; V3 1 0 0; V3 0 1 0]]) by (intros l [<-|[]]; discriminate).
  specialize (H N). rewrite !C50_volume in H by (try apply nonempty_map; assumption).
  assert (G : forall a b : R, Ok a = Ok b -> a = b) by congruence. apply G in H.
  rewrite vol6_translate in H by assumption.
  unfold vol6, tsum, normal_sum2, all_edges, det3, dot3 in H. simpl in H.
  match type of H with Rabs ?a / 6 = Rabs ?b / 6 => replace a with 6 in H by field; replace b with 0 in H by field end.
  rewrite Rabs_R0, Rabs_pos_eq in H by lra. lra.
Qed.
Print Assumptions C50_closedness_needed.

(** ** C84: centroid of a closed polyhedron *)
Definition wsum (c : v3 -> R) (p : polyhedron) : R := tsum (fun x y z => det3 x y z * (c x + c y + c z)) p.
(** for a closed surface the code's boundary formula equals the volume-weighted mean of the centroids of
    the signed tetrahedra (origin, a, b, face midpoint) *)
Definition tet_mean (p : polyhedron) : v3 :=
  V3 (wsum x3 p / (4 * vol6 p)) (wsum y3 p / (4 * vol6 p)) (wsum z3 p / (4 * vol6 p)).
Theorem C84_centroid dbg p : nonempty p -> closed p -> vol6 p <> 0 -> polyhedron_centroid dbg p = Ok (tet_mean p).
Proof.
  intros N C V. unfold polyhedron_centroid. destruct (faces_spec dbg pcentroid_body p (zero3, zero3, 0) N) as ([[cx nsum] v] & E & H).
  rewrite E, bind_ok. f_equal.
  assert (Ev : v = 1 / 2 * vol6 p).
  { change v with (snd (cx, nsum, v)). rewrite (H snd (fun a b c => 1 / 2 * det3 a b c)).
    - unfold vol6. rewrite tsum_scal. simpl. ring.
    - intros xm a b [[u w] r]. unfold pcentroid_body. cbn [snd]. rewrite normal_dot. reflexivity. }
  assert (Ec : forall c, comp c -> c cx = wsum c p).
  { intros c Hc. change (c cx) with ((fun s : v3 * v3 * R => c (fst (fst s))) (cx, nsum, v)).
    rewrite (H _ (fun a b d => ((c a + c b) * (c a + c b) + (c b + c d) * (c b + c d) + (c d + c a) * (c d + c a)) * c (triangle3_normal a b d))).
    - cbn [fst]. rewrite comp_zero, Rplus_0_l by assumption. unfold wsum.
      pose (g := fun a b => c (cross3 a b) * (c a * c a + c a * c b + c b * c b)).
      rewrite (tsum_ext _ (fun x y z => det3 x y z * (c x + c y + c z) + (g x y + g y z + g z x))).
      + rewrite tsum_plus, (tsum_closed p g C); [ring|].
        intros. unfold g. destruct Hc as [->|[->| ->]]; simpl; ring.
      + intros. unfold g, det3, dot3. destruct Hc as [->|[->| ->]]; simpl; field.
    - intros xm a b [[u w] r]. unfold pcentroid_body. cbn [fst]. destruct Hc as [->|[->| ->]]; simpl; ring. }
  apply v3_comp. intros c Hc. rewrite comp_div, Ec, Ev by assumption. unfold tet_mean. destruct Hc as [->|[->| ->]]; simpl; field; assumption.
Qed.
Print Assumptions C84_centroid.
Lemma closed_map g p : closed p -> closed (map (map g) p).
Proof.
  unfold closed. assert (E : all_edges (map (map g) p) = map (fun e => (g (fst e), g (snd e))) (all_edges p)).
  { unfold all_edges. induction p as [|l p IH]; [reflexivity|]. simpl. rewrite edges_map, IH, map_app. reflexivity. }
  intro C. rewrite E, map_map. replace (map (fun x => swap (g (fst x), g (snd x))) (all_edges p)) with
    (map (fun e => (g (fst e), g (snd e))) (map swap (all_edges p))) by (rewrite map_map; reflexivity).
  apply Permutation_map, C.
Qed.
Lemma all_edges_rev p : Permutation (all_edges (map (@rev v3) p)) (map swap (all_edges p)).
Proof.
  unfold all_edges. induction p as [|l p IH]; [constructor|]. simpl. rewrite map_app. apply Permutation_app; [apply edges_rev|exact IH].
Qed.
Lemma closed_rev p : closed p -> closed (map (@rev v3) p).
Proof.
  unfold closed. intro C. eapply Permutation_trans; [apply all_edges_rev|].
  apply Permutation_map. eapply Permutation_trans; [exact C|]. apply Permutation_sym, all_edges_rev.
Qed.
Lemma closed_perm p p' : Permutation p p' -> closed p -> closed p'.
Proof.
  unfold closed. intros P C. assert (E : Permutation (all_edges p) (all_edges p')).
  { unfold all_edges. clear C. induction P; simpl.
    - constructor.
    - apply Permutation_app_head; assumption.
    - rewrite !app_assoc. apply Permutation_app_tail, Permutation_app_comm.
    - eapply Permutation_trans; eassumption. }
  eapply Permutation_trans; [apply Permutation_sym, E|]. eapply Permutation_trans; [exact C|]. apply Permutation_map, E.
Qed.
(** the divergence identity behind translation: flux of x_c t equals t_c times the volume *)
Lemma flux_identity c p t : comp c -> closed p -> tsum (fun a b d => dot3 t (nvec a b d) * (c a + c b + c d)) p = c t * vol6 p.
Proof.
  intros Hc C. pose (g := fun a b => (c a + c b) * dot3 t (cross3 a b)).
  rewrite (tsum_ext _ (fun a b d => c t * det3 a b d + (g a b + g b d + g d a))).
  - rewrite tsum_plus, tsum_scal, (tsum_closed p g C); [unfold vol6; ring|]. intros. unfold g, dot3; simpl. ring.
  - intros. unfold g, det3, dot3. destruct Hc as [->|[->| ->]]; simpl; ring.
Qed.
(** the centroid moves with translations and with every invertible linear map, and ignores the orientation
    convention and the order of the faces *)
Theorem C84_equivariance dbg p p' t m g : nonempty p -> closed p -> vol6 p <> 0 -> ldet m <> 0 -> Permutation p p' ->
  polyhedron_centroid dbg p = Ok g ->
  polyhedron_centroid dbg (map (map (add3 t)) p) = Ok (add3 t g) /\
  polyhedron_centroid dbg (map (map (lin3 m)) p) = Ok (lin3 m g) /\
  polyhedron_centroid dbg (map (@rev v3) p) = Ok g /\
  polyhedron_centroid dbg p' = Ok g.
Proof.
  intros N C V D P G. rewrite C84_centroid in G by assumption. injection G as <-.
  destruct (C50_closed_normals p C) as (NX & NY & NZ).
  assert (VT : vol6 (map (map (add3 t)) p) = vol6 p) by (rewrite vol6_translate, NX, NY, NZ by assumption; ring).
  assert (VL : vol6 (map (map (lin3 m)) p) = ldet m * vol6 p) by (apply vol6_lin; assumption).
  assert (VR : vol6 (map (@rev v3) p) = - vol6 p).
  { unfold vol6. rewrite tsum_rev. replace (- tsum det3 p) with ((-1) * tsum det3 p) by ring. rewrite <- tsum_scal. apply tsum_ext. intros. unfold det3, dot3; simpl. ring. }
  assert (N' : nonempty p') by (intros l Hl; apply N; eapply Permutation_in; [apply Permutation_sym, P|exact Hl]).
  split; [|split; [|split]].
  - rewrite C84_centroid by (try apply nonempty_map; try apply closed_map; try rewrite VT; assumption). f_equal.
    apply v3_comp. intros c Hc. rewrite comp_add by assumption.
    assert (W : wsum c (map (map (add3 t)) p) = wsum c p + 4 * c t * vol6 p).
    { unfold wsum. rewrite tsum_map by (assumption || apply mean_translate).
      rewrite (tsum_ext _ (fun a b d => det3 a b d * (c a + c b + c d) + (3 * c t * det3 a b d + (dot3 t (nvec a b d) * (c a + c b + c d)
         + (3 * c t * x3 t * x3 (nvec a b d) + (3 * c t * y3 t * y3 (nvec a b d) + 3 * c t * z3 t * z3 (nvec a b d))))))).
      - rewrite !tsum_plus, !tsum_scal, (flux_identity c p t Hc C), !tsum_nvec, NX, NY, NZ by (unfold comp; tauto). fold (vol6 p). ring.
      - intros. rewrite det3_translate, !comp_add by assumption. unfold dot3. ring. }
    unfold comp in Hc. unfold tet_mean. destruct Hc as [->|[->| ->]]; cbn [x3 y3 z3]; rewrite VT, W; field; assumption.
  - rewrite C84_centroid by (try apply nonempty_map; try apply closed_map; try rewrite VL; try assumption; apply Rmult_integral_contrapositive_currified; assumption). f_equal.
    assert (W : forall (c : v3 -> R) r, (forall a, c (lin3 m a) = dot3 r a) -> wsum c (map (map (lin3 m)) p) = ldet m * (x3 r * wsum x3 p + (y3 r * wsum y3 p + z3 r * wsum z3 p))).
    { intros c r Hr. unfold wsum. rewrite tsum_map by (assumption || apply lin_mean'). rewrite <- !tsum_scal, <- !tsum_plus, <- tsum_scal. apply tsum_ext. intros. rewrite det3_lin, !Hr. unfold dot3. ring. }
    destruct m as [[r0 r1] r2]. 
    assert (W0 := W x3 r0 (fun a => eq_refl)). assert (W1 := W y3 r1 (fun a => eq_refl)). assert (W2 := W z3 r2 (fun a => eq_refl)).
    unfold tet_mean. rewrite VL, W0, W1, W2. unfold lin3. unfold dot3; cbn [x3 y3 z3]. f_equal; field; split; assumption.
  - rewrite C84_centroid by (try apply nonempty_rev; try apply closed_rev; try rewrite VR; try assumption; lra). f_equal.
    assert (W : forall c, wsum c (map (@rev v3) p) = - wsum c p).
    { intro c. unfold wsum. rewrite tsum_rev. match goal with |- _ = - ?x => replace (- x) with ((-1) * x) by ring end. rewrite <- tsum_scal. apply tsum_ext. intros. unfold det3, dot3; simpl. ring. }
    unfold tet_mean. rewrite VR, !W. f_equal; field; assumption.
  - assert (EV : vol6 p' = vol6 p) by (unfold vol6; symmetry; apply tsum_perm, P).
    rewrite C84_centroid; [|assumption|apply (closed_perm p); assumption|rewrite EV; assumption].
    unfold tet_mean, wsum. rewrite EV, !(tsum_perm _ _ _ P). reflexivity.
Qed.
Print Assumptions C84_equivariance.

(** ** Tetrahedra and hexahedra as polyhedra *)
Definition tet_faces (p0 p1 p2 p3 : v3) : polyhedron := [[p0; p2; p1]; [p0; p1; p3]; [p1; p2; p3]; [p0; p3; p2]].
Ltac permute_edges :=
  match goal with |- Permutation ?l ?r =>
    match l with nil => apply Permutation_refl
    | ?x :: ?l' => 
      let rec go pre r := match r with
        | x :: ?r' => apply (Permutation_cons_app (rev pre) r' x); cbn [rev app]; permute_edges
        | ?y :: ?r' => go (y :: pre) r' end in
      go (@nil (v3 * v3)) r end end.
Lemma tet_closed p0 p1 p2 p3 : closed (tet_faces p0 p1 p2 p3).
Proof. unfold closed, all_edges, tet_faces, edges, swap. cbn [flat_map combine tl firstn app map fst snd]. permute_edges. Qed.
Lemma tet_nonempty p0 p1 p2 p3 : nonempty (tet_faces p0 p1 p2 p3).
Proof. intros l H. repeat destruct H as [<-|H]; try discriminate; destruct H. Qed.
Lemma tet_vol6 p0 p1 p2 p3 : vol6 (tet_faces p0 p1 p2 p3) = - tet_det p0 p1 p2 p3.
Proof. unfold vol6, tsum, tet_faces, tet_det, det3, dot3, mean; simpl. field. Qed.
Theorem C84_tetrahedron dbg p0 p1 p2 p3 :
  polyhedron_volume dbg (tet_faces p0 p1 p2 p3) = Ok (tet_volume p0 p1 p2 p3) /\
  (tet_volume p0 p1 p2 p3 <> 0 -> polyhedron_centroid dbg (tet_faces p0 p1 p2 p3) = Ok (tet_midpoint p0 p1 p2 p3)).
Proof.
  split.
  - rewrite C50_volume by apply tet_nonempty. rewrite tet_vol6, Rabs_Ropp. reflexivity.
  - intro V. assert (D : tet_det p0 p1 p2 p3 <> 0) by (intro E; apply V; unfold tet_volume; rewrite E, Rabs_R0; field).
    rewrite C84_centroid; [|apply tet_nonempty|apply tet_closed|rewrite tet_vol6; lra]. f_equal.
    unfold tet_mean. rewrite tet_vol6. unfold tet_midpoint, quad3_midpoint.
    assert (W : forall c, comp c -> wsum c (tet_faces p0 p1 p2 p3) = - tet_det p0 p1 p2 p3 * (c p0 + c p1 + c p2 + c p3)).
    { intros c Hc. unfold wsum, tsum, tet_faces, tet_det, det3, dot3, mean. destruct Hc as [->|[->| ->]]; simpl; field. }
    unfold comp in W. rewrite !W by tauto. f_equal; field; assumption.
Qed.
Print Assumptions C84_tetrahedron.

(** the six faces of hexahedron.h 112-117 *)
Definition hex_faces (p0 p1 p2 p3 p4 p5 p6 p7 : v3) : polyhedron :=
  [[p0; p1; p2; p3]; [p4; p7; p6; p5]; [p0; p4; p5; p1]; [p1; p5; p6; p2]; [p2; p6; p7; p3]; [p3; p7; p4; p0]].
Lemma hex_closed p0 p1 p2 p3 p4 p5 p6 p7 : closed (hex_faces p0 p1 p2 p3 p4 p5 p6 p7).
Proof. unfold closed, all_edges, hex_faces, edges, swap. cbn [flat_map combine tl firstn app map fst snd]. permute_edges. Qed.
Lemma hex_nonempty p0 p1 p2 p3 p4 p5 p6 p7 : nonempty (hex_faces p0 p1 p2 p3 p4 p5 p6 p7).
Proof. intros l H. repeat destruct H as [<-|H]; try discriminate; destruct H. Qed.
(** the three triple products of hexahedron::volume *)
Definition hex_terms (p0 p1 p2 p3 p4 p5 p6 p7 : v3) : R * R * R :=
  (triple_product (add3 (sub3 p6 p1) (sub3 p7 p0)) (sub3 p6 p3) (sub3 p2 p0),
   triple_product (sub3 p7 p0) (add3 (sub3 p6 p3) (sub3 p5 p0)) (sub3 p6 p4),
   triple_product (sub3 p6 p1) (sub3 p5 p0) (add3 (sub3 p6 p4) (sub3 p2 p0))).
Lemma hex_vol6 p0 p1 p2 p3 p4 p5 p6 p7 :
  let '(a, b, c) := hex_terms p0 p1 p2 p3 p4 p5 p6 p7 in 2 * vol6 (hex_faces p0 p1 p2 p3 p4 p5 p6 p7) = - (a + b + c).
Proof.
  destruct p0, p1, p2, p3, p4, p5, p6, p7.
  unfold hex_terms, vol6, tsum, hex_faces, det3, dot3, mean, triple_product; simpl. field.
Qed.
Theorem C49_polyhedron_volume dbg p0 p1 p2 p3 p4 p5 p6 p7 :
  let '(a, b, c) := hex_terms p0 p1 p2 p3 p4 p5 p6 p7 in
  hex_volume p0 p1 p2 p3 p4 p5 p6 p7 = (Rabs a + Rabs b + Rabs c) / 12 /\
  polyhedron_volume dbg (hex_faces p0 p1 p2 p3 p4 p5 p6 p7) = Ok (Rabs (a + b + c) / 12).
Proof.
  pose proof (hex_vol6 p0 p1 p2 p3 p4 p5 p6 p7) as H. rewrite C50_volume by apply hex_nonempty. unfold hex_terms in *.
  split; [reflexivity|]. f_equal. set (V := vol6 _) in *.
  match goal with |- _ = Rabs ?s / 12 => replace (Rabs s) with (Rabs (2 * V)) by (rewrite H, Rabs_Ropp; reflexivity) end.
  rewrite Rabs_mult, (Rabs_pos_eq 2) by lra. field.
Qed.
Print Assumptions C49_polyhedron_volume.
(** they agree exactly when the three terms do not disagree in sign; otherwise the hexahedron's is larger *)
Theorem C49_volume_partial dbg p0 p1 p2 p3 p4 p5 p6 p7 : exists V,
  polyhedron_volume dbg (hex_faces p0 p1 p2 p3 p4 p5 p6 p7) = Ok V /\ V <= hex_volume p0 p1 p2 p3 p4 p5 p6 p7 /\
  let '(a, b, c) := hex_terms p0 p1 p2 p3 p4 p5 p6 p7 in
  (hex_volume p0 p1 p2 p3 p4 p5 p6 p7 = V <-> (0 <= a /\ 0 <= b /\ 0 <= c) \/ (a <= 0 /\ b <= 0 /\ c <= 0)).
Proof.
  pose proof (C49_polyhedron_volume dbg p0 p1 p2 p3 p4 p5 p6 p7) as H.
  destruct (hex_terms p0 p1 p2 p3 p4 p5 p6 p7) as [[a b] c]. destruct H as [-> ->]. exists (Rabs (a + b + c) / 12). split; [reflexivity|].
  unfold Rabs. destruct (Rcase_abs a), (Rcase_abs b), (Rcase_abs c), (Rcase_abs (a + b + c)); (split; [lra|]); split; intros; try lra;
    try (left; lra); try (right; lra).
Qed.
Print Assumptions C49_volume_partial.
(** a hexahedron whose eight corner Jacobians are all positive and whose terms disagree in sign *)
Definition corner (a b c d : v3) : R := det3 (sub3 b a) (sub3 c a) (sub3 d a).
Theorem C49_volume_refuted :
  ~ (forall p0 p1 p2 p3 p4 p5 p6 p7,
     0 < corner p0 p1 p3 p4 -> 0 < corner p1 p2 p0 p5 -> 0 < corner p2 p3 p1 p6 -> 0 < corner p3 p0 p2 p7 ->
     0 < corner p4 p7 p5 p0 -> 0 < corner p5 p4 p6 p1 -> 0 < corner p6 p5 p7 p2 -> 0 < corner p7 p6 p4 p3 ->
     polyhedron_volume true (hex_faces p0 p1 p2 p3 p4 p5 p6 p7) = Ok (hex_volume p0 p1 p2 p3 p4 p5 p6 p7)).
Proof.
  intro H. specialize (H (V3 2 (-3) (-3)) (V3 6 2 (-3)) (V3 3 7 (-3)) (V3 (-2) 4 0) (V3 (-1) 3 7) (V3 2 0 6) (V3 7 4 4) (V3 0 7 3)).
  do 8 (specialize (H ltac:(unfold corner, det3, dot3; simpl; lra))).
  destruct (C49_polyhedron_volume true (V3 2 (-3) (-3)) (V3 6 2 (-3)) (V3 3 7 (-3)) (V3 (-2) 4 0) (V3 (-1) 3 7) (V3 2 0 6) (V3 7 4 4) (V3 0 7 3)) as [A B].
  rewrite A, B in H. injection H as H. unfold triple_product in H; simpl in H.
  match type of H with Rabs (?a + ?b + ?c) / _ = _ => replace a with 1258 in H by ring; replace b with 1264 in H by ring; replace c with (-135) in H by ring end.
  rewrite (Rabs_pos_eq (1258 + _ + _)), (Rabs_pos_eq 1258), (Rabs_pos_eq 1264), Rabs_left in H by lra. lra.
Qed.
Print Assumptions C49_volume_refuted.
(** hexahedron::centroid is the polyhedron's centroid of the same six faces *)
Theorem C49_centroid dbg p0 p1 p2 p3 p4 p5 p6 p7 :
  polyhedron_centroid dbg (hex_faces p0 p1 p2 p3 p4 p5 p6 p7) = Ok (hex_centroid p0 p1 p2 p3 p4 p5 p6 p7).
Proof.
  set (P := hex_faces p0 p1 p2 p3 p4 p5 p6 p7). unfold polyhedron_centroid.
  destruct (faces_spec dbg pcentroid_body P (zero3, zero3, 0) (hex_nonempty _ _ _ _ _ _ _ _)) as ([[cx nsum] v] & -> & H). rewrite bind_ok. f_equal.
  assert (Q : forall a b c d, mean [a; b; c; d] = quad3_midpoint a b c d) by (intros; apply v3_ext; simpl; field).
  assert (K : forall (pi : v3 * v3 * R -> R) f, (forall xm a b s, pi (hexc_body xm a b s) = pi s + f a b xm) ->
    forall a b c d s, pi (hex_face a b c d s) = pi s + rsum (fun e => f (fst e) (snd e) (mean [a; b; c; d])) (edges [a; b; c; d])).
  { intros pi f Hf a b c d s. unfold hex_face. rewrite <- Q.
    refine (pairs_closed (hexc_body (mean [a; b; c; d])) pi (fun e => f (fst e) (snd e) (mean [a; b; c; d])) _ [b; c; d] a s). intros. apply Hf. }
  assert (T : forall (pi : v3 * v3 * R -> R) f, (forall xm a b s, pi (pcentroid_body xm a b s) = pi s + f a b xm) ->
    (forall xm a b s, pi (hexc_body xm a b s) = pi s + f a b xm) -> pi (cx, nsum, v) =
    pi (hex_face p3 p7 p4 p0 (hex_face p2 p6 p7 p3 (hex_face p1 p5 p6 p2 (hex_face p0 p4 p5 p1 (hex_face p4 p7 p6 p5 (hex_face p0 p1 p2 p3 (zero3, zero3, 0)))))))).
  { intros pi f H1 H2. rewrite (H pi f H1), !(K pi f H2). unfold tsum, P, hex_faces. cbn [rsum]. ring. }
  unfold hex_centroid.
  destruct (hex_face p3 p7 p4 p0 _) as [[cx' n'] v'].
  assert (Tv : v = v').
  { apply (T snd (fun a b c => 1 / 2 * det3 a b c)); intros xm a b [[u w] r]; unfold pcentroid_body, hexc_body; cbn [snd]; rewrite normal_dot; reflexivity. }
  assert (Tc : cx = cx').
  { apply v3_comp. intros c Hc.
    apply (T (fun s => c (fst (fst s))) (fun a b d => ((c a + c b) * (c a + c b) + (c b + c d) * (c b + c d) + (c d + c a) * (c d + c a)) * c (triangle3_normal a b d)));
    intros xm a b [[u w] r]; unfold pcentroid_body, hexc_body, sqr; cbn [fst]; destruct Hc as [->|[->| ->]]; simpl; ring. }
  rewrite Tv, Tc. reflexivity.
Qed.
Print Assumptions C49_centroid.
(** hence hexahedron::centroid is the true centroid of the body bounded by the four-triangle faces *)
Theorem C84_hexahedron p0 p1 p2 p3 p4 p5 p6 p7 : let P := hex_faces p0 p1 p2 p3 p4 p5 p6 p7 in
  vol6 P <> 0 -> hex_centroid p0 p1 p2 p3 p4 p5 p6 p7 = tet_mean P.
Proof.
  intros P V. pose proof (C49_centroid true p0 p1 p2 p3 p4 p5 p6 p7) as H. rewrite C84_centroid in H; [|apply hex_nonempty|apply hex_closed|exact V].
  assert (G : forall a b : v3, Ok a = Ok b -> a = b) by (intros ? ? G; congruence). symmetry. apply G. exact H.
Qed.
Print Assumptions C84_hexahedron.
Theorem C84_midpoint dbg p0 p1 p2 p3 p4 p5 p6 p7 :
  polyhedron_midpoint dbg (hex_faces p0 p1 p2 p3 p4 p5 p6 p7) = Ok (hex_midpoint p0 p1 p2 p3 p4 p5 p6 p7).
Proof.
  unfold polyhedron_midpoint, hex_faces. cbn [fold_left]. repeat (rewrite average3_ok by discriminate; rewrite ?bind_ok).
  f_equal. apply v3_ext; simpl; field.
Qed.
Print Assumptions C84_midpoint.
Example C84_example :
  let h := hex_volume (V3 0 0 0) (V3 2 0 0) (V3 2 3 0) (V3 0 3 0) (V3 0 0 4) (V3 2 0 4) (V3 2 3 4) (V3 0 3 4) in
  h = 24 /\ vol6 (hex_faces (V3 0 0 0) (V3 2 0 0) (V3 2 3 0) (V3 0 3 0) (V3 0 0 4) (V3 2 0 4) (V3 2 3 4) (V3 0 3 4)) = - 144.
Proof.
  split.
  - unfold hex_volume, triple_product; simpl. match goal with |- (Rabs ?a + Rabs ?b + Rabs ?c) / 12 = _ => replace a with 96 by ring; replace b with 96 by ring; replace c with 96 by ring end.
    rewrite Rabs_pos_eq by lra. field.
  - unfold vol6, tsum, hex_faces, det3, dot3, mean; simpl. field.
Qed.
(** non-vacuity of closedness and of the position-dependence: shifting that box keeps its volume *)
Example C50_example : polyhedron_volume true (insert (insert nil [V3 0 0 0; V3 1 0 0; V3 0 1 0]) [V3 0 1 0; V3 1 0 0; V3 0 0 0]) = Ok 0.
Proof.
  rewrite C50_volume; [|intros l [<-|[<-|[]]]; discriminate]. f_equal.
  unfold vol6, tsum, insert, det3, dot3, mean; simpl. match goal with |- Rabs ?a / 6 = _ => replace a with 0 by field end. rewrite Rabs_R0. field.
Qed.
