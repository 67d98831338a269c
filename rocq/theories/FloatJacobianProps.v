(** Property C164: Jacobian matrices, determinants and inverses in floating point (ristra/elements/elements.cc 527-838).
    [exactly] is finite, a number of the format and of that value; ldet is the determinant by Laplace expansion (C57). *)
From Coq Require Import ZArith List Bool Lia Reals Lra Psatz SpecFloat.
From Verif Require Import Outcome VectorModel VectorProofs ElementsModel ElementsProofs JacobianModel JacobianProps FloatModel FloatRound FloatProofs FloatProps FloatExpr FloatElementsModel FloatElementsProofs FloatElementsProps FloatJacobianModel.
Import ListNotations.
Local Open Scope R_scope.

(** ** the texts read over reals are the model of C57 *)
Theorem C164_text :
  (forall rows cols J0 vertices partial n dim, rjacobian rows cols J0 vertices partial n dim = jacobian rows cols J0 vertices partial n dim
     /\ rjacobian4D rows cols J0 vertices partial n dim = jacobian4D rows cols J0 vertices partial n dim)
  /\ (forall J i j, rjacobian_inverse_2d J i j = jacobian_inverse_2d J i j /\ rjacobian_inverse_3d J i j = jacobian_inverse_3d J i j)
  /\ (forall Jinv J d i j, rjacobian_inverse_4d Jinv J d i j = jacobian_inverse_4d Jinv J d i j).
Proof. split; [|split]; intros; try split; reflexivity. Qed.
Print Assumptions C164_text.

(** ** the matrix *)
Section Loops.
Context {T : Type} (add mul : T -> T -> T) (ofZ : Z -> T).
Lemma setmT_same (m : @matT T) i j x : setmT m i j x i j = x.
Proof. unfold setmT. rewrite !Nat.eqb_refl. reflexivity. Qed.
Lemma setmT_other (m : @matT T) i j x a b : (a, b) <> (i, j) -> setmT m i j x a b = m a b.
Proof. intros H. unfold setmT. destruct (Nat.eqb_spec a i), (Nat.eqb_spec b j); cbn [andb]; try reflexivity. congruence. Qed.
Lemma grid_loopT (f : nat -> nat -> @matT T -> @matT T) (g : nat -> nat -> T -> T) d :
  (forall j k J, f j k J j k = g j k (J j k)) ->
  (forall j k J a b, (a, b) <> (j, k) -> f j k J a b = J a b) ->
  forall J a b, loop d (fun j J => loop d (fun k J => f j k J) J) J a b
    = if ((a <? d) && (b <? d))%nat then g a b (J a b) else J a b.
Proof.
  intros Hs Ho.
  assert (row : forall n j J a b, loop n (fun k J => f j k J) J a b
    = if ((a =? j) && (b <? n))%nat then g a b (J a b) else J a b).
  { induction n; intros j J a b; cbn [loop].
    - destruct (a =? j)%nat; reflexivity.
    - destruct (Nat.eq_dec a j) as [->|Na]; [destruct (Nat.eq_dec b n) as [->|Nb]|].
      + rewrite Hs, IHn, Nat.eqb_refl, Nat.ltb_irrefl. cbn [andb].
        destruct (Nat.ltb_spec n (S n)); [reflexivity|lia].
      + rewrite Ho by congruence. rewrite IHn, Nat.eqb_refl. cbn [andb].
        destruct (Nat.ltb_spec b n), (Nat.ltb_spec b (S n)); try lia; reflexivity.
      + rewrite Ho by congruence. rewrite IHn. destruct (Nat.eqb_spec a j); [congruence|reflexivity]. }
  assert (all : forall n J a b, loop n (fun j J => loop d (fun k J => f j k J) J) J a b
    = if ((a <? n) && (b <? d))%nat then g a b (J a b) else J a b).
  { induction n; intros J a b; cbn [loop]; [reflexivity|].
    rewrite row, IHn. destruct (Nat.eqb_spec a n) as [->|Na].
    - rewrite Nat.ltb_irrefl. cbn [andb]. destruct (Nat.ltb_spec n (S n)); [|lia]. cbn [andb]. reflexivity.
    - cbn [andb]. destruct (Nat.ltb_spec a n), (Nat.ltb_spec a (S n)); try lia; reflexivity. }
  intros J a b. apply all.
Qed.
Lemma fill_oneT n (vertices partial : @matT T) j k J :
  loop n (fun v J => setmT J j k (add (J j k) (mul (vertices v k) (partial v j)))) J j k
    = fold_left (fun s v => add s (mul (vertices v k) (partial v j))) (seq 0 n) (J j k)
  /\ forall a b, (a, b) <> (j, k) ->
    loop n (fun v J => setmT J j k (add (J j k) (mul (vertices v k) (partial v j)))) J a b = J a b.
Proof.
  induction n; cbn [loop]; [split; reflexivity|]. destruct IHn as [A B]. split.
  - rewrite setmT_same, A, seq_S, fold_left_app. reflexivity.
  - intros a b H. rewrite setmT_other by exact H. apply B, H.
Qed.
Lemma entriesT n d vertices partial J a b : jac_fillT add mul n d vertices partial (jac_zeroT ofZ d J) a b
  = if ((a <? d) && (b <? d))%nat then fold_left (fun s v => add s (mul (vertices v b) (partial v a))) (seq 0 n) (ofZ 0%Z) else J a b.
Proof.
  unfold jac_fillT, jac_zeroT.
  rewrite (grid_loopT (fun j k J => loop n (fun v J => setmT J j k (add (J j k) (mul (vertices v k) (partial v j)))) J)
    (fun j k x => fold_left (fun s v => add s (mul (vertices v k) (partial v j))) (seq 0 n) x)).
  2:{ intros. apply fill_oneT. } 2:{ intros. apply fill_oneT. assumption. }
  rewrite (grid_loopT (fun j k J => setmT J j k (ofZ 0%Z)) (fun _ _ _ => ofZ 0%Z)).
  2:{ intros. apply setmT_same. } 2:{ intros. apply setmT_other. assumption. }
  destruct ((a <? d) && (b <? d))%nat; reflexivity.
Qed.
Lemma shape4T (sub : T -> T -> T) rows cols J0 vertices partial n dim : (4 <= rows)%nat -> (4 <= cols)%nat -> (dim <= rows)%nat -> (dim <= cols)%nat ->
  exists J, jacobian4DT add sub mul ofZ rows cols J0 vertices partial n dim = Ok (J, jac_det4T add sub mul J)
     /\ (forall j k, (j < dim)%nat -> (k < dim)%nat -> J j k = fold_left (fun s v => add s (mul (vertices v k) (partial v j))) (seq 0 n) (ofZ 0%Z)).
Proof.
  intros Hr Hc Hr' Hc'. exists (jac_fillT add mul n dim vertices partial (jac_zeroT ofZ dim J0)). split.
  - unfold jacobian4DT. destruct (Nat.leb_spec dim rows); [|lia]. destruct (Nat.leb_spec dim cols); [|lia]. destruct (Nat.leb_spec 4 rows); [|lia]. destruct (Nat.leb_spec 4 cols); [|lia]. reflexivity.
  - intros j k Hj Hk. rewrite entriesT. destruct (Nat.ltb_spec j dim); [|lia]. destruct (Nat.ltb_spec k dim); [|lia]. reflexivity.
Qed.
End Loops.
(** the entries of jacobian (dimensions 2 and 3) and jacobian4D, and the determinant that is computed from them *)
Lemma shape4 prec emax rows cols J0 vertices partial n dim : (4 <= rows)%nat -> (4 <= cols)%nat -> (dim <= rows)%nat -> (dim <= cols)%nat ->
  exists J, fjacobian4D prec emax rows cols J0 vertices partial n dim = Ok (J, fdet4 prec emax J)
     /\ (forall j k, (j < dim)%nat -> (k < dim)%nat -> J j k = fold_left (fun s v => SFadd prec emax s (SFmul prec emax (vertices v k) (partial v j))) (seq 0 n) f0).
Proof. exact (shape4T (SFadd prec emax) (SFmul prec emax) (of_int prec emax) (SFsub prec emax) rows cols J0 vertices partial n dim). Qed.
Theorem C164_shape prec emax rows cols J0 vertices partial n dim :
  ((2 <= dim <= 3)%nat -> (3 <= rows)%nat -> (3 <= cols)%nat -> exists J, fjacobian prec emax rows cols J0 vertices partial n dim
     = Ok (J, fdet23 prec emax J (of_int prec emax (Z.abs (Z.of_nat dim - 3))) (of_int prec emax (Z.abs (Z.of_nat dim - 2))))
     /\ (forall j k, (j < dim)%nat -> (k < dim)%nat -> J j k = fold_left (fun s v => SFadd prec emax s (SFmul prec emax (vertices v k) (partial v j))) (seq 0 n) f0)
     /\ (forall j k, (dim <= j \/ dim <= k)%nat -> J j k = J0 j k))
  /\ ((4 <= rows)%nat -> (4 <= cols)%nat -> exists J, fjacobian4D prec emax rows cols J0 vertices partial n 4 = Ok (J, fdet4 prec emax J)
     /\ (forall j k, (j < 4)%nat -> (k < 4)%nat -> J j k = fold_left (fun s v => SFadd prec emax s (SFmul prec emax (vertices v k) (partial v j))) (seq 0 n) f0)).
Proof.
  split.
  - intros Hd Hr Hc. eexists. split; [|split].
    + unfold fjacobian, jacobianT. destruct (Nat.leb_spec dim rows); [|lia]. destruct (Nat.leb_spec dim cols); [|lia]. destruct (Nat.leb_spec 3 rows); [|lia]. destruct (Nat.leb_spec 3 cols); [|lia]. cbn [andb]. reflexivity.
    + intros j k Hj Hk. rewrite entriesT. destruct (Nat.ltb_spec j dim); [|lia]. destruct (Nat.ltb_spec k dim); [|lia]. reflexivity.
    + intros j k H. rewrite entriesT. destruct (Nat.ltb_spec j dim), (Nat.ltb_spec k dim); try reflexivity. lia.
  - intros Hr Hc. apply shape4; lia.
Qed.
Print Assumptions C164_shape.
(** an entry for any number of nodes, with any partials: a sum of products *)
Theorem C164_entry prec emax n (vertices partial : nat -> nat -> spec_float) j k : format prec emax ->
  (forall v, (v < n)%nat -> number prec emax (vertices v k) /\ number prec emax (partial v j) /\ fin (vertices v k) = true /\ fin (partial v j) = true) ->
  let z := fold_left (fun s v => SFadd prec emax s (SFmul prec emax (vertices v k) (partial v j))) (seq 0 n) f0 in
  let size := sum n (fun v => Rabs (FR (vertices v k) * FR (partial v j))) in
  (1 + uu prec) ^ S n * (size + INR n * eta prec emax) < pw emax ->
  fin z = true /\ Rabs (FR z - sum n (fun v => FR (vertices v k) * FR (partial v j))) <= ((1 + uu prec) ^ n - 1) * size + (1 + uu prec) ^ n * (INR n * eta prec emax).
Proof.
  intros Hf HV z size B. assert (Fz : fin z = true).
  { pose proof (fold_terms_fin prec emax Hf (fun v => vertices v k) (fun v => partial v j) (seq 0 n)) as G. rewrite seq_length in G. apply G; [intros v Hv; apply in_seq in Hv; destruct (HV v ltac:(lia)) as (? & ? & ? & ?); repeat split; assumption|]. unfold size in B. rewrite sum_sumR in B. exact B. }
  split; [exact Fz|]. pose proof (fold_terms prec emax Hf (fun v => vertices v k) (fun v => partial v j) (seq 0 n)) as G. cbv zeta in G. rewrite seq_length in G. unfold size. rewrite !sum_sumR. apply G; [|exact Fz].
  intros v Hv. apply in_seq in Hv. destruct (HV v ltac:(lia)) as (? & ? & ? & ?). split; assumption.
Qed.
Print Assumptions C164_entry.
(** with the partials the elements compute: the entry is near the derivative of the position with respect to the reference
    coordinate, and does not overflow *)
Definition partial_func (d : nat) : func := match d with O => Partial_xi | S O => Partial_eta | _ => Partial_mu end.
Lemma relem_partial e j : (j < dims_of e)%nat -> partial_of (nodes_of e) j (relem e Shape) (relem e (partial_func j)).
Proof.
  intros Hj.
  assert (S : forall x junk, relem Quad4 Shape x junk = quad4_shape x junk /\ relem Quad8 Shape x junk = quad8_shape x junk /\ relem Quad12 Shape x junk = quad12_shape x junk
    /\ relem Hex8 Shape x junk = hex8_shape x junk /\ relem Hex20 Shape x junk = hex20_shape x junk /\ relem Hex32 Shape x junk = hex32_shape x junk) by exact (proj1 C162_text).
  destruct quad4_partials as (A1 & A2), quad8_partials as (A3 & A4), quad12_partials as (A5 & A6), hex8_partials as (A7 & A8 & A9), hex20_partials as (A10 & A11 & A12), hex32_partials as (A13 & A14 & A15).
  intros x junk junk' i Hi. pose proof (proj1 (proj2 C162_text) x junk') as P. destruct P as (P1 & P2 & P3 & P4 & P5 & P6 & P7 & P8 & P9 & P10 & P11 & P12 & P13 & P14 & P15).
  destruct e; cbn [dims_of nodes_of] in *; destruct j as [|[|[|j]]]; try (exfalso; lia).
  - cbn [partial_func]. rewrite P1. apply (derivable_pt_lim_ext (fun t => quad4_shape (set x 0 t) junk i)); [intros t; symmetry; exact (f_equal (fun f : vec => f i) (proj1 (S (set x 0 t) junk)))|]. apply A1, Hi.
  - cbn [partial_func]. rewrite P2. apply (derivable_pt_lim_ext (fun t => quad4_shape (set x 1 t) junk i)); [intros t; symmetry; exact (f_equal (fun f : vec => f i) (proj1 (S (set x 1 t) junk)))|]. apply A2, Hi.
  - cbn [partial_func]. rewrite P3. apply (derivable_pt_lim_ext (fun t => quad8_shape (set x 0 t) junk i)); [intros t; symmetry; exact (f_equal (fun f : vec => f i) (proj1 (proj2 (S (set x 0 t) junk))))|]. apply A3, Hi.
  - cbn [partial_func]. rewrite P4. apply (derivable_pt_lim_ext (fun t => quad8_shape (set x 1 t) junk i)); [intros t; symmetry; exact (f_equal (fun f : vec => f i) (proj1 (proj2 (S (set x 1 t) junk))))|]. apply A4, Hi.
  - cbn [partial_func]. rewrite P5. apply (derivable_pt_lim_ext (fun t => quad12_shape (set x 0 t) junk i)); [intros t; symmetry; exact (f_equal (fun f : vec => f i) (proj1 (proj2 (proj2 (S (set x 0 t) junk)))))|]. apply A5, Hi.
  - cbn [partial_func]. rewrite P6. apply (derivable_pt_lim_ext (fun t => quad12_shape (set x 1 t) junk i)); [intros t; symmetry; exact (f_equal (fun f : vec => f i) (proj1 (proj2 (proj2 (S (set x 1 t) junk)))))|]. apply A6, Hi.
  - cbn [partial_func]. rewrite P7. apply (derivable_pt_lim_ext (fun t => hex8_shape (set x 0 t) junk i)); [intros t; symmetry; exact (f_equal (fun f : vec => f i) (proj1 (proj2 (proj2 (proj2 (S (set x 0 t) junk))))))|]. apply A7, Hi.
  - cbn [partial_func]. rewrite P8. apply (derivable_pt_lim_ext (fun t => hex8_shape (set x 1 t) junk i)); [intros t; symmetry; exact (f_equal (fun f : vec => f i) (proj1 (proj2 (proj2 (proj2 (S (set x 1 t) junk))))))|]. apply A8, Hi.
  - cbn [partial_func]. rewrite P9. apply (derivable_pt_lim_ext (fun t => hex8_shape (set x 2 t) junk i)); [intros t; symmetry; exact (f_equal (fun f : vec => f i) (proj1 (proj2 (proj2 (proj2 (S (set x 2 t) junk))))))|]. apply A9, Hi.
  - cbn [partial_func]. rewrite P10. apply (derivable_pt_lim_ext (fun t => hex20_shape (set x 0 t) junk i)); [intros t; symmetry; exact (f_equal (fun f : vec => f i) (proj1 (proj2 (proj2 (proj2 (proj2 (S (set x 0 t) junk)))))))|]. apply A10, Hi.
  - cbn [partial_func]. rewrite P11. apply (derivable_pt_lim_ext (fun t => hex20_shape (set x 1 t) junk i)); [intros t; symmetry; exact (f_equal (fun f : vec => f i) (proj1 (proj2 (proj2 (proj2 (proj2 (S (set x 1 t) junk)))))))|]. apply A11, Hi.
  - cbn [partial_func]. rewrite P12. apply (derivable_pt_lim_ext (fun t => hex20_shape (set x 2 t) junk i)); [intros t; symmetry; exact (f_equal (fun f : vec => f i) (proj1 (proj2 (proj2 (proj2 (proj2 (S (set x 2 t) junk)))))))|]. apply A12, Hi.
  - cbn [partial_func]. rewrite P13. apply (derivable_pt_lim_ext (fun t => hex32_shape (set x 0 t) junk i)); [intros t; symmetry; exact (f_equal (fun f : vec => f i) (proj2 (proj2 (proj2 (proj2 (proj2 (S (set x 0 t) junk)))))))|]. apply A13, Hi.
  - cbn [partial_func]. rewrite P14. apply (derivable_pt_lim_ext (fun t => hex32_shape (set x 1 t) junk i)); [intros t; symmetry; exact (f_equal (fun f : vec => f i) (proj2 (proj2 (proj2 (proj2 (proj2 (S (set x 1 t) junk)))))))|]. apply A14, Hi.
  - cbn [partial_func]. rewrite P15. apply (derivable_pt_lim_ext (fun t => hex32_shape (set x 2 t) junk i)); [intros t; symmetry; exact (f_equal (fun f : vec => f i) (proj2 (proj2 (proj2 (proj2 (proj2 (S (set x 2 t) junk)))))))|]. apply A15, Hi.
Qed.
Theorem C164_element prec emax e x vertices junk junk' xp' M j k : format prec emax -> (8 <= prec)%Z -> (j < dims_of e)%nat -> (k < dims_of e)%nat -> ref_point prec emax (dims_of e) x ->
  (forall v, (v < nodes_of e)%nat -> number prec emax (vertices v k) /\ fin (vertices v k) = true /\ Rabs (FR (vertices v k)) <= M) -> 512 * M <= pw emax ->
  let z := fold_left (fun s v => SFadd prec emax s (SFmul prec emax (vertices v k) (felem prec emax e (partial_func j) x junk v))) (seq 0 (nodes_of e)) f0 in
  exists D, derivable_pt_lim (fun t => rposition e xp' (set (fun i => FR (x i)) j t) (fun v d => FR (vertices v d)) junk' k) (FR (x j)) D
    /\ fin z = true /\ Rabs (FR z - D) <= uu prec * (IZR (ipol e (partial_func j)) * M + 1).
Proof.
  intros Hf H8 Hj Hk Hx HV HM z. exists (sum (nodes_of e) (fun v => FR (vertices v k) * relem e (partial_func j) (fun i => FR (x i)) junk' v)).
  assert (Hh : has e (partial_func j) = true) by (destruct e; cbn [dims_of] in Hj; destruct j as [|[|[|j]]]; try lia; reflexivity).
  split; [|exact (interp prec emax Hf H8 e (partial_func j) x Hh Hx junk junk' (fun v => vertices v k) M HV HM)].
  set (X := fun i => FR (x i)). set (V := fun v d => FR (vertices v d)).
  apply (derivable_pt_lim_ext (fun t => sum (nodes_of e) (fun v => V v k * relem e Shape (set X j t) junk' v))).
  { intros t. unfold rposition. rewrite position_text_spec by exact Hk. fold (relem e Shape (set X j t) junk').
    assert (E : forall n (g : nat -> R), fold_left (fun s v => s + g v) (seq 0 n) 0 = sum n g) by (induction n; intros g; [reflexivity|]; rewrite seq_S, fold_left_app, IHn; reflexivity).
    symmetry. apply (E (nodes_of e) (fun v => V v k * relem e Shape (set X j t) junk' v)). }
  apply (sum_deriv (nodes_of e) (fun v t => V v k * relem e Shape (set X j t) junk' v) (fun v => V v k * relem e (partial_func j) X junk' v)).
  intros v Hv. apply (derivable_pt_lim_scal (fun t => relem e Shape (set X j t) junk' v)).
  apply (relem_partial e j Hj X junk' junk' v Hv).
Qed.
Print Assumptions C164_element.

(** ** determinants: the texts as formula trees *)
Definition e23 : expr := jac_det23T EAdd ESub EMul (fun _ => EUnit false) (fun i j => EVar (3 * i + j)) (EVar 9) (EVar 10).
Definition e4 : expr := jac_det4T EAdd ESub EMul (fun i j => EVar (4 * i + j)).
Definition env23 (J : nat -> nat -> spec_float) (a3 a2 : spec_float) : nat -> spec_float :=
  fun k => nth k [J 0%nat 0%nat; J 0%nat 1%nat; J 0%nat 2%nat; J 1%nat 0%nat; J 1%nat 1%nat; J 1%nat 2%nat; J 2%nat 0%nat; J 2%nat 1%nat; J 2%nat 2%nat; a3; a2] f0.
Definition env4 (J : nat -> nat -> spec_float) : nat -> spec_float := fun k => if (k <? 16)%nat then J (k / 4)%nat (k mod 4)%nat else f0.
(** all entries are finite numbers of magnitude at most M (for dimension 2 this includes the third row and column, which the
    loops leave as they were) *)
Definition bounded_entries (prec emax : Z) (n : nat) (M : R) (J : nat -> nat -> spec_float) : Prop :=
  1 <= M /\ forall i j, (i < n)%nat -> (j < n)%nat -> number prec emax (J i j) /\ fin (J i j) = true /\ Rabs (FR (J i j)) <= M.
Definition absR (J : nat -> nat -> spec_float) (i j : nat) : R := Rabs (FR (J i j)).
(** the sum of the magnitudes of the products of the determinant *)
Definition magnitude (dim : nat) (J : nat -> nat -> spec_float) : R :=
  match dim with
  | 2%nat => (absR J 0 0 * absR J 1 1 + absR J 0 1 * absR J 1 0) * (1 + 2 * absR J 2 2)
  | _ => absR J 0 0 * (absR J 1 1 * absR J 2 2 + absR J 2 1 * absR J 1 2) + absR J 0 1 * (absR J 1 0 * absR J 2 2 + absR J 2 0 * absR J 1 2)
         + absR J 0 2 * (absR J 1 0 * absR J 2 1 + absR J 2 0 * absR J 1 1)
  end.
Lemma int01 prec emax b : format prec emax -> (b = 0 \/ b = 1)%Z -> number prec emax (of_int prec emax b) /\ fin (of_int prec emax b) = true /\ FR (of_int prec emax b) = IZR b.
Proof.
  intros Hf [-> | ->]; [repeat split; reflexivity|]. destruct (unit_exact prec emax Hf false) as (F & N & E). repeat split; [exact N|exact F|exact E].
Qed.
Lemma env23_ok prec emax M J b3 b2 : format prec emax -> bounded_entries prec emax 3 M J -> (b3 = 0 \/ b3 = 1)%Z -> (b2 = 0 \/ b2 = 1)%Z ->
  forall i, number prec emax (env23 J (of_int prec emax b3) (of_int prec emax b2) i) /\ fin (env23 J (of_int prec emax b3) (of_int prec emax b2) i) = true
    /\ Rabs (FR (env23 J (of_int prec emax b3) (of_int prec emax b2) i)) <= M.
Proof.
  intros Hf [HM HJ] H3 H2 i. assert (I : forall b, (b = 0 \/ b = 1)%Z -> number prec emax (of_int prec emax b) /\ fin (of_int prec emax b) = true /\ Rabs (FR (of_int prec emax b)) <= M).
  { intros b Hb. destruct (int01 prec emax b Hf Hb) as (A & B & C). repeat split; try assumption. rewrite C. destruct Hb as [-> | ->]; [rewrite Rabs_R0|rewrite Rabs_R1]; lra. }
  unfold env23. do 11 (destruct i as [|i]; [cbn [nth]; first [apply HJ; lia|apply I; assumption]|]). replace (nth _ _ _) with f0 by (cbn [nth]; destruct i; reflexivity). cbn [FR f0]. rewrite Rabs_R0. repeat split; lra.
Qed.
Lemma det23_text prec emax J b3 b2 : fdet23 prec emax J (of_int prec emax b3) (of_int prec emax b2) = feval prec emax (env23 J (of_int prec emax b3) (of_int prec emax b2)) e23.
Proof. reflexivity. Qed.
Lemma dim_cases dim : (2 <= dim <= 3)%nat -> (dim = 2%nat /\ Z.abs (Z.of_nat dim - 3) = 1%Z /\ Z.abs (Z.of_nat dim - 2) = 0%Z) \/ (dim = 3%nat /\ Z.abs (Z.of_nat dim - 3) = 0%Z /\ Z.abs (Z.of_nat dim - 2) = 1%Z).
Proof. intros H. assert (D : dim = 2%nat \/ dim = 3%nat) by lia. destruct D as [-> | ->]; [left|right]; repeat split. Qed.
Lemma e23_div prec : no_division e23 /\ divisors prec e23.
Proof. split; cbn; tauto. Qed.
(** jacobian: finite if 24 M^4 and the roundings are in the range; eight roundings relative to the sum of the magnitudes *)
Theorem C164_det prec emax M J dim : format prec emax -> (2 <= dim <= 3)%nat -> bounded_entries prec emax 3 M J ->
  (1 + uu prec) ^ 8 * (24 * M ^ 4) < pw emax ->
  let z := fdet23 prec emax J (of_int prec emax (Z.abs (Z.of_nat dim - 3))) (of_int prec emax (Z.abs (Z.of_nat dim - 2))) in
  fin z = true /\ number prec emax z
  /\ Rabs (FR z - ldet dim (fun i j => FR (J i j))) <= ((1 + uu prec) ^ 8 - 1) * magnitude dim J + eta prec emax * ((1 + uu prec) ^ 8 * (14 * M ^ 4)).
Proof.
  intros Hf Hd HJ HB z. set (b3 := Z.abs (Z.of_nat dim - 3)) in *. set (b2 := Z.abs (Z.of_nat dim - 2)) in *.
  assert (H3 : (b3 = 0 \/ b3 = 1)%Z) by (destruct (dim_cases dim Hd) as [(_ & E & _)|(_ & E & _)]; unfold b3; rewrite E; tauto). assert (H2 : (b2 = 0 \/ b2 = 1)%Z) by (destruct (dim_cases dim Hd) as [(_ & _ & E)|(_ & _ & E)]; unfold b2; rewrite E; tauto).
  pose proof (env23_ok prec emax M J b3 b2 Hf HJ H3 H2) as V. set (v := env23 J (of_int prec emax b3) (of_int prec emax b2)) in *. destruct (e23_div prec) as [_ Dv].
  unfold z. rewrite det23_text. fold v. clear z.
  assert (F : fin (feval prec emax v e23) = true).
  { apply (feval_finite_bounded prec emax Hf v (fun i => proj1 (V i)) M (proj1 HJ) (fun i => proj2 (proj2 (V i))) e23 Dv (fun i => proj1 (proj2 (V i)))).
    change (depth e23) with 8%nat. change (terms e23 + losses e23)%nat with 24%nat. change (degree e23) with 4%nat. replace (INR 24) with 24 by (cbn; lra). exact HB. }
  split; [exact F|]. split; [exact (feval_valid prec emax Hf v (fun i => proj1 (V i)) e23 Dv)|].
  pose proof (feval_error' prec emax Hf v (fun i => proj1 (V i)) e23 Dv F) as E. pose proof (lost_losses prec emax Hf v M (proj1 HJ) (fun i => proj2 (proj2 (V i))) e23 Dv) as Lo.
  change (depth e23) with 8%nat in E. change (losses e23) with 14%nat in Lo. change (degree e23) with 4%nat in Lo. replace (INR 14) with 14 in Lo by (cbn; lra).
  set (w := fun i => FR (v i)) in *.
  assert (W3 : w 9%nat = IZR b3) by apply (int01 prec emax b3 Hf H3). assert (W2 : w 10%nat = IZR b2) by apply (int01 prec emax b2 Hf H2).
  assert (R0 : reval w e23 = ldet dim (fun i j => FR (J i j)) /\ aeval w e23 = magnitude dim J).
  { unfold e23, jac_det23T. cbn [reval aeval Nat.mul Nat.add sgnR]. rewrite W3, W2. unfold w, v, env23. cbn [nth]. unfold b3, b2. destruct (dim_cases dim Hd) as [(-> & -> & ->)|(-> & -> & ->)].
    - split; [cbv [ldet sum loop Nat.ltb Nat.leb]; simpl; ring|]. unfold magnitude, absR. rewrite Rabs_R0, Rabs_R1. ring.
    - split; [cbv [ldet sum loop Nat.ltb Nat.leb]; simpl; ring|]. unfold magnitude, absR. rewrite Rabs_R0, Rabs_R1. ring. }
  destruct R0 as [R1 R2]. rewrite R1, R2 in E. eapply Rle_trans; [exact E|]. apply Rplus_le_compat_l. pose proof (eta_pos prec emax) as P. apply Rmult_le_compat_l; [lra|]. apply Rmult_le_compat_l; [apply pow_le; pose proof (u_pos prec); lra|exact Lo].
Qed.
Print Assumptions C164_det.
(** whole entries whose products fit the significand: the determinant is exact; for dimension 2 this includes the entry [2][2]
    that the loops leave as it was *)
Theorem C164_det_whole prec emax M J dim : format prec emax -> (2 <= dim <= 3)%nat -> bounded_entries prec emax 3 M J -> (forall i j, (i < 3)%nat -> (j < 3)%nat -> whole (FR (J i j))) ->
  10 * M ^ 4 < pw prec ->
  exactly prec emax (fdet23 prec emax J (of_int prec emax (Z.abs (Z.of_nat dim - 3))) (of_int prec emax (Z.abs (Z.of_nat dim - 2)))) (ldet dim (fun i j => FR (J i j))).
Proof.
  intros Hf Hd HJ HW HB. set (b3 := Z.abs (Z.of_nat dim - 3)) in *. set (b2 := Z.abs (Z.of_nat dim - 2)) in *.
  assert (H3 : (b3 = 0 \/ b3 = 1)%Z) by (destruct (dim_cases dim Hd) as [(_ & E & _)|(_ & E & _)]; unfold b3; rewrite E; tauto). assert (H2 : (b2 = 0 \/ b2 = 1)%Z) by (destruct (dim_cases dim Hd) as [(_ & _ & E)|(_ & _ & E)]; unfold b2; rewrite E; tauto).
  pose proof (env23_ok prec emax M J b3 b2 Hf HJ H3 H2) as V. destruct (e23_div prec) as [Nd Dv].
  assert (W : forall i, whole (FR (env23 J (of_int prec emax b3) (of_int prec emax b2) i))).
  { intros i. unfold env23. do 11 (destruct i as [|i]; [cbn [nth]; first [apply HW; lia|rewrite (proj2 (proj2 (int01 prec emax b3 Hf H3))); eexists; reflexivity|rewrite (proj2 (proj2 (int01 prec emax b2 Hf H2))); eexists; reflexivity]|]).
    replace (nth _ _ _) with f0 by (cbn [nth]; destruct i; reflexivity). exists 0%Z. reflexivity. }
  rewrite det23_text. set (v := env23 J (of_int prec emax b3) (of_int prec emax b2)) in *.
  destruct (feval_exact_bounded prec emax Hf v (fun i => proj1 (V i)) M e23 (proj1 HJ) (fun i => proj2 (proj2 (V i))) Nd (fun i => conj (proj1 (proj2 (V i))) (W i))) as (F & E & _).
  { change (terms e23) with 10%nat. change (degree e23) with 4%nat. replace (INR 10) with 10 by (cbn; lra). exact HB. }
  split; [exact F|]. split; [exact (feval_valid prec emax Hf v (fun i => proj1 (V i)) e23 Dv)|]. rewrite E. set (w := fun i => FR (v i)) in *.
  assert (W3 : w 9%nat = IZR b3) by apply (int01 prec emax b3 Hf H3). assert (W2 : w 10%nat = IZR b2) by apply (int01 prec emax b2 Hf H2).
  unfold e23, jac_det23T. cbn [reval Nat.mul Nat.add sgnR]. rewrite W3, W2. unfold w, v, env23. cbn [nth]. unfold b3, b2. destruct (dim_cases dim Hd) as [(-> & -> & ->)|(-> & -> & ->)]; cbv [ldet sum loop Nat.ltb Nat.leb]; simpl; ring.
Qed.
Print Assumptions C164_det_whole.
(** jacobian4D *)
Fixpoint lperm (n : nat) (M : nat -> nat -> R) : R :=
  match n with
  | O => 1
  | S k => sum (S k) (fun c => M O c * lperm k (fun i j => M (S i) (if (j <? c)%nat then j else S j)))
  end.
Lemma env4_ok prec emax M J : bounded_entries prec emax 4 M J -> forall i, number prec emax (env4 J i) /\ fin (env4 J i) = true /\ Rabs (FR (env4 J i)) <= M.
Proof.
  intros [HM HJ] i. unfold env4. destruct (Nat.ltb_spec i 16) as [L|L].
  - apply HJ; [apply Nat.div_lt_upper_bound; lia|apply Nat.mod_upper_bound; lia].
  - cbn [FR f0]. rewrite Rabs_R0. repeat split; lra.
Qed.
Lemma det4_hom {T U} (ev : T -> U) (add sub mul : T -> T -> T) (add' sub' mul' : U -> U -> U) (J : nat -> nat -> T) (J' : nat -> nat -> U) :
  (forall a b, ev (add a b) = add' (ev a) (ev b)) -> (forall a b, ev (sub a b) = sub' (ev a) (ev b)) -> (forall a b, ev (mul a b) = mul' (ev a) (ev b)) ->
  (forall i j, (i < 4)%nat -> (j < 4)%nat -> ev (J i j) = J' i j) -> ev (jac_det4T add sub mul J) = jac_det4T add' sub' mul' J'.
Proof. intros Ha Hs Hm HJ. unfold jac_det4T. repeat rewrite ?Ha, ?Hs, ?Hm. rewrite !HJ by lia. reflexivity. Qed.
Lemma det4_text prec emax J : feval prec emax (env4 J) e4 = fdet4 prec emax J.
Proof.
  refine (det4_hom (feval prec emax (env4 J)) EAdd ESub EMul (SFadd prec emax) (SFsub prec emax) (SFmul prec emax) (fun i j => EVar (4 * i + j)) J _ _ _ _); intros; try reflexivity.
  cbn [feval]. unfold env4. destruct (Nat.ltb_spec (4 * i + j) 16); [|lia]. f_equal; [symmetry; apply (Nat.div_unique _ 4 i j); lia|symmetry; apply (Nat.mod_unique _ 4 i j); lia].
Qed.
Lemma e4_div prec : no_division e4 /\ divisors prec e4. Proof. split; cbn; tauto. Qed.
Lemma e4_reval J : let w := fun i => FR (env4 J i) in reval w e4 = ldet 4 (fun i j => FR (J i j)) /\ aeval w e4 = lperm 4 (absR J).
Proof.
  cbv zeta. unfold e4, jac_det4T. cbn [reval aeval Nat.mul Nat.add]. unfold env4. cbn [Nat.ltb Nat.leb Nat.div Nat.modulo Nat.divmod fst snd Nat.sub]. split.
  - cbv [ldet sum loop Nat.ltb Nat.leb]. simpl. ring.
  - cbv [lperm sum loop Nat.ltb Nat.leb absR]. ring.
Qed.
Theorem C164_det4 prec emax M J : format prec emax -> bounded_entries prec emax 4 M J -> (1 + uu prec) ^ 26 * (96 * M ^ 4) < pw emax ->
  let z := fdet4 prec emax J in
  fin z = true /\ number prec emax z
  /\ Rabs (FR z - ldet 4 (fun i j => FR (J i j))) <= ((1 + uu prec) ^ 26 - 1) * lperm 4 (absR J) + eta prec emax * ((1 + uu prec) ^ 26 * (72 * M ^ 4)).
Proof.
  intros Hf HJ HB. cbv zeta. pose proof (env4_ok prec emax M J HJ) as V. destruct (e4_div prec) as [_ Dv]. rewrite <- det4_text. destruct (e4_reval J) as [R1 R2]. set (v := env4 J) in *.
  assert (F : fin (feval prec emax v e4) = true).
  { apply (feval_finite_bounded prec emax Hf v (fun i => proj1 (V i)) M (proj1 HJ) (fun i => proj2 (proj2 (V i))) e4 Dv (fun i => proj1 (proj2 (V i)))).
    change (depth e4) with 26%nat. change (terms e4 + losses e4)%nat with 96%nat. change (degree e4) with 4%nat. replace (INR 96) with 96 by (cbn; lra). exact HB. }
  split; [exact F|]. split; [exact (feval_valid prec emax Hf v (fun i => proj1 (V i)) e4 Dv)|].
  pose proof (feval_error' prec emax Hf v (fun i => proj1 (V i)) e4 Dv F) as E. pose proof (lost_losses prec emax Hf v M (proj1 HJ) (fun i => proj2 (proj2 (V i))) e4 Dv) as Lo.
  change (depth e4) with 26%nat in E. change (losses e4) with 72%nat in Lo. change (degree e4) with 4%nat in Lo. replace (INR 72) with 72 in Lo by (cbn; lra).
  rewrite R1, R2 in E. eapply Rle_trans; [exact E|]. apply Rplus_le_compat_l. pose proof (eta_pos prec emax) as P. apply Rmult_le_compat_l; [lra|]. apply Rmult_le_compat_l; [apply pow_le; pose proof (u_pos prec); lra|exact Lo].
Qed.
Print Assumptions C164_det4.
Theorem C164_det4_whole prec emax M J : format prec emax -> bounded_entries prec emax 4 M J -> (forall i j, (i < 4)%nat -> (j < 4)%nat -> whole (FR (J i j))) -> 24 * M ^ 4 < pw prec ->
  exactly prec emax (fdet4 prec emax J) (ldet 4 (fun i j => FR (J i j))).
Proof.
  intros Hf HJ HW HB. pose proof (env4_ok prec emax M J HJ) as V. destruct (e4_div prec) as [Nd Dv]. rewrite <- det4_text. destruct (e4_reval J) as [R1 R2].
  assert (W : forall i, whole (FR (env4 J i))) by (intros i; unfold env4; destruct (Nat.ltb_spec i 16) as [L|L]; [apply HW; [apply Nat.div_lt_upper_bound; lia|apply Nat.mod_upper_bound; lia]|exists 0%Z; reflexivity]).
  set (v := env4 J) in *. destruct (feval_exact_bounded prec emax Hf v (fun i => proj1 (V i)) M e4 (proj1 HJ) (fun i => proj2 (proj2 (V i))) Nd (fun i => conj (proj1 (proj2 (V i))) (W i))) as (F & E & _).
  { change (terms e4) with 24%nat. change (degree e4) with 4%nat. replace (INR 24) with 24 by (cbn; lra). exact HB. }
  split; [exact F|]. split; [exact (feval_valid prec emax Hf v (fun i => proj1 (V i)) e4 Dv)|]. rewrite E. exact R1.
Qed.
Print Assumptions C164_det4_whole.

(** ** the 2 x 2 inverse *)
Definition fdet2 (prec emax : Z) (J : nat -> nat -> spec_float) : spec_float :=
  SFsub prec emax (SFmul prec emax (J 0%nat 0%nat) (J 1%nat 1%nat)) (SFmul prec emax (J 0%nat 1%nat) (J 1%nat 0%nat)).
Lemma fdet2_number prec emax J : format prec emax -> (forall i j, (i < 2)%nat -> (j < 2)%nat -> number prec emax (J i j)) -> number prec emax (fdet2 prec emax J).
Proof.
  intros Hf HJ. assert (Hprec : (1 < prec)%Z) by apply Hf. assert (Hem : (prec < emax)%Z) by (destruct Hf; lia).
  apply (feval_valid prec emax Hf (fun k => if (k <? 4)%nat then J (k / 2)%nat (k mod 2)%nat else f0)) with (e := ESub (EMul (EVar 0) (EVar 3)) (EMul (EVar 1) (EVar 2))); [|cbn; tauto].
  intros k. destruct (Nat.ltb_spec k 4); [|reflexivity]. apply HJ; [apply Nat.div_lt_upper_bound; lia|apply Nat.mod_upper_bound; lia].
Qed.
Definition numer (J : nat -> nat -> spec_float) (i j : nat) : spec_float :=
  if Nat.eqb i j then J (1 - i)%nat (1 - j)%nat else SFopp (J i j).
Lemma inverse_2d_entry prec emax J i j : (i < 2)%nat -> (j < 2)%nat -> fjacobian_inverse_2d prec emax J i j = SFdiv prec emax (numer J i j) (fdet2 prec emax J).
Proof. intros Hi Hj. destruct i as [|[|i]]; [| |lia]; (destruct j as [|[|j]]; [| |lia]); reflexivity. Qed.
Lemma numer_ok prec emax J i j : (i < 2)%nat -> (j < 2)%nat -> (forall i j, (i < 2)%nat -> (j < 2)%nat -> number prec emax (J i j) /\ fin (J i j) = true) ->
  number prec emax (numer J i j) /\ fin (numer J i j) = true /\ FR (numer J i j) / ldet 2 (fun i j => FR (J i j)) = jacobian_inverse_2d (fun i j => FR (J i j)) i j.
Proof.
  intros Hi Hj HJ. assert (E : ldet 2 (fun i j => FR (J i j)) = FR (J 0%nat 0%nat) * FR (J 1%nat 1%nat) - FR (J 0%nat 1%nat) * FR (J 1%nat 0%nat)) by (cbv [ldet sum loop Nat.ltb Nat.leb]; simpl; ring). rewrite E.
  assert (O : forall z, FR (SFopp z) = - FR z) by (intros z; destruct z as [s|s| |s m e0]; cbn [SFopp FR]; try ring; destruct s; unfold sgnR; cbn; ring).
  assert (Fo : forall z, fin (SFopp z) = fin z) by (intros z; destruct z as [s|s| |s m e0]; reflexivity). assert (No : forall z, number prec emax z -> number prec emax (SFopp z)) by (intros z; destruct z as [s|s| |s m e0]; exact (fun h => h)).
  destruct i as [|[|i]]; [| |lia]; (destruct j as [|[|j]]; [| |lia]); unfold numer; cbn [Nat.eqb Nat.sub]; rewrite ?O, ?Fo; (split; [try apply No; apply HJ; lia|]); (split; [apply HJ; lia|reflexivity]).
Qed.
(** if the computed determinant is off by at most half of the exact one, every entry has a relative error of at most u plus
    twice that of the determinant (with one more rounding), up to underflow *)
Theorem C164_inverse_2d prec emax J delta i j : format prec emax -> (i < 2)%nat -> (j < 2)%nat -> (forall i j, (i < 2)%nat -> (j < 2)%nat -> number prec emax (J i j) /\ fin (J i j) = true) ->
  let D := ldet 2 (fun i j => FR (J i j)) in let d := fdet2 prec emax J in let z := fjacobian_inverse_2d prec emax J i j in let r := jacobian_inverse_2d (fun i j => FR (J i j)) i j in
  fin d = true -> D <> 0 -> Rabs (FR d - D) <= delta * Rabs D -> delta <= / 2 -> fin z = true ->
  Rabs (FR z - r) <= ((1 + uu prec) * (2 * delta) + uu prec) * Rabs r + eta prec emax.
Proof.
  intros Hf Hi Hj HJ D d z r Fd D0 Hd H2 Fz. assert (Hprec : (1 < prec)%Z) by apply Hf. assert (Hem : (prec < emax)%Z) by (destruct Hf; lia).
  destruct (numer_ok prec emax J i j Hi Hj HJ) as (Nn & Nf & Nr). fold D r in Nr. set (p := numer J i j) in *.
  assert (Nd : number prec emax d). { apply (fdet2_number prec emax J Hf). intros a b Ha Hb. apply HJ; assumption. }
  pose proof (Rabs_pos_lt D D0) as PD. assert (dD : Rabs D / 2 <= Rabs (FR d)). { assert (T : Rabs D <= Rabs (FR d) + Rabs (FR d - D)) by (replace D with (FR d - (FR d - D)) at 1 by ring; unfold Rminus at 1; eapply Rle_trans; [apply Rabs_triang|rewrite Rabs_Ropp; lra]). nra. }
  assert (d0 : FR d <> 0) by (intros E; rewrite E, Rabs_R0 in dD; lra).
  pose proof (div_correct prec emax Hprec Hem _ _ Nf Fd Nn Nd d0) as A. assert (Ez : z = SFdiv prec emax p d) by (apply inverse_2d_entry; assumption). rewrite <- Ez in A.
  destruct A as [_ [(_ & _ & E & _)|(s & E & _)]]; [|rewrite E in Fz; discriminate].
  set (q := FR p / FR d) in *. assert (B : Rabs (q - r) <= 2 * delta * Rabs r).
  { rewrite <- Nr. unfold q. replace (FR p / FR d - FR p / D) with (FR p / D * ((D - FR d) / FR d)) by (field; split; assumption). rewrite Rabs_mult, Rmult_comm. apply Rmult_le_compat_r; [apply Rabs_pos|].
    unfold Rdiv. rewrite Rabs_mult, Rabs_inv, <- Rabs_Ropp, Ropp_minus_distr. pose proof (Rabs_pos_lt _ d0). apply (Rmult_le_reg_r (Rabs (FR d))); [assumption|]. rewrite Rmult_assoc, Rinv_l by lra. pose proof (Rabs_pos (FR d - D)).
    assert (0 <= delta) by (destruct (Rle_or_lt 0 delta); [assumption|]; nra). nra. }
  assert (Q : Rabs q <= (1 + 2 * delta) * Rabs r). { replace q with ((q - r) + r) by ring. eapply Rle_trans; [apply Rabs_triang|]. lra. }
  pose proof (u_pos prec) as U. pose proof (eta_pos prec emax) as P. assert (MX : Rmax (uu prec * Rabs q) (eta prec emax) <= uu prec * Rabs q + eta prec emax) by (pose proof (Rabs_pos q); assert (0 <= uu prec * Rabs q) by (apply Rmult_le_pos; lra); apply Rmax_lub; lra).
  replace (FR z - r) with ((FR z - q) + (q - r)) by ring. eapply Rle_trans; [apply Rabs_triang|]. assert (uu prec * Rabs q <= uu prec * ((1 + 2 * delta) * Rabs r)) by (apply Rmult_le_compat_l; lra). lra.
Qed.
Print Assumptions C164_inverse_2d.
(** the computed determinant of the 2 x 2 inverse: three roundings *)
Theorem C164_det2 prec emax J : format prec emax -> (forall i j, (i < 2)%nat -> (j < 2)%nat -> number prec emax (J i j) /\ fin (J i j) = true) -> fin (fdet2 prec emax J) = true ->
  Rabs (FR (fdet2 prec emax J) - ldet 2 (fun i j => FR (J i j))) <= ((1 + uu prec) ^ 2 - 1) * (absR J 0 0 * absR J 1 1 + absR J 0 1 * absR J 1 0) + eta prec emax * ((1 + uu prec) ^ 2 * 2).
Proof.
  intros Hf HJ F. set (v := fun k => nth k [J 0%nat 0%nat; J 0%nat 1%nat; J 1%nat 0%nat; J 1%nat 1%nat] f0).
  assert (V : forall i, number prec emax (v i)) by (intros i; unfold v; do 4 (destruct i as [|i]; [apply HJ; lia|]); replace (nth _ _ _) with f0 by (cbn [nth]; destruct i; reflexivity); reflexivity).
  pose proof (feval_error' prec emax Hf v V (ESub (EMul (EVar 0) (EVar 3)) (EMul (EVar 1) (EVar 2))) ltac:(cbn; tauto) F) as E. cbn [depth reval aeval lost Nat.max Nat.add] in E. unfold v in E. cbn [nth] in E.
  replace (ldet 2 (fun i j => FR (J i j))) with (FR (J 0%nat 0%nat) * FR (J 1%nat 1%nat) - FR (J 0%nat 1%nat) * FR (J 1%nat 0%nat)) by (cbv [ldet sum loop Nat.ltb Nat.leb]; simpl; ring).
  unfold absR. eapply Rle_trans; [exact E|]. apply Req_le. cbn [pow]. ring.
Qed.
Print Assumptions C164_det2.
(** whole entries: every entry of the inverse is the correctly rounded exact entry *)
Theorem C164_inverse_2d_whole prec emax M J i j : format prec emax -> (i < 2)%nat -> (j < 2)%nat -> bounded_entries prec emax 2 M J -> (forall i j, (i < 2)%nat -> (j < 2)%nat -> whole (FR (J i j))) -> 2 * M ^ 2 < pw prec ->
  ldet 2 (fun i j => FR (J i j)) <> 0 -> rnd prec emax (jacobian_inverse_2d (fun i j => FR (J i j)) i j) (fjacobian_inverse_2d prec emax J i j).
Proof.
  intros Hf Hi Hj [HM HJ] HW HB D0. assert (Hprec : (1 < prec)%Z) by apply Hf. assert (Hem : (prec < emax)%Z) by (destruct Hf; lia). set (v := fun k => nth k [J 0%nat 0%nat; J 0%nat 1%nat; J 1%nat 0%nat; J 1%nat 1%nat] f0).
  assert (V : forall i, number prec emax (v i) /\ (fin (v i) = true /\ whole (FR (v i))) /\ Rabs (FR (v i)) <= M).
  { intros k. unfold v. do 4 (destruct k as [|k]; [cbn [nth]; destruct (HJ 0%nat 0%nat ltac:(lia) ltac:(lia)) as (? & ? & ?), (HJ 0%nat 1%nat ltac:(lia) ltac:(lia)) as (? & ? & ?), (HJ 1%nat 0%nat ltac:(lia) ltac:(lia)) as (? & ? & ?), (HJ 1%nat 1%nat ltac:(lia) ltac:(lia)) as (? & ? & ?); repeat split; try assumption; apply HW; lia|]).
    replace (nth _ _ _) with f0 by (cbn [nth]; destruct k; reflexivity). cbn [FR f0]. rewrite Rabs_R0. repeat split; try lra. exists 0%Z. reflexivity. }
  destruct (feval_exact_bounded prec emax Hf v (fun i => proj1 (V i)) M (ESub (EMul (EVar 0) (EVar 3)) (EMul (EVar 1) (EVar 2))) HM (fun i => proj2 (proj2 (V i))) ltac:(cbn; tauto) (fun i => proj1 (proj2 (V i)))) as (F & E & _).
  { cbn [terms degree Nat.add Nat.mul Nat.max]. replace (INR 2) with 2 by (cbn; lra). exact HB. }
  cbn [reval] in E. unfold v in E. cbn [nth] in E. assert (ED : FR (fdet2 prec emax J) = ldet 2 (fun i j => FR (J i j))) by (etransitivity; [exact E|cbv [ldet sum loop Nat.ltb Nat.leb]; simpl; ring]).
  destruct (numer_ok prec emax J i j Hi Hj ltac:(intros a b Ha Hb; destruct (HJ a b Ha Hb) as (? & ? & _); split; assumption)) as (Nn & Nf & Nr).
  rewrite inverse_2d_entry by assumption. rewrite <- Nr, <- ED.
  assert (Nd : number prec emax (fdet2 prec emax J)). { apply (fdet2_number prec emax J Hf). intros a b Ha Hb. apply HJ; assumption. }
  assert (d0 : FR (fdet2 prec emax J) <> 0) by (rewrite ED; exact D0). exact (proj1 (div_correct prec emax Hprec Hem _ _ Nf F Nn Nd d0)).
Qed.
Print Assumptions C164_inverse_2d_whole.
(** ** what the caller left in the third row and column matters when dim = 2 *)
Definition one_at (i j : nat) : spec_float := dnum (if Nat.eqb i j then 1 else 0) 0.
Definition left_over (c : spec_float) : nat -> nat -> spec_float := fun i j => if Nat.eqb i 2 && Nat.eqb j 2 then c else f0.
Definition left_cross (c : spec_float) : nat -> nat -> spec_float := fun i j => if (Nat.eqb i 2 && Nat.eqb j 1) || (Nat.eqb i 1 && Nat.eqb j 2) then c else f0.
Definition det_of (o : outcome ((nat -> nat -> spec_float) * spec_float)) : option spec_float := match o with Ok (_, d) => Some d | _ => None end.
Definition corner_of (o : outcome ((nat -> nat -> spec_float) * spec_float)) : option (list spec_float) := match o with Ok (J, _) => Some [J 0%nat 0%nat; J 0%nat 1%nat; J 1%nat 0%nat; J 1%nat 1%nat] | _ => None end.
Theorem C164_stale_refuted :
  let run J0 := fjacobian 53 1024 3 3 J0 one_at one_at 2 2 in
  (* the 2 x 2 matrix computed is the identity, whatever was there *)
  (forall J0, corner_of (run J0) = Some [dnum 1 0; dnum 0 0; dnum 0 0; dnum 1 0])
  (* with zeros left there its determinant is 1 *)
  /\ det_of (run (left_over f0)) = Some (dnum 1 0)
  (* with 2^60 left in J[2][2] it is 0 *)
  /\ det_of (run (left_over (dnum 1 60))) = Some f0
  (* with 2^600 left in J[1][2] and J[2][1], or infinity or NaN in J[2][2], it is not a number *)
  /\ det_of (run (left_cross (dnum 1 600))) = Some S754_nan
  /\ det_of (run (left_over (S754_infinity false))) = Some S754_nan /\ det_of (run (left_over S754_nan)) = Some S754_nan.
Proof. cbv zeta. split; [intros J0; vm_compute; reflexivity|repeat split; vm_compute; reflexivity]. Qed.
Print Assumptions C164_stale_refuted.

(** ** the hypotheses of the theorems above hold for a concrete case *)
Definition Jex (i j : nat) : spec_float := dnum (Z.of_nat (1 + i * i + 3 * j) mod 5 - 2) 0.
Definition zex (i j : nat) : Z := (Z.of_nat (1 + i * i + 3 * j) mod 5 - 2)%Z.
Lemma Jex_ok i j : number 53 1024 (Jex i j) /\ fin (Jex i j) = true /\ FR (Jex i j) = IZR (zex i j) /\ Rabs (FR (Jex i j)) <= 2.
Proof.
  assert (A52 : 4503599627370496 * pw (-52) = 1) by (change 4503599627370496 with (IZR (2 ^ 52)); rewrite (pw_Z 52) by lia; rewrite <- pw_add; reflexivity).
  assert (A51 : 4503599627370496 * pw (-51) = 2) by (change (-51)%Z with (1 + -52)%Z; rewrite pw_add; change (pw 1) with (2 * 1); lra).
  unfold Jex, zex. set (z := (Z.of_nat (1 + i * i + 3 * j) mod 5)%Z). assert (B : (0 <= z < 5)%Z) by (apply Z.mod_pos_bound; lia).
  assert (C : (z = 0 \/ z = 1 \/ z = 2 \/ z = 3 \/ z = 4)%Z) by lia. destruct C as [-> | [-> | [-> | [-> | ->]]]];
  (split; [vm_compute; reflexivity|split; [vm_compute; reflexivity|]]);
  match goal with |- FR ?d = _ /\ _ => let v := eval vm_compute in d in change d with v end; cbn [FR Z.sub Z.add Z.opp Z.pos_sub Pos.pred_double Z.succ_double Z.pred_double Z.double]; (split; [lra|apply Rabs_le; lra]).
Qed.
Example C164_bounded_example n : bounded_entries 53 1024 n 2 Jex /\ (forall i j, whole (FR (Jex i j))).
Proof. split; [split; [lra|intros i j _ _; destruct (Jex_ok i j) as (? & ? & _ & ?); tauto]|intros i j; destruct (Jex_ok i j) as (_ & _ & E & _); rewrite E; exists (zex i j); reflexivity]. Qed.
Example C164_det_example : exactly 53 1024 (fdet4 53 1024 Jex) (ldet 4 (fun i j => FR (Jex i j))).
Proof.
  destruct (C164_bounded_example 4) as [B W]. apply (C164_det4_whole 53 1024 2 Jex); [split; lia|exact B|intros; apply W|]. rewrite <- (pw_Z 53) by lia. cbn [pow]. change (2 ^ 53)%Z with 9007199254740992%Z. lra.
Qed.
Example C164_inverse_example : ldet 2 (fun i j => FR (Jex i j)) <> 0 /\ rnd 53 1024 (jacobian_inverse_2d (fun i j => FR (Jex i j)) 0%nat 1%nat) (fjacobian_inverse_2d 53 1024 Jex 0%nat 1%nat).
Proof.
  destruct (C164_bounded_example 2) as [B W]. assert (D : ldet 2 (fun i j => FR (Jex i j)) <> 0).
  { assert (E : ldet 2 (fun i j => FR (Jex i j)) = FR (Jex 0%nat 0%nat) * FR (Jex 1%nat 1%nat) - FR (Jex 0%nat 1%nat) * FR (Jex 1%nat 0%nat)) by (cbv [ldet sum loop Nat.ltb Nat.leb]; simpl; ring). rewrite E.
    rewrite (proj1 (proj2 (proj2 (Jex_ok 0%nat 0%nat)))), (proj1 (proj2 (proj2 (Jex_ok 1%nat 1%nat)))), (proj1 (proj2 (proj2 (Jex_ok 0%nat 1%nat)))), (proj1 (proj2 (proj2 (Jex_ok 1%nat 0%nat)))). rewrite <- !mult_IZR, <- minus_IZR. apply not_0_IZR. vm_compute. discriminate. }
  split; [exact D|]. apply (C164_inverse_2d_whole 53 1024 2 Jex); [split; lia|lia|lia|exact B|intros; apply W| |exact D]. rewrite <- (pw_Z 53) by lia. cbn [pow]. change (2 ^ 53)%Z with 9007199254740992%Z. lra.
Qed.
