(** C57: Jacobian matrices, determinants and inverses (ristra/elements/elements.cc 527-838). *)
From Coq Require Import Reals List ZArith Bool Lia Lra.
From Verif Require Import Outcome VectorModel VectorProofs ElementsModel ElementsProofs JacobianModel.
Import ListNotations.
Open Scope R_scope.
Ltac conj := repeat match goal with |- _ /\ _ => split | |- _ -> _ /\ _ => intro end.

(** specification: determinant by Laplace expansion along the first row, and two-sided inverses *)
Fixpoint ldet (n : nat) (M : nat -> nat -> R) : R :=
  match n with
  | O => 1
  | S k => sum (S k) (fun c => (-1) ^ c * M O c * ldet k (fun i j => M (S i) (if (j <? c)%nat then j else S j)))
  end.
Definition mul (n : nat) (A B : nat -> nat -> R) : nat -> nat -> R := fun i j => sum n (fun k => A i k * B k j).
Definition is_inverse (n : nat) (A B : nat -> nat -> R) : Prop := forall i j, (i < n)%nat -> (j < n)%nat ->
  mul n A B i j = (if Nat.eqb i j then 1 else 0) /\ mul n B A i j = (if Nat.eqb i j then 1 else 0).
Ltac cases_lt i H tac :=
  lazymatch type of H with
  | (?k < O)%nat => exfalso; exact (Nat.nlt_0_r _ H)
  | (i < S ?n)%nat => destruct i as [|i]; [clear H; tac | apply Nat.succ_lt_mono in H; cases_lt i H tac]
  end.
Ltac ev := cbv [mul sum loop ldet Nat.ltb Nat.leb Nat.eqb mat_of nth Nat.add Nat.mul Nat.div Nat.modulo Nat.divmod
  Nat.sub fst snd andb flat4 inv16].

(** ** the loops *)
Lemma setm_same m i j x : setm m i j x i j = x.
Proof. unfold setm. rewrite !Nat.eqb_refl. reflexivity. Qed.
Lemma setm_other m i j x a b : (a, b) <> (i, j) -> setm m i j x a b = m a b.
Proof.
  intros H. unfold setm. destruct (Nat.eqb_spec a i), (Nat.eqb_spec b j); cbn [andb]; try reflexivity. congruence.
Qed.
(** a doubly nested loop whose body at (j,k) changes only the entry (j,k), from its own old value *)
Lemma grid_loop (f : nat -> nat -> mat -> mat) (g : nat -> nat -> R -> R) d :
  (forall j k J, f j k J j k = g j k (J j k)) ->
  (forall j k J a b, (a, b) <> (j, k) -> f j k J a b = J a b) ->
  forall J a b, loop d (fun j J => loop d (fun k J => f j k J) J) J a b
    = if ((a <? d) && (b <? d))%nat then g a b (J a b) else J a b.
Proof.
  intros Hs Ho.
  assert (row : forall n j J a b, loop n (fun k J => f j k J) J a b
    = if ((a =? j) && (b <? n))%nat then g a b (J a b) else J a b).
  { induction n; intros j J a b; cbn [loop].
    - destruct (a =? j)%nat; reflexivity.
    - destruct (Nat.eq_dec a j) as [->|Na]; [destruct (Nat.eq_dec b n) as [->|Nb]|].
      + rewrite Hs, IHn, Nat.eqb_refl, Nat.ltb_irrefl. cbn [andb].
        destruct (Nat.ltb_spec n (S n)); [reflexivity|lia].
      + rewrite Ho by congruence. rewrite IHn, Nat.eqb_refl. cbn [andb].
        destruct (Nat.ltb_spec b n), (Nat.ltb_spec b (S n)); try lia; reflexivity.
      + rewrite Ho by congruence. rewrite IHn. destruct (Nat.eqb_spec a j); [congruence|reflexivity]. }
  assert (all : forall n J a b, loop n (fun j J => loop d (fun k J => f j k J) J) J a b
    = if ((a <? n) && (b <? d))%nat then g a b (J a b) else J a b).
  { induction n; intros J a b; cbn [loop]; [reflexivity|].
    rewrite row, IHn. destruct (Nat.eqb_spec a n) as [->|Na].
    - rewrite Nat.ltb_irrefl. cbn [andb]. destruct (Nat.ltb_spec n (S n)); [|lia]. cbn [andb]. reflexivity.
    - cbn [andb]. destruct (Nat.ltb_spec a n), (Nat.ltb_spec a (S n)); try lia; reflexivity. }
  intros J a b. apply all.
Qed.
Lemma jac_zero_spec d J a b : jac_zero d J a b = if ((a <? d) && (b <? d))%nat then 0 else J a b.
Proof.
  unfold jac_zero. rewrite (grid_loop (fun j k J => setm J j k 0) (fun _ _ _ => 0)); [reflexivity| |].
  - intros. apply setm_same.
  - intros. apply setm_other. assumption.
Qed.
Lemma fill_one n (vertices partial : mat) j k J :
  loop n (fun v J => setm J j k (J j k + vertices v k * partial v j)) J j k
    = J j k + sum n (fun v => vertices v k * partial v j)
  /\ forall a b, (a, b) <> (j, k) ->
    loop n (fun v J => setm J j k (J j k + vertices v k * partial v j)) J a b = J a b.
Proof.
  induction n; cbn [loop].
  - split; [simpl; ring|reflexivity].
  - destruct IHn as [A B]. split.
    + rewrite setm_same, A. simpl. ring.
    + intros a b H. rewrite setm_other by exact H. apply B, H.
Qed.
Lemma jac_fill_spec n d vertices partial J a b : jac_fill n d vertices partial J a b
  = if ((a <? d) && (b <? d))%nat then J a b + sum n (fun v => vertices v b * partial v a) else J a b.
Proof.
  unfold jac_fill.
  rewrite (grid_loop (fun j k J => loop n (fun v J => setm J j k (J j k + vertices v k * partial v j)) J)
    (fun j k x => x + sum n (fun v => vertices v k * partial v j))); [reflexivity| |].
  - intros. apply fill_one.
  - intros. apply fill_one. assumption.
Qed.
Lemma jac_entries n d vertices partial J a b :
  jac_fill n d vertices partial (jac_zero d J) a b
  = if ((a <? d) && (b <? d))%nat then sum n (fun v => vertices v b * partial v a) else J a b.
Proof.
  rewrite jac_fill_spec, jac_zero_spec. destruct ((a <? d) && (b <? d))%nat; [ring|reflexivity].
Qed.

(** ** C57: matrix and determinant *)
Theorem C57_jacobian : forall rows cols J0 vertices partial n dim, (2 <= dim <= 3)%nat -> (3 <= rows)%nat -> (3 <= cols)%nat ->
  exists J det, jacobian rows cols J0 vertices partial n dim = Ok (J, det)
  /\ (forall j k, (j < dim)%nat -> (k < dim)%nat -> J j k = sum n (fun v => vertices v k * partial v j))
  /\ (forall j k, (dim <= j \/ dim <= k)%nat -> J j k = J0 j k)
  /\ det = ldet dim J.
Proof.
  intros rows cols J0 vertices partial n dim Hd Hr Hc. unfold jacobian.
  destruct (Nat.leb_spec dim rows); [|lia]. destruct (Nat.leb_spec dim cols); [|lia].
  destruct (Nat.leb_spec 3 rows); [|lia]. destruct (Nat.leb_spec 3 cols); [|lia]. cbn [andb].
  eexists; eexists; split; [reflexivity|]. split; [|split].
  - intros j k Hj Hk. rewrite jac_entries. destruct (Nat.ltb_spec j dim), (Nat.ltb_spec k dim); try lia. reflexivity.
  - intros j k Hjk. rewrite jac_entries. destruct (Nat.ltb_spec j dim), (Nat.ltb_spec k dim); try lia; reflexivity.
  - set (J := jac_fill n dim vertices partial (jac_zero dim J0)). clearbody J.
    assert (D : dim = 2%nat \/ dim = 3%nat) by lia. destruct D as [-> | ->]; unfold jac_det23; ev; simpl Z.abs;
      simpl (Z.of_nat _ - _)%Z; simpl; ring.
Qed.
Print Assumptions C57_jacobian.
(** a 2-D element with 2x2 storage: the determinant line still reads row and column 2 *)
Theorem C57_storage_refuted : forall J0 vertices partial n, jacobian 2 2 J0 vertices partial n 2 = UB.
Proof. reflexivity. Qed.
Print Assumptions C57_storage_refuted.
Theorem C57_jacobian4D : forall rows cols J0 vertices partial n, (4 <= rows)%nat -> (4 <= cols)%nat ->
  exists J det, jacobian4D rows cols J0 vertices partial n 4 = Ok (J, det)
  /\ (forall j k, (j < 4)%nat -> (k < 4)%nat -> J j k = sum n (fun v => vertices v k * partial v j))
  /\ det = ldet 4 J.
Proof.
  intros rows cols J0 vertices partial n Hr Hc. unfold jacobian4D.
  destruct (Nat.leb_spec 4 rows); [|lia]. destruct (Nat.leb_spec 4 cols); [|lia]. cbn [andb].
  eexists; eexists; split; [reflexivity|]. split.
  - intros j k Hj Hk. rewrite jac_entries. destruct (Nat.ltb_spec j 4), (Nat.ltb_spec k 4); try lia. reflexivity.
  - set (J := jac_fill n 4 vertices partial (jac_zero 4 J0)). clearbody J. unfold jac_det4. ev. ring.
Qed.
Print Assumptions C57_jacobian4D.
(** for the element classes it is the derivative of physical_position: [p] is the k-th coordinate of the position as
    a function of the j-th reference coordinate *)
Lemma sum_deriv n (f : nat -> R -> R) (f' : nat -> R) t : (forall v, (v < n)%nat -> derivable_pt_lim (f v) t (f' v)) ->
  derivable_pt_lim (fun x => sum n (fun v => f v x)) t (sum n f').
Proof.
  induction n; intros H; simpl.
  - apply derivable_pt_lim_const.
  - apply (derivable_pt_lim_plus (fun x => sum n (fun v => f v x)) (f n)); [apply IHn; auto|apply H; lia].
Qed.
Theorem C57_is_derivative : forall n dim sh pd (vertices : mat) x junk junk' xp j k,
  (forall d, (d < dim)%nat -> partial_of n d sh (pd d)) -> (j < dim)%nat -> (k < dim)%nat ->
  derivable_pt_lim (fun t => position n dim (sh (set x j t) junk) vertices xp k) (x j)
    (jac_fill n dim vertices (fun v d => pd d x junk' v) (jac_zero dim (fun _ _ => 0)) j k).
Proof.
  intros n dim sh pd vertices x junk junk' xp j k Hp Hj Hk. rewrite jac_entries.
  destruct (Nat.ltb_spec j dim), (Nat.ltb_spec k dim); try lia. cbn [andb].
  assert (E : forall t, position n dim (sh (set x j t) junk) vertices xp k
    = sum n (fun v => vertices v k * sh (set x j t) junk v)).
  { intros t. apply position_spec, Hk. }
  apply (derivable_pt_lim_ext (fun t => sum n (fun v => vertices v k * sh (set x j t) junk v))); [intros t; symmetry; apply E|].
  apply (sum_deriv n (fun v t => vertices v k * sh (set x j t) junk v) (fun v => vertices v k * pd j x junk' v)).
  intros v Hv. apply (derivable_pt_lim_scal (fun t => sh (set x j t) junk v)). apply Hp; assumption.
Qed.
Print Assumptions C57_is_derivative.

(** ** C57: inverses *)
Theorem C57_inverse_2d : forall J, ldet 2 J <> 0 -> is_inverse 2 (jacobian_inverse_2d J) J.
Proof.
  intros J D i j Hi Hj. assert (E : ldet 2 J = J.[0,0]*J.[1,1] - J.[0,1]*J.[1,0]) by (ev; simpl; ring).
  rewrite E in D. unfold jacobian_inverse_2d.
  cases_lt i Hi ltac:(cases_lt j Hj idtac); split; ev; field; exact D.
Qed.
Print Assumptions C57_inverse_2d.
Definition wit3 : mat := mat_of [[1; 1; 0]; [0; 2; 0]; [0; 0; 1]].
Theorem C57_inverse_3d_refuted : ldet 3 wit3 = 2 /\ mul 3 (jacobian_inverse_3d wit3) wit3 0%nat 0%nat = 2
  /\ ~ is_inverse 3 (jacobian_inverse_3d wit3) wit3.
Proof.
  assert (A : mul 3 (jacobian_inverse_3d wit3) wit3 0%nat 0%nat = 2).
  { unfold jacobian_inverse_3d, wit3. ev. field. }
  conj; [unfold wit3; ev; simpl; ring|exact A|].
  intros H. destruct (H 0%nat 0%nat) as [B _]; [lia|lia|]. rewrite A in B. cbn in B. lra.
Qed.
Print Assumptions C57_inverse_3d_refuted.
(** it holds exactly, for symmetric J, when the mistyped cofactor A_13 is harmless *)
Theorem C57_inverse_3d_partial : forall J, (forall i j, (i < 3)%nat -> (j < 3)%nat -> J i j = J j i) -> ldet 3 J <> 0 ->
  (is_inverse 3 (jacobian_inverse_3d J) J <-> J.[1,0] * J.[1,1] = J.[1,0] * J.[2,1]).
Proof.
  intros J S D.
  pose proof (S 1%nat 0%nat ltac:(lia) ltac:(lia)) as S10. pose proof (S 2%nat 0%nat ltac:(lia) ltac:(lia)) as S20.
  pose proof (S 2%nat 1%nat ltac:(lia) ltac:(lia)) as S21.
  assert (E : ldet 3 J = J.[0,0] * (J.[1,1]*J.[2,2] - J.[1,2]*J.[1,2])
    + J.[0,1] * (J.[1,2]*J.[0,2] - J.[0,1]*J.[2,2]) + J.[0,2] * (J.[0,1]*J.[1,2] - J.[0,2]*J.[1,1]))
    by (ev; rewrite ?S10, ?S20, ?S21; simpl; ring).
  set (e := J.[1,0] * J.[1,1] - J.[1,0] * J.[2,1]).
  assert (F : forall i j, (i < 3)%nat -> (j < 3)%nat ->
    mul 3 (jacobian_inverse_3d J) J i j = (if Nat.eqb i j then 1 else 0) + (if Nat.eqb i 0 then e * J 2%nat j / ldet 3 J else 0)
    /\ mul 3 J (jacobian_inverse_3d J) i j
       = (if Nat.eqb i j then 1 else 0) + (if Nat.eqb j 2 then e * J i 0%nat / ldet 3 J else 0)).
  { intros i j Hi Hj. rewrite E in D |- *. unfold jacobian_inverse_3d, e.
    cases_lt i Hi ltac:(cases_lt j Hj idtac); split; ev; rewrite ?S10, ?S20, ?S21; field; exact D. }
  split.
  - intros H.
    assert (Z : forall j, (j < 3)%nat -> e * J 2%nat j = 0).
    { intros j Hj. destruct (H O j) as [P _]; [lia|exact Hj|]. destruct (F O j) as [P' _]; [lia|exact Hj|].
      rewrite P in P'. cbn [Nat.eqb] in P'.
      assert (Q : e * J 2%nat j / ldet 3 J = 0) by (destruct j; lra).
      replace (e * J 2%nat j) with (e * J 2%nat j / ldet 3 J * ldet 3 J) by (field; exact D). rewrite Q. ring. }
    assert (Z0 := Z 0%nat ltac:(lia)). assert (Z1 := Z 1%nat ltac:(lia)). assert (Z2 := Z 2%nat ltac:(lia)).
    assert (Ed : e * ldet 3 J = 0).
    { rewrite E. replace (e * _) with (e * J.[2,2] * (J.[0,0]*J.[1,1] - J.[0,1]*J.[0,1])
        + e * J.[2,1] * (J.[0,1]*J.[0,2] - J.[0,0] * J.[1,2]) + e * J.[2,0] * (J.[0,1]*J.[1,2] - J.[0,2]*J.[1,1]))
        by (rewrite ?S10, ?S20, ?S21; ring). rewrite Z0, Z1, Z2. ring. }
    apply Rmult_integral in Ed. destruct Ed as [Ed|Ed]; [unfold e in Ed; lra|contradiction].
  - intros H. assert (e0 : e = 0) by (unfold e; lra). intros i j Hi Hj. destruct (F i j Hi Hj) as [-> ->].
    rewrite e0. unfold Rdiv. rewrite !Rmult_0_l. destruct (Nat.eqb i 0), (Nat.eqb j 2); split; ring.
Qed.
Print Assumptions C57_inverse_3d_partial.
Example C57_inverse_3d_ex : is_inverse 3 (jacobian_inverse_3d (mat_of [[2; 0; 1]; [0; 3; 1]; [1; 1; 4]]))
  (mat_of [[2; 0; 1]; [0; 3; 1]; [1; 1; 4]]).
Proof.
  assert (E : ldet 3 (mat_of [[2; 0; 1]; [0; 3; 1]; [1; 1; 4]]) = 19) by (ev; simpl; ring).
  apply C57_inverse_3d_partial; [|rewrite E; lra|ev; ring].
  intros i j Hi Hj. cases_lt i Hi ltac:(cases_lt j Hj idtac); reflexivity.
Qed.

(** in general the result is the transposed cofactor matrix over a wrong determinant *)
Definition cof3 (J : mat) (i j : nat) : R :=
  (-1) ^ (i + j) * ldet 2 (fun a b => J (if (a <? i)%nat then a else S a) (if (b <? j)%nat then b else S b)).
Theorem C57_inverse_3d_value : forall J i j, (i < 3)%nat -> (j < 3)%nat ->
  jacobian_inverse_3d J i j
  = (cof3 J i j + (if (Nat.eqb i 0 && Nat.eqb j 2)%bool then J.[1,0] * (J.[1,1] - J.[2,1]) else 0))
    / (J.[0,0] * cof3 J 0 0 + J.[0,1] * cof3 J 1 0 + J.[0,2] * cof3 J 2 0).
Proof.
  intros J i j Hi Hj. unfold jacobian_inverse_3d, cof3.
  cases_lt i Hi ltac:(cases_lt j Hj idtac); ev; apply f_equal2; simpl; ring.
Qed.
Print Assumptions C57_inverse_3d_value.

Definition wit4 : mat := mat_of [[0; 0; 0; 1]; [0; 1; 0; 0]; [0; 0; 1; 0]; [1; 0; 0; 0]].
Theorem C57_inverse_4d_refuted : forall Jinv, ldet 4 wit4 = -1
  /\ ~ is_inverse 4 (jacobian_inverse_4d Jinv wit4 (ldet 4 wit4)) wit4.
Proof.
  intros Jinv. assert (D : ldet 4 wit4 = -1) by (unfold wit4; ev; simpl; ring). split; [exact D|].
  intros H. destruct (H 2%nat 2%nat) as [B _]; [lia|lia|]. rewrite D in B. unfold jacobian_inverse_4d, wit4 in B.
  revert B. ev. lra.
Qed.
Print Assumptions C57_inverse_4d_refuted.
(** given the true determinant, the result is the inverse exactly when the mistyped term of inv[10] is harmless *)
Theorem C57_inverse_4d_partial : forall Jinv J det, det = ldet 4 J -> det <> 0 ->
  (is_inverse 4 (jacobian_inverse_4d Jinv J det) J <-> J.[3,0] * J.[0,3] * (J.[1,1] - J.[1,2]) = 0).
Proof.
  intros Jinv J det E D.
  assert (E4 : det = jac_det4 J) by (rewrite E; unfold jac_det4; ev; simpl; ring). clear E.
  set (e := J.[3,0] * J.[0,3] * (J.[1,1] - J.[1,2])).
  assert (F : forall i j, (i < 4)%nat -> (j < 4)%nat ->
    mul 4 (jacobian_inverse_4d Jinv J det) J i j
      = (if Nat.eqb i j then 1 else 0) + (if Nat.eqb i 2 then e * J 2%nat j / det else 0)
    /\ mul 4 J (jacobian_inverse_4d Jinv J det) i j
      = (if Nat.eqb i j then 1 else 0) + (if Nat.eqb j 2 then e * J i 2%nat / det else 0)).
  { intros i j Hi Hj.
    assert (G : forall x y, x = det * y -> x * (1 / det) = y) by (intros x y ->; field; exact D).
    split; unfold mul.
    - replace (sum 4 (fun k => jacobian_inverse_4d Jinv J det i k * J k j))
        with (sum 4 (fun k => inv16 (flat4 J) (4 * i + k) * J k j) * (1 / det)).
      + replace ((if Nat.eqb i j then 1 else 0) + (if Nat.eqb i 2 then e * J 2%nat j / det else 0))
          with ((det * (if Nat.eqb i j then 1 else 0) + (if Nat.eqb i 2 then e * J 2%nat j else 0)) * (1 / det))
          by (destruct (Nat.eqb i j), (Nat.eqb i 2); field; exact D).
        apply (f_equal (fun z => z * (1 / det))). rewrite E4. unfold e, jac_det4.
        cases_lt i Hi ltac:(cases_lt j Hj idtac); ev; ring.
      + unfold jacobian_inverse_4d. destruct (Nat.ltb_spec i 4); [|lia]. ev. ring.
    - replace (sum 4 (fun k => J i k * jacobian_inverse_4d Jinv J det k j))
        with (sum 4 (fun k => J i k * inv16 (flat4 J) (4 * k + j)) * (1 / det)).
      + replace ((if Nat.eqb i j then 1 else 0) + (if Nat.eqb j 2 then e * J i 2%nat / det else 0))
          with ((det * (if Nat.eqb i j then 1 else 0) + (if Nat.eqb j 2 then e * J i 2%nat else 0)) * (1 / det))
          by (destruct (Nat.eqb i j), (Nat.eqb j 2); field; exact D).
        apply (f_equal (fun z => z * (1 / det))). rewrite E4. unfold e, jac_det4.
        cases_lt i Hi ltac:(cases_lt j Hj idtac); ev; ring.
      + unfold jacobian_inverse_4d. destruct (Nat.ltb_spec j 4); [|lia]. ev. ring. }
  split.
  - intros H.
    assert (Z : forall j, (j < 4)%nat -> e * J 2%nat j = 0).
    { intros j Hj. destruct (H 2%nat j) as [P _]; [lia|exact Hj|]. destruct (F 2%nat j) as [P' _]; [lia|exact Hj|].
      rewrite P in P'. cbn [Nat.eqb] in P'.
      assert (Q : e * J 2%nat j / det = 0) by lra.
      replace (e * J 2%nat j) with (e * J 2%nat j / det * det) by (field; exact D). rewrite Q. ring. }
    assert (Z0 := Z 0%nat ltac:(lia)). assert (Z1 := Z 1%nat ltac:(lia)).
    assert (Z2 := Z 2%nat ltac:(lia)). assert (Z3 := Z 3%nat ltac:(lia)).
    assert (Ed : e * det = 0).
    { rewrite E4. clearbody e. transitivity (
        (e * J.[2,0]) * jac_det4 (fun a b => if Nat.eqb a 2 then (if Nat.eqb b 0 then 1 else 0) else J a b)
      + (e * J.[2,1]) * jac_det4 (fun a b => if Nat.eqb a 2 then (if Nat.eqb b 1 then 1 else 0) else J a b)
      + (e * J.[2,2]) * jac_det4 (fun a b => if Nat.eqb a 2 then (if Nat.eqb b 2 then 1 else 0) else J a b)
      + (e * J.[2,3]) * jac_det4 (fun a b => if Nat.eqb a 2 then (if Nat.eqb b 3 then 1 else 0) else J a b)).
      - unfold jac_det4. ev. ring.
      - rewrite Z0, Z1, Z2, Z3. ring. }
    apply Rmult_integral in Ed. destruct Ed as [Ed|Ed]; [exact Ed|contradiction].
  - intros e0. intros i j Hi Hj. destruct (F i j Hi Hj) as [-> ->].
    fold e in e0. rewrite e0. unfold Rdiv. rewrite !Rmult_0_l. destruct (Nat.eqb i 2), (Nat.eqb j 2); split; ring.
Qed.
Print Assumptions C57_inverse_4d_partial.
Example C57_ex : ldet 2 (mat_of [[1; 2]; [3; 4]]) <> 0.
Proof. ev. simpl. lra. Qed.
