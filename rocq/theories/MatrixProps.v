(** Properties C37-C43 and C80-C82: matrix algebra (ristra/math/matrix.h).
    [mx n m A] is the mathcomp matrix with the entries A(i,j), i < n, j < m; [cv n x] the column. *)
From mathcomp Require Import all_ssreflect all_algebra.
From mathcomp Require Import perm.
From Verif Require Import Outcome MatrixModel MatrixProofs MatrixNorms MatrixExp.
Set Implicit Arguments. Unset Strict Implicit. Unset Printing Implicit Defensive.
Import Order.TTheory GRing.Theory Num.Theory.
Local Open Scope ring_scope.

(** sample matrices for the examples *)
Definition tab (R : ringType) (l : seq (seq R)) : nat -> nat -> R := fun i j => nth 0 (nth [::] l i) j.
Definition zz : nat -> nat -> int := fun _ _ => 7%:Z.
Definition qq : nat -> nat -> rat := fun _ _ => 7%:Q.
Definition z3 : nat -> nat -> int := tab [:: [:: 2; 0; 1]; [:: 1; 3; -1]; [:: 0; 5; 4]].
Definition q3 : nat -> nat -> rat := tab [:: [:: 2; 0; 1]; [:: 1; 3; -1]; [:: 0; 5; 4]].
Definition q4 : nat -> nat -> rat := tab [:: [:: 2; 0; 1; 0]; [:: 1; 3; -1; 0]; [:: 0; 5; 4; 0]; [:: 1; 1; 1; 1]].

Section Ring.
Variable R : comRingType.
Implicit Types A B C junk : mat R.

(** C37: the recursive expansion is the Leibniz determinant *)
Theorem C37_leibniz junk n A : (0 < n)%N ->
  determinant junk n A = \sum_(s : 'S_n) (-1) ^+ s * \prod_(i < n) A i (s i).
Proof. exact: determinant_leibniz. Qed.
Theorem C37_multiplicative junk n A B : (0 < n)%N ->
  determinant junk n (matrix_multiply n n n A B) = determinant junk n A * determinant junk n B.
Proof. case: n => // n _. by rewrite !determinant_det mx_mm det_mulmx. Qed.
Theorem C37_transpose junk junk' n A : (0 < n)%N ->
  determinant junk n (transpose junk' n n A) = determinant junk n A.
Proof. case: n => // n _. by rewrite !determinant_det mx_transpose det_tr. Qed.
Theorem C37_alternating junk n A i k : (i < n)%N -> (k < n)%N -> i <> k ->
  (forall j, (j < n)%N -> A i j = A k j) -> determinant junk n A = 0.
Proof.
  case: n => // n Hi Hk ik H. rewrite determinant_det.
  apply: (@determinant_alternate _ _ _ (Ordinal Hi) (Ordinal Hk)).
    by apply/eqP => /(congr1 val).
  by move=> j; rewrite !mxE H.
Qed.
Theorem C37_swap junk n A i k : (i < n)%N -> (k < n)%N -> i <> k ->
  determinant junk n (fun a b => if a == i then A k b else if a == k then A i b else A a b) = - determinant junk n A.
Proof.
  case: n => // n Hi Hk ik. rewrite !determinant_det.
  have nik : Ordinal Hi != Ordinal Hk by apply/eqP => /(congr1 val).
  have -> : mx n.+1 n.+1 (fun a b => if a == i then A k b else if a == k then A i b else A a b) =
     xrow (Ordinal Hi) (Ordinal Hk) (mx n.+1 n.+1 A).
    apply/matrixP => a b; rewrite !mxE. case: tpermP => [->|->|/eqP ai /eqP ak] /=.
    - by rewrite eqxx.
    - by rewrite eqxx; case: eqP => // E; rewrite E in ik.
    - by rewrite -!val_eqE /= in ai ak; rewrite (negbTE ai) (negbTE ak).
  by rewrite xrowE det_mulmx det_perm odd_tperm nik expr1 mulN1r.
Qed.
Theorem C37_identity junk n : (0 < n)%N -> determinant junk n (identity_matrix R n) = 1.
Proof. case: n => // n _. by rewrite determinant_det mx_identity det1. Qed.
End Ring.
Print Assumptions C37_leibniz.
Print Assumptions C37_multiplicative.
Print Assumptions C37_transpose.
Print Assumptions C37_alternating.
Print Assumptions C37_swap.
Print Assumptions C37_identity.
Example C37_ex : determinant zz 3 z3 = 39 /\ determinant zz 3 (transpose zz 3 3 z3) = 39.
Proof. by split; vm_compute. Qed.

Section Field.
Variable F : fieldType.
Implicit Types A B junk : mat F.

(** C38: every specialisation and the generic version *)
Theorem C38_inverse junk dbg n A : (0 < n)%N -> \det (mx n n A) != 0 ->
  exists B, [/\ inverse junk dbg n A = Ok B, mx n n A *m mx n n B = 1%:M & mx n n B *m mx n n A = 1%:M].
Proof. case: n => // n _ /(inverse_ok junk dbg) [B [E H]]. exists B; split=> //. exact: mulmx1C. Qed.
Theorem C38_singular_asserts junk n A : (0 < n)%N -> \det (mx n n A) = 0 -> inverse junk true n A = AssertFail.
Proof. case: n => // n _. exact: inverse_singular. Qed.
(** the specialised formulas and the generic cofactor formula are interchangeable *)
Theorem C38_specialisations_agree junk junk' dbg n A : (1 < n)%N -> \det (mx n n A) != 0 ->
  exists B B', [/\ inverse junk dbg n A = Ok B, inverse_gen junk' dbg n A = Ok B' & mx n n B = mx n n B'].
Proof.
  case: n => [|[|n]] // _ H. have [B [E K]] := inverse_ok junk dbg H.
  have [B' [E' K']] := inverse_gen_ok junk' dbg H. exists B, B'; split=> //.
  have L : mx n.+2 n.+2 A *m mx n.+2 n.+2 B' = 1%:M by rewrite K' -scalemxAr mul_mx_adj scale_scalar_mx mulVf.
  by rewrite -[LHS]mulmx1 -L mulmxA (mulmx1C K) mul1mx.
Qed.

(** C39 *)
Theorem C39_solve junk dbg n A (b : nat -> F) : (0 < n)%N -> \det (mx n n A) != 0 ->
  exists x, [/\ solve junk dbg n A b = Ok x,
    forall i, (i < n)%N -> \sum_(j < n) A i j * x j = b i &
    forall y : nat -> F, (forall i, (i < n)%N -> \sum_(j < n) A i j * y j = b i) -> forall i, (i < n)%N -> y i = x i].
Proof.
  case: n => // n _ H. have [x [E K]] := solve_ok junk dbg b H. exists x; split=> // [i Hi|y Hy i Hi].
    move/matrixP: K => /(_ (Ordinal Hi) 0). rewrite !mxE /= => <-. by apply: eq_bigr => j _; rewrite !mxE.
  have Ky : mx n.+1 n.+1 A *m cv n.+1 y = cv n.+1 b.
    apply/matrixP => a c; rewrite !mxE -Hy //. by apply: eq_bigr => j _; rewrite !mxE.
  have U : mx n.+1 n.+1 A \in unitmx by rewrite unitmxE unitfE.
  have : cv n.+1 y = cv n.+1 x by rewrite -(mulKmx U (cv _ y)) Ky -K mulKmx.
  by move/matrixP => /(_ (Ordinal Hi) 0); rewrite !mxE.
Qed.
Theorem C39_solve_product junk junkv dbg n A (x : nat -> F) : (0 < n)%N -> \det (mx n n A) != 0 ->
  exists y, solve junk dbg n A (mat_vec junkv n n A x) = Ok y /\ forall i, (i < n)%N -> y i = x i.
Proof.
  move=> n0 H. have [y [E K U]] := C39_solve junk dbg (mat_vec junkv n n A x) n0 H.
  exists y; split=> // i Hi. symmetry. apply: U => // k Hk. by rewrite mat_vec_spec.
Qed.
End Field.
Print Assumptions C38_inverse.
Print Assumptions C38_singular_asserts.
Print Assumptions C38_specialisations_agree.
Print Assumptions C39_solve.
Print Assumptions C39_solve_product.
Example C38_ex3 : \det (mx 3 3 q3) != 0 /\ \det (mx 4 4 q4) != 0.
Proof. by rewrite -!(determinant_det qq); split; vm_compute. Qed.
Example C38_exsing : \det (mx 2 2 (tab [:: [:: 1; 2]; [:: 2; 4]] : nat -> nat -> rat)) = 0.
Proof. rewrite -(determinant_det qq). by apply/eqP; vm_compute. Qed.
Example C39_ex : exists x, solve qq true 3 q3 (fun i => i%:R) = Ok x /\ x 0%N = - 1%:Q / 39%:Q /\ x 2%N = 2%:Q / 39%:Q.
Proof. eexists; split; [reflexivity|]. by split; apply/eqP; vm_compute. Qed.

(** C40: matrix_vector scales y by beta once per column *)
Theorem C40_formula (R : comRingType) m n (alpha beta : R) A x y i : (i < m)%N ->
  matrix_vector m n alpha A x beta y i =
  \sum_(j < n) alpha * A i j * x j * beta ^+ (n - j.+1) + beta ^+ n * y i.
Proof. exact: matrix_vector_spec. Qed.
Theorem C40_gemv_partial (R : comRingType) m n (alpha beta : R) A x y i : (i < m)%N -> beta = 1 \/ n = 1%N ->
  matrix_vector m n alpha A x beta y i = alpha * (\sum_(j < n) A i j * x j) + beta * y i.
Proof.
  move=> Hi H. rewrite matrix_vector_spec // mulr_sumr. case: H => E; subst.
    rewrite !expr1n. congr (_ + _). by apply: eq_bigr => j _; rewrite expr1n mulr1 mulrA.
  by rewrite !big_ord1 expr0 mulr1 expr1 mulrA.
Qed.
Theorem C40_gemv_refuted : ~ (forall m n (alpha beta : int) A x y i, (i < m)%N ->
  matrix_vector m n alpha A x beta y i = alpha * (\sum_(j < n) A i j * x j) + beta * y i).
Proof.
  move=> /(_ 1%N 2%N 1 2 (fun _ _ => 1) (fun _ => 1) (fun _ => 1) 0%N isT).
  by rewrite !big_ord_recl big_ord0; vm_compute.
Qed.
Print Assumptions C40_formula.
Print Assumptions C40_gemv_partial.
Print Assumptions C40_gemv_refuted.
Example C40_ex : matrix_vector 1 2 1 (fun _ _ => 1) (fun _ => 1) 2 (fun _ => 1) 0%N = 7 :> int.
Proof. by vm_compute. Qed.

Section Product.
Variable R : comRingType.
Implicit Types A B C : mat R.
(** C41: what each function computes *)
Theorem C41_entries m n p A B C i j : (i < m)%N -> (j < p)%N ->
  matrix_multiply m n p A B i j = \sum_(k < n) A i k * B k j /\
  matrix_multiply_acc m n p (fun _ => A) (fun _ => B) C i j = C i j + \sum_(k < n) A i k * B k j.
Proof. by move=> Hi Hj; rewrite mm_spec ?mm_acc_spec. Qed.
Theorem C41_vector junkv m n A (x y : nat -> R) i : (i < m)%N ->
  mat_vec junkv m n A x i = matrix_multiply m n 1 A (fun k _ => x k) i 0%N /\
  mat_vec junkv m n A x i = \sum_(j < n) A i j * x j /\
  ax_plus_y m n A (fun _ => x) y i = y i + \sum_(j < n) A i j * x j.
Proof. by move=> Hi; rewrite mm_spec ?mat_vec_spec ?ax_plus_y_spec. Qed.
Theorem C41_associative m n p q A B C i j : (i < m)%N -> (j < q)%N ->
  matrix_multiply m p q (matrix_multiply m n p A B) C i j =
  matrix_multiply m n q A (matrix_multiply n p q B C) i j.
Proof.
  move=> Hi Hj. have : mx m q (matrix_multiply m p q (matrix_multiply m n p A B) C) =
    mx m q (matrix_multiply m n q A (matrix_multiply n p q B C)) by rewrite !mx_mm mulmxA.
  by move/matrixP => /(_ (Ordinal Hi) (Ordinal Hj)); rewrite !mxE.
Qed.
Theorem C41_distributive m n p A B C i j : (i < m)%N -> (j < p)%N ->
  matrix_multiply m n p A (fun a b => B a b + C a b) i j =
  matrix_multiply m n p A B i j + matrix_multiply m n p A C i j /\
  matrix_multiply m n p (fun a b => A a b + B a b) C i j =
  matrix_multiply m n p A C i j + matrix_multiply m n p B C i j.
Proof.
  move=> Hi Hj. by split; rewrite !mm_spec // -big_split /=; apply: eq_bigr => k _; rewrite ?mulrDr ?mulrDl.
Qed.
Theorem C41_transpose j1 j2 j3 m n p A B i j : (i < p)%N -> (j < m)%N ->
  transpose j1 m p (matrix_multiply m n p A B) i j =
  matrix_multiply p n m (transpose j2 n p B) (transpose j3 m n A) i j.
Proof.
  move=> Hi Hj. rewrite transpose_spec // !mm_spec //. apply: eq_bigr => k _.
  by rewrite !transpose_spec // mulrC.
Qed.
Theorem C41_transpose_involutive j1 j2 m n A i j : (i < m)%N -> (j < n)%N ->
  transpose j1 m n A j i = A i j /\ transpose j2 n m (transpose j1 m n A) i j = A i j.
Proof. by move=> Hi Hj; rewrite !transpose_spec. Qed.
Theorem C41_identity m n A i j : (i < m)%N -> (j < n)%N ->
  matrix_multiply m m n (identity_matrix R m) A i j = A i j /\
  matrix_multiply m n n A (identity_matrix R n) i j = A i j /\
  forall k, (k < n)%N -> identity_matrix R n j k = (j == k)%:R.
Proof.
  move=> Hi Hj. split; last split=> [|k Hk]; last exact: identity_spec.
    have : mx m n (matrix_multiply m m n (identity_matrix R m) A) = mx m n A by rewrite mx_mm mx_identity mul1mx.
    by move/matrixP => /(_ (Ordinal Hi) (Ordinal Hj)); rewrite !mxE.
  have : mx m n (matrix_multiply m n n A (identity_matrix R n)) = mx m n A by rewrite mx_mm mx_identity mulmx1.
  by move/matrixP => /(_ (Ordinal Hi) (Ordinal Hj)); rewrite !mxE.
Qed.
Theorem C41_trace m n A B :
  trace_matrix m A = \sum_(i < m) A i i /\
  trace_matrix m (matrix_multiply m n m A B) = trace_matrix n (matrix_multiply n m n B A).
Proof.
  rewrite !trace_spec !mx_mm mxtrace_mulC; split=> //. by apply: eq_bigr => i _; rewrite mxE.
Qed.
Theorem C41_doubledot junk m n A B :
  doubledot_product m n A B = \sum_(i < m) \sum_(j < n) A i j * B i j /\
  doubledot_product m n A B = trace_matrix n (matrix_multiply n m n (transpose junk m n A) B).
Proof.
  split; first by rewrite /doubledot_product for_sum2 add0r.
  by rewrite doubledot_spec trace_spec mx_mm mx_transpose.
Qed.
Theorem C41_outer junk D (x y : nat -> R) C f i j : (i < D)%N -> (j < D)%N ->
  outer_product junk D x y i j = x i * y j /\ outer_product_acc D x y C f i j = C i j + f * x i * y j.
Proof. by move=> Hi Hj; rewrite outer_spec ?outer_acc_spec. Qed.

(** C82: the accumulating forms read their operands while writing the destination *)
Theorem C82_acc_frame m n p A B C i j : ~~ ((i < m) && (j < p))%N ->
  matrix_multiply_acc m n p (fun _ => A) (fun _ => B) C i j = C i j.
Proof.
  move=> H. rewrite /matrix_multiply_acc.
  apply: (@for_inv _ (fun k t => t i j = C i j) m _ _) => // k t km Ht.
  apply: (@for_inv _ (fun q t => t i j = C i j) p _ _) => // q u qp Hu.
  rewrite /setm Hu. case: eqP => //= E1; case: eqP => //= E2; subst. by rewrite km qp in H.
Qed.
End Product.
Print Assumptions C41_entries.
Print Assumptions C41_vector.
Print Assumptions C41_associative.
Print Assumptions C41_distributive.
Print Assumptions C41_transpose.
Print Assumptions C41_transpose_involutive.
Print Assumptions C41_identity.
Print Assumptions C41_trace.
Print Assumptions C41_doubledot.
Print Assumptions C41_outer.
Print Assumptions C82_acc_frame.
Example C41_ex : matrix_multiply 2 3 2 z3 (fun i j => (i + 2 * j)%:R) 1%N 1%N = 7 /\ trace_matrix 3 z3 = 9 /\
  outer_product zz 3 (fun i => i%:R) (fun j => (j + 1)%:R) 2%N 1%N = 4 :> int /\
  doubledot_product 2 3 z3 z3 = 16.
Proof. by vm_compute. Qed.
(** with the destination as operand the product is not the one of the values passed *)
Theorem C82_alias_refuted :
  ~ (forall n (A B : nat -> nat -> int) i j, (i < n)%N -> (j < n)%N ->
       matrix_multiply_acc n n n (fun C => C) (fun _ => B) A i j = A i j + \sum_(k < n) A i k * B k j) /\
  ~ (forall n (A : nat -> nat -> int) (x : nat -> int) i, (i < n)%N ->
       ax_plus_y n n A (fun y => y) x i = x i + \sum_(j < n) A i j * x j).
Proof.
  split.
  - move=> /(_ 2%N (fun _ _ => 1) (fun _ _ => 1) 0%N 1%N isT isT). by rewrite !big_ord_recl big_ord0; vm_compute.
  - move=> /(_ 2%N (fun _ _ => 1) (fun _ => 1) 1%N isT). by rewrite !big_ord_recl big_ord0; vm_compute.
Qed.
Print Assumptions C82_alias_refuted.

Section Reflection.
Variable R : comRingType.
Variable junk : mat R.
Variable D : nat.
Variable u : nat -> R.
Hypothesis unit_u : \sum_(i < D) u i * u i = 1.
Notation RM := (mx D D (reflection_matrix junk D u)).
Notation PM := (mx D D (projection_matrix junk D u)).
Notation uu := (cv D u).
Lemma uTu : uu^T *m uu = 1%:M.
Proof.
  apply/matrixP => i j; rewrite !mxE !ord1 /= -unit_u. by apply: eq_bigr => k _; rewrite !mxE.
Qed.
Lemma uuT2 : (uu *m uu^T) *m (uu *m uu^T) = uu *m uu^T.
Proof. by rewrite mulmxA -(mulmxA uu) uTu mulmx1. Qed.
(** C42: reflection. [unit_u] becomes a hypothesis of each theorem. *)
Theorem C42_reflection :
  [/\ RM^T = RM, RM *m RM = 1%:M, RM^T *m RM = 1%:M & RM *m uu = - uu].
Proof.
  have T : RM^T = RM by rewrite mx_reflection linearB /= linearZ /= trmx_mul trmxK trmx1.
  have I : RM *m RM = 1%:M.
    rewrite mx_reflection. set W := 2%:R *: _.
    have WW : W *m W = W + W by rewrite /W -scalemxAr -scalemxAl uuT2 scalerA -scalerDl -natrM -natrD.
    by rewrite mulmxBl mul1mx mulmxBr mulmx1 WW opprB addrK subrK.
  split=> //; first by rewrite T.
  rewrite mx_reflection mulmxBl mul1mx -scalemxAl -mulmxA uTu mulmx1.
  by rewrite scaler_nat mulr2n opprD addrA subrr sub0r.
Qed.
Theorem C42_reflection_fixes_plane (v : nat -> R) : \sum_(i < D) u i * v i = 0 -> RM *m cv D v = cv D v.
Proof.
  move=> H. rewrite mx_reflection mulmxBl mul1mx -scalemxAl -mulmxA.
  have -> : uu^T *m cv D v = 0.
    by apply/matrixP => i j; rewrite !mxE -[RHS]H; apply: eq_bigr => k _; rewrite !mxE.
  by rewrite mulmx0 scaler0 subr0.
Qed.
Theorem C42_reflect_agrees junkv (v : nat -> R) i : (i < D)%N ->
  reflect D v u i = mat_vec junkv D D (reflection_matrix junk D u) v i.
Proof.
  move=> Hi. rewrite reflect_spec // dot_spec.
  have : cv D (mat_vec junkv D D (reflection_matrix junk D u) v) = cv D v - 2%:R *: (uu *m (uu^T *m cv D v)).
    by rewrite cv_mat_vec mx_reflection mulmxBl mul1mx -scalemxAl mulmxA.
  move/matrixP => /(_ (Ordinal Hi) 0). rewrite !mxE /= => ->. congr (_ - _).
  rewrite big_ord1 !mxE mulrCA. congr (_ * (_ * _)). by apply: eq_bigr => k _; rewrite !mxE mulrC.
Qed.
Theorem C42_reflect_isometry (v w : nat -> R) :
  \sum_(i < D) reflect D v u i * reflect D w u i = \sum_(i < D) v i * w i.
Proof.
  have E : forall x y : nat -> R, \sum_(i < D) x i * y i = ((cv D x)^T *m cv D y) 0 0.
    by move=> x y; rewrite mxE; apply: eq_bigr => i _; rewrite !mxE.
  have Rf : forall x, cv D (reflect D x u) = RM *m cv D x.
    move=> x. rewrite -(cv_mat_vec (fun _ => 0)). by apply/matrixP => i j; rewrite !mxE -C42_reflect_agrees.
  have [_ _ O _] := C42_reflection.
  by rewrite !E !Rf trmx_mul -mulmxA (mulmxA _ RM) O mul1mx.
Qed.
Theorem C42_projection :
  [/\ PM^T = PM, PM *m PM = PM, PM *m uu = 0 & forall v : nat -> R, \sum_(i < D) u i * v i = 0 -> PM *m cv D v = cv D v].
Proof.
  have T : PM^T = PM by rewrite mx_projection linearB /= trmx_mul trmxK trmx1.
  split=> //.
  - by rewrite mx_projection mulmxBl mul1mx mulmxBr mulmx1 uuT2 subrr subr0.
  - by rewrite mx_projection mulmxBl mul1mx -mulmxA uTu mulmx1 subrr.
  - move=> v H. rewrite mx_projection mulmxBl mul1mx -mulmxA.
    have -> : uu^T *m cv D v = 0.
      by apply/matrixP => i j; rewrite !mxE -[RHS]H; apply: eq_bigr => k _; rewrite !mxE.
    by rewrite mulmx0 subr0.
Qed.
(** the reflection moves each point twice as far as the projection: R = 2P - I *)
Theorem C42_reflection_projection : RM = 2%:R *: PM - 1%:M.
Proof.
  rewrite mx_reflection mx_projection scalerBr. set W := 2%:R *: (_ *m _).
  by rewrite scaler_nat mulr2n addrAC addrK.
Qed.
End Reflection.
Print Assumptions C42_reflection.
Print Assumptions C42_reflection_fixes_plane.
Print Assumptions C42_reflect_agrees.
Print Assumptions C42_reflect_isometry.
Print Assumptions C42_projection.
Print Assumptions C42_reflection_projection.
Example C42_ex : let u := fun i : nat => nth (0 : rat) [:: 3%:Q / 5%:Q; 4%:Q / 5%:Q] i in
  \sum_(i < 2) u i * u i = 1 /\ reflection_matrix qq 2 u 0%N 1%N = - 24%:Q / 25%:Q.
Proof. move=> u. rewrite !big_ord_recl big_ord0. by split; apply/eqP; vm_compute. Qed.

Section Norms.
Variable F : realFieldType.
Implicit Types A B : mat F.
(** C43 *)
Theorem C43_largest_sums N A : (0 < N)%N ->
  (forall i, (i < N)%N -> \sum_(j < N) `|A i j| <= infinity_norm N A) /\
  (exists i, (i < N)%N /\ infinity_norm N A = \sum_(j < N) `|A i j|) /\
  (forall j, (j < N)%N -> \sum_(i < N) `|A i j| <= one_norm N A) /\
  (exists j, (j < N)%N /\ one_norm N A = \sum_(i < N) `|A i j|).
Proof.
  move=> N0. have tr : forall j, (j < N)%N -> \sum_(i < N) `|A i j| = rowsum N (transpose A N N A) j.
    by move=> j Hj; apply: eq_bigr => i _; rewrite transpose_spec.
  rewrite !(one_norm_transpose A). do !split.
  - by move=> i; apply: infinity_norm_row.
  - exact: infinity_norm_attained.
  - by move=> j Hj; rewrite tr //; apply: infinity_norm_row.
  - by have [j [Hj E]] := infinity_norm_attained (transpose A N N A) N0; exists j; rewrite tr.
Qed.
Theorem C43_infinity_norm N A B c :
  [/\ 0 <= infinity_norm N A,
      infinity_norm N A = 0 <-> (forall i j, (i < N)%N -> (j < N)%N -> A i j = 0),
      infinity_norm N (fun i j => c * A i j) = `|c| * infinity_norm N A,
      infinity_norm N (fun i j => A i j + B i j) <= infinity_norm N A + infinity_norm N B &
      infinity_norm N (matrix_multiply N N N A B) <= infinity_norm N A * infinity_norm N B].
Proof.
  split; [exact: infinity_norm_ge0|exact: infinity_norm_eq0|exact: infinity_norm_scale
         |exact: infinity_norm_add|exact: infinity_norm_mul].
Qed.
Theorem C43_one_infinity junk N A : one_norm N A = infinity_norm N (transpose junk N N A).
Proof. exact: one_norm_transpose. Qed.
Theorem C43_one_norm N A B c :
  [/\ 0 <= one_norm N A,
      one_norm N A = 0 <-> (forall i j, (i < N)%N -> (j < N)%N -> A i j = 0),
      one_norm N (fun i j => c * A i j) = `|c| * one_norm N A,
      one_norm N (fun i j => A i j + B i j) <= one_norm N A + one_norm N B &
      one_norm N (matrix_multiply N N N A B) <= one_norm N A * one_norm N B].
Proof.
  rewrite !(one_norm_transpose A). set T := transpose A N N. split.
  - exact: infinity_norm_ge0.
  - rewrite infinity_norm_eq0; split=> H i j Hi Hj; first by have := H j i Hj Hi; rewrite /T transpose_spec.
    by rewrite /T transpose_spec // H.
  - rewrite -infinity_norm_scale. by apply: infinity_norm_ext => i j Hi Hj; rewrite /T /mscale !transpose_spec.
  - apply: le_trans (infinity_norm_add _ _ _). rewrite le_eqVlt; apply/orP; left; apply/eqP.
    by apply: infinity_norm_ext => i j Hi Hj; rewrite /T /madd !transpose_spec.
  - rewrite mulrC. apply: le_trans (infinity_norm_mul _ _ _). rewrite le_eqVlt; apply/orP; left; apply/eqP.
    apply: infinity_norm_ext => i j Hi Hj. rewrite /T transpose_spec // !mm_spec //.
    by apply: eq_bigr => k _; rewrite !transpose_spec // mulrC.
Qed.
(** it is the operator norm of the maximum norm on vectors: a bound, and attained *)
Theorem C43_induced junkv N A : (0 < N)%N ->
  (forall x c i, (forall j, (j < N)%N -> `|x j| <= c) -> (i < N)%N ->
     `|mat_vec junkv N N A x i| <= infinity_norm N A * c) /\
  (exists x i, [/\ (i < N)%N, forall j, `|x j| <= 1 & `|mat_vec junkv N N A x i| = infinity_norm N A]).
Proof. by move=> N0; split=> [x c i|]; [exact: infinity_norm_vec|exact: infinity_norm_sharp]. Qed.
End Norms.
Theorem C43_two_norm (F : rcfType) N (A B : mat F) c :
  two_norm N A = Num.sqrt (\sum_(i < N) \sum_(j < N) A i j ^+ 2) /\
  [/\ 0 <= two_norm N A,
      two_norm N A = 0 <-> (forall i j, (i < N)%N -> (j < N)%N -> A i j = 0),
      two_norm N (fun i j => c * A i j) = `|c| * two_norm N A,
      two_norm N (fun i j => A i j + B i j) <= two_norm N A + two_norm N B &
      two_norm N (matrix_multiply N N N A B) <= two_norm N A * two_norm N B].
Proof.
  split; first exact: two_normE2.
  split; [exact: two_norm_ge0|exact: two_norm_eq0|exact: two_norm_scale|exact: two_norm_add|exact: two_norm_mul].
Qed.
Print Assumptions C43_largest_sums.
Print Assumptions C43_infinity_norm.
Print Assumptions C43_one_infinity.
Print Assumptions C43_one_norm.
Print Assumptions C43_induced.
Print Assumptions C43_two_norm.
Example C43_ex : infinity_norm 3 q3 = 9 /\ one_norm 3 q3 = 8.
Proof. by split; apply/eqP; vm_compute. Qed.

(** C80: exponential(A) * exponential(-A) = I in a debug build whenever both return *)
Theorem C80_exp_neg (F : realFieldType) junk (s_of : F -> nat) n A P Q : (0 < n)%N ->
  exponential junk true s_of n A = Ok P -> exponential junk true s_of n (fun i j => -1 * A i j) = Ok Q ->
  mx n n P *m mx n n Q = 1%:M /\ mx n n Q *m mx n n P = 1%:M.
Proof.
  case: n => // n _ H1 H2. have E := exp_neg H1 H2. split; first exact: E. exact: (mulmx1C E).
Qed.
(** C81: on a nilpotent matrix (A^13 = 0) the result is the exponential series, which is then a
    finite sum, and the function always returns; for the zero matrix it computes log(0) *)
Theorem C81_exp_nilpotent (F : realFieldType) junk dbg (s_of : F -> nat) n (A : mat F) :
  mx n.+1 n.+1 A ^+ 13 = 0 -> mx n.+1 n.+1 A != 0 ->
  exists P, exponential junk dbg s_of n.+1 A = Ok P /\
            mx n.+1 n.+1 P = \sum_(k < 13) (k`!%:R)^-1 *: mx n.+1 n.+1 A ^+ k.
Proof. exact: exp_nilpotent. Qed.
Theorem C81_exp_zero_refuted (F : realFieldType) junk dbg (s_of : F -> nat) n :
  exponential junk dbg s_of n.+1 (fun _ _ => 0) = UB.
Proof. exact: exp_zero. Qed.
Print Assumptions C80_exp_neg.
Print Assumptions C81_exp_nilpotent.
Print Assumptions C81_exp_zero_refuted.
Lemma nil_ex (c : rat) : c != 0 ->
  let A := (fun i j => c * tab [:: [:: 0; 1]; [:: 0; 0]] i j) : nat -> nat -> rat in
  mx 2 2 A ^+ 13 = 0 /\ mx 2 2 A != 0.
Proof.
  move=> c0 A. have sq : mx 2 2 A ^+ 2 = 0.
    apply/matrixP => i j. rewrite expr2 !mxE !big_ord_recl big_ord0 !mxE /A.
    by case: i => [[|[|]]] // ?; case: j => [[|[|]]] // ?; rewrite /= /tab /= !(mulr0, mul0r, addr0).
  split; first by rewrite (exprD _ 2 11) sq mul0r.
  by apply/eqP => /matrixP /(_ 0 1); rewrite !mxE /A /tab /= mulr1 => /eqP; apply/negP.
Qed.
Example C81_ex : let A := (fun i j => 1 * tab [:: [:: 0; 1]; [:: 0; 0]] i j) : nat -> nat -> rat in
  mx 2 2 A ^+ 13 = 0 /\ mx 2 2 A != 0.
Proof. exact: nil_ex. Qed.
Example C80_ex : let A := (fun i j => 1 * tab [:: [:: 0; 1]; [:: 0; 0]] i j) : nat -> nat -> rat in
  exists P Q, exponential qq true (fun _ => 1%N) 2 A = Ok P /\
  exponential qq true (fun _ => 1%N) 2 (fun i j => -1 * A i j) = Ok Q.
Proof.
  move=> A. have [n1 n2] := @nil_ex 1 isT. have [m1 m2] := @nil_ex (-1) isT.
  have [P [HP _]] := C81_exp_nilpotent qq true (fun _ => 1%N) n1 n2.
  have E : mx 2 2 (fun i j => -1 * A i j) = mx 2 2 (fun i j => -1 * tab [:: [:: 0; 1]; [:: 0; 0]] i j).
    by apply/matrixP => i j; rewrite !mxE /A mul1r.
  rewrite -E in m1 m2. have [Q [HQ _]] := C81_exp_nilpotent qq true (fun _ => 1%N) m1 m2.
  exists P, Q. exact: (conj HP HQ).
Qed.
