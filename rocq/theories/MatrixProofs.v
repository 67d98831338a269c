(** The loops of MatrixModel related to mathcomp matrices. *)
From mathcomp Require Import all_ssreflect all_algebra.
From mathcomp Require Import perm.
From Verif Require Import Outcome MatrixModel RingFacts.
Set Implicit Arguments. Unset Strict Implicit. Unset Printing Implicit Defensive.
Import GRing.Theory.
Local Open Scope ring_scope.

Definition mx (R : Type) (n m : nat) (f : nat -> nat -> R) : 'M[R]_(n, m) := \matrix_(i, j) f i j.
Definition cv (R : Type) (n : nat) (x : nat -> R) : 'cV[R]_n := \col_i x i.

Lemma for_inv (St : Type) (P : nat -> St -> Prop) (n : nat) body (s : St) :
  P 0%N s -> (forall k t, (k < n)%N -> P k t -> P k.+1 (body k t)) -> P n (for_ n body s).
Proof.
  elim: n => [|n IH] //= P0 Hs. apply: (Hs n) => //. apply: IH => // k t kn.
  by apply: (Hs k t); exact: ltnW.
Qed.

Lemma for_ext (St : Type) (n : nat) (b1 b2 : nat -> St -> St) (s : St) :
  (forall k t, (k < n)%N -> b1 k t = b2 k t) -> for_ n b1 s = for_ n b2 s.
Proof. elim: n => [|n IH] //= H. rewrite H // IH // => k t kn; apply: H; exact: ltnW. Qed.

Lemma ltS a k : (a < k.+1)%N = (a == k) || (a < k)%N.
Proof. by rewrite ltnS leq_eqVlt. Qed.

Section Ring.
Variable R : comRingType.
Implicit Types (A B C : mat R) (x y : vec R).

Lemma for_sum n (f : nat -> R) a : for_ n (fun i d => d + f i) a = a + \sum_(i < n) f i.
Proof. elim: n => [|n IH] /=; rewrite ?big_ord0 ?addr0 // IH big_ord_recr /= addrA //. Qed.

Lemma for_sum2 n m (f : nat -> nat -> R) a :
  for_ n (fun i => for_ m (fun j d => d + f i j)) a = a + \sum_(i < n) \sum_(j < m) f i j.
Proof.
  elim: n => [|n IH] /=; rewrite ?big_ord0 ?addr0 // IH for_sum big_ord_recr /= addrA //.
Qed.

(** a loop over a row/vector adding terms into one cell *)
Lemma for_row n i (f : nat -> R) (y : vec R) :
  for_ n (fun j y => setv y i (y i + f j)) y =1 setv y i (y i + \sum_(j < n) f j).
Proof.
  elim: n => [|n IH] a /=; first by rewrite /setv big_ord0 addr0; case: eqP => // ->.
  rewrite {1}/setv !IH /setv eqxx big_ord_recr /= addrA; by case: eqP.
Qed.

(** the minor *)
Lemma bump_le c b n : (b < n)%N -> (bump c b < n.+1)%N.
Proof. by move=> H; rewrite /bump; case: (c <= b)%N; rewrite ?add1n ?add0n ltnS //; apply: ltnW. Qed.

Lemma unbumpS_ne c k : k != c -> unbump c k.+1 = (unbump c k).+1.
Proof.
  move=> nk; rewrite /unbump ltnS. case: (ltngtP c k) => ck.
  - by rewrite !subn1 /= prednK //; apply: leq_ltn_trans ck.
  - by rewrite !subn0.
  - by rewrite ck eqxx in nk.
Qed.
Lemma unbumpS_eq c : unbump c c.+1 = unbump c c.
Proof. by rewrite /unbump ltnSn ltnn subn1 subn0. Qed.

Lemma cofactor_inner N (m : mat R) (i col r : nat) (t0 : mat R) :
  let s := for_ N (fun j (t : mat R * nat) =>
         if j != col then (setm t.1 r t.2 (m i j), t.2.+1) else t) (t0, 0%N) in
  s.2 = unbump col N /\
  forall a b, s.1 a b = if (a == r) && (b < unbump col N)%N then m i (bump col b) else t0 a b.
Proof.
  move=> s. rewrite /s. apply: (@for_inv _ (fun k (s : mat R * nat) => s.2 = unbump col k /\
   forall a b, s.1 a b = if (a == r) && (b < unbump col k)%N then m i (bump col b) else t0 a b)).
    by split=> // a b; rewrite /unbump sub0n andbF.
  move=> k [t c] kN /= [-> H]. case: eqP => [E|/eqP E] /=.
    by subst k; rewrite unbumpS_eq; split.
  rewrite (unbumpS_ne E); split=> // a b. rewrite /setm.
  case: eqP => //= Ea; last by rewrite H; case: eqP.
  rewrite ltS. case: eqP => /= Eb; first by rewrite Eb unbumpK // inE.
  by rewrite H Ea eqxx.
Qed.

Lemma cofactor_spec (junk : mat R) n (m : mat R) (row col : nat) a b :
  (row <= n)%N -> (col <= n)%N -> (a < n)%N -> (b < n)%N ->
  cofactor junk n.+1 m row col a b = m (bump row a) (bump col b).
Proof.
  move=> rn cn an bn. rewrite /cofactor.
  have un : forall c, (c <= n)%N -> unbump c n.+1 = n by move=> c cle; rewrite /unbump ltnS cle subn1.
  suff H : forall P, P = for_ n.+1 (fun i (s : mat R * nat) =>
     if i != row then
       let inner := for_ n.+1 (fun j t =>
         if j != col then (setm t.1 s.2 t.2 (m i j), t.2.+1) else t) (s.1, 0%N) in
       (inner.1, s.2.+1)
     else s) (junk, 0%N) -> P.2 = unbump row n.+1 /\
     forall a b, (a < unbump row n.+1)%N -> (b < n)%N -> P.1 a b = m (bump row a) (bump col b).
    by have [_ K] := H _ erefl; apply: K; rewrite ?un.
  move=> P ->. apply: (@for_inv _ (fun k (P : mat R * nat) => P.2 = unbump row k /\
     forall a b, (a < unbump row k)%N -> (b < n)%N -> P.1 a b = m (bump row a) (bump col b))).
    by split=> // a' b'; rewrite /unbump sub0n.
  move=> k [t c] kn /= [Ec H]. case: eqP => [E|/eqP E] /=.
    by subst k; rewrite unbumpS_eq; split.
  rewrite (unbumpS_ne E) Ec; split=> // a' b' Ha Hb.
  have [_ ->] := cofactor_inner n.+1 m k col (unbump row k) t.
  rewrite un // Hb andbT. case: eqP => [->|Hne]; first by rewrite unbumpK // inE.
  by apply: H => //; move: Ha; rewrite ltS => /orP [/eqP|].
Qed.

Lemma sign_loop (R' : comRingType) i : (if (i %% 2 == 1)%N then -1 else 1 : R') = (-1) ^+ i.
Proof. by rewrite -signr_odd modn2; case: (odd i); rewrite ?expr1 ?expr0. Qed.

Lemma determinant_det (junk : mat R) n (m : mat R) :
  determinant junk n.+1 m = \det (mx n.+1 n.+1 m).
Proof.
  elim: n m => [|n IH] m; first by rewrite det_mx11 mxE.
  have -> : determinant junk n.+2 m = for_ n.+2 (fun i det => det +
      (if (i %% 2 == 1)%N then -1 else 1) * m 0%N i * determinant junk n.+1 (cofactor junk n.+2 m 0 i)) 0 by [].
  rewrite (for_sum n.+2 (fun i => (if (i %% 2 == 1)%N then -1 else 1) * m 0%N i *
     determinant junk n.+1 (cofactor junk n.+2 m 0 i))) add0r.
  rewrite (expand_det_row _ ord0). apply: eq_bigr => i _.
  rewrite sign_loop mxE /matrix.cofactor IH. rewrite add0n mulrA (mulrC _ (m _ _)).
  congr (_ * _ * \det _). apply/matrixP => a b; rewrite !mxE.
  by rewrite cofactor_spec // -ltnS.
Qed.

Lemma determinant_leibniz (junk : mat R) n (m : mat R) : (0 < n)%N ->
  determinant junk n m = \sum_(s : 'S_n) (-1) ^+ s * \prod_(i < n) m i (s i).
Proof.
  case: n => // n _. rewrite determinant_det. apply: eq_bigr => s _.
  by congr (_ * _); apply: eq_bigr => i _; rewrite mxE.
Qed.

(** element access to the results of the loops *)
Lemma ax_plus_y_spec D1 D2 A x y i : (i < D1)%N ->
  ax_plus_y D1 D2 A (fun _ => x) y i = y i + \sum_(j < D2) A i j * x j.
Proof.
  move=> iD. rewrite /ax_plus_y.
  suff H : forall a, for_ D1 (fun i => for_ D2 (fun j y => setv y i (y i + A i j * x j))) y a =
     if (a < D1)%N then y a + \sum_(j < D2) A a j * x j else y a by rewrite H iD.
  apply: (@for_inv _ (fun k t => forall a, t a = if (a < k)%N then y a + \sum_(j < D2) A a j * x j else y a)).
    by move=> a.
  move=> k t kD H a. rewrite (for_row D2 k (fun j => A k j * x j)) /setv ltS.
  by case: eqP => [->|_] /=; rewrite H // ltnn.
Qed.

Lemma mat_vec_spec junkv D1 D2 A x i : (i < D1)%N ->
  mat_vec junkv D1 D2 A x i = \sum_(j < D2) A i j * x j.
Proof.
  move=> iD. rewrite /mat_vec.
  apply: (@for_inv _ (fun k t => forall a, (a < k)%N -> t a = \sum_(j < D2) A a j * x j)) => //.
  move=> k t kD H a. rewrite (for_row D2 k (fun j => A k j * x j)) /setv eqxx add0r ltS.
  by case: eqP => [->|_] //= /H.
Qed.

Lemma mm_acc_spec D1 D2 D3 A B C i j : (i < D1)%N -> (j < D3)%N ->
  matrix_multiply_acc D1 D2 D3 (fun _ => A) (fun _ => B) C i j = C i j + \sum_(k < D2) A i k * B k j.
Proof.
  move=> iD jD. rewrite /matrix_multiply_acc.
  set f := fun a b => \sum_(k < D2) A a k * B k b.
  suff H : forall a b, for_ D1 (fun i => for_ D3 (fun j C =>
    setm C i j (C i j + for_ D2 (fun k sum => sum + A i k * B k j) 0))) C a b =
     if (a < D1)%N && (b < D3)%N then C a b + f a b else C a b by rewrite H iD jD.
  apply: (@for_inv _ (fun k t => forall a b, t a b = if (a < k)%N && (b < D3)%N then C a b + f a b else C a b)) => //.
  move=> k t kD H a b.
  have -> : forall n, for_ n (fun j C =>
    setm C k j (C k j + for_ D2 (fun k0 sum => sum + A k k0 * B k0 j) 0)) t a b =
    if (a == k) && (b < n)%N then t a b + f a b else t a b.
    elim=> [|n IH] /=; first by rewrite andbF.
    rewrite {1}/setm. case: (a =P k) IH => [->|//] /= IH. rewrite ltS.
    case: (b =P n) IH => [->|//] /= IH; by rewrite IH ltnn (for_sum D2 (fun k0 => A k k0 * B k0 n)) add0r.
  rewrite ltS. case: (a =P k) => [->|_] /=; rewrite H // ltnn /=. by case: ifP.
Qed.

Lemma mm_spec D1 D2 D3 A B i j : (i < D1)%N -> (j < D3)%N ->
  matrix_multiply D1 D2 D3 A B i j = \sum_(k < D2) A i k * B k j.
Proof. by move=> iD jD; rewrite /matrix_multiply mm_acc_spec // add0r. Qed.

Lemma mx_mm D1 D2 D3 A B :
  mx D1 D3 (matrix_multiply D1 D2 D3 A B) = mx D1 D2 A *m mx D2 D3 B.
Proof. by apply/matrixP => i j; rewrite !mxE mm_spec //; apply: eq_bigr => k _; rewrite !mxE. Qed.

Lemma cv_mat_vec junkv D1 D2 A x : cv D1 (mat_vec junkv D1 D2 A x) = mx D1 D2 A *m cv D2 x.
Proof. by apply/matrixP => i j; rewrite !mxE mat_vec_spec //; apply: eq_bigr => k _; rewrite !mxE. Qed.

Lemma identity_spec N i j : (i < N)%N -> identity_matrix R N i j = (i == j)%:R.
Proof.
  move=> iN. rewrite /identity_matrix.
  have -> : forall k a b, for_ k (fun i m => setm m i i 1) (fun _ _ => 0 : R) a b = ((a == b) && (a < k)%N)%:R.
    elim=> [|k IH] a b /=; first by rewrite andbF.
    rewrite /setm IH ltS. case: (a =P k) => [->|_] //=. rewrite eq_sym. by case: eqP.
  by rewrite iN andbT.
Qed.

Lemma mx_identity N : mx N N (identity_matrix R N) = 1%:M.
Proof. by apply/matrixP => i j; rewrite !mxE identity_spec. Qed.

Lemma trace_spec N A : trace_matrix N A = \tr (mx N N A).
Proof. by rewrite /trace_matrix (for_sum N (fun i => A i i)) add0r; apply: eq_bigr => i _; rewrite mxE. Qed.

Lemma transpose_spec (junk : mat R) D1 D2 A i j : (i < D1)%N -> (j < D2)%N ->
  transpose junk D1 D2 A j i = A i j.
Proof.
  move=> iD jD. rewrite /transpose.
  apply: (@for_inv _ (fun k t => forall a b, (a < k)%N -> (b < D2)%N -> t b a = A a b) D1 _ _) => //.
  move=> k t kD H a b.
  have -> : forall n, for_ n (fun j t => setm t j k (A k j)) t b a =
     if (a == k) && (b < n)%N then A a b else t b a.
    elim=> [|n IH] /=; first by rewrite andbF.
    rewrite {1}/setm ltS andbC. case: (a =P k) IH => [->|//] /= IH. by case: eqP => [->|_].
  rewrite ltS => Ha Hb. rewrite Hb andbT. case: eqP Ha => //= _ Ha. by apply: H.
Qed.

Lemma mx_transpose (junk : mat R) D1 D2 A : mx D2 D1 (transpose junk D1 D2 A) = (mx D1 D2 A)^T.
Proof. by apply/matrixP => i j; rewrite !mxE transpose_spec. Qed.

Lemma doubledot_spec N1 N2 A B :
  doubledot_product N1 N2 A B = \tr ((mx N1 N2 A)^T *m mx N1 N2 B).
Proof.
  rewrite /doubledot_product for_sum2 add0r exchange_big. apply: eq_bigr => j _ /=.
  by rewrite mxE; apply: eq_bigr => i _; rewrite !mxE.
Qed.

Lemma dot_spec D x y : dot_product D x y = \sum_(i < D) x i * y i.
Proof. by rewrite /dot_product (for_sum D (fun i => x i * y i)) add0r. Qed.

Lemma outer_spec (junk : mat R) D x y i j : (i < D)%N -> (j < D)%N ->
  outer_product junk D x y i j = x i * y j.
Proof.
  move=> iD jD. rewrite /outer_product.
  have D0 : (0 < D)%N by apply: leq_ltn_trans jD.
  set P := for_ _ _ _. suff [_ H] : P.2 = (D * D)%N /\ forall a b, (a < D)%N -> (b < D)%N -> P.1 a b = x a * y b by apply: H.
  rewrite /P => {P}.
  apply: (@for_inv _ (fun k (P : mat R * nat) => P.2 = (k * D)%N /\
     forall a b, (a < k)%N -> (b < D)%N -> P.1 a b = x a * y b)) => //.
  move=> k [t c] kD /= [-> H].
  set Q := for_ _ _ _. suff [E K] : Q.2 = (k * D + D)%N /\ forall a b, (b < D)%N ->
     Q.1 a b = if a == k then x k * y b else t a b.
    split; first by rewrite E mulSn addnC.
    move=> a b; rewrite ltS => Ha Hb. rewrite K //. case: eqP Ha => [->|_] //= Ha. exact: H.
  rewrite /Q => {Q}.
  have [E K] : let Q := for_ D (fun j (s : mat R * nat) => (setm s.1 (s.2 %/ D)%N (s.2 %% D)%N (x k * y j), s.2.+1)) (t, (k * D)%N) in
     Q.2 = (k * D + D)%N /\ forall a b, Q.1 a b = if (a == k) && (b < D)%N then x k * y b else t a b.
    apply: (@for_inv _ (fun n (Q : mat R * nat) => Q.2 = (k * D + n)%N /\
      forall a b, Q.1 a b = if (a == k) && (b < n)%N then x k * y b else t a b)).
      by split=> [|a b] /=; rewrite ?addn0 // andbF.
    move=> n [t' c'] nD /= [-> K]. split=> [|a b]; first by rewrite addnS.
    rewrite /setm divnMDl // divn_small // addn0 modnMDl modn_small // K ltS.
    case: (a =P k) => //= _. by case: eqP => [->|_].
  split=> // a b bD. by rewrite K bD andbT.
Qed.

Lemma outer_acc_spec D x y C f i j : (i < D)%N -> (j < D)%N ->
  outer_product_acc D x y C f i j = C i j + f * x i * y j.
Proof.
  move=> iD jD. rewrite /outer_product_acc.
  have D0 : (0 < D)%N by apply: leq_ltn_trans jD.
  suff H : forall a b, for_ D (fun i => for_ D (fun j c => let k := (i * D + j)%N in
     setm c (k %/ D)%N (k %% D)%N (c (k %/ D)%N (k %% D)%N + f * x i * y j))) C a b =
     if (a < D)%N && (b < D)%N then C a b + f * x a * y b else C a b by rewrite H iD jD.
  apply: (@for_inv _ (fun k t => forall a b, t a b =
     if (a < k)%N && (b < D)%N then C a b + f * x a * y b else C a b)) => //.
  move=> k t kD H a b.
  rewrite (@for_ext _ D _ (fun j c => setm c k j (c k j + f * x k * y j))); last first.
    by move=> n c nD /=; rewrite divnMDl // divn_small // addn0 modnMDl modn_small.
  have -> : forall n, for_ n (fun j c => setm c k j (c k j + f * x k * y j)) t a b =
     if (a == k) && (b < n)%N then t a b + f * x k * y b else t a b.
    elim=> [|n IH] /=; first by rewrite andbF.
    rewrite {1}/setm. case: (a =P k) IH => [->|//] /= IH. rewrite ltS.
    by case: (b =P n) IH => [->|//] /= ->; rewrite ltnn.
  rewrite ltS. case: (a =P k) => [->|_] /=; rewrite H // ltnn /=. by case: ifP.
Qed.

Lemma add_diag_spec D A i j : (i < D)%N -> add_diag D A i j = A i j + (i == j)%:R.
Proof.
  move=> iD. rewrite /add_diag.
  have -> : forall k a b, for_ k (fun i m => setm m i i (m i i + 1)) A a b =
     A a b + ((a == b) && (a < k)%N)%:R.
    elim=> [|k IH] a b /=; first by rewrite andbF addr0.
    rewrite /setm !IH ltS. case: (a =P k) => [->|_] //=.
    rewrite eqxx ltnn andbF addr0 (eq_sym k b). by case: (b =P k) => [->|_]; rewrite ?addr0.
  by rewrite iD andbT.
Qed.

Lemma mx_reflection (junk : mat R) D x :
  mx D D (reflection_matrix junk D x) = 1%:M - 2%:R *: (cv D x *m (cv D x)^T).
Proof.
  apply/matrixP => i j. rewrite mxE /reflection_matrix add_diag_spec // outer_spec // !mxE big_ord_recl big_ord0 !mxE addr0.
  by rewrite addrC mulNr.
Qed.
Lemma mx_projection (junk : mat R) D x :
  mx D D (projection_matrix junk D x) = 1%:M - cv D x *m (cv D x)^T.
Proof.
  apply/matrixP => i j. rewrite mxE /projection_matrix add_diag_spec // outer_spec // !mxE big_ord_recl big_ord0 !mxE addr0.
  by rewrite addrC.
Qed.
Lemma vmap_spec D (g : nat -> R -> R) (x : vec R) i : (i < D)%N ->
  for_ D (fun i r => setv r i (g i (r i))) x i = g i (x i).
Proof.
  move=> iD.
  suff -> : forall k a, for_ k (fun i r => setv r i (g i (r i))) x a = if (a < k)%N then g a (x a) else x a by rewrite iD.
  elim=> [|k IH] a //=. rewrite /setv !IH ltnn ltS. by case: eqP => [->|_].
Qed.
Lemma reflect_spec D (v n : vec R) i : (i < D)%N ->
  reflect D v n i = v i - n i * (2%:R * dot_product D v n).
Proof.
  move=> iD. rewrite /reflect.
  set rot := for_ D _ n.
  rewrite (vmap_spec (fun i t => t - rot i)) // /rot (vmap_spec (fun i r => r * (2%:R * dot_product D v n))) //.
Qed.

End Ring.

Section MatrixVector.
Variable R : comRingType.
Lemma matrix_vector_spec D1 D2 (alpha : R) (A : mat R) (x : vec R) (beta : R) (y : vec R) i : (i < D1)%N ->
  matrix_vector D1 D2 alpha A x beta y i =
  \sum_(j < D2) alpha * A i j * x j * beta ^+ (D2 - j.+1) + beta ^+ D2 * y i.
Proof.
  move=> iD. rewrite /matrix_vector.
  set f := fun n a => \sum_(j < n) alpha * A a j * x j * beta ^+ (n - j.+1) + beta ^+ n * y a.
  suff H : forall a, for_ D1 (fun i => for_ D2 (fun j y => setv y i (alpha * A i j * x j + beta * y i))) y a =
     if (a < D1)%N then f D2 a else y a by rewrite H iD.
  apply: (@for_inv _ (fun k t => forall a, t a = if (a < k)%N then f D2 a else y a)) => //.
  move=> k t kD H a.
  have -> : forall n, for_ n (fun j y => setv y k (alpha * A k j * x j + beta * y k)) t a =
     if a == k then f n a else t a.
    move=> n. elim: n a => [|n IH] a /=.
      rewrite /f big_ord0 add0r expr0 mul1r. by case: eqP => // ->; rewrite H ltnn.
    rewrite {1}/setv !IH eqxx. case: eqP => // ->. rewrite /f big_ord_recr /= subnn expr0 mulr1.
    rewrite mulrDr addrCA addrA exprS mulrA. congr (_ + _). rewrite big_distrr /=. congr (_ + _).
    apply: eq_bigr => j _. rewrite subSn // exprS. by rewrite mulrCA.
  rewrite ltS. by case: (a =P k) => [->|_] /=; rewrite ?H.
Qed.
End MatrixVector.

Section Field.
Variable F : fieldType.
Variable junk : mat F.
Implicit Types A B : mat F.

Lemma mc_ring : @Ring_theory.ring_theory F 0 1 +%R *%R (fun a b => a - b) -%R eq.
Proof.
  split=> *; rewrite ?add0r ?mul1r ?addrA ?mulrA ?mulrDl ?subrr //; [exact: addrC|exact: mulrC].
Qed.

Lemma mul2_1 A B :
  (forall i j, (i < 2)%N -> (j < 2)%N -> A i 0%N * B 0%N j + A i 1%N * B 1%N j = (i == j)%:R) ->
  mx 2 2 A *m mx 2 2 B = 1%:M.
Proof. move=> H. apply/matrixP => i j. by rewrite !mxE !big_ord_recl big_ord0 !mxE addr0 H. Qed.
Lemma mul3_1 A B :
  (forall i j, (i < 3)%N -> (j < 3)%N ->
     A i 0%N * B 0%N j + A i 1%N * B 1%N j + A i 2%N * B 2%N j = (i == j)%:R) ->
  mx 3 3 A *m mx 3 3 B = 1%:M.
Proof. move=> H. apply/matrixP => i j. by rewrite !mxE !big_ord_recl big_ord0 !mxE addr0 addrA H. Qed.

Lemma det2 A : \det (mx 2 2 A) = A 0%N 0%N * A 1%N 1%N - A 0%N 1%N * A 1%N 0%N.
Proof. rewrite -(determinant_det junk) /= !cofactor_spec //. exact: (det2_fact mc_ring (A 0%N 0%N) (A 0%N 1%N) (A 1%N 0%N) (A 1%N 1%N)). Qed.
Lemma det3 A : \det (mx 3 3 A) =
  A 0%N 0%N * A 1%N 1%N * A 2%N 2%N + A 0%N 1%N * A 1%N 2%N * A 2%N 0%N + A 0%N 2%N * A 1%N 0%N * A 2%N 1%N
  - A 2%N 0%N * A 1%N 1%N * A 0%N 2%N - A 2%N 1%N * A 1%N 2%N * A 0%N 0%N - A 2%N 2%N * A 1%N 0%N * A 0%N 1%N.
Proof. rewrite -(determinant_det junk) /= !cofactor_spec //. exact: (det3_fact mc_ring
  (A 0%N 0%N) (A 0%N 1%N) (A 0%N 2%N) (A 1%N 0%N) (A 1%N 1%N) (A 1%N 2%N) (A 2%N 0%N) (A 2%N 1%N) (A 2%N 2%N)). Qed.

Lemma inverse_gen_ok dbg n A : \det (mx n.+2 n.+2 A) != 0 ->
  exists B, inverse_gen junk dbg n.+2 A = Ok B /\
  mx n.+2 n.+2 B = (\det (mx n.+2 n.+2 A))^-1 *: \adj (mx n.+2 n.+2 A).
Proof.
  move=> H. rewrite /inverse_gen -(determinant_det junk) in H *. rewrite /assert_then.
  eexists; split; first by case: dbg; rewrite ?H /=; reflexivity.
  apply/matrixP => i j. rewrite !mxE.
  set val := fun j i => (if ((i + j) %% 2 == 1)%N then
        - (1 / determinant junk n.+2 A * determinant junk n.+1 (cofactor junk n.+2 A j i))
      else 1 / determinant junk n.+2 A * determinant junk n.+1 (cofactor junk n.+2 A j i)).
  have E : for_ n.+2 (fun j0 : nat => for_ n.+2 (fun i0 tmp => setm tmp i0 j0 (val j0 i0))) junk i j = val j i.
    apply: (@for_inv _ (fun k t => forall a b, (b < k)%N -> (a < n.+2)%N -> t a b = val b a) n.+2 _ _) => //.
    move=> k t kn K a b.
    have -> : forall N, for_ N (fun i0 tmp => setm tmp i0 k (val k i0)) t a b =
      if (b == k) && (a < N)%N then val b a else t a b.
      elim=> [|N IH] /=; first by rewrite andbF.
      rewrite {1}/setm ltS andbC. case: (b =P k) IH => [->|//] /= ->. by case: eqP => [->|].
    rewrite ltS => Hb Ha. rewrite Ha andbT. case: eqP Hb => //= _ Hb. exact: K.
  transitivity (val j i); first exact: E.
  rewrite /val /matrix.cofactor -signr_odd (addnC j i) modn2.
  have -> : determinant junk n.+1 (cofactor junk n.+2 A j i) = \det (row' j (col' i (mx n.+2 n.+2 A))).
    rewrite determinant_det. congr (\det _). apply/matrixP => a b; rewrite !mxE cofactor_spec // -ltnS //.
  rewrite div1r. case: (odd _) => /=; by rewrite ?expr1 ?expr0 ?mulN1r ?mul1r ?mulrN.
Qed.

Theorem inverse_ok dbg n A : \det (mx n.+1 n.+1 A) != 0 ->
  exists B, inverse junk dbg n.+1 A = Ok B /\ mx n.+1 n.+1 A *m mx n.+1 n.+1 B = 1%:M.
Proof.
  case: n => [|[|[|n]]] H.
  - move: H. rewrite det_mx11 mxE => H. rewrite /inverse /inverse1 /assert_then.
    eexists; split; first by case: dbg; rewrite ?H /=; reflexivity.
    apply/matrixP => i j. rewrite !mxE big_ord1 !mxE !ord1 /setm /= mulrA mulr1 divff //.
  - move: H. rewrite det2 => H. rewrite /inverse /inverse2 /assert_then.
    eexists; split; first by case: dbg; rewrite ?H /=; reflexivity.
    have [] := @inv2_fact _ _ _ _ _ _ _ mc_ring (A 0%N 0%N) (A 0%N 1%N) (A 1%N 0%N) (A 1%N 1%N)
       (1 / (A 0%N 0%N * A 1%N 1%N - A 0%N 1%N * A 1%N 0%N)); first by rewrite div1r divff.
    move=> H1 [H2 [H3 H4]]. apply: mul2_1. by move=> [|[|//]] [|[|//]] _ _.
  - move: H. rewrite det3 => H. rewrite /inverse /inverse3 /assert_then.
    eexists; split; first by case: dbg; rewrite ?H /=; reflexivity.
    have [] := @inv3_fact _ _ _ _ _ _ _ mc_ring (A 0%N 0%N) (A 0%N 1%N) (A 0%N 2%N) (A 1%N 0%N) (A 1%N 1%N)
       (A 1%N 2%N) (A 2%N 0%N) (A 2%N 1%N) (A 2%N 2%N) (1 / 
  (A 0%N 0%N * A 1%N 1%N * A 2%N 2%N + A 0%N 1%N * A 1%N 2%N * A 2%N 0%N + A 0%N 2%N * A 1%N 0%N * A 2%N 1%N
  - A 2%N 0%N * A 1%N 1%N * A 0%N 2%N - A 2%N 1%N * A 1%N 2%N * A 0%N 0%N - A 2%N 2%N * A 1%N 0%N * A 0%N 1%N)).
      by rewrite div1r divff.
    move=> [H1 [H2 H3]] [[H4 [H5 H6]] [H7 [H8 H9]]]. apply: mul3_1.
    by move=> [|[|[|//]]] [|[|[|//]]] _ _.
  - have [B [E HB]] := @inverse_gen_ok dbg _ A H. exists B; split; first exact: E.
    by rewrite HB -scalemxAr mul_mx_adj scale_scalar_mx mulVf.
Qed.

Theorem inverse_singular n A : \det (mx n.+1 n.+1 A) = 0 -> inverse junk true n.+1 A = AssertFail.
Proof.
  case: n => [|[|[|n]]] H.
  - move: H. rewrite det_mx11 mxE => H. by rewrite /inverse /inverse1 /assert_then H eqxx.
  - move: H. rewrite det2 => H. by rewrite /inverse /inverse2 /assert_then H eqxx.
  - move: H. rewrite det3 => H. by rewrite /inverse /inverse3 /assert_then H eqxx.
  - by rewrite /inverse /inverse_gen /assert_then determinant_det H eqxx.
Qed.

Lemma cv_ax_plus_y D1 D2 A (x y : vec F) : cv D1 (ax_plus_y D1 D2 A (fun _ => x) y) = cv D1 y + mx D1 D2 A *m cv D2 x.
Proof. apply/matrixP => i j; rewrite !mxE ax_plus_y_spec //; congr (_ + _); by apply: eq_bigr => k _; rewrite !mxE. Qed.

Theorem solve_ok dbg n A b : \det (mx n.+1 n.+1 A) != 0 ->
  exists x, solve junk dbg n.+1 A b = Ok x /\ mx n.+1 n.+1 A *m cv n.+1 x = cv n.+1 b.
Proof.
  move=> H. have [B [E K]] := @inverse_ok dbg n A H. rewrite /solve E /=.
  eexists; split; first reflexivity. rewrite cv_ax_plus_y mulmxDr mulmxA K mul1mx.
  have -> : cv n.+1 (fun _ => 0 : F) = 0 by apply/matrixP => i j; rewrite !mxE. by rewrite mulmx0 add0r.
Qed.
End Field.
