(** C169: which sizes the vector arguments of the element routines must have (ristra/elements/elements.cc). *)
From Coq Require Import Reals List ZArith Arith Lia Lra Bool.
From Verif Require Import Outcome VectorModel VectorProofs QuadratureModel QuadratureProofs QuadratureProps JacobianModel LagrangeModel
  ElementsMemModel ElementsMemProofs.
Import ListNotations.
Local Open Scope R_scope.

(** the first P rows of m have D entries or more *)
Definition rows (m : vv) (P D : nat) : Prop := forall p, (p < P)%nat -> (D <= length (nth p m []))%nat.
(** entries as a function; entries of a vector of vectors *)
Definition at1 (v : list R) : nat -> R := fun i => nth i v 0.
Definition ent (m : vv) : nat -> nat -> R := fun i j => nth j (nth i m []) 0.
(** same sizes *)
Definition shape_eq (a b : vv) : Prop := length a = length b /\ forall i, length (nth i a []) = length (nth i b []).
(** [v] holds the values of [f], [m] those of [F], at every entry that exists *)
Definition holds1 (v : list R) (f : nat -> R) : Prop := forall i, (i < length v)%nat -> nth i v 0 = f i.
Definition holds2 (m : vv) (F : nat -> nat -> R) : Prop :=
  forall i j, (i < length m)%nat -> (j < length (nth i m []))%nat -> nth j (nth i m []) 0 = F i j.

(** chebyshev_nodes_1D: order + 1 entries, order 0 included *)
Theorem C169_chebyshev pi order v :
  ((order + 1 <= length v)%nat -> exists v', m_chebyshev pi order v = Ok v' /\ length v' = length v /\
     holds1 v' (chebyshev_nodes_1D pi order (at1 v)))
  /\ ((length v < order + 1)%nat -> m_chebyshev pi order v = UB).
Proof.
  split.
  - intros L. exact (chebyshev_ok pi order v ltac:(lia)).
  - intros L. apply not_ok_ub; [unfold m_chebyshev; cleaning|]. intros a E. apply chebyshev_need in E. lia.
Qed.
Print Assumptions C169_chebyshev.
Example C169_chebyshev_ex : m_chebyshev 0 2 [5; 5; 5; 7] = Ok [-1; - cos (0 * (2 * INR 2 - 1) / (2 * (INR 2 + 1))); 1; 7]
  /\ m_chebyshev 0 0 [] = UB.
Proof. split; reflexivity. Qed.

(** lagrange_1D: order + 1 entries of both results, and of the nodes unless the order is 0 *)
Theorem C169_lagrange_1D order x xi a b :
  let fits := (order = 0 \/ order + 1 <= length xi)%nat /\ (order + 1 <= length a)%nat /\ (order + 1 <= length b)%nat in
  (fits -> exists a' b', m_lagrange_1D order x xi a b = Ok (a', b') /\ length a' = length a /\ length b' = length b /\
     holds1 a' (fst (lagrange_1D order x (at1 xi) (at1 a) (at1 b))) /\ holds1 b' (snd (lagrange_1D order x (at1 xi) (at1 a) (at1 b))))
  /\ (~ fits -> m_lagrange_1D order x xi a b = UB).
Proof.
  intros fits. split.
  - intros [L1 [L2 L3]]. exact (lagrange_ok order x xi a b _ _ _ ltac:(lia) ltac:(lia) ltac:(lia) (repr_at xi) (repr_at a) (repr_at b)).
  - intros N. apply not_ok_ub; [apply clean_lagrange|]. intros r E. apply lagrange_inv in E. apply N. unfold fits. lia.
Qed.
Print Assumptions C169_lagrange_1D.
Example C169_lagrange_ex : m_lagrange_1D 0 3 [] [9] [9] = Ok ([1 / 1], [0 / 1]) /\ m_lagrange_1D 1 3 [0] [9; 9] [9; 9] = UB.
Proof. split; reflexivity. Qed.

(** basis_partials of QuadN (D = 2, P = N^2) and HexN (D = 3, P = N^3), N = order + 1 *)
Definition tensor_fits (N P D : nat) (nodes_1d xi_point : list R) (t : mtensor) : Prop :=
  (N <= length nodes_1d)%nat /\ (D <= length xi_point)%nat /\ rows (mt_nodes t) P D /\ (N <= length (mt_val1 t))%nat /\
  (N <= length (mt_dval1 t))%nat /\ rows (mt_val t) P D /\ rows (mt_dval t) P D /\ (P <= length (mt_basis t))%nat /\
  rows (mt_partial t) P D.
Definition tensor_shape (t u : mtensor) : Prop :=
  shape_eq (mt_nodes t) (mt_nodes u) /\ length (mt_val1 t) = length (mt_val1 u) /\ length (mt_dval1 t) = length (mt_dval1 u) /\
  shape_eq (mt_val t) (mt_val u) /\ shape_eq (mt_dval t) (mt_dval u) /\ length (mt_basis t) = length (mt_basis u) /\
  shape_eq (mt_partial t) (mt_partial u).
Definition tensor_holds (t : mtensor) (f : tensor) : Prop :=
  holds2 (mt_nodes t) (t_nodes f) /\ holds1 (mt_val1 t) (t_val1 f) /\ holds1 (mt_dval1 t) (t_dval1 f) /\
  holds2 (mt_val t) (t_val f) /\ holds2 (mt_dval t) (t_dval f) /\ holds1 (mt_basis t) (t_basis f) /\
  holds2 (mt_partial t) (t_partial f).
Definition tensor_of (t : mtensor) : tensor :=
  {| t_nodes := ent (mt_nodes t); t_val1 := at1 (mt_val1 t); t_dval1 := at1 (mt_dval1 t); t_val := ent (mt_val t);
     t_dval := ent (mt_dval t); t_basis := at1 (mt_basis t); t_partial := ent (mt_partial t) |}.
Theorem C169_quadn order nodes_1d xi_point t :
  let N := (order + 1)%nat in
  (tensor_fits N (N * N) 2 nodes_1d xi_point t ->
     exists t', m_quadn order nodes_1d xi_point t = Ok t' /\ tensor_shape t' t /\
       tensor_holds t' (quadn_basis_partials order (at1 nodes_1d) (at1 xi_point) (tensor_of t)))
  /\ (~ tensor_fits N (N * N) 2 nodes_1d xi_point t -> m_quadn order nodes_1d xi_point t = UB).
Proof.
  intros N. split.
  - intros F. exact (quadn_ok order nodes_1d xi_point t F).
  - intros F. apply not_ok_ub; [apply clean_quadn|]. intros r E. apply F. exact (quadn_need _ _ _ _ _ E).
Qed.
Print Assumptions C169_quadn.
Theorem C169_hexn order nodes_1d xi_point t :
  let N := (order + 1)%nat in
  (tensor_fits N (N * (N * N)) 3 nodes_1d xi_point t ->
     exists t', m_hexn order nodes_1d xi_point t = Ok t' /\ tensor_shape t' t /\
       tensor_holds t' (hexn_basis_partials order (at1 nodes_1d) (at1 xi_point) (tensor_of t)))
  /\ (~ tensor_fits N (N * (N * N)) 3 nodes_1d xi_point t -> m_hexn order nodes_1d xi_point t = UB).
Proof.
  intros N. split.
  - intros F. exact (hexn_ok order nodes_1d xi_point t F).
  - intros F. apply not_ok_ub; [apply clean_hexn|]. intros r E. apply F. exact (hexn_need _ _ _ _ _ E).
Qed.
Print Assumptions C169_hexn.
(* N zero rows of D zeros, as std::vector constructs them *)
Definition zeros (P D : nat) : vv := repeat (repeat 0 D) P.
Definition zero_tensor (N P D : nat) : mtensor :=
  {| mt_nodes := zeros P D; mt_val1 := repeat 0 N; mt_dval1 := repeat 0 N; mt_val := zeros P D; mt_dval := zeros P D;
     mt_basis := repeat 0 P; mt_partial := zeros P D |}.
Lemma zeros_rows P D : rows (zeros P D) P D.
Proof.
  intros p L. unfold zeros. rewrite (nth_indep _ [] (repeat 0 D)) by (rewrite repeat_length; exact L).
  rewrite nth_repeat, repeat_length. lia.
Qed.
(** vectors constructed with these sizes fit, for every order *)
Theorem C169_natural_sizes order nodes_1d xi_point D : length nodes_1d = (order + 1)%nat -> length xi_point = D ->
  forall P, tensor_fits (order + 1) P D nodes_1d xi_point (zero_tensor (order + 1) P D).
Proof.
  intros L1 L2 P. unfold tensor_fits, zero_tensor. cbn. rewrite !repeat_length. repeat split; try lia; apply zeros_rows.
Qed.
Print Assumptions C169_natural_sizes.
Example C169_quadn_ex : match m_quadn 1 [-1; 1] [0; 0] (zero_tensor 2 4 2) with
  | Ok t' => mt_nodes t' = [[-1; -1]; [1; -1]; [-1; 1]; [1; 1]] /\ length (mt_basis t') = 4%nat
  | _ => False end.
Proof. vm_compute. split; reflexivity. Qed.
Example C169_quadn_small_ex : m_quadn 1 [-1; 1] [0] (zero_tensor 2 4 2) = UB /\ m_quadn 1 [-1; 1] [0; 0] (zero_tensor 2 3 2) = UB.
Proof. split; vm_compute; reflexivity. Qed.

(** physical_position of QuadN reads and writes one coordinate of N^2 nodes, that of HexN two of N^3 nodes *)
Theorem C169_position order nodes basis x :
  let N := (order + 1)%nat in
  (rows nodes (N * N) 1 /\ (N * N <= length basis)%nat /\ (1 <= length x)%nat ->
     exists x', m_quadn_position order nodes basis x = Ok x' /\ length x' = length x /\
       holds1 x' (quadn_position order (ent nodes) (at1 basis) (at1 x)))
  /\ (~ (rows nodes (N * N) 1 /\ (N * N <= length basis)%nat /\ (1 <= length x)%nat) -> m_quadn_position order nodes basis x = UB)
  /\ (rows nodes (N * N * N) 2 /\ (N * N * N <= length basis)%nat /\ (2 <= length x)%nat ->
     exists x', m_hexn_position order nodes basis x = Ok x' /\ length x' = length x /\
       holds1 x' (hexn_position order (ent nodes) (at1 basis) (at1 x)))
  /\ (~ (rows nodes (N * N * N) 2 /\ (N * N * N <= length basis)%nat /\ (2 <= length x)%nat) -> m_hexn_position order nodes basis x = UB).
Proof.
  intros N. assert (0 < N * N)%nat by (unfold N; nia). assert (0 < N * N * N)%nat by (unfold N; nia).
  split; [|split; [|split]].
  - intros [A [B C]]. exact (position_ok (N * N) 1 nodes basis x _ _ _ A B C (repr2_at nodes) (repr_at basis) (repr_at x)).
  - intros F. apply not_ok_ub; [unfold m_quadn_position, m_position; cleaning|]. intros r E. apply F.
    exact (position_need (N * N) 1 nodes basis x r ltac:(lia) ltac:(lia) E).
  - intros [A [B C]]. exact (position_ok (N * N * N) 2 nodes basis x _ _ _ A B C (repr2_at nodes) (repr_at basis) (repr_at x)).
  - intros F. apply not_ok_ub; [unfold m_hexn_position, m_position; cleaning|]. intros r E. apply F.
    exact (position_need (N * N * N) 2 nodes basis x r ltac:(lia) ltac:(lia) E).
Qed.
Print Assumptions C169_position.
Example C169_position_ex : m_quadn_position 0 [[3]] [1] [0; 8] = Ok [0 + 3 * 1; 8] /\ m_hexn_position 0 [[3]] [1] [0; 8] = UB.
Proof. split; reflexivity. Qed.

(** corners: the nodes up to the last corner, 4 or 8 rows for the result, and 2 or 3 coordinates in every corner (they are
    printed); the result rows are copies *)
Definition corners_fit (nodes corner : vv) (index : list nat) (D : nat) : Prop :=
  (length index <= length corner)%nat /\ Forall (fun k => (k < length nodes)%nat /\ (D <= length (nth k nodes []))%nat) index.
Definition corners_hold (nodes corner r : vv) (index : list nat) : Prop :=
  length r = length corner /\ (forall c, (c < length index)%nat -> nth c r [] = nth (nth c index 0%nat) nodes []) /\
  (forall c, (length index <= c)%nat -> nth c r [] = nth c corner []).
Lemma corner_rows_fit nodes corner index n D : corner_rows nodes corner index n D <-> corners_fit nodes corner (map index (seq 0 n)) D.
Proof.
  unfold corner_rows, corners_fit. rewrite map_length, seq_length, Forall_map, Forall_forall. split; intros [A B]; split; auto.
  - intros c Hc. apply in_seq in Hc. destruct (B c ltac:(lia)). auto.
  - intros c Hc. destruct (B c ltac:(apply in_seq; lia)). auto.
Qed.
Lemma corner_rows_hold nodes corner index n r : length r = length corner ->
  (forall c, row r c = if (c <? n)%nat then row nodes (index c) else row corner c) -> corners_hold nodes corner r (map index (seq 0 n)).
Proof.
  intros L V. unfold corners_hold. rewrite map_length, seq_length. split; [exact L|]. unfold row in V. split; intros c Hc; rewrite V.
  - apply Nat.ltb_lt in Hc as Hc'. rewrite Hc'. f_equal. rewrite (nth_indep _ _ (index 0%nat)) by (rewrite map_length, seq_length; exact Hc).
    rewrite map_nth, seq_nth by exact Hc. reflexivity.
  - destruct (Nat.ltb_spec c n); [lia|reflexivity].
Qed.
Theorem C169_corners order nodes corner :
  let N := (order + 1)%nat in
  let quad := [0; N - 1; N * N - N; N * N - 1]%nat in
  let hex := [0; N - 1; N * N - N; N * N - 1; N * N * N - N * N; N * N * N - N * N + N - 1; N * N * N - N; N * N * N - 1]%nat in
  (corners_fit nodes corner quad 2 -> exists r, m_quadn_corners order nodes corner = Ok r /\ corners_hold nodes corner r quad)
  /\ (~ corners_fit nodes corner quad 2 -> m_quadn_corners order nodes corner = UB)
  /\ (corners_fit nodes corner hex 3 -> exists r, m_hexn_corners order nodes corner = Ok r /\ corners_hold nodes corner r hex)
  /\ (~ corners_fit nodes corner hex 3 -> m_hexn_corners order nodes corner = UB).
Proof.
  intros N quad hex.
  change quad with (map (quadn_corner_index order) (seq 0 4)). change hex with (map (hexn_corner_index order) (seq 0 8)).
  rewrite <- !corner_rows_fit. unfold m_quadn_corners, m_hexn_corners. split; [|split; [|split]].
  - intros F. destruct (corners_ok _ _ _ _ _ F) as [r [E [L V]]]. exists r. split; [exact E|]. apply corner_rows_hold; assumption.
  - intros F. apply not_ok_ub; [unfold m_corner; cleaning|]. intros r E. apply F. exact (corners_need _ _ _ _ _ _ E).
  - intros F. destruct (corners_ok _ _ _ _ _ F) as [r [E [L V]]]. exists r. split; [exact E|]. apply corner_rows_hold; assumption.
  - intros F. apply not_ok_ub; [unfold m_corner; cleaning|]. intros r E. apply F. exact (corners_need _ _ _ _ _ _ E).
Qed.
Print Assumptions C169_corners.
Example C169_corners_ex : m_quadn_corners 1 [[0; 1]; [2; 3]; [4; 5]; [6; 7]] [[]; []; []; []; [9]] = Ok [[0; 1]; [2; 3]; [4; 5]; [6; 7]; [9]]
  /\ m_quadn_corners 1 [[0; 1]; [2; 3]; [4]; [6; 7]] [[]; []; []; []] = UB.
Proof. split; reflexivity. Qed.

(** jacobian, jacobian4D: dim x dim entries for the loops and 3 x 3 or 4 x 4 for the determinant line *)
Definition filled_jacobian (n dim : nat) (J vertices partial : vv) : nat -> nat -> R :=
  jac_fill n dim (ent vertices) (ent partial) (jac_zero dim (ent J)).
Theorem C169_jacobian dim n J vertices partial :
  let fits r := rows J dim dim /\ rows J r r /\ rows vertices n dim /\ rows partial n dim in
  let M := filled_jacobian n dim J vertices partial in
  (fits 3%nat -> exists J' det, m_jacobian J vertices partial n dim = Ok (J', det) /\ shape_eq J' J /\ holds2 J' M /\
     forall r c, (3 <= r)%nat -> (3 <= c)%nat -> (dim <= r)%nat -> (dim <= c)%nat ->
       jacobian r c (ent J) (ent vertices) (ent partial) n dim = Ok (M, det))
  /\ (~ fits 3%nat -> m_jacobian J vertices partial n dim = UB)
  /\ (fits 4%nat -> exists J' det, m_jacobian4D J vertices partial n dim = Ok (J', det) /\ shape_eq J' J /\ holds2 J' M /\
     forall r c, (4 <= r)%nat -> (4 <= c)%nat -> (dim <= r)%nat -> (dim <= c)%nat ->
       jacobian4D r c (ent J) (ent vertices) (ent partial) n dim = Ok (M, det))
  /\ (~ fits 4%nat -> m_jacobian4D J vertices partial n dim = UB).
Proof.
  intros fits M. split; [|split; [|split]].
  - intros [A [B [C D]]]. destruct (jacobian_ok dim n J vertices partial A B C D) as [J' [det [E [S [Hm ->]]]]].
    eexists J', _. split; [exact E|]. split; [exact S|]. split; [exact Hm|].
    intros r c H1 H2 H3 H4. unfold jacobian. rewrite (proj2 (Nat.leb_le _ _) H1), (proj2 (Nat.leb_le _ _) H2), (proj2 (Nat.leb_le _ _) H3), (proj2 (Nat.leb_le _ _) H4).
    reflexivity.
  - intros F. apply not_ok_ub; [unfold m_jacobian, m_jac_zero, m_jac_fill; cleaning|]. intros r E. apply F. exact (jacobian_need _ _ _ _ _ _ E).
  - intros [A [B [C D]]]. destruct (jacobian4D_ok dim n J vertices partial A B C D) as [J' [det [E [S [Hm ->]]]]].
    eexists J', _. split; [exact E|]. split; [exact S|]. split; [exact Hm|].
    intros r c H1 H2 H3 H4. unfold jacobian4D. rewrite (proj2 (Nat.leb_le _ _) H1), (proj2 (Nat.leb_le _ _) H2), (proj2 (Nat.leb_le _ _) H3), (proj2 (Nat.leb_le _ _) H4).
    reflexivity.
  - intros F. apply not_ok_ub; [unfold m_jacobian4D, m_jac_zero, m_jac_fill; cleaning|]. intros r E. apply F. exact (jacobian4D_need _ _ _ _ _ _ E).
Qed.
Print Assumptions C169_jacobian.
Example C169_jacobian_ex : exists J' det, m_jacobian (zeros 3 3) (zeros 4 2) (zeros 4 2) 4 2 = Ok (J', det) /\ length J' = 3%nat.
Proof. eexists _, _. split; reflexivity. Qed.
(** so the Jacobian of a 2-D element cannot be computed into a 2 x 2 matrix, whatever the element and the values are *)
Theorem C169_square_refuted a b c d vertices partial n : m_jacobian [[a; b]; [c; d]] vertices partial n 2 = UB.
Proof.
  apply (proj1 (proj2 (C169_jacobian 2 n [[a; b]; [c; d]] vertices partial))). intros [_ [H _]].
  specialize (H 2%nat ltac:(lia)). cbn in H. lia.
Qed.
Print Assumptions C169_square_refuted.

(** inverses: 2 x 2, 3 x 3 and 4 x 4 of the Jacobian.  The first two replace the result by one of the right size, the last one
    writes into 4 rows of 4 that must exist *)
Theorem C169_inverses J Jinv det :
  (rows J 2 2 -> exists K, m_inverse_2d J = Ok K /\ length K = 2%nat /\ (forall i, (i < 2)%nat -> length (nth i K []) = 2%nat) /\
     forall i j, (i < 2)%nat -> (j < 2)%nat -> ent K i j = jacobian_inverse_2d (ent J) i j)
  /\ (~ rows J 2 2 -> m_inverse_2d J = UB)
  /\ (rows J 3 3 -> exists K, m_inverse_3d J = Ok K /\ length K = 3%nat /\ (forall i, (i < 3)%nat -> length (nth i K []) = 3%nat) /\
     forall i j, (i < 3)%nat -> (j < 3)%nat -> ent K i j = jacobian_inverse_3d (ent J) i j)
  /\ (~ rows J 3 3 -> m_inverse_3d J = UB)
  /\ (rows Jinv 4 4 /\ rows J 4 4 -> exists K, m_inverse_4d Jinv J det = Ok K /\ shape_eq K Jinv /\
     holds2 K (jacobian_inverse_4d (ent Jinv) (ent J) det))
  /\ (~ (rows Jinv 4 4 /\ rows J 4 4) -> m_inverse_4d Jinv J det = UB).
Proof.
  split; [exact (inverse_2d_ok J)|]. split; [|split; [exact (inverse_3d_ok J)|split; [|split]]].
  - intros F. apply not_ok_ub; [unfold m_inverse_2d; cleaning|]. intros r E. apply F. unfold m_inverse_2d in E. inv_binds.
    exact (rd_block_inv _ _ _ _ E0).
  - intros F. apply not_ok_ub; [unfold m_inverse_3d; cleaning|]. intros r E. apply F. unfold m_inverse_3d in E. inv_binds.
    exact (rd_block_inv _ _ _ _ E0).
  - intros [A B]. exact (inverse_4d_ok Jinv J det A B).
  - intros F. apply not_ok_ub; [unfold m_inverse_4d, m_put4; cleaning|]. intros r E. apply F. exact (inverse_4d_need _ _ _ _ E).
Qed.
Print Assumptions C169_inverses.
Example C169_inverse_ex : m_inverse_2d [[1; 0]; [0; 1]; []] = Ok [[1 / (1 * 1 - 0 * 0); - 0 / (1 * 1 - 0 * 0)]; [- 0 / (1 * 1 - 0 * 0); 1 / (1 * 1 - 0 * 0)]]
  /\ m_inverse_4d [] (zeros 4 4) 1 = UB.
Proof. split; reflexivity. Qed.

(** quadrature: one row of D or more coordinates and one row of weights per point; the row of weights gets exactly D entries,
    whatever it had, further coordinates and rows are kept.  Orders above 8 have no table *)
Definition points_hold (P D : nat) (rule : Z -> outcome (list R * list R)) (pts wts pts' wts' : vv) : Prop :=
  length pts' = length pts /\ length wts' = length wts /\
  (forall m, (m < P)%nat -> exists xs ws, rule (Z.of_nat m) = Ok (xs, ws) /\ length xs = D /\ length ws = D /\
     nth m pts' [] = xs ++ skipn D (nth m pts []) /\ nth m wts' [] = ws) /\
  (forall m, (P <= m)%nat -> nth m pts' [] = nth m pts [] /\ nth m wts' [] = nth m wts []).
Lemma points_theorem line n P D idx rule pts wts : (0 < D)%nat -> (forall a b, clean (line a b)) ->
  (forall m, (m < P)%nat -> length (idx m) = D) ->
  (forall m, (m < P)%nat -> rule (Z.of_nat m) = lines line (Z.of_nat n) (idx m)) ->
  let fits := (forall m, (m < P)%nat -> exists r, rule (Z.of_nat m) = Ok r) /\ rows pts P D /\ (P <= length wts)%nat in
  (fits -> exists pts' wts', m_points line n P D idx (pts, wts) = Ok (pts', wts') /\ points_hold P D rule pts wts pts' wts')
  /\ (~ fits -> m_points line n P D idx (pts, wts) = UB).
Proof.
  intros LD Cl LI Hr fits. split.
  - intros [F [A B]]. destruct (m_points_ok line n P D idx pts wts LI) as [p [w [E [L1 [L2 [V1 V2]]]]]]; [|exact A|exact B|].
    + intros m Lm. rewrite <- Hr by exact Lm. apply F. exact Lm.
    + exists p, w. split; [exact E|]. split; [exact L1|]. split; [exact L2|]. split; [|exact V2].
      intros m Lm. destruct (V1 m Lm) as [xs [ws [R1 [R2 R3]]]]. exists xs, ws. rewrite Hr by exact Lm. split; [exact R1|].
      destruct (lines_length _ _ _ _ _ R1) as [Lx Lw]. rewrite (LI m Lm) in Lx, Lw. auto.
  - intros F. apply not_ok_ub; [apply clean_points; exact Cl|]. intros r E. apply F.
    destruct (m_points_need line n P D idx pts wts r LD LI E) as [A [B C]]. split; [|split; assumption].
    intros m Lm. rewrite Hr by exact Lm. apply A. exact Lm.
Qed.
(* the points exist exactly for the orders up to 8 *)
Lemma orders2 line n : (line = line_gauss \/ line = line_lobatto) ->
  ((n <= 8)%nat <-> forall m, (m < n * n)%nat -> exists r, tensor2 line (Z.of_nat n) (Z.of_nat m) = Ok r).
Proof.
  intros Hl. split.
  - intros L m Lm. assert (1 <= n <= 8)%nat by (destruct n; cbn in Lm; lia).
    assert (exists xs ws, rule_of line n xs ws) as [xs [ws Hr]] by (destruct Hl as [-> | ->]; apply (C55_orders n); assumption).
    destruct (C56_tensor2 line n xs ws (fun _ _ => 0) Hr) as [A _]. destruct (A m Lm) as [p [w [E _]]]. eauto.
  - intros A. destruct (Nat.le_gt_cases n 8) as [|L]; [assumption|]. destruct (A 0%nat ltac:(nia)) as [r E].
    destruct (C56_order_refuted n (Z.of_nat 0) L) as [U1 [U2 _]]. destruct Hl as [-> | ->]; unfold gauss2d, lobatto2d in *; congruence.
Qed.
Lemma orders3 line n : (line = line_gauss \/ line = line_lobatto) ->
  ((n <= 8)%nat <-> forall m, (m < n * n * n)%nat -> exists r, tensor3 line (Z.of_nat n) (Z.of_nat m) = Ok r).
Proof.
  intros Hl. split.
  - intros L m Lm. assert (1 <= n <= 8)%nat by (destruct n; cbn in Lm; lia).
    assert (exists xs ws, rule_of line n xs ws) as [xs [ws Hr]] by (destruct Hl as [-> | ->]; apply (C55_orders n); assumption).
    destruct (C56_tensor3 line n xs ws (fun _ _ _ => 0) Hr) as [A _]. destruct (A m ltac:(lia)) as [p [w [E _]]]. eauto.
  - intros A. destruct (Nat.le_gt_cases n 8) as [|L]; [assumption|]. destruct (A 0%nat ltac:(nia)) as [r E].
    destruct (C56_order_refuted n (Z.of_nat 0) L) as [_ [_ [U1 [U2 _]]]]. destruct Hl as [-> | ->]; unfold gauss3d, lobatto3d in *; congruence.
Qed.
Lemma orders4 line n : (line = line_gauss \/ line = line_lobatto) ->
  ((n <= 8)%nat <-> forall m, (m < n * n * n * n)%nat -> exists r, tensor4 line (Z.of_nat n) 4 (Z.of_nat m) = Ok r).
Proof.
  intros Hl. split.
  - intros L m Lm. assert (1 <= n <= 8)%nat by (destruct n; cbn in Lm; lia).
    assert (exists xs ws, rule_of line n xs ws) as [xs [ws Hr]] by (destruct Hl as [-> | ->]; apply (C55_orders n); assumption).
    assert (N0 : n <> 0%nat) by lia.
    pose proof (Nat.div_mod m n N0). pose proof (Nat.mod_upper_bound m n N0).
    pose proof (Nat.div_mod (m / n) n N0). pose proof (Nat.mod_upper_bound (m / n) n N0).
    pose proof (Nat.div_mod (m / n / n) n N0). pose proof (Nat.mod_upper_bound (m / n / n) n N0).
    assert (m / n / n / n < n)%nat.
    { apply Nat.div_lt_upper_bound; [exact N0|]. apply Nat.div_lt_upper_bound; [exact N0|]. apply Nat.div_lt_upper_bound; [exact N0|]. nia. }
    exists ([nth (m mod n) xs 0; nth (m / n mod n) xs 0; nth (m / n / n mod n) xs 0; nth (m / n / n / n) xs 0],
      [1 * nth (m mod n) ws 0; 1 * nth (m / n mod n) ws 0; 1 * nth (m / n / n mod n) ws 0; 1 * nth (m / n / n / n) ws 0]).
    rewrite <- (C56_tensor4 line n xs ws (m mod n) (m / n mod n) (m / n / n mod n) (m / n / n / n) Hr) by assumption.
    do 2 f_equal. nia.
  - intros A. destruct (Nat.le_gt_cases n 8) as [|L]; [assumption|]. destruct (A 0%nat ltac:(assert (0 < n)%nat by lia; nia)) as [r E].
    destruct (C56_order_refuted n (Z.of_nat 0) L) as [_ [_ [_ [_ [U1 U2]]]]]. destruct Hl as [-> | ->]; unfold gauss4d, lobatto4d in *; congruence.
Qed.
Definition quad_fits (n P D : nat) (pts wts : vv) : Prop := (n <= 8)%nat /\ rows pts P D /\ (P <= length wts)%nat.
Lemma clean_line line : (line = line_gauss \/ line = line_lobatto) -> forall a b, clean (line a b).
Proof. intros [-> | ->] a b; [apply clean_gauss | apply clean_lobatto]. Qed.
Lemma tensor2_theorem line n pts wts : (line = line_gauss \/ line = line_lobatto) ->
  (quad_fits n (n * n) 2 pts wts -> exists pts' wts', m_tensor2 line n (pts, wts) = Ok (pts', wts') /\
     points_hold (n * n) 2 (tensor2 line (Z.of_nat n)) pts wts pts' wts')
  /\ (~ quad_fits n (n * n) 2 pts wts -> m_tensor2 line n (pts, wts) = UB).
Proof.
  intros Hl. rewrite m_tensor2_points. unfold quad_fits. rewrite (orders2 line n Hl).
  apply points_theorem; [lia | apply clean_line; exact Hl | |].
  - intros m _. destruct (idx2 (Z.of_nat n) (Z.of_nat m)) as [i j]. reflexivity.
  - intros m _. apply tensor2_lines.
Qed.
Lemma tensor3_theorem line n pts wts : (line = line_gauss \/ line = line_lobatto) ->
  (quad_fits n (n * n * n) 3 pts wts -> exists pts' wts', m_tensor3 line n (pts, wts) = Ok (pts', wts') /\
     points_hold (n * n * n) 3 (tensor3 line (Z.of_nat n)) pts wts pts' wts')
  /\ (~ quad_fits n (n * n * n) 3 pts wts -> m_tensor3 line n (pts, wts) = UB).
Proof.
  intros Hl. rewrite m_tensor3_points. unfold quad_fits. rewrite (orders3 line n Hl).
  apply points_theorem; [lia | apply clean_line; exact Hl | |].
  - intros m _. destruct (idx3 (Z.of_nat n) (Z.of_nat m)) as [[i j] k]. reflexivity.
  - intros m _. apply tensor3_lines.
Qed.
Lemma tensor4_theorem line n pts wts : (line = line_gauss \/ line = line_lobatto) ->
  (quad_fits n (n * n * n * n) 4 pts wts -> exists pts' wts', m_tensor4 line n 4 (pts, wts) = Ok (pts', wts') /\
     points_hold (n * n * n * n) 4 (tensor4 line (Z.of_nat n) 4) pts wts pts' wts')
  /\ (~ quad_fits n (n * n * n * n) 4 pts wts -> m_tensor4 line n 4 (pts, wts) = UB).
Proof.
  intros Hl. rewrite m_tensor4_points. unfold quad_fits. rewrite (orders4 line n Hl).
  apply points_theorem; [lia | apply clean_line; exact Hl | |].
  - intros m _. destruct (idx4 (Z.of_nat n) 4 (Z.of_nat m)) as [[[i j] k] l]. reflexivity.
  - intros m _. apply tensor4_lines.
Qed.
Theorem C169_lobatto n pts wts :
  (quad_fits n (n * n) 2 pts wts -> exists pts' wts', m_Lobatto2D n pts wts = Ok (pts', wts') /\
     points_hold (n * n) 2 (lobatto2d (Z.of_nat n)) pts wts pts' wts')
  /\ (~ quad_fits n (n * n) 2 pts wts -> m_Lobatto2D n pts wts = UB)
  /\ (quad_fits n (n * n * n) 3 pts wts -> exists pts' wts', m_Lobatto3D n pts wts = Ok (pts', wts') /\
     points_hold (n * n * n) 3 (lobatto3d (Z.of_nat n)) pts wts pts' wts')
  /\ (~ quad_fits n (n * n * n) 3 pts wts -> m_Lobatto3D n pts wts = UB)
  /\ (quad_fits n (n * n * n * n) 4 pts wts -> exists pts' wts', m_Lobatto4D n 4 pts wts = Ok (pts', wts') /\
     points_hold (n * n * n * n) 4 (lobatto4d (Z.of_nat n) 4) pts wts pts' wts')
  /\ (~ quad_fits n (n * n * n * n) 4 pts wts -> m_Lobatto4D n 4 pts wts = UB)
  /\ (quad_fits n (n * n * n * n) 4 pts wts -> exists pts' wts', m_Gauss4D n 4 pts wts = Ok (pts', wts') /\
     points_hold (n * n * n * n) 4 (gauss4d (Z.of_nat n) 4) pts wts pts' wts')
  /\ (~ quad_fits n (n * n * n * n) 4 pts wts -> m_Gauss4D n 4 pts wts = UB).
Proof.
  pose proof (tensor2_theorem line_lobatto n pts wts (or_intror eq_refl)) as [A B].
  pose proof (tensor3_theorem line_lobatto n pts wts (or_intror eq_refl)) as [C D].
  pose proof (tensor4_theorem line_lobatto n pts wts (or_intror eq_refl)) as [E F].
  pose proof (tensor4_theorem line_gauss n pts wts (or_introl eq_refl)) as [G H].
  repeat split; assumption.
Qed.
Print Assumptions C169_lobatto.
(** Gauss2D and Gauss3D also fill one total weight per point *)
Definition totals_hold (P D : nat) (wts' : vv) (tot tot' : list R) : Prop :=
  length tot' = length tot /\
  (forall m, (m < P)%nat -> nth m tot' 0 = fold_left Rmult (skipn 1 (nth m wts' [])) (nth 0 (nth m wts' []) 0)) /\
  (forall m, (P <= m)%nat -> nth m tot' 0 = nth m tot 0).
Lemma tot2_theorem n wts' tot : (forall m, (m < n * n)%nat -> length (nth m wts' []) = 2%nat) ->
  ((n * n <= length tot)%nat -> exists tot', m_tot2 n wts' tot = Ok tot' /\ totals_hold (n * n) 2 wts' tot tot')
  /\ (forall t, m_tot2 n wts' tot = Ok t -> (n * n <= length tot)%nat).
Proof.
  intros Hw. rewrite m_tot2_eq. split.
  - intros L. destruct (tot_ok (n * n) (fun v => bind (rd2 wts' v 0) (fun a => bind (rd2 wts' v 1) (fun b => Ok (a * b))))
      (fun v => fold_left Rmult (skipn 1 (nth v wts' [])) (nth 0 (nth v wts' []) 0)) tot) as [t [E [Lt V]]]; [|exact L|].
    + intros v Lv. specialize (Hw v Lv). rewrite !rd2_ok by (unfold row; lia). cbn [bind]. unfold row.
      destruct (nth v wts' []) as [|a [|b [|c l]]]; try discriminate Hw. reflexivity.
    + exists t. split; [exact E|]. split; [exact Lt|]. split; intros m Lm; rewrite V.
      * rewrite (proj2 (Nat.ltb_lt _ _) Lm). reflexivity.
      * rewrite (proj2 (Nat.ltb_ge _ _) Lm). reflexivity.
  - intros t E. exact (tot_need _ _ _ _ E).
Qed.
Lemma tot3_theorem n wts' tot : (forall m, (m < n * n * n)%nat -> length (nth m wts' []) = 3%nat) ->
  ((n * n * n <= length tot)%nat -> exists tot', m_tot3 n wts' tot = Ok tot' /\ totals_hold (n * n * n) 3 wts' tot tot')
  /\ (forall t, m_tot3 n wts' tot = Ok t -> (n * n * n <= length tot)%nat).
Proof.
  intros Hw. rewrite m_tot3_eq. split.
  - intros L. destruct (tot_ok (n * n * n) (fun v => bind (rd2 wts' v 0) (fun a => bind (rd2 wts' v 1) (fun b => bind (rd2 wts' v 2) (fun c => Ok (a * b * c)))))
      (fun v => fold_left Rmult (skipn 1 (nth v wts' [])) (nth 0 (nth v wts' []) 0)) tot) as [t [E [Lt V]]]; [|exact L|].
    + intros v Lv. specialize (Hw v Lv). rewrite !rd2_ok by (unfold row; lia). cbn [bind]. unfold row.
      destruct (nth v wts' []) as [|a [|b [|c [|d l]]]]; try discriminate Hw. reflexivity.
    + exists t. split; [exact E|]. split; [exact Lt|]. split; intros m Lm; rewrite V.
      * rewrite (proj2 (Nat.ltb_lt _ _) Lm). reflexivity.
      * rewrite (proj2 (Nat.ltb_ge _ _) Lm). reflexivity.
  - intros t E. exact (tot_need _ _ _ _ E).
Qed.
Lemma points_width P D rule pts wts pts' wts' : points_hold P D rule pts wts pts' wts' -> forall m, (m < P)%nat -> length (nth m wts' []) = D.
Proof. intros [_ [_ [H _]]] m L. destruct (H m L) as [xs [ws [_ [_ [E [_ ->]]]]]]. exact E. Qed.
Lemma fits_dec n P D pts wts : quad_fits n P D pts wts \/ ~ quad_fits n P D pts wts.
Proof.
  unfold quad_fits. assert (R : rows pts P D \/ ~ rows pts P D).
  { unfold rows. induction P as [|p IH]; [left; intros; lia|]. destruct IH as [Y|N]; [|right; intros H; apply N; intros q L; apply H; lia].
    destruct (Nat.le_gt_cases D (length (nth p pts []))) as [L|L].
    - left. intros q Lq. destruct (Nat.eq_dec q p) as [->|]; [exact L|]. apply Y. lia.
    - right. intros H. specialize (H p ltac:(lia)). lia. }
  destruct R as [R|R]; [|tauto]. destruct (Nat.le_gt_cases n 8), (Nat.le_gt_cases P (length wts)); [left; auto | right; intros Q; lia..].
Qed.
Theorem C169_gauss n pts wts tot :
  (quad_fits n (n * n) 2 pts wts /\ (n * n <= length tot)%nat -> exists pts' wts' tot', m_Gauss2D n pts wts tot = Ok (pts', wts', tot') /\
     points_hold (n * n) 2 (gauss2d (Z.of_nat n)) pts wts pts' wts' /\ totals_hold (n * n) 2 wts' tot tot')
  /\ (~ (quad_fits n (n * n) 2 pts wts /\ (n * n <= length tot)%nat) -> m_Gauss2D n pts wts tot = UB)
  /\ (quad_fits n (n * n * n) 3 pts wts /\ (n * n * n <= length tot)%nat -> exists pts' wts' tot', m_Gauss3D n pts wts tot = Ok (pts', wts', tot') /\
     points_hold (n * n * n) 3 (gauss3d (Z.of_nat n)) pts wts pts' wts' /\ totals_hold (n * n * n) 3 wts' tot tot')
  /\ (~ (quad_fits n (n * n * n) 3 pts wts /\ (n * n * n <= length tot)%nat) -> m_Gauss3D n pts wts tot = UB).
Proof.
  pose proof (tensor2_theorem line_gauss n pts wts (or_introl eq_refl)) as [A B].
  pose proof (tensor3_theorem line_gauss n pts wts (or_introl eq_refl)) as [C D].
  assert (K2 : forall w t, clean (m_tot2 n w t)) by (intros; unfold m_tot2; cleaning).
  assert (K3 : forall w t, clean (m_tot3 n w t)) by (intros; unfold m_tot3; cleaning).
  split; [|split; [|split]].
  - intros [F L]. destruct (A F) as [p [w [E H]]]. unfold m_Gauss2D. rewrite E. cbn [bind snd].
    destruct (proj1 (tot2_theorem n w tot (points_width _ _ _ _ _ _ _ H)) L) as [t [-> T]]. exists p, w, t. auto.
  - intros F. apply not_ok_ub.
    + unfold m_Gauss2D. rewrite m_tensor2_points. apply clean_bind; [apply clean_points; apply clean_gauss|]. intros s.
      apply clean_bind; [apply K2|]. intros; apply clean_ok.
    + intros r E. unfold m_Gauss2D in E. inv_binds. apply F. destruct (fits_dec n (n * n) 2 pts wts) as [Y|N].
      * split; [exact Y|]. destruct (A Y) as [p [w [E' H]]]. rewrite E0 in E'. injection E' as ->. cbn [snd] in E1.
        exact (proj2 (tot2_theorem n w tot (points_width _ _ _ _ _ _ _ H)) _ E1).
      * rewrite (B N) in E0. discriminate.
  - intros [F L]. destruct (C F) as [p [w [E H]]]. unfold m_Gauss3D. rewrite E. cbn [bind snd].
    destruct (proj1 (tot3_theorem n w tot (points_width _ _ _ _ _ _ _ H)) L) as [t [-> T]]. exists p, w, t. auto.
  - intros F. apply not_ok_ub.
    + unfold m_Gauss3D. rewrite m_tensor3_points. apply clean_bind; [apply clean_points; apply clean_gauss|]. intros s.
      apply clean_bind; [apply K3|]. intros; apply clean_ok.
    + intros r E. unfold m_Gauss3D in E. inv_binds. apply F. destruct (fits_dec n (n * n * n) 3 pts wts) as [Y|N].
      * split; [exact Y|]. destruct (C Y) as [p [w [E' H]]]. rewrite E0 in E'. injection E' as ->. cbn [snd] in E1.
        exact (proj2 (tot3_theorem n w tot (points_width _ _ _ _ _ _ _ H)) _ E1).
      * rewrite (D N) in E0. discriminate.
Qed.
Print Assumptions C169_gauss.
Example C169_gauss_ex : exists p w t, m_Gauss2D 1 [[5; 6; 7]; [8]] [[]; [4]] [3; 3] = Ok (p, w, t)
  /\ p = [[0; 0; 7]; [8]] /\ w = [[1 * 2; 1 * 2]; [4]] /\ t = [1 * 2 * (1 * 2); 3].
Proof. eexists _, _, _. split; [reflexivity|]. repeat split. Qed.
Example C169_lobatto_ex : m_Lobatto2D 1 [[5]] [[]] = UB /\ m_Gauss4D 1 4 [[5; 5; 5; 5]] [] = UB.
Proof. split; reflexivity. Qed.
