(** Properties C73, C97-C100: grids and attribute arrays written for VTK. *)
From Coq Require Import List Arith Bool Lia Permutation.
From Verif Require Import Outcome ListExtra VtkModel.
Import ListNotations.

Lemma each_app {A S} (l1 l2 : list A) body (s : S) : each (l1 ++ l2) body s = bind (each l1 body s) (each l2 body).
Proof. revert s. induction l1 as [|a l IH]; intros s; simpl; [reflexivity|]. destruct (body a s); simpl; [apply IH|reflexivity..]. Qed.
Lemma bind_inv {A B} (x : outcome A) (k : A -> outcome B) b : bind x k = Ok b -> exists a, x = Ok a /\ k a = Ok b.
Proof. destruct x; simpl; intros H; try discriminate. eauto. Qed.
Lemma f2_length {A B} (R : A -> B -> Prop) l1 l2 : Forall2 R l1 l2 -> length l1 = length l2.
Proof. induction 1; simpl; congruence. Qed.
(* a loop whose body appends a piece *)
Lemma each_append {A B} (f : A -> list B) (body : A -> list B -> outcome (list B)) l s :
  (forall a s, In a l -> body a s = Ok (s ++ f a)) -> each l body s = Ok (s ++ flat_map f l).
Proof.
  revert s. induction l as [|a l IH]; intros s H; simpl; [rewrite app_nil_r; reflexivity|].
  rewrite H by (left; reflexivity). simpl. rewrite IH by (intros; apply H; right; assumption). rewrite app_assoc. reflexivity.
Qed.
Lemma each_ub {A S} (body : A -> S -> outcome S) l s a : In a l -> (forall x s, body x s = UB \/ exists s', body x s = Ok s') ->
  (forall s, body a s = UB) -> each l body s = UB.
Proof.
  revert s. induction l as [|b l IH]; intros s I T H; [destruct I|]. destruct I as [->|I]; simpl.
  - rewrite H. reflexivity.
  - destruct (T b s) as [E|[s' E]]; rewrite E; simpl; [reflexivity|apply IH; assumption].
Qed.

(** ** C73: the face stream *)
(** what a stream is: every face as its length and its vertices *)
Definition encode (fs : list (list nat)) : list nat := flat_map (fun f => length f :: f) fs.
(** a face as seen from cell c: its vertices, reversed when c is not the first cell of the face *)
Definition seen_from {C} (m : mesh C) (c f : nat) (vs : list nat) : Prop :=
  exists first rest, f_cells m f = first :: rest /\ (first = c -> vs = f_verts m f) /\ (first <> c -> vs = rev (f_verts m f)).
Section C73.
Context {C : Type} (m : mesh C).
Definition oriented (c f : nat) : list nat := match f_cells m f with d :: _ => if Nat.eqb d c then f_verts m f else rev (f_verts m f) | [] => [] end.
Lemma face_body_ok c f s : f_cells m f <> [] -> face_body m c f s = Ok (s ++ (length (oriented c f) :: oriented c f)).
Proof.
  intros H. unfold face_body, oriented, load. destruct (f_cells m f) as [|d r]; [congruence|]. simpl.
  destruct (Nat.eqb d c); simpl; rewrite <- app_assoc; simpl; rewrite ?rev_length; reflexivity.
Qed.
Lemma face_body_ub c f s : f_cells m f = [] -> face_body m c f s = UB.
Proof. intros H. unfold face_body, load. rewrite H. reflexivity. Qed.
Lemma stream_ok c : (forall f, In f (c_faces m c) -> f_cells m f <> []) ->
  each (c_faces m c) (face_body m c) [] = Ok (encode (map (oriented c) (c_faces m c))).
Proof.
  intros H. rewrite (each_append (fun f => length (oriented c f) :: oriented c f)); [|intros; apply face_body_ok; auto].
  unfold encode. simpl. f_equal. clear H. induction (c_faces m c) as [|f l IH]; simpl; [reflexivity|]. rewrite IH. reflexivity.
Qed.
Lemma encode_inj : forall fs gs, encode fs = encode gs -> fs = gs.
Proof.
  induction fs as [|f fs IH]; intros [|g gs] E; try discriminate; [reflexivity|].
  unfold encode in E. simpl in E. injection E as L E. 
  assert (f = g) as ->.
  { apply (f_equal (firstn (length f))) in E. rewrite firstn_app, firstn_all, Nat.sub_diag, firstn_O, app_nil_r in E.
    rewrite E, L, firstn_app, firstn_all, Nat.sub_diag, firstn_O, app_nil_r. reflexivity. }
  apply app_inv_head in E. f_equal. apply IH, E.
Qed.
(** every cell: points, number of faces, and a stream from which exactly one list of faces can be read: the cell's faces as seen from it *)
Theorem C73_decodable : forall c grid, (forall f, In f (c_faces m c) -> f_cells m f <> []) ->
  exists fs stream, cell_body m c grid = Ok (grid ++ [mk_vcell (c_verts m c) (length fs) stream])
  /\ Forall2 (seen_from m c) (c_faces m c) fs
  /\ forall gs, stream = encode gs <-> gs = fs.
Proof.
  intros c grid H. exists (map (oriented c) (c_faces m c)). eexists. split; [|split].
  - unfold cell_body. rewrite stream_ok by exact H. simpl. rewrite map_length. reflexivity.
  - induction (c_faces m c) as [|f l IH]; simpl; constructor; [|apply IH; intros; apply H; right; assumption].
    unfold seen_from, oriented. destruct (f_cells m f) as [|d r] eqn:E; [exfalso; apply (H f); [left; reflexivity|exact E]|].
    exists d, r. split; [reflexivity|]. destruct (Nat.eqb_spec d c); split; intros; congruence.
  - intros gs. split; [intros E; symmetry; apply encode_inj, E|intros ->; reflexivity].
Qed.
(** the reserved size is the size used *)
Theorem C73_length : forall c s, each (c_faces m c) (face_body m c) [] = Ok s -> length s = tot_verts m c + length (c_faces m c).
Proof.
  intros c s E. unfold tot_verts.
  assert (G : forall l s0 t n, each l (face_body m c) s0 = Ok t -> length t + n = length s0 + length l + fold_left (fun sum f => sum + length (f_verts m f)) l n).
  { induction l as [|f l IH]; intros s0 t n H; simpl in H |- *; [injection H as ->; lia|].
    apply bind_inv in H as (s1 & H1 & H2). apply (IH _ _ (n + length (f_verts m f))) in H2.
    unfold face_body, load in H1. destruct (f_cells m f); simpl in H1; [discriminate|]. injection H1 as <-.
    rewrite !app_length in H2. simpl in H2. destruct (negb (n0 =? c)); rewrite ?rev_length in H2; lia. }
  specialize (G _ _ _ 0 E). simpl in G. lia.
Qed.
(** the two cells of a face see it with opposite orientation *)
Theorem C73_opposite : forall f c d rest vs ws, f_cells m f = c :: d :: rest -> c <> d -> seen_from m c f vs -> seen_from m d f ws -> ws = rev vs.
Proof.
  intros f c d rest vs ws E N (x & r & E1 & A1 & _) (y & r' & E2 & _ & B2). rewrite E in E1, E2. injection E1 as <- <-. injection E2 as <- <-.
  rewrite (A1 eq_refl). apply B2, N.
Qed.
(** a face without cells makes face_cells[0] undefined *)
Theorem C73_no_cells_ub : forall c f grid, In f (c_faces m c) -> f_cells m f = [] -> cell_body m c grid = UB.
Proof.
  intros c f grid I E. unfold cell_body. rewrite (each_ub _ _ _ f I); [reflexivity| |intros; apply face_body_ub, E].
  intros x s. destruct (f_cells m x) eqn:Ex; [left; apply face_body_ub, Ex|right; eexists; apply face_body_ok; congruence].
Qed.
(** a whole mesh in which the cells of every face are listed *)
Theorem C73_mesh : forall grid, (forall c f, In c (m_cells m) -> In f (c_faces m c) -> In c (f_cells m f)) ->
  exists out, write_cells m grid = Ok (grid ++ out) /\ Forall2 (fun c v => v_pts v = c_verts m c /\ v_nfaces v = length (c_faces m c)
    /\ exists fs, v_stream v = encode fs /\ Forall2 (seen_from m c) (c_faces m c) fs) (m_cells m) out.
Proof.
  unfold write_cells. intros grid H. revert grid. induction (m_cells m) as [|c l IH]; intros grid.
  - exists []. rewrite app_nil_r. split; [reflexivity|constructor].
  - simpl. destruct (C73_decodable c grid) as (fs & st & E & F & U).
    { intros f I N. specialize (H c f (or_introl eq_refl) I). rewrite N in H. destruct H. }
    rewrite E. simpl. destruct (IH (fun c' f Hc => H c' f (or_intror Hc)) (grid ++ [mk_vcell (c_verts m c) (length fs) st])) as (out & E' & F').
    exists (mk_vcell (c_verts m c) (length fs) st :: out). split; [rewrite E', <- app_assoc; reflexivity|]. constructor; [|exact F'].
    simpl. split; [reflexivity|]. split; [symmetry; eapply f2_length, F|]. exists fs. split; [apply U; reflexivity|exact F].
Qed.
End C73.
Print Assumptions C73_decodable.
Print Assumptions C73_length.
Print Assumptions C73_opposite.
Print Assumptions C73_no_cells_ub.
Print Assumptions C73_mesh.
(* two cells sharing face 10; face 11 belongs to cell 0, face 12 to cell 1 *)
Definition demo : mesh nat := mk_mesh [(1, [10; 11; 12]); (0, [20; 21; 22])] [0; 1] [1] (fun c => if Nat.eqb c 0 then [0; 1] else [1; 0])
  (fun c => if Nat.eqb c 0 then [10; 11] else [10; 12]) (fun f => if Nat.eqb f 10 then [5; 6; 7] else [8; 9])
  (fun f => if Nat.eqb f 10 then [0; 1] else if Nat.eqb f 11 then [0] else [1]).
Example C73_example : write_cells demo [] = Ok [mk_vcell [0; 1] 2 [3; 5; 6; 7; 2; 8; 9]; mk_vcell [1; 0] 2 [3; 7; 6; 5; 2; 8; 9]]
  /\ forall c f, In c (m_cells demo) -> In f (c_faces demo c) -> In c (f_cells demo f).
Proof. split; [reflexivity|]. simpl. intros c f [<-|[<-|[]]]; simpl; intros [<-|[<-|[]]]; simpl; tauto. Qed.


(** ** C97: createMesh inserts exactly the owned cells *)
Lemma store_length {A} (l l' : list A) i x : store l i x = Ok l' -> length l' = length l.
Proof.
  unfold store. destruct (i <? length l) eqn:E; [|discriminate]. intros H. assert (Hl : l' = firstn i l ++ x :: skipn (S i) l) by congruence. rewrite Hl. clear H Hl. apply Nat.ltb_lt in E.
  rewrite app_length, firstn_length. change (length (x :: skipn (S i) l)) with (S (length (skipn (S i) l))). rewrite skipn_length. lia.
Qed.
Lemma store_nth {A} (l l' : list A) i x j : store l i x = Ok l' -> nth_error l' j = if Nat.eqb j i then Some x else nth_error l j.
Proof.
  unfold store. destruct (i <? length l) eqn:E; [|discriminate]. intros H. assert (Hl : l' = firstn i l ++ x :: skipn (S i) l) by congruence. rewrite Hl. clear H Hl. apply Nat.ltb_lt in E.
  assert (L : length (firstn i l) = i) by (rewrite firstn_length; lia).
  destruct (Nat.eqb_spec j i) as [->|N].
  - rewrite nth_error_app2 by lia. rewrite L, Nat.sub_diag. reflexivity.
  - destruct (Nat.lt_ge_cases j i).
    + rewrite nth_error_app1 by lia. rewrite <- (firstn_skipn i l) at 2. rewrite nth_error_app1 by lia. reflexivity.
    + rewrite nth_error_app2 by lia. rewrite L. replace (j - i) with (S (j - S i)) by lia. simpl.
      rewrite <- (firstn_skipn (S i) l) at 2. rewrite nth_error_app2; rewrite firstn_length; [f_equal; lia|lia].
Qed.
Lemma store_ok {A} (l : list A) i x : i < length l -> exists l', store l i x = Ok l'.
Proof. intros H. unfold store. apply Nat.ltb_lt in H. rewrite H. eauto. Qed.
Lemma store_ub {A} (l : list A) i x : length l <= i -> store l i x = UB.
Proof. intros H. unfold store. apply Nat.ltb_ge in H. rewrite H. reflexivity. Qed.
Section C97.
Context {C : Type} (m : mesh C).
Lemma ghost_spec : (forall c, In c (m_owned m) -> c < length (m_cells m)) ->
  exists g, ghost_flags m = Ok g /\ forall c, c < length (m_cells m) -> exists b, nth_error g c = Some b /\ (b = false <-> In c (m_owned m)).
Proof.
  unfold ghost_flags. intros H.
  assert (G : forall l g, length g = length (m_cells m) -> (forall c, In c l -> c < length (m_cells m)) ->
    exists g', each l (fun c g => store g c false) g = Ok g' /\ forall c, nth_error g' c = if in_dec Nat.eq_dec c l then Some false else nth_error g c).
  { induction l as [|a l IH]; intros g L B; simpl.
    - exists g. split; [reflexivity|]. intros c. destruct (in_dec Nat.eq_dec c []); [destruct i|reflexivity].
    - destruct (store_ok g a false) as [g1 E1]; [rewrite L; apply B; left; reflexivity|]. rewrite E1. simpl.
      destruct (IH g1) as (g' & E & S); [rewrite (store_length _ _ _ _ E1); exact L|intros; apply B; right; assumption|].
      exists g'. split; [exact E|]. intros c. rewrite S, (store_nth _ _ _ _ c E1).
      destruct (Nat.eq_dec a c) as [->|N].
      + rewrite Nat.eqb_refl. destruct (in_dec Nat.eq_dec c l); reflexivity.
      + destruct (Nat.eqb_spec c a); [congruence|]. destruct (in_dec Nat.eq_dec c l); reflexivity. }
  destruct (G (m_owned m) (repeat true (length (m_cells m)))) as (g & E & S); [apply repeat_length|exact H|].
  exists g. split; [exact E|]. intros c Hc. rewrite S. destruct (in_dec Nat.eq_dec c (m_owned m)) as [I|N].
  - exists false. split; [reflexivity|tauto].
  - exists true. split; [|split; [discriminate|intros; contradiction]].
    destruct (nth_error (repeat true (length (m_cells m))) c) as [b|] eqn:Eb.
    + apply nth_error_In, repeat_spec in Eb. congruence.
    + apply nth_error_None in Eb. rewrite repeat_length in Eb. lia.
Qed.
End C97.
Section Create.
Context {C F : Type} (narrow : C -> F) (zero : F) (m : mesh C).
(** identifiers are numbered below the number of cells, owned cells are cells, the cells of each face are listed *)
Definition cells_wf : Prop := (forall c, In c (m_cells m) -> c < length (m_cells m)) /\ incl (m_owned m) (m_cells m)
  /\ (forall c f, In c (m_cells m) -> In f (c_faces m c) -> In c (f_cells m f)).
Lemma owned_loop : cells_wf -> exists g out, ghost_flags m = Ok g /\ each (m_cells m) (fun c grid => bind (load g c) (fun gh => if (gh : bool) then Ok grid else cell_body m c grid)) [] = Ok out
  /\ Forall2 (fun c v => v_pts v = c_verts m c /\ v_nfaces v = length (c_faces m c) /\ exists fs, v_stream v = encode fs /\ Forall2 (seen_from m c) (c_faces m c) fs)
    (filter (fun c => if in_dec Nat.eq_dec c (m_owned m) then true else false) (m_cells m)) out.
Proof.
  intros (B & I & N). destruct (ghost_spec m) as (g & E & S); [intros c H; apply B, I, H|]. exists g.
  assert (G : forall l grid, (forall c, In c l -> In c (m_cells m)) -> exists out,
    each l (fun c grid => bind (load g c) (fun gh => if (gh : bool) then Ok grid else cell_body m c grid)) grid = Ok (grid ++ out)
    /\ Forall2 (fun c v => v_pts v = c_verts m c /\ v_nfaces v = length (c_faces m c) /\ exists fs, v_stream v = encode fs /\ Forall2 (seen_from m c) (c_faces m c) fs)
      (filter (fun c => if in_dec Nat.eq_dec c (m_owned m) then true else false) l) out).
  { induction l as [|c l IH]; intros grid Hl; simpl.
    - exists []. rewrite app_nil_r. split; [reflexivity|constructor].
    - destruct (S c (B c (Hl c (or_introl eq_refl)))) as (b & Eb & Hb). unfold load at 1. rewrite Eb. simpl. 
      destruct (in_dec Nat.eq_dec c (m_owned m)) as [O|O].
      + rewrite (proj2 Hb O). destruct (C73_decodable m c grid) as (fs & st & Ec & F1 & U).
        { intros f If Nf. specialize (N c f (Hl c (or_introl eq_refl)) If). rewrite Nf in N. destruct N. }
        rewrite Ec. simpl. destruct (IH (grid ++ [mk_vcell (c_verts m c) (length fs) st])) as (out & E' & F'); [intros; apply Hl; right; assumption|].
        exists (mk_vcell (c_verts m c) (length fs) st :: out). split; [rewrite E', <- app_assoc; reflexivity|]. constructor; [|exact F'].
        simpl. split; [reflexivity|]. split; [symmetry; eapply f2_length, F1|]. exists fs. split; [apply U; reflexivity|exact F1].
      + assert (b = true) as -> by (destruct b; [reflexivity|exfalso; apply O, Hb; reflexivity]). simpl.
        apply IH. intros; apply Hl; right; assumption. }
  destruct (G (m_cells m) [] (fun c H => H)) as (out & E1 & F1). exists out. split; [exact E|]. split; [exact E1|exact F1].
Qed.
(** ** points of createMesh: in iteration order; the scratch array has room in three dimensions *)
Definition pad (l : list C) : F * F * F := match l with [x; y] => (narrow x, narrow y, zero) | [x; y; z] => (narrow x, narrow y, narrow z) | _ => (zero, zero, zero) end.
Lemma points3 : forall l vc pts, (forall v, In v l -> length (snd v) = 3 /\ fst v * 3 + 2 < length vc) ->
  exists vc', each l (point_body narrow zero 3) (vc, pts) = Ok (vc', pts ++ map (fun v => pad (snd v)) l) /\ length vc' = length vc.
Proof.
  induction l as [|[id co] l IH]; intros vc pts H.
  - exists vc. simpl. rewrite app_nil_r. split; reflexivity.
  - destruct (H (id, co) (or_introl eq_refl)) as [L B]. simpl in L, B.
    destruct co as [|x [|y [|z [|]]]]; try discriminate. 
    destruct (store_ok vc (id * 3 + 0) (Some x)) as [v1 E1]; [lia|]. pose proof (store_length _ _ _ _ E1) as L1.
    destruct (store_ok v1 (id * 3 + 1) (Some y)) as [v2 E2]; [lia|]. pose proof (store_length _ _ _ _ E2) as L2.
    destruct (store_ok v2 (id * 3 + 2) (Some z)) as [v3 E3]; [lia|]. pose proof (store_length _ _ _ _ E3) as L3.
    cbn [each]. unfold point_body at 1. cbn [seq each load nth_error bind]. rewrite E1. cbn [bind]. rewrite E2. cbn [bind]. rewrite E3. cbn.
    destruct (IH v3 (pts ++ [(narrow x, narrow y, narrow z)])) as (vc' & E & L').
    { intros v Hv. destruct (H v (or_intror Hv)). split; [assumption|lia]. }
    exists vc'. rewrite E, <- app_assoc. split; [reflexivity|lia].
Qed.
(** three dimensions, vertices numbered below their number: exactly the owned cells, in mesh order, each with its decodable stream *)
Theorem C97_cells : cells_wf -> (forall v, In v (m_verts m) -> length (snd v) = 3 /\ fst v < length (m_verts m)) ->
  exists pts cells, create_mesh narrow zero 3 m = Ok (pts, map fst (m_verts m), cells)
  /\ Forall2 (fun c v => v_pts v = c_verts m c /\ v_nfaces v = length (c_faces m c) /\ exists fs, v_stream v = encode fs /\ Forall2 (seen_from m c) (c_faces m c) fs)
    (filter (fun c => if in_dec Nat.eq_dec c (m_owned m) then true else false) (m_cells m)) cells.
Proof.
  intros W V. unfold create_mesh.
  destruct (points3 (m_verts m) (repeat None (length (m_verts m) * 3)) []) as (vc & E & _).
  { intros v Hv. destruct (V v Hv). rewrite repeat_length. split; [assumption|lia]. }
  rewrite E. cbn [bind app]. destruct (owned_loop W) as (g & out & Eg & Eo & Fo). rewrite Eg. cbn [bind]. rewrite Eo. cbn [bind].
  eexists. exists out. split; [reflexivity|exact Fo].
Qed.
(** the points are the vertices in iteration order *)
Theorem C98_iteration_order : forall pts ids cells, (forall v, In v (m_verts m) -> length (snd v) = 3 /\ fst v < length (m_verts m)) ->
  create_mesh narrow zero 3 m = Ok (pts, ids, cells) -> pts = map (fun v => pad (snd v)) (m_verts m).
Proof.
  intros pts ids cells V H. unfold create_mesh in H.
  destruct (points3 (m_verts m) (repeat None (length (m_verts m) * 3)) []) as (vc & E & _).
  { intros v Hv. destruct (V v Hv). rewrite repeat_length. split; [assumption|lia]. }
  rewrite E in H. cbn [bind app] in H. apply bind_inv in H as (g & _ & H). apply bind_inv in H as (cs & _ & H). congruence.
Qed.
(** so that vertex id has its coordinates at point id when vertices are iterated by identifier *)
Theorem C98_partial : forall pts ids cells, (forall v, In v (m_verts m) -> length (snd v) = 3) -> map fst (m_verts m) = seq 0 (length (m_verts m)) ->
  create_mesh narrow zero 3 m = Ok (pts, ids, cells) ->
  forall id co, In (id, co) (m_verts m) -> nth_error pts id = Some (pad co).
Proof.
  intros pts ids cells V S H id co I.
  assert (V' : forall v, In v (m_verts m) -> length (snd v) = 3 /\ fst v < length (m_verts m)).
  { intros v Hv. split; [apply V, Hv|]. apply (in_map fst) in Hv. rewrite S in Hv. apply in_seq in Hv. lia. }
  rewrite (C98_iteration_order _ _ _ V' H). apply In_nth_error in I as [k K].
  assert (Hk : k = id).
  { pose proof (map_nth_error fst _ _ K) as Q. rewrite S in Q. simpl in Q.
    assert (k < length (m_verts m)) by (apply nth_error_Some; rewrite K; discriminate).
    apply (nth_error_nth _ _ 0) in Q. rewrite seq_nth in Q by lia. exact Q. }
  subst k. apply (map_nth_error (fun v => pad (snd v)) _ _ K).
Qed.
End Create.
Print Assumptions C97_cells.
Print Assumptions C98_iteration_order.
Print Assumptions C98_partial.
Example C97_example : create_mesh (fun x => x) 0 3 demo = Ok ([(10, 11, 12); (20, 21, 22)], [1; 0], [mk_vcell [1; 0] 2 [3; 7; 6; 5; 2; 8; 9]])
  /\ cells_wf demo /\ (forall v, In v (m_verts demo) -> length (snd v) = 3 /\ fst v < length (m_verts demo)).
Proof.
  split; [reflexivity|]. split.
  - split; [|split]; simpl.
    + intros c [<-|[<-|[]]]; lia.
    + intros c [<-|[]]; simpl; tauto.
    + exact (proj2 C73_example).
  - simpl. intros v [<-|[<-|[]]]; simpl; lia.
Qed.
(** iterated in another order, the cells refer to the wrong points: vertex 1 has its coordinates at point 0 *)
Theorem C98_order_refuted : exists (m : mesh nat) pts ids cells, create_mesh (fun x => x) 0 3 m = Ok (pts, ids, cells)
  /\ exists id co, In (id, co) (m_verts m) /\ NoDup (map fst (m_verts m)) /\ nth_error pts id <> Some (pad (fun x => x) 0 co).
Proof.
  exists demo. eexists. eexists. eexists. split; [reflexivity|]. exists 1, [10; 11; 12]. split; [left; reflexivity|]. split.
  - simpl. repeat constructor; simpl; intuition discriminate.
  - discriminate.
Qed.
Print Assumptions C98_order_refuted.
(** writePointsToGrid puts every vertex at its identifier, in any order, in up to three dimensions *)
Theorem C98_write_points : forall (C F : Type) (narrow : C -> F) zero (m : mesh C),
  Permutation (map fst (m_verts m)) (seq 0 (length (m_verts m))) -> (forall v, In v (m_verts m) -> length (snd v) <= 3) ->
  exists pts, write_points narrow zero m = Ok pts /\ length pts = length (m_verts m)
  /\ forall id co, In (id, co) (m_verts m) -> exists x y z, nth_error pts id = Some (Some (x, y, z))
    /\ forall k, k < 3 -> nth k [x; y; z] zero = match nth_error co k with Some c => narrow c | None => zero end.
Proof.
  intros C F narrow zero m P L. unfold write_points.
  assert (B : forall v, In v (m_verts m) -> fst v < length (m_verts m)).
  { intros v H. apply (in_map fst) in H. apply (Permutation_in _ P) in H. apply in_seq in H. lia. }
  assert (ND : NoDup (map fst (m_verts m))) by (eapply Permutation_NoDup; [symmetry; exact P|apply seq_NoDup]).
  set (n := length (m_verts m)) in *.
  assert (X : forall co, length co <= 3 -> exists x y z, to_xyz narrow zero co = Ok (x, y, z)
    /\ forall k, k < 3 -> nth k [x; y; z] zero = match nth_error co k with Some c => narrow c | None => zero end).
  { intros [|a [|b [|c [|]]]] H; simpl in H; try lia; do 3 eexists; (split; [reflexivity|]); intros [|[|[|k]]] Hk; try lia; reflexivity. }
  assert (G : forall l pts, length pts = n -> (forall v, In v l -> fst v < n /\ length (snd v) <= 3) -> NoDup (map fst l) ->
    exists pts', each l (fun '(id, coord) pts => bind (to_xyz narrow zero coord) (fun p => store pts id (Some p))) pts = Ok pts' /\ length pts' = n
    /\ (forall id, ~ In id (map fst l) -> nth_error pts' id = nth_error pts id)
    /\ forall id co, In (id, co) l -> exists x y z, nth_error pts' id = Some (Some (x, y, z))
    /\ forall k, k < 3 -> nth k [x; y; z] zero = match nth_error co k with Some c => narrow c | None => zero end).
  { induction l as [|[id co] l IH]; intros pts Lp H N.
    - exists pts. simpl. split; [reflexivity|]. split; [exact Lp|]. split; [reflexivity|intros ? ? []].
    - destruct (H (id, co) (or_introl eq_refl)) as [Hi Hc]. simpl in Hi, Hc. destruct (X co Hc) as (x & y & z & Ex & Sx).
      destruct (store_ok pts id (Some (x, y, z))) as [p1 E1]; [lia|]. inversion N as [|? ? N1 N2]; subst.
      destruct (IH p1) as (pts' & E & L' & O' & S'); [rewrite (store_length _ _ _ _ E1); exact Lp|intros; apply H; right; assumption|exact N2|].
      exists pts'. cbn [each]. rewrite Ex. cbn [bind]. rewrite E1. cbn [bind]. split; [exact E|]. split; [exact L'|]. split.
      + intros j Hj. simpl in Hj. rewrite O' by tauto. rewrite (store_nth _ _ _ _ j E1). destruct (Nat.eqb_spec j id); [subst; tauto|reflexivity].
      + intros j cj [Ej|Ij]; [|apply S', Ij]. injection Ej as <- <-. exists x, y, z. split; [|exact Sx].
        rewrite O' by exact N1. rewrite (store_nth _ _ _ _ id E1), Nat.eqb_refl. reflexivity. }
  destruct (G (m_verts m) (repeat None n)) as (pts & E & Lp & _ & S); [apply repeat_length|intros v H; split; [apply B, H|apply L, H]|exact ND|].
  exists pts. split; [exact E|]. split; [exact Lp|exact S].
Qed.
Print Assumptions C98_write_points.
Example C98_example : write_points (fun x => x) 0 demo = Ok [Some (20, 21, 22); Some (10, 11, 12)] /\ Permutation (map fst (m_verts demo)) (seq 0 2).
Proof. split; [reflexivity|]. apply perm_swap. Qed.

(** ** C99: createMesh stays in the bounds of its arrays *)
(** in three dimensions it does (C97_cells).  In two dimensions vertex_coord has 2n entries but is written up to 3n-1 *)
Theorem C99_two_dimensions_refuted : forall (C F : Type) (narrow : C -> F) zero (m : mesh C), 2 <= length (m_verts m) ->
  Permutation (map fst (m_verts m)) (seq 0 (length (m_verts m))) -> (forall v, In v (m_verts m) -> length (snd v) = 2) ->
  create_mesh narrow zero 2 m = UB.
Proof.
  intros C F narrow zero m N P L. unfold create_mesh. set (n := length (m_verts m)) in *.
  assert (G : forall l vc pts, length vc = n * 2 -> (forall v, In v l -> length (snd v) = 2) -> (exists v, In v l /\ fst v = n - 1) ->
    each l (point_body narrow zero 2) (vc, pts) = UB).
  { induction l as [|[id co] l IH]; intros vc pts Lv Hl (v & Iv & Ev); [destruct Iv|].
    pose proof (Hl (id, co) (or_introl eq_refl)) as Lc. simpl in Lc. destruct co as [|x [|y [|]]]; try discriminate.
    cbn [each]. unfold point_body at 1. cbn [seq each load nth_error bind].
    destruct (Nat.lt_ge_cases (id * 3 + 0) (n * 2)) as [B0|B0]; [|rewrite store_ub by lia; reflexivity].
    destruct (store_ok vc (id * 3 + 0) (Some x)) as [v1 E1]; [lia|]. pose proof (store_length _ _ _ _ E1) as L1. rewrite E1. cbn [bind].
    destruct (Nat.lt_ge_cases (id * 3 + 1) (n * 2)) as [B1|B1]; [|rewrite store_ub by lia; reflexivity].
    destruct (store_ok v1 (id * 3 + 1) (Some y)) as [v2 E2]; [lia|]. pose proof (store_length _ _ _ _ E2) as L2. rewrite E2. cbn.
    apply IH; [lia|intros; apply Hl; right; assumption|]. destruct Iv as [<-|Iv]; [|exists v; split; assumption]. simpl in Ev. lia. }
  rewrite G; [reflexivity|apply repeat_length|exact L|].
  assert (I : In (n - 1) (map fst (m_verts m))) by (apply (Permutation_in _ (Permutation_sym P)), in_seq; lia).
  apply in_map_iff in I as (v & E & I). exists v. split; assumption.
Qed.
Print Assumptions C99_two_dimensions_refuted.
Theorem C99_three_dimensions_partial : forall (C F : Type) (narrow : C -> F) zero (m : mesh C), cells_wf m ->
  (forall v, In v (m_verts m) -> length (snd v) = 3 /\ fst v < length (m_verts m)) -> exists r, create_mesh narrow zero 3 m = Ok r.
Proof. intros C F narrow zero m W V. destruct (C97_cells narrow zero m W V) as (p & c & E & _). eauto. Qed.
Print Assumptions C99_three_dimensions_partial.
Example C99_example : let m := mk_mesh [(0, [1; 2]); (1, [3; 4])] [] [] (fun _ => []) (fun _ => []) (fun _ => []) (fun _ => []) in
  create_mesh (fun x => x) 0 2 m = UB /\ write_points (fun x => x) 0 m = Ok [Some (1, 2, 0); Some (3, 4, 0)].
Proof. split; reflexivity. Qed.

(** ** C100: attribute arrays *)
Lemma scalar_loop {T} (data : list T) : forall n k a, k + n <= length data ->
  each (seq k n) (fun i a => bind (load data i) (fun x => Ok (a ++ [x]))) a = Ok (a ++ firstn n (skipn k data)).
Proof.
  induction n as [|n IH]; intros k a H; simpl; [rewrite app_nil_r; reflexivity|].
  assert (Hk : k < length data) by lia. unfold load at 1. destruct (nth_error data k) as [x|] eqn:E; [|apply nth_error_None in E; lia].
  cbn [bind]. rewrite IH by lia. rewrite <- app_assoc.
  assert (Q : skipn k data = x :: skipn (S k) data).
  { apply nth_error_split in E as (l1 & l2 & -> & <-). rewrite skipn_len_app. replace (S (length l1)) with (length l1 + 1) by lia.
    rewrite skipn_plus_app. reflexivity. }
  rewrite Q. reflexivity.
Qed.
Theorem C100_scalar : forall T (data : list T) n, n <= length data -> set_scalar data n = Ok (1, firstn n data).
Proof. intros. unfold set_scalar. rewrite scalar_loop by lia. reflexivity. Qed.
Print Assumptions C100_scalar.
Lemma comp_loop {T} (data : list (list T)) i (f : list T -> T) a : (forall d, In d data -> nth_error d i = Some (f d)) ->
  each (seq 0 (length data)) (fun k a => bind (load data k) (fun d => bind (load d i) (fun x => Ok (a ++ [x])))) a = Ok (a ++ map f data).
Proof.
  intros H. assert (G : forall l k a, skipn k data = l -> each (seq k (length l)) (fun k a => bind (load data k) (fun d => bind (load d i) (fun x => Ok (a ++ [x])))) a = Ok (a ++ map f l)).
  { induction l as [|d l IH]; intros k a0 E; simpl; [rewrite app_nil_r; reflexivity|].
    assert (Ek : nth_error data k = Some d).
    { rewrite <- (firstn_skipn k data), E. assert (k <= length data) by (destruct (Nat.le_gt_cases k (length data)); [assumption|rewrite skipn_all2 in E by lia; discriminate]).
      rewrite nth_error_app2; rewrite firstn_length; [|lia]. replace (k - min k (length data)) with 0 by lia. reflexivity. }
    unfold load at 1. rewrite Ek. cbn [bind]. unfold load at 1. rewrite (H d) by (eapply nth_error_In, Ek). cbn [bind].
    rewrite IH; [rewrite <- app_assoc; reflexivity|]. change (skipn (S k) data) with (skipn (1 + k) data).
    rewrite <- (skipn_skipn 1 k). rewrite E. reflexivity. }
  apply G. reflexivity.
Qed.
(** k components of at least n values each: n tuples of k values, tuple i being the i-th values of the components *)
Theorem C100_vector : forall T (data : list (list T)) n, (forall d, In d data -> n <= length d) ->
  exists tuples, set_vector data n = Ok (length data, concat tuples) /\ length tuples = n
  /\ forall i, i < n -> exists t, nth_error tuples i = Some t /\ length t = length data
  /\ forall k d, nth_error data k = Some d -> nth_error t k = nth_error d i.
Proof.
  intros T data n H.
  assert (G : forall n k a, (forall d, In d data -> k + n <= length d) -> exists tuples,
    each (seq k n) (fun i a => each (seq 0 (length data)) (fun k a => bind (load data k) (fun d => bind (load d i) (fun x => Ok (a ++ [x])))) a) a = Ok (a ++ concat tuples)
    /\ length tuples = n /\ forall i, i < n -> exists t, nth_error tuples i = Some t /\ length t = length data
      /\ forall j d, nth_error data j = Some d -> nth_error t j = nth_error d (k + i)).
  { clear n H. induction n as [|n IH]; intros k a H.
    - exists []. simpl. rewrite app_nil_r. split; [reflexivity|]. split; [reflexivity|]. intros i Hi. lia.
    - destruct data as [|d0 data'] eqn:Ed.
      { destruct (IH (S k) a) as (tu & E & L & S); [intros d []|]. exists ([] :: tu). simpl in E |- *. rewrite E. split; [reflexivity|]. split; [simpl; lia|].
        intros [|i] Hi; [exists []; repeat split; intros j d Hj; destruct j; discriminate|]. destruct (S i) as (t & A & B & D); [lia|]. exists t. split; [exact A|]. split; [exact B|].
        intros j d Hj. destruct j; discriminate. }
      rewrite <- Ed in *. assert (D0 : k < length d0) by (specialize (H d0); rewrite Ed in H; specialize (H (or_introl eq_refl)); lia).
      destruct (nth_error d0 k) as [x0|] eqn:Ex; [|apply nth_error_None in Ex; lia].
      destruct (IH (S k) (a ++ map (fun d => nth k d x0) data)) as (tu & E & L & S); [intros d Hd; specialize (H d Hd); lia|].
      exists (map (fun d => nth k d x0) data :: tu). cbn [seq each]. rewrite (comp_loop data k (fun d => nth k d x0)).
      2:{ intros d Hd. apply nth_error_nth'. specialize (H d Hd). lia. }
      cbn [bind]. rewrite E. cbn [concat]. rewrite <- app_assoc. split; [reflexivity|]. split; [simpl; lia|].
      intros [|i] Hi.
      + eexists. split; [reflexivity|]. split; [apply map_length|]. intros j d Hj. rewrite Nat.add_0_r. rewrite (map_nth_error _ _ _ Hj).
        symmetry. apply nth_error_nth'. apply nth_error_In in Hj. specialize (H d Hj). lia.
      + destruct (S i) as (t & A & B & D); [lia|]. exists t. split; [exact A|]. split; [exact B|]. intros j d Hj. rewrite (D j d Hj). f_equal. lia. }
  destruct (G n 0 []) as (tu & E & L & S); [exact H|]. exists tu. unfold set_vector. rewrite E. split; [reflexivity|]. split; [exact L|exact S].
Qed.
Print Assumptions C100_vector.
(** a component with too few values is read out of bounds; nothing checks the number of elements *)
Theorem C100_short_refuted : exists (data : list (list nat)) n, data <> [] /\ set_vector data n = UB.
Proof. exists [[1; 2]; [3]], 2. split; [discriminate|reflexivity]. Qed.
Print Assumptions C100_short_refuted.
Example C100_example : set_vector [[1; 2; 3]; [4; 5; 6]] 3 = Ok (2, [1; 4; 2; 5; 3; 6]) /\ set_scalar [7; 8; 9] 2 = Ok (1, [7; 8]).
Proof. split; reflexivity. Qed.

(** ** C101: each vertex cell refers to a point of the grid *)
Definition built {T} (g : vgrid T) : Prop := forall i, In i (g_cells g) -> exists p, nth_error (g_pts g) i = Some (Some p).
(** points added one at a time *)
Theorem C101_add_partial : forall T (ps : list T), let g := fold_left (fun g p => add_point p g) ps (mk_vgrid [] [] 0) in
  g_pts g = map Some ps /\ g_cells g = seq 0 (length ps) /\ built g.
Proof.
  intros T ps. simpl.
  assert (G : forall qs ps : list T, fold_left (fun g p => add_point p g) qs (mk_vgrid (map Some ps) (seq 0 (length ps)) (length ps)) = mk_vgrid (map Some (ps ++ qs)) (seq 0 (length (ps ++ qs))) (length (ps ++ qs))).
  { induction qs as [|q qs IH]; intros rs; simpl; [rewrite app_nil_r; reflexivity|].
    unfold add_point. cbn [g_pts g_cells g_idx]. unfold insert_point. rewrite map_length, Nat.sub_diag, app_nil_r.
    rewrite <- (map_length Some rs) at 1. rewrite firstn_all, (skipn_all2 (map Some rs)) by (rewrite map_length; lia).
    change [Some q] with (map Some [q]). rewrite <- map_app.
    specialize (IH (rs ++ [q])). rewrite <- app_assoc in IH. cbn [app] in IH. rewrite <- IH. f_equal. rewrite app_length. simpl. rewrite Nat.add_1_r, seq_S. reflexivity. }
  specialize (G ps []). simpl in G. rewrite G. cbn [g_pts g_cells]. split; [reflexivity|]. split; [reflexivity|].
  intros i Hi. cbn [g_cells g_pts] in *. apply in_seq in Hi. destruct (nth_error ps i) as [p|] eqn:E; [|apply nth_error_None in E; lia].
  exists p. apply (map_nth_error Some _ _ E).
Qed.
Theorem C101_set_partial : forall T (ps : list T), built (set_points ps (mk_vgrid [] [] 0)).
Proof.
  intros T ps i Hi. cbn in Hi. apply in_seq in Hi. cbn. destruct (nth_error ps i) as [p|] eqn:E; [|apply nth_error_None in E; lia].
  exists p. apply (map_nth_error Some _ _ E).
Qed.
(** setPoints after earlier points, or a second time: the new cells continue the numbering while the points start again *)
Theorem C101_set_twice_refuted : forall T (ps qs : list T), ps <> [] -> qs <> [] -> ~ built (set_points qs (set_points ps (mk_vgrid [] [] 0))).
Proof.
  intros T ps qs P Q B. assert (L : 0 < length ps /\ 0 < length qs) by (destruct ps, qs; simpl; try congruence; lia).
  destruct (B (length ps + length qs - 1)) as [p E].
  - cbn. apply in_or_app. right. apply in_seq. lia.
  - cbn in E. assert (length ps + length qs - 1 < length (map Some qs)) by (apply nth_error_Some; rewrite E; discriminate). rewrite map_length in H. lia.
Qed.
Print Assumptions C101_add_partial.
Print Assumptions C101_set_partial.
Print Assumptions C101_set_twice_refuted.
Example C101_example : set_points [7; 8] (add_point 5 (mk_vgrid [] [] 0)) = mk_vgrid [Some 7; Some 8] [0; 1; 2] 3.
Proof. reflexivity. Qed.
