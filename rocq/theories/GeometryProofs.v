(** Lemmas for GeometryModel. *)
From Coq Require Import Reals List Bool Lia Lra Psatz Permutation.
From Verif Require Import Outcome VectorModel GeometryModel.
Import ListNotations.
Local Open Scope R_scope.

(** specification vocabulary: the closed boundary of a vertex list as directed edges, and sums over them *)
Definition edges {P} (l : list P) : list (P * P) := combine l (tl l ++ firstn 1 l).
Definition swap {P} (e : P * P) : P * P := (snd e, fst e).
Fixpoint rsum {A} (f : A -> R) (l : list A) : R := match l with nil => 0 | a :: l' => f a + rsum f l' end.

Lemma rsum_app {A} (f : A -> R) a b : rsum f (a ++ b) = rsum f a + rsum f b.
Proof. induction a; simpl; [ring|]. rewrite IHa. ring. Qed.
Lemma rsum_perm {A} (f : A -> R) a b : Permutation a b -> rsum f a = rsum f b.
Proof. induction 1; simpl; try congruence; ring. Qed.
Lemma rsum_map {A B} (f : B -> R) (g : A -> B) l : rsum f (map g l) = rsum (fun a => f (g a)) l.
Proof. induction l; simpl; congruence. Qed.
Lemma rsum_ext {A} (f g : A -> R) l : (forall a, In a l -> f a = g a) -> rsum f l = rsum g l.
Proof. induction l; simpl; intros; [reflexivity|]. rewrite H, IHl; auto. Qed.
Lemma rsum_plus {A} (f g : A -> R) l : rsum (fun a => f a + g a) l = rsum f l + rsum g l.
Proof. induction l; simpl; [ring|]. rewrite IHl. ring. Qed.
Lemma rsum_scal {A} c (f : A -> R) l : rsum (fun a => c * f a) l = c * rsum f l.
Proof. induction l; simpl; [ring|]. rewrite IHl. ring. Qed.
Lemma rsum_le {A} (f g : A -> R) l : (forall a, In a l -> f a <= g a) -> rsum f l <= rsum g l.
Proof. induction l; simpl; intros; [lra|]. assert (f a <= g a) by auto. assert (rsum f l <= rsum g l) by auto. lra. Qed.

(** the edge list of the code's loop: predecessor, current *)
Definition path {P} (l : list P) : list (P * P) := combine l (tl l).
Lemma path_snoc {P} (L : list P) b a : path (L ++ [b; a]) = path (L ++ [b]) ++ [(b, a)].
Proof.
  unfold path. induction L as [|x L IH]; [reflexivity|].
  destruct L as [|y L]; [reflexivity|]. cbn [app tl combine] in *. f_equal. exact IH.
Qed.
Lemma path_rev {P} (l : list P) : path (rev l) = rev (map swap (path l)).
Proof.
  induction l as [|a l IH]; [reflexivity|]. destruct l as [|b l]; [reflexivity|].
  change (rev (a :: b :: l)) with ((rev l ++ [b]) ++ [a]). rewrite <- app_assoc. cbn [app].
  rewrite path_snoc. change (rev l ++ [b]) with (rev (b :: l)). rewrite IH. reflexivity.
Qed.
Lemma edges_path {P} (x : P) l : edges (x :: l) = path (x :: l ++ [x]).
Proof.
  unfold edges, path. cbn [tl firstn].
  assert (G : forall (a b : list P) z, length a = length b -> combine (a ++ [z]) b = combine a b).
  { induction a as [|p a IH]; intros [|q b] z L; simpl in L; try discriminate; [reflexivity|]. simpl. f_equal. apply IH. lia. }
  change (x :: l ++ [x]) with ((x :: l) ++ [x]). symmetry. apply G. rewrite app_length. simpl. lia.
Qed.
Lemma edges_rot1 {P} (x : P) l : Permutation (edges (l ++ [x])) (edges (x :: l)).
Proof.
  destruct l as [|y l]; [apply Permutation_refl|].
  change ((y :: l) ++ [x]) with (y :: (l ++ [x])). rewrite !edges_path.
  rewrite <- app_assoc. cbn [app].
  change (y :: l ++ [x; y]) with ((y :: l) ++ [x; y]). rewrite path_snoc.
  change (path (x :: y :: l ++ [x])) with ((x, y) :: path (y :: l ++ [x])).
  apply Permutation_sym, Permutation_cons_append.
Qed.
Lemma edges_rot {P} (a b : list P) : Permutation (edges (b ++ a)) (edges (a ++ b)).
Proof.
  revert b. induction a as [|x a IH]; intro b; [rewrite app_nil_r; apply Permutation_refl|].
  replace (b ++ x :: a) with ((b ++ [x]) ++ a) by (rewrite <- app_assoc; reflexivity).
  eapply Permutation_trans; [apply IH|]. rewrite app_assoc. apply edges_rot1.
Qed.
Lemma edges_rev {P} (l : list P) : Permutation (edges (rev l)) (map swap (edges l)).
Proof.
  destruct l as [|x l]; [apply Permutation_refl|]. simpl rev.
  eapply Permutation_trans; [apply edges_rot1|]. rewrite !edges_path.
  replace (x :: rev l ++ [x]) with (rev (x :: l ++ [x])).
  2:{ simpl. rewrite rev_app_distr. reflexivity. }
  rewrite path_rev. apply Permutation_sym, Permutation_rev.
Qed.
Lemma edges_map {P Q} (f : P -> Q) l : edges (map f l) = map (fun e => (f (fst e), f (snd e))) (edges l).
Proof.
  unfold edges. rewrite firstn_map. replace (tl (map f l)) with (map f (tl l)) by (destruct l; reflexivity).
  rewrite <- map_app. generalize (tl l ++ firstn 1 l). intro r. revert r. induction l as [|a l IH]; intros [|b r]; simpl; try reflexivity.
  f_equal. apply IH.
Qed.
Lemma edges_fst {P} (l : list P) : map fst (edges l) = l.
Proof.
  unfold edges. assert (G : forall a b : list P, length a = length b -> map fst (combine a b) = a).
  { induction a as [|p a IH]; intros [|q b] L; simpl in *; try discriminate; [reflexivity|]. f_equal. apply IH. lia. }
  apply G. destruct l; simpl; [reflexivity|]. rewrite app_length. simpl. lia.
Qed.
Lemma edges_snd {P} (l : list P) : Permutation (map snd (edges l)) l.
Proof.
  unfold edges. assert (G : forall a b : list P, length a = length b -> map snd (combine a b) = b).
  { induction a as [|p a IH]; intros [|q b] L; simpl in *; try discriminate; [reflexivity|]. f_equal. apply IH. lia. }
  rewrite G; [|destruct l; simpl; [reflexivity|rewrite app_length; simpl; lia]].
  destruct l; [constructor|]. simpl. apply Permutation_sym, Permutation_cons_append.
Qed.
Lemma telescope {P} (g : P -> R) l : rsum (fun e => g (snd e) - g (fst e)) (edges l) = 0.
Proof.
  assert (E : rsum (fun e : P * P => g (snd e) - g (fst e)) (edges l) = rsum g (map snd (edges l)) - rsum g (map fst (edges l))).
  { induction (edges l); simpl; [ring|]. rewrite IHl0. ring. }
  rewrite E, edges_fst, (rsum_perm g _ _ (edges_snd l)). ring.
Qed.
(** cutting along a diagonal *)
Lemma edges_cut {P} (a b : P) l1 l2 (f : P * P -> R) : f (b, a) = - f (a, b) ->
  rsum f (edges (a :: l1 ++ b :: l2)) = rsum f (edges (a :: l1 ++ [b])) + rsum f (edges (b :: l2 ++ [a])).
Proof.
  intro H. rewrite !edges_path, <- !app_assoc. cbn [app].
  assert (G : forall (x y : P) u v, path (x :: u ++ y :: v) = path (x :: u ++ [y]) ++ path (y :: v)).
  { intros x y u v. revert x. induction u as [|z u IH]; intro x; [reflexivity|].
    change (path (x :: (z :: u) ++ y :: v)) with ((x, z) :: path (z :: u ++ y :: v)).
    change (path (x :: (z :: u) ++ [y])) with ((x, z) :: path (z :: u ++ [y])). rewrite IH. reflexivity. }
  rewrite (G a b l1 (l2 ++ [a])), (G a b l1 [a]).
  replace (b :: l2 ++ [a; b]) with (b :: l2 ++ a :: [b]) by reflexivity. rewrite (G b a l2 [b]), !rsum_app.
  change (path [b; a]) with [(b, a)]. change (path [a; b]) with [(a, b)]. simpl. rewrite H. ring.
Qed.

(** what the loops compute, seen through any additive component *)
Lemma pairs_spec {P S} (body : P -> P -> S -> S) (pi : S -> R) f :
  (forall a b s, pi (body a b s) = pi s + f (a, b)) ->
  forall args t s, pi (pairs body t args s) = pi s + rsum f (path (t :: args)).
Proof.
  intros H. induction args as [|a args IH]; intros t s; [simpl; ring|]. simpl pairs. rewrite IH, H.
  change (path (t :: a :: args)) with ((t, a) :: path (a :: args)). simpl. ring.
Qed.
Lemma pairs_closed {P S} (body : P -> P -> S -> S) (pi : S -> R) f :
  (forall a b s, pi (body a b s) = pi s + f (a, b)) ->
  forall args t s, pi (pairs body t (args ++ [t]) s) = pi s + rsum f (edges (t :: args)).
Proof. intros H args t s. rewrite (pairs_spec body pi f H), edges_path. reflexivity. Qed.
Lemma edge_loop_spec {P S} (body : P -> P -> S -> S) (pi : S -> R) f :
  (forall a b s, pi (body a b s) = pi s + f (a, b)) ->
  forall l s, pi (edge_loop body l s) = pi s + rsum f (edges l).
Proof.
  intros H l s. unfold edge_loop. destruct (rev l) as [|po r] eqn:E.
  - assert (l = nil) by (rewrite <- (rev_involutive l), E; reflexivity). subst. simpl. ring.
  - assert (G : forall l st, pi (fst (fold_left (fun st pn => (body (snd st) pn (fst st), pn)) l st)) = pi (fst st) + rsum f (path (snd st :: l))).
    { clear -H. induction l as [|a l IH]; intros [s po]; [simpl; ring|]. simpl fold_left. rewrite IH. cbn [fst snd]. rewrite H.
      change (path (po :: a :: l)) with ((po, a) :: path (a :: l)). simpl. ring. }
    rewrite G. cbn [fst snd]. f_equal.
    assert (L : l = rev r ++ [po]) by (rewrite <- (rev_involutive l), E; reflexivity). subst l.
    rewrite (rsum_perm f _ _ (edges_rot1 po (rev r))), edges_path. reflexivity.
Qed.

(** vectors *)
Definition comp (f : v3 -> R) := f = x3 \/ f = y3 \/ f = z3.
Lemma v3_ext a b : x3 a = x3 b -> y3 a = y3 b -> z3 a = z3 b -> a = b.
Proof. destruct a, b; simpl; intros; subst; reflexivity. Qed.
Lemma v3_comp a b : (forall c, comp c -> c a = c b) -> a = b.
Proof. intro H. apply v3_ext; apply H; unfold comp; tauto. Qed.
Lemma comp_add c a b : comp c -> c (add3 a b) = c a + c b.
Proof. intros [->|[->| ->]]; reflexivity. Qed.
Lemma comp_div c a s : comp c -> c (div3 a s) = c a / s.
Proof. intros [->|[->| ->]]; reflexivity. Qed.
Lemma comp_scale c a s : comp c -> c (scale3 s a) = s * c a.
Proof. intros [->|[->| ->]]; reflexivity. Qed.
Lemma comp_zero c : comp c -> c zero3 = 0.
Proof. intros [->|[->| ->]]; reflexivity. Qed.
Lemma fold_add3 c l a : comp c -> c (fold_left add3 l a) = c a + rsum c l.
Proof. intro H. revert a. induction l as [|x l IH]; intro a; simpl; [ring|]. rewrite IH, comp_add by assumption. ring. Qed.
Definition mean (l : list v3) : v3 := V3 (rsum x3 l / INR (length l)) (rsum y3 l / INR (length l)) (rsum z3 l / INR (length l)).
Lemma comp_mean c l : comp c -> c (mean l) = rsum c l / INR (length l).
Proof. intros [->|[->| ->]]; reflexivity. Qed.
Lemma average3_ok dbg l : l <> nil -> average3 dbg l = Ok (mean l).
Proof.
  intro N. unfold average3, assert_then. destruct l as [|a l]; [congruence|].
  assert (E : Ok (div3 (fold_left add3 (a :: l) zero3) (INR (length (a :: l)))) = Ok (mean (a :: l))).
  { f_equal. apply v3_comp. intros c Hc. rewrite comp_div, comp_mean, fold_add3, comp_zero by assumption. f_equal. ring. }
  destruct dbg; exact E.
Qed.
Lemma average3_variadic_mean t args : average3_variadic t args = mean (t :: args).
Proof.
  apply v3_comp. intros c Hc. unfold average3_variadic. rewrite comp_div, comp_mean, fold_add3 by assumption.
  cbn [length rsum]. rewrite Nat.add_1_r. reflexivity.
Qed.
Lemma mean_perm l l' : Permutation l l' -> mean l = mean l'.
Proof.
  intro P. apply v3_comp. intros c Hc. rewrite !comp_mean by assumption.
  rewrite (rsum_perm c _ _ P), (Permutation_length P). reflexivity.
Qed.

(** determinants *)
Definition det3 (a b c : v3) : R := dot3 a (cross3 b c).
(** twice the area vector of the triangle a b c *)
Definition nvec (a b c : v3) : v3 := add3 (add3 (cross3 a b) (cross3 b c)) (cross3 c a).
Lemma triangle3_normal_nvec a b c : triangle3_normal a b c = scale3 (1 / 2) (nvec a b c).
Proof. apply v3_ext; simpl; ring. Qed.
Lemma normal_dot a b c : dot3 (triangle3_normal a b c) c = 1 / 2 * det3 a b c.
Proof. unfold dot3, det3, dot3; simpl. ring. Qed.
