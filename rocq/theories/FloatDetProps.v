(** Determinants and inverses of square matrices of every size, and midpoints, in floating-point arithmetic. *)
From Coq Require Import ZArith List Bool Lia Reals Lra Psatz Arith Factorial.
From Verif Require Import FloatModel FloatShapeModel FloatRound FloatProofs FloatProps FloatGeomProps FloatExpr FloatShapeProps.
From Coq Require Import SpecFloat.
Import ListNotations.
Local Open Scope R_scope.

(** textbook expansion along the first row; the matrix without its first row and column c *)
Definition minor {A : Type} (m : nat -> nat -> A) (c : nat) : nat -> nat -> A := fun i j => m (S i) (if j <? c then j else S j)%nat.
Fixpoint detR (n : nat) (m : nat -> nat -> R) : R :=
  match n with
  | O => 1
  | S k => sumR (map (fun c => (-1) ^ c * m O c * detR k (minor m c)) (seq 0 n))
  end.
(** the same sum with every sign positive *)
Fixpoint permR (n : nat) (m : nat -> nat -> R) : R :=
  match n with
  | O => 1
  | S k => sumR (map (fun c => Rabs (m O c) * permR k (minor m c)) (seq 0 n))
  end.
(** what underflow can contribute *)
Fixpoint det_lossR (t : R) (n : nat) (m : nat -> nat -> R) : R :=
  match n with
  | O => 0
  | S O => 0
  | S k => sumR (map (fun c => permR k (minor m c) + det_lossR t k (minor m c) * (Rabs (m O c) + t) + 1) (seq 0 n))
  end.
(** the number of roundings: one for each addition after the first, two for each product *)
Definition det_depth (n : nat) : nat := (n * (n + 1) / 2 + n - 2)%nat.

(** the formula *)
Fixpoint edet (n : nat) (m : nat -> nat -> expr) : expr :=
  match n with
  | O => EUnit false
  | S O => m O O
  | S (S _ as k) =>
      let t c := EMul (EMul (EUnit (Nat.eqb (c mod 2) 1)) (m O c)) (edet k (minor m c)) in
      fold_left (fun e c => EAdd e (t c)) (seq 1 k) (EPlus0 (t O))
  end.
Lemma edet_SS k m : edet (S (S k)) m =
  fold_left (fun e c => EAdd e (EMul (EMul (EUnit (Nat.eqb (c mod 2) 1)) (m O c)) (edet (S k) (minor m c)))) (seq 1 (S k))
    (EPlus0 (EMul (EMul (EUnit false) (m O O)) (edet (S k) (minor m O)))).
Proof. reflexivity. Qed.
Lemma fdet_SS prec emax k A : fdeterminant prec emax (S (S k)) A =
  fold_left (fun det i => SFadd prec emax det (SFmul prec emax (SFmul prec emax (of_int prec emax (if Nat.eqb (i mod 2) 1 then -1 else 1)) (A O i)) (fdeterminant prec emax (S k) (fcofactor A 0 i)))) (seq 0 (S (S k))) f0.
Proof. reflexivity. Qed.
Lemma feval_fold prec emax v (t : nat -> expr) l : forall e, feval prec emax v (fold_left (fun e c => EAdd e (t c)) l e) =
  fold_left (fun s c => SFadd prec emax s (feval prec emax v (t c))) l (feval prec emax v e).
Proof. induction l as [|c l IH]; intros e; [reflexivity|]. cbn [fold_left]. rewrite IH, feval_add. reflexivity. Qed.
Lemma feval_det prec emax v n : forall m, feval prec emax v (edet (S n) m) = fdeterminant prec emax (S n) (fun i j => feval prec emax v (m i j)).
Proof.
  induction n as [|n IH]; intros m; [reflexivity|]. rewrite edet_SS, fdet_SS, feval_fold.
  change (seq 0 (S (S n))) with (0%nat :: seq 1 (S n)). cbn [fold_left].
  assert (T : forall c, feval prec emax v (EMul (EMul (EUnit (Nat.eqb (c mod 2) 1)) (m O c)) (edet (S n) (minor m c))) =
    SFmul prec emax (SFmul prec emax (of_int prec emax (if Nat.eqb (c mod 2) 1 then -1 else 1)) (feval prec emax v (m O c))) (fdeterminant prec emax (S n) (fcofactor (fun i j => feval prec emax v (m i j)) 0 c))).
  { intros c. rewrite !feval_mul, IH. reflexivity. }
  assert (E0 : feval prec emax v (EPlus0 (EMul (EMul (EUnit false) (m O O)) (edet (S n) (minor m O)))) =
    SFadd prec emax f0 (feval prec emax v (EMul (EMul (EUnit (Nat.eqb (0 mod 2) 1)) (m O O)) (edet (S n) (minor m O))))) by reflexivity.
  rewrite E0, T. generalize (SFadd prec emax f0 (SFmul prec emax (SFmul prec emax (of_int prec emax (if Nat.eqb (0 mod 2) 1 then -1 else 1)) (feval prec emax v (m O O))) (fdeterminant prec emax (S n) (fcofactor (fun i j => feval prec emax v (m i j)) 0 0)))).
  generalize (seq 1 (S n)). induction l as [|c l IHl]; intros s; [reflexivity|]. cbn [fold_left]. rewrite T. apply IHl.
Qed.
Lemma sgn_pow c : sgnR (Nat.eqb (c mod 2) 1) = (-1) ^ c.
Proof.
  rewrite (Nat.div_mod c 2) at 2 by lia. rewrite pow_add, pow_mult. replace ((-1) ^ 2) with 1 by ring. rewrite pow1, Rmult_1_l.
  pose proof (Nat.mod_upper_bound c 2 ltac:(lia)). destruct (c mod 2)%nat as [|[|]]; cbn; unfold sgnR; try lra. lia.
Qed.
Section Sums.
Variable t : nat -> expr.
Lemma reval_fold v l : forall e, reval v (fold_left (fun e c => EAdd e (t c)) l e) = reval v e + sumR (map (fun c => reval v (t c)) l).
Proof. induction l as [|c l IH]; intros e; [cbn; ring|]. cbn [fold_left map]. rewrite IH, sumR_cons. cbn [reval]. ring. Qed.
Lemma aeval_fold v l : forall e, aeval v (fold_left (fun e c => EAdd e (t c)) l e) = aeval v e + sumR (map (fun c => aeval v (t c)) l).
Proof. induction l as [|c l IH]; intros e; [cbn; ring|]. cbn [fold_left map]. rewrite IH, sumR_cons. cbn [aeval]. ring. Qed.
Lemma lost_fold prec emax v l : forall e, lost prec emax v (fold_left (fun e c => EAdd e (t c)) l e) = lost prec emax v e + sumR (map (fun c => lost prec emax v (t c)) l).
Proof. induction l as [|c l IH]; intros e; [cbn; ring|]. cbn [fold_left map]. rewrite IH, sumR_cons. cbn [lost]. ring. Qed.
Lemma depth_fold d l : (forall c, depth (t c) = d) -> forall e, (d <= depth e)%nat -> depth (fold_left (fun e c => EAdd e (t c)) l e) = (depth e + length l)%nat.
Proof. intros D. induction l as [|c l IH]; intros e H; [cbn; lia|]. cbn [fold_left]. rewrite IH; cbn [depth length]; rewrite D; lia. Qed.
Lemma terms_fold d l : (forall c, terms (t c) = d) -> forall e, terms (fold_left (fun e c => EAdd e (t c)) l e) = (terms e + length l * d)%nat.
Proof. intros D. induction l as [|c l IH]; intros e; [cbn; lia|]. cbn [fold_left]. rewrite IH; cbn [terms length]; rewrite D; lia. Qed.
Lemma degree_fold d l : (forall c, degree (t c) = d) -> forall e, degree e = d -> degree (fold_left (fun e c => EAdd e (t c)) l e) = d.
Proof. intros D. induction l as [|c l IH]; intros e E; [exact E|]. cbn [fold_left]. apply IH. cbn [degree]. rewrite D, E. lia. Qed.
Lemma no_division_fold l : (forall c, no_division (t c)) -> forall e, no_division e -> no_division (fold_left (fun e c => EAdd e (t c)) l e).
Proof. intros D. induction l as [|c l IH]; intros e H; [exact H|]. cbn [fold_left]. apply IH. split; auto. Qed.
End Sums.
Lemma reval_edet v n : forall m, reval v (edet (S n) m) = detR (S n) (fun i j => reval v (m i j)).
Proof.
  induction n as [|n IH]; intros m; [cbn; ring|]. rewrite edet_SS, reval_fold. change (detR (S (S n)) (fun i j => reval v (m i j))) with
    (sumR (map (fun c => (-1) ^ c * reval v (m O c) * detR (S n) (minor (fun i j => reval v (m i j)) c)) (0%nat :: seq 1 (S n)))).
  rewrite map_cons, sumR_cons. f_equal.
  - cbn [reval]. rewrite IH. unfold sgnR. rewrite pow_O. reflexivity.
  - f_equal. apply map_ext. intros c. cbn [reval]. rewrite IH, sgn_pow. reflexivity.
Qed.
Lemma permR_abs n : forall m, permR n (fun i j => Rabs (m i j)) = permR n m.
Proof.
  induction n as [|n IH]; intros m; [reflexivity|]. cbn [permR]. f_equal. apply map_ext. intros c. rewrite Rabs_Rabsolu. f_equal. apply (IH (minor m c)).
Qed.
(** entries that are variables *)
Definition vars (m : nat -> nat -> expr) : Prop := forall i j, exists k, m i j = EVar k.
Lemma vars_minor m c : vars m -> vars (minor m c). Proof. intros V i j. apply V. Qed.
Lemma aeval_var v m i j : vars m -> aeval v (m i j) = Rabs (reval v (m i j)). Proof. intros V. destruct (V i j) as [k ->]. reflexivity. Qed.
Lemma aeval_edet v n : forall m, vars m -> aeval v (edet (S n) m) = permR (S n) (fun i j => reval v (m i j)).
Proof.
  induction n as [|n IH]; intros m V; [cbn; rewrite (aeval_var v m O O V); ring|]. rewrite edet_SS, aeval_fold. change (permR (S (S n)) (fun i j => reval v (m i j))) with
    (sumR (map (fun c => Rabs (reval v (m O c)) * permR (S n) (minor (fun i j => reval v (m i j)) c)) (0%nat :: seq 1 (S n)))).
  rewrite map_cons, sumR_cons. f_equal.
  - cbn [aeval]. rewrite IH by (apply vars_minor, V). rewrite (aeval_var v m _ _ V). unfold minor. ring.
  - f_equal. apply map_ext. intros c. cbn [aeval]. rewrite IH by (apply vars_minor, V). rewrite (aeval_var v m _ _ V). unfold minor. ring.
Qed.
Lemma lost_var prec emax v m i j : vars m -> lost prec emax v (m i j) = 0. Proof. intros V. destruct (V i j) as [k ->]. reflexivity. Qed.
Lemma lost_edet prec emax v n : forall m, vars m -> lost prec emax v (edet (S n) m) = det_lossR (eta prec emax) (S n) (fun i j => reval v (m i j)).
Proof.
  induction n as [|n IH]; intros m V; [cbn; apply lost_var, V|]. rewrite edet_SS, lost_fold. change (det_lossR (eta prec emax) (S (S n)) (fun i j => reval v (m i j))) with
    (sumR (map (fun c => permR (S n) (minor (fun i j => reval v (m i j)) c) + det_lossR (eta prec emax) (S n) (minor (fun i j => reval v (m i j)) c) * (Rabs (reval v (m O c)) + eta prec emax) + 1) (0%nat :: seq 1 (S n)))).
  rewrite map_cons, sumR_cons. f_equal.
  - cbn [lost aeval]. rewrite (lost_var _ _ v m _ _ V), (IH _ (vars_minor _ _ V)), (aeval_edet _ _ _ (vars_minor _ _ V)), (aeval_var v m _ _ V). unfold minor. ring.
  - f_equal. apply map_ext. intros c. cbn [lost aeval]. rewrite (lost_var _ _ v m _ _ V), (IH _ (vars_minor _ _ V)), (aeval_edet _ _ _ (vars_minor _ _ V)), (aeval_var v m _ _ V). unfold minor. ring.
Qed.
Lemma depth_edet n : forall m, vars m -> depth (edet (S n) m) = (n * (n + 5) / 2)%nat.
Proof.
  induction n as [|n IH]; intros m V; [destruct (V O O) as [k E]; cbn; rewrite E; reflexivity|]. rewrite edet_SS.
  set (t := fun c => EMul (EMul (EUnit (Nat.eqb (c mod 2) 1)) (m O c)) (edet (S n) (minor m c))).
  assert (T : forall c, depth (t c) = (n * (n + 5) / 2 + 2)%nat).
  { intros c. unfold t. cbn [depth]. destruct (V O c) as [k E]. rewrite E. rewrite (IH _ (vars_minor _ _ V)). cbn [depth]. lia. }
  change (depth (fold_left (fun e c => EAdd e (t c)) (seq 1 (S n)) (EPlus0 (t O))) = (S n * (S n + 5) / 2)%nat).
  rewrite (depth_fold t _ _ T) by (cbn [depth]; rewrite T; lia). cbn [depth]. rewrite T, seq_length.
  replace (S n * (S n + 5))%nat with (n * (n + 5) + (n + 3) * 2)%nat by ring. rewrite Nat.div_add by lia. lia.
Qed.
Lemma terms_edet n : forall m, vars m -> terms (edet (S n) m) = fact (S n).
Proof.
  induction n as [|n IH]; intros m V; [destruct (V O O) as [k E]; cbn; rewrite E; reflexivity|]. rewrite edet_SS.
  set (t := fun c => EMul (EMul (EUnit (Nat.eqb (c mod 2) 1)) (m O c)) (edet (S n) (minor m c))).
  assert (T : forall c, terms (t c) = fact (S n)).
  { intros c. unfold t. cbn [terms]. destruct (V O c) as [k E]. rewrite E. rewrite (IH _ (vars_minor _ _ V)). cbn [terms]. lia. }
  change (terms (fold_left (fun e c => EAdd e (t c)) (seq 1 (S n)) (EPlus0 (t O))) = (fact (S (S n)))%nat).
  rewrite (terms_fold t _ _ T). cbn [terms]. rewrite T, seq_length. change (fact (S (S n))) with (S (S n) * fact (S n))%nat. lia.
Qed.
Lemma degree_edet n : forall m, vars m -> degree (edet (S n) m) = S n.
Proof.
  induction n as [|n IH]; intros m V; [destruct (V O O) as [k E]; cbn; rewrite E; reflexivity|]. rewrite edet_SS.
  set (t := fun c => EMul (EMul (EUnit (Nat.eqb (c mod 2) 1)) (m O c)) (edet (S n) (minor m c))).
  assert (T : forall c, degree (t c) = S (S n)).
  { intros c. unfold t. cbn [degree]. destruct (V O c) as [k E]. rewrite E. rewrite (IH _ (vars_minor _ _ V)). reflexivity. }
  apply (degree_fold t _ _ T). apply T.
Qed.
Lemma no_division_edet n : forall m, vars m -> no_division (edet (S n) m).
Proof.
  induction n as [|n IH]; intros m V; [destruct (V O O) as [k E]; cbn; rewrite E; exact I|]. rewrite edet_SS.
  set (t := fun c => EMul (EMul (EUnit (Nat.eqb (c mod 2) 1)) (m O c)) (edet (S n) (minor m c))).
  assert (T : forall c, no_division (t c)).
  { intros c. unfold t. cbn [no_division]. destruct (V O c) as [k E]. rewrite E. split; [split; exact I|apply IH, vars_minor, V]. }
  apply (no_division_fold t _ T). apply T.
Qed.

(** the entries of an n x n matrix *)
Definition entries (n : nat) (P : spec_float -> Prop) (A : nat -> nat -> spec_float) : Prop := forall i j, (i < n)%nat -> (j < n)%nat -> P (A i j).
(** only the entries of the matrix count *)
Lemma minor_lt (n c j : nat) : (j < n)%nat -> ((if j <? c then j else S j) < S n)%nat. Proof. intros. destruct (j <? c)%nat; lia. Qed.
Lemma fdet_ext prec emax n : forall A B, (forall i j, (i < S n)%nat -> (j < S n)%nat -> A i j = B i j) -> fdeterminant prec emax (S n) A = fdeterminant prec emax (S n) B.
Proof.
  induction n as [|n IH]; intros A B E; [apply E; lia|]. rewrite !fdet_SS. generalize f0.
  assert (G : forall c, In c (seq 0 (S (S n))) -> (c < S (S n))%nat) by (intros c H; apply in_seq in H; lia).
  revert G. generalize (seq 0 (S (S n))). induction l as [|c l IHl]; intros G s; [reflexivity|]. cbn [fold_left].
  rewrite (IH (fcofactor A 0 c) (fcofactor B 0 c)).
  - rewrite (E O c) by (try (apply G; left; reflexivity); lia). apply IHl. intros; apply G; right; assumption.
  - intros i j Hi Hj. unfold fcofactor. apply E; [cbn; lia|apply minor_lt; exact Hj].
Qed.
Lemma detR_ext n : forall A B, (forall i j, (i < n)%nat -> (j < n)%nat -> A i j = B i j) -> detR n A = detR n B.
Proof.
  induction n as [|n IH]; intros A B E; [reflexivity|]. cbn [detR]. f_equal. apply map_ext_in. intros c H. apply in_seq in H. rewrite (E O c) by lia. f_equal.
  apply IH. intros i j Hi Hj. unfold minor. apply E; [lia|apply minor_lt; exact Hj].
Qed.
Lemma permR_ext n : forall A B, (forall i j, (i < n)%nat -> (j < n)%nat -> A i j = B i j) -> permR n A = permR n B.
Proof.
  induction n as [|n IH]; intros A B E; [reflexivity|]. cbn [permR]. f_equal. apply map_ext_in. intros c H. apply in_seq in H. rewrite (E O c) by lia. f_equal.
  apply IH. intros i j Hi Hj. unfold minor. apply E; [lia|apply minor_lt; exact Hj].
Qed.
Lemma det_lossR_ext t n : forall A B, (forall i j, (i < n)%nat -> (j < n)%nat -> A i j = B i j) -> det_lossR t n A = det_lossR t n B.
Proof.
  induction n as [|n IH]; intros A B E; [reflexivity|]. destruct n as [|n]; [reflexivity|].
  change (sumR (map (fun c => permR (S n) (minor A c) + det_lossR t (S n) (minor A c) * (Rabs (A O c) + t) + 1) (seq 0 (S (S n)))) =
    sumR (map (fun c => permR (S n) (minor B c) + det_lossR t (S n) (minor B c) * (Rabs (B O c) + t) + 1) (seq 0 (S (S n))))).
  f_equal. apply map_ext_in. intros c H. apply in_seq in H. rewrite (E O c) by lia.
  rewrite (IH (minor A c) (minor B c)), (permR_ext (S n) (minor A c) (minor B c)); [reflexivity| |]; intros i j Hi Hj; unfold minor; (apply E; [lia|apply minor_lt; exact Hj]).
Qed.
(** the entries as values of variables *)
Definition evars (n : nat) : nat -> nat -> expr := fun i j => EVar (i * n + j).
Definition env (n : nat) (A : nat -> nat -> spec_float) : nat -> spec_float := fun k => if (k <? n * n)%nat then A (k / n)%nat (k mod n)%nat else f0.
Lemma env_entry n A i j : (i < n)%nat -> (j < n)%nat -> env n A (i * n + j) = A i j.
Proof.
  intros Hi Hj. unfold env. replace (i * n + j <? n * n)%nat with true by (symmetry; apply Nat.ltb_lt; nia).
  rewrite Nat.div_add_l by lia. rewrite Nat.div_small by lia. rewrite Nat.add_0_r, Nat.add_comm, Nat.mod_add by lia. rewrite Nat.mod_small by lia. reflexivity.
Qed.
Lemma env_all n A (P : spec_float -> Prop) : P f0 -> entries n P A -> forall k, P (env n A k).
Proof.
  intros P0 E k. unfold env. destruct (k <? n * n)%nat eqn:L; [|exact P0]. apply Nat.ltb_lt in L. assert (n <> 0)%nat by nia. apply E.
  - apply Nat.div_lt_upper_bound; [lia|nia].
  - apply Nat.mod_upper_bound. lia.
Qed.
Lemma evars_vars n : vars (evars n). Proof. intros i j. eexists. reflexivity. Qed.
Lemma feval_env prec emax n A : feval prec emax (env (S n) A) (edet (S n) (evars (S n))) = fdeterminant prec emax (S n) A.
Proof. rewrite feval_det. apply fdet_ext. intros i j Hi Hj. apply env_entry; assumption. Qed.
Lemma reval_env n A : reval (fun k => FR (env (S n) A k)) (edet (S n) (evars (S n))) = detR (S n) (fun i j => FR (A i j)).
Proof. rewrite reval_edet. apply detR_ext. intros i j Hi Hj. cbn [reval evars]. rewrite env_entry by assumption. reflexivity. Qed.
Lemma det_depth_S n : det_depth (S n) = (n * (n + 5) / 2)%nat.
Proof. unfold det_depth. replace (S n * (S n + 1))%nat with (n * (n + 3) + 1 * 2)%nat by ring. rewrite Nat.div_add by lia. replace (n * (n + 5))%nat with (n * (n + 3) + n * 2)%nat by ring. rewrite Nat.div_add by lia. lia. Qed.

(** ** C149: determinants of every size *)
(** the error, n entries of which are multiplied at a time *)
Theorem C149_error prec emax n A : format prec emax -> (1 <= n)%nat -> entries n (number prec emax) A -> fin (fdeterminant prec emax n A) = true ->
  let a := fun i j => FR (A i j) in
  Rabs (FR (fdeterminant prec emax n A) - detR n a) <=
    ((1 + uu prec) ^ det_depth n - 1) * permR n a + eta prec emax * ((1 + uu prec) ^ det_depth n * det_lossR (eta prec emax) n a).
Proof.
  intros Hf N V Fe a. destruct n as [|n]; [lia|]. rewrite <- feval_env in *. rewrite det_depth_S.
  pose proof (feval_error' prec emax Hf (env (S n) A) (env_all _ _ _ eq_refl V) _ (no_div_divisors prec _ (no_division_edet n _ (evars_vars _))) Fe) as E.
  rewrite reval_env, (depth_edet _ _ (evars_vars _)), (aeval_edet _ _ _ (evars_vars _)), (lost_edet _ _ _ _ _ (evars_vars _)) in E.
  assert (X : forall i j, (i < S n)%nat -> (j < S n)%nat -> reval (fun k => FR (env (S n) A k)) (evars (S n) i j) = a i j) by (intros i j Hi Hj; cbn [reval evars]; rewrite env_entry by assumption; reflexivity).
  rewrite (permR_ext _ _ a X), (det_lossR_ext _ _ _ a X) in E. exact E.
Qed.
(** whole entries of magnitude at most M: exact as long as n! M^n fits the significand *)
Theorem C149_exact prec emax M n A : format prec emax -> (1 <= n)%nat -> 1 <= M ->
  entries n (fun x => number prec emax x /\ fin x = true /\ whole (FR x) /\ Rabs (FR x) <= M) A -> INR (fact n) * M ^ n < pw prec ->
  fin (fdeterminant prec emax n A) = true /\ FR (fdeterminant prec emax n A) = detR n (fun i j => FR (A i j)) /\ whole (FR (fdeterminant prec emax n A)).
Proof.
  intros Hf N HM V L. destruct n as [|n]; [lia|]. rewrite <- feval_env.
  assert (V' : forall k, let x := env (S n) A k in number prec emax x /\ fin x = true /\ whole (FR x) /\ Rabs (FR x) <= M).
  { apply (env_all _ _ (fun x => number prec emax x /\ fin x = true /\ whole (FR x) /\ Rabs (FR x) <= M)); [|exact V]. repeat split; [exists 0%Z; reflexivity|]. cbn. rewrite Rabs_R0. lra. }
  destruct (feval_exact_bounded prec emax Hf (env (S n) A) (fun k => proj1 (V' k)) M (edet (S n) (evars (S n))) HM) as (F & E & W).
  - intros k. apply V'.
  - apply no_division_edet, evars_vars.
  - intros k. destruct (V' k) as (_ & ? & ? & _). auto.
  - rewrite (terms_edet _ _ (evars_vars _)), (degree_edet _ _ (evars_vars _)). exact L.
  - rewrite E. rewrite <- reval_env. auto.
Qed.
Lemma det_number prec emax n A : format prec emax -> entries (S n) (number prec emax) A -> number prec emax (fdeterminant prec emax (S n) A).
Proof. intros Hf V. rewrite <- feval_env. apply feval_valid; [exact Hf|apply (env_all _ _ _ eq_refl V)|apply no_div_divisors, no_division_edet, evars_vars]. Qed.
(** without one row and one column *)
Definition without {A : Type} (m : nat -> nat -> A) (r c : nat) : nat -> nat -> A := fun i j => m (if i <? r then i else S i)%nat (if j <? c then j else S j)%nat.
(** a whole number times the reciprocal of a whole number, both fitting the significand: finite, and two relative errors *)
Lemma whole_quot prec emax d x : format prec emax -> number prec emax d -> number prec emax x -> fin d = true -> fin x = true -> whole (FR d) -> whole (FR x) -> FR d <> 0 -> Rabs (FR d) < pw prec -> Rabs (FR x) < pw prec ->
  let q := SFmul prec emax (SFdiv prec emax (of_int prec emax 1) d) x in
  fin q = true /\ Rabs (FR q - FR x / FR d) <= ((1 + uu prec) ^ 2 - 1) * Rabs (FR x / FR d).
Proof.
  intros Hf Vd Vx Fd Fx [zd Wd] [zx Wx] N Ld Lx q. pose proof Hf as [Hp He]. destruct (one_exact prec emax Hf) as (O1 & O2 & O3).
  pose proof (u_pos prec) as U. pose proof (u_le prec Hp) as U2. pose proof (eta_pos prec emax) as T.
  assert (D1 : 1 <= Rabs (FR d)). { rewrite Wd, <- abs_IZR. apply IZR_le. assert (zd <> 0)%Z by (intros ->; apply N; exact Wd). lia. }
  assert (I1 : pw (- prec) <= Rabs (1 / FR d)).
  { unfold Rdiv. rewrite Rabs_mult, Rabs_R1, Rmult_1_l, Rabs_inv. apply Rmult_le_reg_r with (Rabs (FR d)); [lra|]. rewrite Rinv_l by lra.
    apply Rle_trans with (pw (- prec) * pw prec); [apply Rmult_le_compat_l; [left; apply pw_pos|lra]|]. rewrite <- pw_add, Z.add_opp_diag_l, pw_0. lra. }
  assert (I2 : Rabs (1 / FR d) <= 1).
  { unfold Rdiv. rewrite Rabs_mult, Rabs_R1, Rmult_1_l, Rabs_inv. rewrite <- Rinv_1. apply Rinv_le_contravar; lra. }
  assert (E1 : eta prec emax <= pw (- prec) * pw (- prec) * / 2).
  { replace (/ 2) with (pw (-1)) by (unfold pw; simpl; lra). rewrite <- !pw_add. unfold eta. apply pw_le. unfold emin. lia. }
  pose proof (div_correct prec emax Hp ltac:(lia) _ _ O1 Fd O2 Vd N) as A. rewrite O3 in A.
  assert (Uu : uu prec = pw (- prec)) by reflexivity. pose proof (pw_pos (- prec)) as P0.
  assert (M1 : Rmax (uu prec * Rabs (1 / FR d)) (eta prec emax) = uu prec * Rabs (1 / FR d)) by (apply Rmax_left; rewrite Uu; pose proof (Rmult_le_compat_l _ _ _ (Rlt_le _ _ P0) I1); pose proof (Rmult_lt_0_compat _ _ P0 P0); lra).
  rewrite M1 in A. assert (L4 : 4 <= pw prec) by (replace 4 with (pw 2) by (unfold pw; simpl; lra); apply pw_le; lia).
  assert (L5 : pw prec * 8 <= pw emax) by (replace 8 with (pw 3) by (unfold pw; simpl; lra); rewrite <- pw_add; apply pw_le; lia).
  set (i := SFdiv prec emax (of_int prec emax 1) d) in *. assert (Fi : fin i = true).
  { apply (approx_fin prec emax _ _ _ A). assert (uu prec * Rabs (1 / FR d) <= / 4 * 1) by (apply Rmult_le_compat; try lra; apply Rabs_pos). lra. }
  pose proof (approx_valid _ _ _ _ _ A) as Vi. destruct A as [_ [(_ & _ & A & _)|(s & Z & _)]]; [|rewrite Z in Fi; discriminate].
  pose proof (mul_correct prec emax Hp ltac:(lia) _ _ Fi Fx Vi Vx) as B. fold q in B. rewrite Rmult_comm in B.
  assert (Lo : (1 - uu prec) * Rabs (1 / FR d) <= Rabs (FR i)) by (pose proof (Rabs_triang_inv (1 / FR d) (1 / FR d - FR i)); replace (1 / FR d - (1 / FR d - FR i)) with (FR i) in * by ring; rewrite (Rabs_minus_sym (FR i)) in A; lra).
  assert (Hi : Rabs (FR i) <= (1 + uu prec) * Rabs (1 / FR d)) by (replace (FR i) with (FR i - 1 / FR d + 1 / FR d) by ring; eapply Rle_trans; [apply Rabs_triang|]; lra).
  assert (Q0 : FR x / FR d = FR x * (1 / FR d)) by (field; exact N).
  destruct (Z.eq_dec zx 0) as [->|Nx].
  - rewrite Wx, Rmult_0_l in B. rewrite Wx. destruct (approx_exact prec emax _ _ _ B (isfl_0 prec emax)) as [Fq Eq]. split; [exact Fq|]. rewrite Eq. unfold Rdiv. rewrite Rmult_0_l, Rminus_0_r, Rabs_R0. lra.
  - assert (X1 : 1 <= Rabs (FR x)) by (rewrite Wx, <- abs_IZR; apply IZR_le; lia).
    assert (M2 : Rmax (uu prec * Rabs (FR x * FR i)) (eta prec emax) = uu prec * Rabs (FR x * FR i)).
    { apply Rmax_left. eapply Rle_trans; [exact E1|]. rewrite Rmult_assoc, Uu. apply Rmult_le_compat_l; [lra|]. rewrite Rabs_mult.
      assert (pw (- prec) * / 2 <= Rabs (FR i)) by (eapply Rle_trans; [|exact Lo]; rewrite Rmult_comm; apply Rmult_le_compat; lra).
      apply Rle_trans with (1 * Rabs (FR i)); [lra|]. apply Rmult_le_compat_r; [apply Rabs_pos|exact X1]. }
    rewrite M2 in B. assert (Pq : Rabs (FR x * FR i) <= Rabs (FR x) * 2) by (rewrite Rabs_mult; apply Rmult_le_compat_l; [apply Rabs_pos|]; assert ((1 + uu prec) * Rabs (1 / FR d) <= 2 * 1) by (apply Rmult_le_compat; try lra; apply Rabs_pos); lra).
    assert (Fq : fin q = true).
    { apply (approx_fin prec emax _ _ _ B). assert (uu prec * Rabs (FR x * FR i) <= 1 * Rabs (FR x * FR i)) by (apply Rmult_le_compat_r; [apply Rabs_pos|lra]). lra. }
    split; [exact Fq|]. destruct B as [_ [(_ & _ & B & _)|(s & Z & _)]]; [|rewrite Z in Fq; discriminate].
    assert (G : Rabs (FR x * FR i - FR x / FR d) <= uu prec * Rabs (FR x / FR d)) by (rewrite Q0; replace (FR x * FR i - FR x * (1 / FR d)) with (FR x * (FR i - 1 / FR d)) by ring; rewrite !Rabs_mult; pose proof (Rmult_le_compat_l _ _ _ (Rabs_pos (FR x)) A); lra).
    assert (H : Rabs (FR x * FR i) <= (1 + uu prec) * Rabs (FR x / FR d)) by (replace (FR x * FR i) with (FR x * FR i - FR x / FR d + FR x / FR d) by ring; eapply Rle_trans; [apply Rabs_triang|]; lra).
    replace (FR q - FR x / FR d) with (FR q - FR x * FR i + (FR x * FR i - FR x / FR d)) by ring. eapply Rle_trans; [apply Rabs_triang|].
    pose proof (Rmult_le_compat_l _ _ _ (Rlt_le _ _ U) H). replace ((1 + uu prec) ^ 2 - 1) with (uu prec * (1 + uu prec) + uu prec) by ring. lra.
Qed.
Lemma without_lt (n r i : nat) : (r < S n)%nat -> (i < n)%nat -> ((if i <? r then i else S i) < S n)%nat. Proof. intros. destruct (i <? r)%nat; lia. Qed.
(** the determinant of a whole matrix fits the significand *)
Lemma det_small prec emax M n A : format prec emax -> 1 <= M -> entries (S n) (fun x => number prec emax x /\ fin x = true /\ whole (FR x) /\ Rabs (FR x) <= M) A -> INR (fact (S n)) * M ^ S n < pw prec ->
  Rabs (detR (S n) (fun i j => FR (A i j))) < pw prec.
Proof.
  intros Hf HM V L. assert (V' : forall k, Rabs (FR (env (S n) A k)) <= M).
  { apply (env_all _ _ (fun x => Rabs (FR x) <= M)); [cbn; rewrite Rabs_R0; lra|]. intros i j Hi Hj. apply (V i j Hi Hj). }
  pose proof (no_div_divisors prec _ (no_division_edet n _ (evars_vars (S n)))) as D. rewrite <- reval_env. eapply Rle_lt_trans; [apply (reval_aeval prec); exact D|].
  eapply Rle_lt_trans; [apply (aeval_terms prec (env (S n) A) M HM V' _ D)|]. rewrite (terms_edet _ _ (evars_vars _)), (degree_edet _ _ (evars_vars _)). exact L.
Qed.
(** so matrices of whole entries are inverted exactly when regular, with entries that carry two relative rounding errors *)
Theorem C149_inverse prec emax M n A : format prec emax -> (2 <= n)%nat -> 1 <= M ->
  entries n (fun x => number prec emax x /\ fin x = true /\ whole (FR x) /\ Rabs (FR x) <= M) A -> INR (fact n) * M ^ n < pw prec ->
  let a := fun i j => FR (A i j) in
  (detR n a = 0 -> finverse prec emax n A = None) /\
  (detR n a <> 0 -> exists B, finverse prec emax n A = Some B /\ forall i j, (i < n)%nat -> (j < n)%nat ->
     let x := (-1) ^ (i + j) * detR (n - 1) (without a j i) / detR n a in
     fin (B i j) = true /\ Rabs (FR (B i j) - x) <= ((1 + uu prec) ^ 2 - 1) * Rabs x).
Proof.
  intros Hf N HM V L a. destruct n as [|[|n]]; [lia|lia|]. destruct (C149_exact prec emax M (S (S n)) A Hf ltac:(lia) HM V L) as (F & E & W). fold a in E.
  assert (Vd : number prec emax (fdeterminant prec emax (S (S n)) A)) by (apply det_number; [exact Hf|intros i j Hi Hj; apply (V i j Hi Hj)]).
  pose proof (det_small prec emax M (S n) A Hf HM V L) as Sd. fold a in Sd. unfold finverse. set (d := fdeterminant prec emax (S (S n)) A) in *. clearbody d.
  rewrite (ltb_spec prec emax) by (rewrite ?fin_abs; try assumption; try reflexivity; unfold number; rewrite valid_abs; exact Vd). rewrite FR_abs, E. cbn [FR f0].
  split; intros Z.
  - rewrite Z, Rabs_R0. destruct Rlt_dec; [lra|reflexivity].
  - destruct Rlt_dec as [|C]; [|exfalso; apply C, Rabs_pos_lt, Z]. eexists. split; [reflexivity|]. intros i j Hi Hj. cbv zeta. replace (S (S n) - 1)%nat with (S n) by lia.
    assert (V2 : entries (S n) (fun x => number prec emax x /\ fin x = true /\ whole (FR x) /\ Rabs (FR x) <= M) (fcofactor A j i)).
    { intros p q Hp Hq. unfold fcofactor. apply V; apply without_lt; assumption. }
    assert (L2 : INR (fact (S n)) * M ^ S n < pw prec).
    { eapply Rle_lt_trans; [|exact L]. pose proof (pos_INR (fact (S n))). assert (1 <= M ^ S n) by (apply pow_R1_Rle; exact HM). apply Rmult_le_compat; try lra.
      - apply le_INR. change (fact (S (S n))) with (S (S n) * fact (S n))%nat. lia.
      - apply Rle_pow; [exact HM|lia]. }
    destruct (C149_exact prec emax M (S n) (fcofactor A j i) Hf ltac:(lia) HM V2 L2) as (F2 & E2 & W2).
    assert (Vx : number prec emax (fdeterminant prec emax (S n) (fcofactor A j i))) by (apply det_number; [exact Hf|intros p q Hp Hq; apply (V2 p q Hp Hq)]).
    pose proof (det_small prec emax M n _ Hf HM V2 L2) as Sx. change (fun p q => FR (fcofactor A j i p q)) with (without a j i) in *.
    set (x := fdeterminant prec emax (S n) (fcofactor A j i)) in *. clearbody x. 
    destruct (whole_quot prec emax d x Hf Vd Vx F F2 W W2) as (Fq & Q); [rewrite E; exact Z|rewrite E; exact Sd|rewrite E2; exact Sx|]. rewrite E, E2 in Q.
    set (q := SFmul _ _ _ _) in *. clearbody q. pose proof (sgn_pow (i + j)) as G. destruct (Nat.eqb ((i + j) mod 2) 1); rewrite <- G; unfold sgnR.
    + rewrite fin_opp, FR_opp. split; [exact Fq|]. set (y := detR (S n) (without a j i) / detR (S (S n)) a) in *.
      match goal with |- Rabs (_ - ?k) <= _ => replace k with (- y) by (unfold y; field; exact Z) end.
      rewrite Rabs_Ropp. replace (- FR q - - y) with (- (FR q - y)) by ring. rewrite Rabs_Ropp. exact Q.
    + split; [exact Fq|]. rewrite Rmult_1_l. exact Q.
Qed.
Definition from_rows (rows : list (list Z)) : nat -> nat -> spec_float := fun i j => of_int 53 1024 (nth j (nth i rows []) 0%Z).
Definition tabulate (n : nat) (B : nat -> nat -> spec_float) : list (list spec_float) := map (fun i => map (B i) (seq 0 n)) (seq 0 n).
(** the determinant of a 4 x 4 matrix, the inverse of a 3 x 3 matrix, and a singular one *)
Example C149_ex : let A := from_rows [[2; 0; 1; 3]; [1; 4; 0; 2]; [0; 1; 5; 1]; [3; 2; 1; 0]]%Z in
  fdeterminant 53 1024 4 A = of_int 53 1024 (-193) /\
  entries 4 (fun x => number 53 1024 x) A /\
  option_map (tabulate 3) (finverse 53 1024 3 (from_rows [[1; 2; 0]; [0; 1; 0]; [0; 0; 2]]%Z)) = Some [[d_1; of_int 53 1024 (-2); f0]; [S754_zero true; d_1; S754_zero true]; [f0; S754_zero true; d_05]] /\
  finverse 53 1024 3 (from_rows [[1; 2; 3]; [4; 5; 6]; [7; 8; 9]]%Z) = None.
Proof.
  cbv zeta. split; [vm_compute; reflexivity|]. split; [|split; vm_compute; reflexivity].
  intros i j Hi Hj. assert (I : In i (seq 0 4)) by (apply in_seq; lia). assert (J : In j (seq 0 4)) by (apply in_seq; lia). cbn in I, J.
  repeat (destruct I as [<-|I]; [repeat (destruct J as [<-|J]; [reflexivity|]); contradiction|]). contradiction.
Qed.
Print Assumptions C149_error. Print Assumptions C149_exact. Print Assumptions C149_inverse.

(** ** C151: which matrices have an inverse *)
(** a determinant larger than its error bound is enough *)
Theorem C151_regular prec emax n A : format prec emax -> (1 <= n)%nat -> entries n (number prec emax) A -> fin (fdeterminant prec emax n A) = true ->
  let a := fun i j => FR (A i j) in
  ((1 + uu prec) ^ det_depth n - 1) * permR n a + eta prec emax * ((1 + uu prec) ^ det_depth n * det_lossR (eta prec emax) n a) < Rabs (detR n a) ->
  exists B, finverse prec emax n A = Some B.
Proof.
  intros Hf N V F a B. pose proof (C149_error prec emax n A Hf N V F) as E. cbv zeta in E. fold a in E. destruct n as [|n]; [lia|]. pose proof (det_number prec emax n A Hf V) as Vd.
  unfold finverse. set (d := fdeterminant prec emax (S n) A) in *. clearbody d. set (t := detR (S n) a) in *. match type of B with ?k < _ => set (K := k) in * end. clearbody K t.
  rewrite (ltb_spec prec emax) by (rewrite ?fin_abs; try assumption; try reflexivity; unfold number; rewrite valid_abs; exact Vd). rewrite FR_abs. cbn [FR f0].
  destruct Rlt_dec as [|C]; [eexists; reflexivity|exfalso; apply C, Rabs_pos_lt]. intros Z. rewrite Z, Rminus_0_l, Rabs_Ropp in E. lra.
Qed.
(** a determinant of zero, and one that is not a number, is rejected *)
Theorem C151_rejected prec emax n A : (forall s, fdeterminant prec emax n A = S754_zero s -> finverse prec emax n A = None) /\ (fdeterminant prec emax n A = S754_nan -> finverse prec emax n A = None).
Proof. unfold finverse. split; [intros s|]; intros ->; reflexivity. Qed.
(** an infinite one is not: every entry of the result is then zero or not a number *)
Theorem C151_overflow prec emax n A s : fdeterminant prec emax n A = S754_infinity s ->
  exists B, finverse prec emax n A = Some B /\ forall i j, B i j = S754_nan \/ exists t, B i j = S754_zero t.
Proof.
  intros E. unfold finverse. rewrite E. assert (L : SFltb f0 (SFabs (S754_infinity s)) = true) by reflexivity. rewrite L. eexists. split; [reflexivity|]. intros i j. cbv beta zeta.
  assert (I : (exists t, SFdiv prec emax (of_int prec emax 1) (S754_infinity s) = S754_zero t) \/ SFdiv prec emax (of_int prec emax 1) (S754_infinity s) = S754_nan) by (destruct (of_int prec emax 1); first [left; eexists; reflexivity|right; reflexivity]).
  set (x := fdeterminant _ _ (n - 1) _). clearbody x.
  assert (Q : SFmul prec emax (SFdiv prec emax (of_int prec emax 1) (S754_infinity s)) x = S754_nan \/ exists t, SFmul prec emax (SFdiv prec emax (of_int prec emax 1) (S754_infinity s)) x = S754_zero t).
  { destruct I as [[t ->] | ->]; destruct x; first [left; reflexivity|right; eexists; reflexivity]. }
  destruct Nat.eqb; [|exact Q]. destruct Q as [-> | [r ->]]; [left; reflexivity|right; eexists; reflexivity].
Qed.
(** so the inverse of the regular matrix 1e100 I of size 4 is the zero matrix, and 1e-100 I has none, although
    1e-100 and 1e100 are representable *)
Definition d_1e100 : spec_float := S754_finite false 5147557589468029 280.
Definition d_1em100 : spec_float := S754_finite false 7880401239278896 (-385).
Definition scalar_matrix (t : spec_float) : nat -> nat -> spec_float := fun i j => if Nat.eqb i j then t else f0.
Theorem C151_refuted :
  option_map (fun B => map (map SFabs) (tabulate 4 B)) (finverse 53 1024 4 (scalar_matrix d_1e100)) = Some (repeat (repeat f0 4) 4) /\
  finverse 53 1024 4 (scalar_matrix d_1em100) = None /\
  (forall t, t <> 0 -> detR 4 (fun i j => if Nat.eqb i j then t else 0) <> 0) /\
  SFdiv 53 1024 d_1 d_1e100 = d_1em100 /\ FR d_1e100 <> 0 /\ FR d_1em100 <> 0.
Proof.
  split; [vm_compute; reflexivity|]. split; [vm_compute; reflexivity|]. split; [|split; [vm_compute; reflexivity|]].
  - intros t Z. replace (detR 4 _) with (t ^ 4); [apply pow_nonzero; exact Z|]. unfold minor, detR, sumR. cbn [seq map fold_right Nat.eqb Nat.ltb Nat.leb minor pow fold_left]. unfold minor. cbn [Nat.eqb Nat.ltb Nat.leb]. ring.
  - pose proof (FR_finite_pos 5147557589468029 280). pose proof (FR_finite_pos 7880401239278896 (-385)). unfold d_1e100, d_1em100. cbn [FR]. unfold sgnR. lra.
Qed.
Print Assumptions C151_regular. Print Assumptions C151_rejected. Print Assumptions C151_overflow. Print Assumptions C151_refuted.

(** ** C150: midpoints *)
(** the product of a sum and of a rounded reciprocal *)
Lemma scaled prec emax n m k r s S A : format prec emax -> number prec emax r -> number prec emax s -> fin (SFmul prec emax r s) = true -> 0 < k ->
  Rabs (FR r - / k) <= ((1 + uu prec) ^ m - 1) * / k -> Rabs S <= A -> Rabs (FR s - S) <= ((1 + uu prec) ^ n - 1) * A ->
  Rabs (FR (SFmul prec emax r s) - S / k) <= ((1 + uu prec) ^ (n + m + 1) - 1) * (A / k) + eta prec emax.
Proof.
  intros Hf Vr Vs F K Er BS Es. destruct Hf as [Hp He]. pose proof (mul_near' prec emax Hp He r s Vr Vs F) as E.
  pose proof (u_pos prec) as U. assert (Pm : 1 <= (1 + uu prec) ^ m) by (apply pow_R1_Rle; lra). assert (Pn : 1 <= (1 + uu prec) ^ n) by (apply pow_R1_Rle; lra).
  assert (K0 : 0 < / k) by (apply Rinv_0_lt_compat; exact K). assert (A0 : 0 <= A) by (pose proof (Rabs_pos S); lra).
  replace ((1 + uu prec) ^ (n + m + 1)) with ((1 + uu prec) ^ n * (1 + uu prec) ^ m * (1 + uu prec)) by (rewrite !pow_add; ring).
  set (x := FR r) in *. set (y := FR s) in *. set (z := FR (SFmul prec emax r s)) in *. set (p := (1 + uu prec) ^ m) in *. set (q := (1 + uu prec) ^ n) in *. set (u := uu prec) in *. clearbody x y z p q.
  assert (X : Rabs x <= p * / k) by (replace x with (x - / k + / k) by ring; eapply Rle_trans; [apply Rabs_triang|]; rewrite (Rabs_pos_eq (/ k)) by lra; lra).
  assert (D : Rabs (x * y - S / k) <= (q * p - 1) * (A / k)).
  { replace (x * y - S / k) with (x * (y - S) + S * (x - / k)) by (field; lra). eapply Rle_trans; [apply Rabs_triang|]. rewrite !Rabs_mult.
    assert (Rabs x * Rabs (y - S) <= p * / k * ((q - 1) * A)) by (apply Rmult_le_compat; try apply Rabs_pos; assumption).
    assert (Rabs S * Rabs (x - / k) <= A * ((p - 1) * / k)) by (apply Rmult_le_compat; try apply Rabs_pos; assumption).
    replace ((q * p - 1) * (A / k)) with (p * / k * ((q - 1) * A) + A * ((p - 1) * / k)) by (field; lra). lra. }
  assert (SA : Rabs (S / k) <= A / k) by (unfold Rdiv; rewrite Rabs_mult, (Rabs_pos_eq (/ k)) by lra; apply Rmult_le_compat_r; lra).
  assert (XY : Rabs (x * y) <= q * p * (A / k)) by (replace (x * y) with (x * y - S / k + S / k) by ring; eapply Rle_trans; [apply Rabs_triang|]; lra).
  replace (z - S / k) with (z - x * y + (x * y - S / k)) by ring. eapply Rle_trans; [apply Rabs_triang|]. pose proof (Rmult_le_compat_l u _ _ ltac:(lra) XY). lra.
Qed.
(** the reciprocals used *)
Lemma reciprocal prec emax k : format prec emax -> (0 < k < 2 ^ prec)%Z -> number prec emax (SFdiv prec emax (of_int prec emax 1) (of_int prec emax k)) /\
  (fin (SFdiv prec emax (of_int prec emax 1) (of_int prec emax k)) = true -> Rabs (FR (SFdiv prec emax (of_int prec emax 1) (of_int prec emax k)) - / IZR k) <= ((1 + uu prec) ^ 1 - 1) * / IZR k).
Proof.
  intros Hf H. pose proof Hf as [Hp He]. destruct (one_exact prec emax Hf) as (O1 & O2 & O3). destruct (of_int_exact prec emax Hp He k H) as (K1 & K2 & K3).
  set (o := of_int prec emax 1) in *. set (d := of_int prec emax k) in *. clearbody o d. assert (P : 1 <= IZR k) by (apply IZR_le; lia).
  pose proof (div_correct prec emax Hp ltac:(lia) o d O1 K1 O2 K2 ltac:(rewrite K3; lra)) as A. rewrite O3, K3 in A. unfold Rdiv in A. rewrite Rmult_1_l in A. assert (I0 : 0 < / IZR k) by (apply Rinv_0_lt_compat; lra).
  rewrite (Rabs_pos_eq (/ IZR k)) in A by lra. split; [exact (approx_valid _ _ _ _ _ A)|]. intros F. destruct A as [_ [(_ & _ & A & _)|(s & Z & _)]]; [|rewrite Z in F; discriminate].
  rewrite pow_1. replace (1 + uu prec - 1) with (uu prec) by ring. rewrite Rmax_left in A; [exact A|].
  assert (IZR k <= pw prec) by (rewrite <- pw_Z by lia; apply IZR_le; lia). assert (pw (- prec) <= / IZR k).
  { replace (pw (- prec)) with (/ pw prec); [apply Rinv_le_contravar; lra|]. apply Rmult_eq_reg_l with (pw prec); [|pose proof (pw_pos prec); lra]. rewrite Rinv_r by (pose proof (pw_pos prec); lra). rewrite <- pw_add, Z.add_opp_diag_r, pw_0. reflexivity. }
  apply Rle_trans with (pw (- prec) * pw (- prec)); [|apply Rmult_le_compat_l; [left; apply pw_pos|assumption]]. rewrite <- pw_add. unfold eta. apply pw_le. unfold emin. lia.
Qed.
Lemma reciprocal_pow2 prec emax k j : format prec emax -> (0 < k < 2 ^ prec)%Z -> (0 <= j)%Z -> k = (2 ^ j)%Z ->
  fin (SFdiv prec emax (of_int prec emax 1) (of_int prec emax k)) = true /\ FR (SFdiv prec emax (of_int prec emax 1) (of_int prec emax k)) = / IZR k.
Proof.
  intros Hf H Hj E. pose proof Hf as [Hp He]. destruct (one_exact prec emax Hf) as (O1 & O2 & O3). destruct (of_int_exact prec emax Hp He k H) as (K1 & K2 & K3).
  set (o := of_int prec emax 1) in *. set (d := of_int prec emax k) in *. clearbody o d. assert (P : 1 <= IZR k) by (apply IZR_le; lia).
  pose proof (div_correct prec emax Hp ltac:(lia) o d O1 K1 O2 K2 ltac:(rewrite K3; lra)) as A. rewrite O3, K3 in A. unfold Rdiv in A. rewrite Rmult_1_l in A.
  apply (approx_exact prec emax _ _ _ A). assert (J : (j < prec)%Z) by (apply (Z.pow_lt_mono_r_iff 2); lia).
  replace (/ IZR k) with (IZR 1 * pw (- j)); [apply isfl_scaled; try assumption; [split; [lia|apply Z.pow_gt_1; lia]|unfold emin; lia]|].
  rewrite E, pw_Z by exact Hj. rewrite Rmult_1_l. apply Rmult_eq_reg_l with (pw j); [|pose proof (pw_pos j); lra]. rewrite Rinv_r by (pose proof (pw_pos j); lra). rewrite <- pw_add, Z.add_opp_diag_r. apply pw_0.
Qed.
Fixpoint esum (n : nat) : expr := match n with O => EVar 0 | S k => EAdd (esum k) (EVar (S k)) end.
Lemma esum_depth n : depth (esum n) = n. Proof. induction n as [|n IH]; [reflexivity|]. cbn [esum depth]. lia. Qed.
Lemma esum_divisors prec n : divisors prec (esum n). Proof. induction n as [|n IH]; [exact I|]. split; [exact IH|exact I]. Qed.
Lemma esum_lost prec emax v n : lost prec emax v (esum n) = 0. Proof. induction n as [|n IH]; [reflexivity|]. cbn [esum lost]. lra. Qed.
Lemma mid_error prec emax n (l : list spec_float) k m : format prec emax -> numbers prec emax l -> (0 < k < 2 ^ prec)%Z ->
  let v := fun i => nth i l f0 in let r := SFdiv prec emax (of_int prec emax 1) (of_int prec emax k) in let s := feval prec emax v (esum n) in
  fin (SFmul prec emax r s) = true -> Rabs (FR r - / IZR k) <= ((1 + uu prec) ^ m - 1) * / IZR k ->
  Rabs (FR (SFmul prec emax r s) - reval (fun i => FR (v i)) (esum n) / IZR k) <= ((1 + uu prec) ^ (n + m + 1) - 1) * (aeval (fun i => FR (v i)) (esum n) / IZR k) + eta prec emax.
Proof.
  intros Hf V H v r s F E. destruct (mul_fin _ _ _ _ F) as [Fr Fs]. pose proof (feval_error' prec emax Hf v (env_number prec emax _ V) (esum n) (esum_divisors prec n) Fs) as B.
  rewrite esum_lost, esum_depth, !Rmult_0_r, Rplus_0_r in B. apply scaled; try assumption.
  - apply reciprocal; assumption.
  - apply feval_valid; [exact Hf|apply env_number, V|apply esum_divisors].
  - apply IZR_lt. lia.
  - apply (reval_aeval prec), esum_divisors.
Qed.
Theorem C150_mid3 prec emax a b c : format prec emax -> numbers prec emax [a; b; c] -> fin (fmid3 prec emax a b c) = true ->
  Rabs (FR (fmid3 prec emax a b c) - (FR a + FR b + FR c) / 3) <= ((1 + uu prec) ^ 4 - 1) * ((Rabs (FR a) + Rabs (FR b) + Rabs (FR c)) / 3) + eta prec emax.
Proof.
  intros Hf V F. assert (H : (0 < 3 < 2 ^ prec)%Z) by (destruct Hf; split; [lia|]; pose proof (Z.pow_le_mono_r 2 2 prec); lia).
  destruct (mul_fin _ _ _ _ F) as [Fr _]. apply (mid_error prec emax 2 [a; b; c] 3 1 Hf V H F). apply reciprocal; assumption.
Qed.
Lemma exact_recip u x y : x = y -> 0 < y -> Rabs (x - y) <= ((1 + u) ^ 0 - 1) * y. Proof. intros -> P. rewrite Rminus_diag_eq, Rabs_R0 by reflexivity. simpl. lra. Qed.
Theorem C150_mid4 prec emax a b c d : format prec emax -> (3 <= prec)%Z -> numbers prec emax [a; b; c; d] -> fin (fmid4 prec emax a b c d) = true ->
  Rabs (FR (fmid4 prec emax a b c d) - (FR a + FR b + FR c + FR d) / 4) <= ((1 + uu prec) ^ 4 - 1) * ((Rabs (FR a) + Rabs (FR b) + Rabs (FR c) + Rabs (FR d)) / 4) + eta prec emax.
Proof.
  intros Hf H3 V F. assert (H : (0 < 4 < 2 ^ prec)%Z) by (split; [lia|]; pose proof (Z.pow_le_mono_r 2 3 prec); lia).
  apply (mid_error prec emax 3 [a; b; c; d] 4 0 Hf V H F). apply exact_recip; [apply (reciprocal_pow2 prec emax 4 2); try assumption; lia|lra].
Qed.
Theorem C150_mid8 prec emax a b c d e f g h : format prec emax -> (4 <= prec)%Z -> numbers prec emax [a; b; c; d; e; f; g; h] -> fin (fmid8 prec emax a b c d e f g h) = true ->
  let n x := Rabs (FR x) in
  Rabs (FR (fmid8 prec emax a b c d e f g h) - (FR a + FR b + FR c + FR d + FR e + FR f + FR g + FR h) / 8) <= ((1 + uu prec) ^ 8 - 1) * ((n a + n b + n c + n d + n e + n f + n g + n h) / 8) + eta prec emax.
Proof.
  intros Hf H3 V F n. assert (H : (0 < 8 < 2 ^ prec)%Z) by (split; [lia|]; pose proof (Z.pow_le_mono_r 2 4 prec); lia).
  apply (mid_error prec emax 7 [a; b; c; d; e; f; g; h] 8 0 Hf V H F). apply exact_recip; [apply (reciprocal_pow2 prec emax 8 3); try assumption; lia|lra].
Qed.
(** the midpoint of a triangle or of a hexahedron all of whose points are the same is another point, before all of them *)
Theorem C150_refuted :
  SFltb (fmid3 53 1024 d_03 d_03 d_03) d_03 = true /\ SFltb (fmid8 53 1024 d_tenth d_tenth d_tenth d_tenth d_tenth d_tenth d_tenth d_tenth) d_tenth = true /\
  fmid4 53 1024 d_max d_max d_max d_max = S754_infinity false.
Proof. vm_compute. repeat split. Qed.
Example C150_ex : numbers 53 1024 [d_1; d_2; d_3] /\ fmid3 53 1024 d_1 d_2 d_3 = d_2 /\ numbers 53 1024 [d_1; d_2; d_4; d_5] /\ fmid4 53 1024 d_1 d_2 d_4 d_5 = d_3 /\ fmid8 53 1024 d_1 d_1 d_1 d_3 d_3 d_3 d_2 d_2 = d_2.
Proof. split; [repeat constructor|]. split; [vm_compute; reflexivity|]. split; [repeat constructor|]. split; vm_compute; reflexivity. Qed.
Print Assumptions C150_mid3. Print Assumptions C150_mid4. Print Assumptions C150_mid8. Print Assumptions C150_refuted.
