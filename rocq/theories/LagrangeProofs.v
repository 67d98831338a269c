(** Lemmas for LagrangeModel. *)
From Coq Require Import Reals Machin Ratan Rtrigo_facts List ZArith Arith Bool Lia Lra.
From Verif Require Import Outcome VectorModel VectorProofs QuadratureProofs ElementsProps LagrangeModel.
Import ListNotations.
Open Scope R_scope.

(** ** specification: Lagrange polynomials as products *)
Definition prod (n : nat) (f : nat -> R) : R := loop n (fun k s => s * f k) 1.
(** product over j < n, j <> i *)
Definition prod_ne (n i : nat) (f : nat -> R) : R := prod n (fun j => if Nat.eqb j i then 1 else f j).
Definition L (N : nat) (xi : nat -> R) (i : nat) (x : R) : R :=
  prod_ne N i (fun j => x - xi j) / prod_ne N i (fun j => xi i - xi j).
Definition distinct (N : nat) (xi : nat -> R) : Prop := forall i j, (i < N)%nat -> (j < N)%nat -> i <> j -> xi i <> xi j.

Lemma prod_ext n f g : (forall i, (i < n)%nat -> f i = g i) -> prod n f = prod n g.
Proof. unfold prod. induction n; simpl; intros; [reflexivity|]. rewrite IHn, H by auto. reflexivity. Qed.
Lemma prod_zero n f i : (i < n)%nat -> f i = 0 -> prod n f = 0.
Proof.
  unfold prod. induction n; simpl; intros Hi E; [lia|]. destruct (Nat.eq_dec i n) as [->|Ne]; [rewrite E; ring|].
  rewrite IHn by (lia || exact E). ring.
Qed.
Lemma prod_nonzero n f : (forall i, (i < n)%nat -> f i <> 0) -> prod n f <> 0.
Proof.
  unfold prod. induction n; simpl; intros H; [lra|]. apply Rmult_integral_contrapositive. split; auto.
Qed.
Lemma denom_nonzero N xi i : distinct N xi -> (i < N)%nat -> prod_ne N i (fun j => xi i - xi j) <> 0.
Proof.
  intros D Hi. apply prod_nonzero. intros j Hj. destruct (Nat.eqb_spec j i) as [->|Ne]; [lra|].
  specialize (D i j Hi Hj ltac:(congruence)). lra.
Qed.
Lemma L_nodal N xi i j : distinct N xi -> (i < N)%nat -> (j < N)%nat -> L N xi i (xi j) = if Nat.eqb i j then 1 else 0.
Proof.
  intros D Hi Hj. unfold L. destruct (Nat.eqb_spec i j) as [->|Ne].
  - unfold Rdiv. apply Rinv_r, denom_nonzero; assumption.
  - unfold prod_ne at 1. rewrite (prod_zero _ _ j); [unfold Rdiv; ring|exact Hj|].
    destruct (Nat.eqb_spec j i); [congruence|ring].
Qed.

(** ** the loops of lagrange_1D *)
Lemma lag_s_prod order x xi i j : lag_s order x xi i j
  = prod (order + 1) (fun N => if (negb (N =? j) && negb (N =? i))%bool then x - xi N else 1).
Proof.
  unfold lag_s, prod. generalize (order + 1)%nat. induction n; simpl; [reflexivity|]. rewrite <- IHn.
  destruct (negb (n =? j) && negb (n =? i)); ring.
Qed.
Lemma lag_loop order x xi i s0 : lag_n s0 = 1 -> lag_d s0 = 1 -> lag_p s0 = 0 -> forall n,
  let s := loop (S n) (lag_body order x xi i) s0 in
  lag_n s = prod_ne (S n) i (fun j => x - xi j) /\ lag_d s = prod_ne (S n) i (fun j => xi i - xi j)
  /\ lag_p s = sum (S n) (fun j => if Nat.eqb j i then 0 else lag_s order x xi i j)
  /\ lag_c s = lag_n s / lag_d s /\ lag_q s = lag_p s / lag_d s.
Proof.
  intros E1 E2 E3.
  assert (A : forall n, let s := loop n (lag_body order x xi i) s0 in
    lag_n s = prod_ne n i (fun j => x - xi j) /\ lag_d s = prod_ne n i (fun j => xi i - xi j)
    /\ lag_p s = sum n (fun j => if Nat.eqb j i then 0 else lag_s order x xi i j)).
  { induction n; cbn [loop]; cbv zeta.
    - rewrite E1, E2, E3. repeat match goal with |- _ /\ _ => split end; reflexivity.
    - cbv zeta in IHn. destruct IHn as (A & B & C). set (s := loop n (lag_body order x xi i) s0) in *.
      unfold lag_body. unfold prod_ne, prod in *. cbn [loop sum]. rewrite <- A, <- B.
      change (sum (S n) ?f) with (sum n f + f n). rewrite <- C.
      destruct (Nat.eqb_spec n i) as [->|Ne]; cbn [negb lag_n lag_d lag_p];
        repeat match goal with |- _ /\ _ => split end; ring. }
  intros n. pose proof (A (S n)) as B. cbv zeta in *. destruct B as (B & C & D).
  repeat match goal with |- _ /\ _ => split end; try assumption; cbn [loop];
    set (s := loop n (lag_body order x xi i) s0); unfold lag_body;
    destruct (negb (n =? i)); cbn [lag_n lag_d lag_p lag_c lag_q]; reflexivity.
Qed.
(** what is written: for i <= order the quotients, elsewhere nothing *)
Definition DL (N : nat) (xi : nat -> R) (i : nat) (x : R) : R :=
  sum N (fun j => if Nat.eqb j i then 0 else
    prod N (fun k => if (negb (k =? j) && negb (k =? i))%bool then x - xi k else 1))
  / prod_ne N i (fun j => xi i - xi j).
Lemma lagrange_spec order x xi interp Dinterp i :
  fst (lagrange_1D order x xi interp Dinterp) i = (if (i <? order + 1)%nat then L (order + 1) xi i x else interp i)
  /\ snd (lagrange_1D order x xi interp Dinterp) i = (if (i <? order + 1)%nat then DL (order + 1) xi i x else Dinterp i).
Proof.
  unfold lagrange_1D.
  set (body := fun i st => _).
  assert (A : forall n i, let st := loop n body ((interp, Dinterp), 0) in
    fst (fst st) i = (if (i <? n)%nat then L (order + 1) xi i x else interp i)
    /\ snd (fst st) i = (if (i <? n)%nat then DL (order + 1) xi i x else Dinterp i)).
  { induction n; intros k; cbv zeta; cbn [loop]; [split; reflexivity|]. specialize (IHn k). cbv zeta in IHn.
    destruct (loop n body ((interp, Dinterp), 0)) as [[a b] q]. unfold body at 1 2. cbn [fst snd] in *.
    set (s0 := {| lag_n := 1; lag_d := 1; lag_c := 1; lag_p := 0; lag_q := q |}).
    pose proof (lag_loop order x xi n s0 eq_refl eq_refl eq_refl order) as P. cbv zeta in P.
    rewrite <- (Nat.add_1_r order) in P. destruct P as (P1 & P2 & P3 & P4 & P5). unfold set.
    destruct (Nat.eqb_spec k n) as [->|Ne].
    - destruct (Nat.ltb_spec n (S n)); [|lia]. split.
      + rewrite P4, P1, P2. reflexivity.
      + rewrite P5, P3, P2. unfold DL. f_equal. apply sum_ext. intros j _. rewrite lag_s_prod.
        reflexivity.
    - destruct IHn as [IH1 IH2]. rewrite IH1, IH2. destruct (Nat.ltb_spec k n), (Nat.ltb_spec k (S n)); try (exfalso; lia); split; reflexivity. }
  apply A.
Qed.

(** ** polynomials: L is one, and a polynomial with too many roots vanishes *)
Fixpoint padd (p q : list R) : list R :=
  match p, q with [], _ => q | _, [] => p | a :: p', b :: q' => (a + b) :: padd p' q' end.
Definition pscal (c : R) (p : list R) : list R := map (Rmult c) p.
Definition plin (a : R) (p : list R) : list R := padd (0 :: p) (pscal (- a) p).   (* (x - a) * p *)
Lemma peval_add p : forall q x, peval (padd p q) x = peval p x + peval q x.
Proof. induction p as [|a p IH]; intros [|b q] x; simpl; try ring. rewrite IH. ring. Qed.
Lemma peval_scal c p x : peval (pscal c p) x = c * peval p x.
Proof. induction p; simpl; [ring|]. rewrite IHp. ring. Qed.
Lemma padd_length p : forall q, length (padd p q) = Nat.max (length p) (length q).
Proof. induction p as [|a p IH]; intros [|b q]; simpl; try reflexivity. rewrite IH. reflexivity. Qed.
Lemma peval_lin a p x : peval (plin a p) x = (x - a) * peval p x.
Proof. unfold plin. rewrite peval_add, peval_scal. simpl. ring. Qed.
Lemma plin_length a p : length (plin a p) = S (length p).
Proof. unfold plin. rewrite padd_length. unfold pscal. rewrite map_length. cbn [length]. lia. Qed.
(** synthetic division by x - a *)
Fixpoint pdiv (a : R) (p : list R) : list R :=
  match p with [] => [] | [_] => [] | c :: p' => peval p' a :: pdiv a p' end.
Lemma pdiv_spec a p x : peval p x = peval p a + (x - a) * peval (pdiv a p) x.
Proof.
  induction p as [|c p IH]; [simpl; ring|]. destruct p as [|c' p]; [simpl; ring|].
  change (pdiv a (c :: c' :: p)) with (peval (c' :: p) a :: pdiv a (c' :: p)).
  change (peval (c :: c' :: p) ?y) with (c + y * peval (c' :: p) y).
  change (peval (?h :: ?t) x) with (h + x * peval t x) at 2.
  rewrite IH. ring.
Qed.
Lemma pdiv_length a p : length (pdiv a p) = pred (length p).
Proof.
  induction p as [|c p IH]; [reflexivity|]. destruct p as [|c' p]; [reflexivity|].
  change (pdiv a (c :: c' :: p)) with (peval (c' :: p) a :: pdiv a (c' :: p)). cbn [length]. rewrite IH. reflexivity.
Qed.
Lemma roots_zero N : forall xi p, distinct N xi -> (length p <= N)%nat -> (forall i, (i < N)%nat -> peval p (xi i) = 0) ->
  forall x, peval p x = 0.
Proof.
  induction N; intros xi p D Hl Hr x.
  - destruct p; [reflexivity|simpl in Hl; lia].
  - rewrite (pdiv_spec (xi N) p x), (Hr N) by lia.
    rewrite (IHN xi (pdiv (xi N) p)); [ring| | |].
    + intros i j Hi Hj Ne. apply D; lia || exact Ne.
    + rewrite pdiv_length. lia.
    + intros i Hi. pose proof (Hr i ltac:(lia)) as E. rewrite (pdiv_spec (xi N) p), (Hr N) in E by lia.
      rewrite Rplus_0_l in E. apply Rmult_integral in E. destruct E as [E|E]; [|exact E].
      exfalso. apply (D i N); lia || lra.
Qed.
Lemma prod_poly N (b : nat -> bool) xi : exists p, (length p <= S N)%nat /\
  (forall x, peval p x = prod N (fun j => if b j then 1 else x - xi j)).
Proof.
  induction N.
  - exists [1]. split; [reflexivity|]. intros x. unfold prod. simpl. ring.
  - destruct IHN as (p & Lp & Ep). destruct (b N) eqn:B.
    + exists p. split; [lia|]. intros x. unfold prod in *. cbn [loop]. rewrite B, Rmult_1_r. apply Ep.
    + exists (plin (xi N) p). split; [rewrite plin_length; lia|]. intros x. rewrite peval_lin, Ep. unfold prod. cbn [loop].
      rewrite B. ring.
Qed.
(** dropping the factor i the degree is smaller *)
Lemma prod_ne_poly N i xi : (i < N)%nat -> exists p, (length p <= N)%nat /\
  (forall x, peval p x = prod_ne N i (fun j => x - xi j)).
Proof.
  revert i. induction N; intros i Hi; [lia|]. destruct (Nat.eq_dec i N) as [->|Ne].
  - destruct (prod_poly N (fun j => Nat.eqb j N) xi) as (p & Lp & Ep). exists p. split; [exact Lp|]. intros x.
    rewrite Ep. unfold prod_ne, prod. cbn [loop]. rewrite Nat.eqb_refl. ring.
  - destruct (IHN i ltac:(lia)) as (p & Lp & Ep). exists (plin (xi N) p). split; [rewrite plin_length; lia|].
    intros x. rewrite peval_lin, Ep. unfold prod_ne, prod. cbn [loop]. destruct (Nat.eqb_spec N i); [congruence|ring].
Qed.
Lemma sum_poly N n (c : nat -> R) xi : (n <= N)%nat -> exists p, (length p <= N)%nat /\
  (forall x, peval p x = sum n (fun i => c i * L N xi i x)).
Proof.
  intros Hn. induction n.
  - exists []. split; [simpl; lia|]. reflexivity.
  - destruct IHn as (p & Lp & Ep); [lia|]. destruct (prod_ne_poly N n xi) as (q & Lq & Eq); [lia|].
    exists (padd p (pscal (c n / prod_ne N n (fun j => xi n - xi j)) q)). split.
    + rewrite padd_length. unfold pscal. rewrite map_length. lia.
    + intros x. rewrite peval_add, peval_scal, Ep, Eq. simpl. unfold L, Rdiv. ring.
Qed.
(** interpolation reproduces polynomials *)
Lemma reproduce N xi p x : distinct N xi -> (length p <= N)%nat ->
  sum N (fun i => peval p (xi i) * L N xi i x) = peval p x.
Proof.
  intros D Hp. destruct (sum_poly N N (fun i => peval p (xi i)) xi) as (q & Lq & Eq); [lia|].
  apply Rminus_diag_uniq. rewrite <- Eq.
  replace (peval q x - peval p x) with (peval (padd q (pscal (-1) p)) x) by (rewrite peval_add, peval_scal; ring).
  apply (roots_zero N xi); [exact D| |].
  - rewrite padd_length. unfold pscal. rewrite map_length. lia.
  - intros i Hi. rewrite peval_add, peval_scal, Eq.
    rewrite (sum_ext _ _ (fun k => peval p (xi k) * (if Nat.eqb i k then 1 else 0))).
    + rewrite sum_delta by exact Hi. ring.
    + intros k Hk. rewrite L_nodal by assumption. rewrite (Nat.eqb_sym k i). reflexivity.
Qed.

(** ** derivative *)
Lemma prod_deriv n (f : nat -> R -> R) (f' : nat -> R) t :
  (forall j, (j < n)%nat -> derivable_pt_lim (f j) t (f' j)) ->
  derivable_pt_lim (fun x => prod n (fun j => f j x)) t
    (sum n (fun j => f' j * prod n (fun k => if Nat.eqb k j then 1 else f k t))).
Proof.
  intros H. induction n.
  - apply derivable_pt_lim_const.
  - replace (sum (S n) _) with
      (sum n (fun j => f' j * prod n (fun k => if Nat.eqb k j then 1 else f k t)) * f n t + prod n (fun j => f j t) * f' n).
    + apply (derivable_pt_lim_mult (fun x => prod n (fun j => f j x)) (f n)); [apply IHn; auto|apply H; lia].
    + change (sum (S n) ?g) with (sum n g + g n). f_equal.
      * rewrite Rmult_comm, <- sum_scal. apply sum_ext. intros j Hj. unfold prod. cbn [loop].
        destruct (Nat.eqb_spec n j); [lia|]. ring.
      * rewrite Rmult_comm. f_equal. unfold prod at 2. cbn [loop]. rewrite Nat.eqb_refl, Rmult_1_r.
        apply prod_ext. intros k Hk. destruct (Nat.eqb_spec k n); [lia|reflexivity].
Qed.
Lemma L_deriv N xi i t : derivable_pt_lim (L N xi i) t (DL N xi i t).
Proof.
  unfold L, DL, Rdiv. set (d := / prod_ne N i (fun j => xi i - xi j)).
  replace (sum N _ * d) with (d * sum N (fun j => (if Nat.eqb j i then 0 else 1)
    * prod N (fun k => if Nat.eqb k j then 1 else (if Nat.eqb k i then 1 else t - xi k)))).
  - apply (derivable_pt_lim_ext (fun x => d * prod N (fun j => if Nat.eqb j i then 1 else x - xi j))).
    { intros x. unfold prod_ne. ring. }
    apply (derivable_pt_lim_scal (fun x => prod N (fun j => if Nat.eqb j i then 1 else x - xi j))).
    apply (prod_deriv N (fun j x => if Nat.eqb j i then 1 else x - xi j)). intros j Hj.
    destruct (Nat.eqb j i); [apply derivable_pt_lim_const|].
    replace 1 with (1 - 0) by ring.
    apply (derivable_pt_lim_minus id (fun _ => xi j)); [apply derivable_pt_lim_id|apply derivable_pt_lim_const].
  - rewrite Rmult_comm. f_equal. apply sum_ext. intros j Hj. destruct (Nat.eqb j i); [ring|]. rewrite Rmult_1_l.
    apply prod_ext. intros k Hk. destruct (k =? j), (k =? i); reflexivity.
Qed.

(** ** loops that write one entry per iteration *)
Lemma loop_at {S A : Type} (get : S -> nat -> A) (body : nat -> S -> S) (spec : nat -> A) n :
  (forall m s, (m < n)%nat -> get (body m s) m = spec m) ->
  (forall m s k, k <> m -> get (body m s) k = get s k) ->
  forall s m, (m < n)%nat -> get (loop n body s) m = spec m.
Proof.
  intros Hs Ho s. assert (A0 : forall k, (k <= n)%nat -> forall m, (m < k)%nat -> get (loop k body s) m = spec m).
  { induction k; intros Hk m Hm; [lia|]. cbn [loop]. destruct (Nat.eq_dec m k) as [->|Ne]; [apply Hs; lia|].
    rewrite Ho by exact Ne. apply IHk; lia. }
  intros m Hm. apply A0; lia.
Qed.
Lemma set2_same a m d x : set2 a m d x m = set (a m) d x.
Proof. unfold set2. rewrite Nat.eqb_refl. reflexivity. Qed.
Lemma set2_other a m d x k : k <> m -> set2 a m d x k = a k.
Proof. intros H. unfold set2. destruct (Nat.eqb_spec k m); [congruence|reflexivity]. Qed.
Lemma direction_spec order nodes1 xi m d i t : (1 <= i <= order + 1)%nat ->
  let t' := direction order nodes1 xi m d i t in
  t_nodes t' = t_nodes t /\ t_basis t' = t_basis t /\ t_partial t' = t_partial t
  /\ t_val t' = set2 (t_val t) m d (L (order + 1) nodes1 (i - 1) (xi d))
  /\ t_dval t' = set2 (t_dval t) m d (DL (order + 1) nodes1 (i - 1) (xi d)).
Proof.
  intros Hi. unfold direction.
  destruct (lagrange_spec order (xi d) nodes1 (t_val1 t) (t_dval1 t) (i - 1)) as [E F].
  destruct (lagrange_1D order (xi d) nodes1 (t_val1 t) (t_dval1 t)) as [v dv]. cbn [fst snd] in E, F.
  destruct (Nat.ltb_spec (i - 1) (order + 1)); [|lia]. cbv zeta. cbn [t_nodes t_basis t_partial t_val t_dval].
  rewrite E, F. repeat match goal with |- _ /\ _ => split end; reflexivity.
Qed.
Lemma quadn_idx_spec N m : (0 < N)%nat -> quadn_idx N m = ((m mod N + 1)%nat, (m / N + 1)%nat).
Proof.
  intros H. unfold quadn_idx. f_equal. rewrite Nat.add_sub. pose proof (Nat.div_mod m N ltac:(lia)). lia.
Qed.
Lemma hexn_idx_spec N m : (0 < N)%nat ->
  hexn_idx N m = ((m mod N + 1)%nat, ((m / N) mod N + 1)%nat, (m / (N * N) + 1)%nat).
Proof.
  intros H. unfold hexn_idx. cbv zeta. rewrite Nat.add_sub.
  pose proof (Nat.div_mod m (N * N) ltac:(lia)) as E1.
  pose proof (Nat.mod_mul_r m N N ltac:(lia) ltac:(lia)) as E2.
  replace (m + 1 - N * N * (m / (N * N)))%nat with (m mod (N * N) + 1)%nat by lia.
  rewrite !Nat.add_sub. assert (E3 : (m mod (N * N) / N)%nat = ((m / N) mod N)%nat).
  { rewrite E2. symmetry. apply (Nat.div_unique _ _ _ (m mod N)); [apply Nat.mod_upper_bound; lia|lia]. }
  rewrite ?Nat.add_sub, !E3, ?Nat.add_sub, E2. apply f_equal2; [apply f_equal2|]; try reflexivity. lia.
Qed.
Definition quad_entry (t : tensor) (m : nat) : R * R * R * R * R :=
  (t_nodes t m 0%nat, t_nodes t m 1%nat, t_basis t m, t_partial t m 0%nat, t_partial t m 1%nat).
Lemma quadn_spec order nodes1 xi t m : let N := (order + 1)%nat in (m < N * N)%nat ->
  let a := (m mod N)%nat in let b := (m / N)%nat in
  quad_entry (quadn_basis_partials order nodes1 xi t) m
  = (nodes1 a, nodes1 b, L N nodes1 a (xi 0%nat) * L N nodes1 b (xi 1%nat),
     DL N nodes1 a (xi 0%nat) * L N nodes1 b (xi 1%nat), L N nodes1 a (xi 0%nat) * DL N nodes1 b (xi 1%nat)).
Proof.
  intros N Hm a b. subst a b. unfold quadn_basis_partials.
  apply (loop_at quad_entry (quadn_body order nodes1 xi) (fun m => (nodes1 (m mod N)%nat, nodes1 (m / N)%nat,
    L N nodes1 (m mod N) (xi 0%nat) * L N nodes1 (m / N) (xi 1%nat),
    DL N nodes1 (m mod N) (xi 0%nat) * L N nodes1 (m / N) (xi 1%nat),
    L N nodes1 (m mod N) (xi 0%nat) * DL N nodes1 (m / N) (xi 1%nat)))); [| |exact Hm].
  - clear m Hm t. intros m t Hm. unfold quadn_body. fold N. rewrite quadn_idx_spec by (unfold N; lia).
    assert (Ha : (m mod N < N)%nat) by (apply Nat.mod_upper_bound; unfold N; lia).
    assert (Hb : (m / N < N)%nat) by (apply Nat.div_lt_upper_bound; unfold N in *; lia).
    set (t0 := with_nodes t _).
    pose proof (direction_spec order nodes1 xi m 0 (m mod N + 1) t0 ltac:(unfold N in *; lia)) as D0. cbv zeta in D0.
    set (t1 := direction order nodes1 xi m 0 (m mod N + 1) t0) in *.
    pose proof (direction_spec order nodes1 xi m 1 (m / N + 1) t1 ltac:(unfold N in *; lia)) as D1. cbv zeta in D1.
    set (t2 := direction order nodes1 xi m 1 (m / N + 1) t1) in *.
    destruct D0 as (A1 & A2 & A3 & A4 & A5), D1 as (B1 & B2 & B3 & B4 & B5).
    unfold quad_entry, with_result. cbn [t_nodes t_basis t_partial].
    rewrite B4, B5, A4, A5, B1, A1. unfold t0, with_nodes. cbn [t_nodes t_val t_dval]. rewrite !set2_same. unfold set. cbn [Nat.eqb].
    rewrite Nat.eqb_refl, !Nat.add_sub. reflexivity.
  - clear m Hm t. intros m t k Hk. unfold quadn_body. destruct (quadn_idx (order + 1) m) as [i j].
    unfold direction. set (t0 := with_nodes t _).
    destruct (lagrange_1D order (xi 0%nat) nodes1 (t_val1 t0) (t_dval1 t0)) as [v dv]. cbv zeta.
    destruct (lagrange_1D order (xi 1%nat) nodes1 _ _) as [v' dv'].
    unfold quad_entry, with_result. cbn [t_nodes t_basis t_partial].
    unfold t0, with_nodes. cbn [t_nodes t_basis t_partial]. rewrite !set2_other by exact Hk. unfold set.
    destruct (Nat.eqb_spec k m); [congruence|reflexivity].
Qed.
Definition hex_entry (t : tensor) (m : nat) : R * R * R * R * R * R * R :=
  (t_nodes t m 0%nat, t_nodes t m 1%nat, t_nodes t m 2%nat, t_basis t m,
   t_partial t m 0%nat, t_partial t m 1%nat, t_partial t m 2%nat).
Lemma hexn_spec order nodes1 xi t m : let N := (order + 1)%nat in (m < N * (N * N))%nat ->
  let a := (m mod N)%nat in let b := ((m / N) mod N)%nat in let c := (m / (N * N))%nat in
  let La := L N nodes1 a (xi 0%nat) in let Lb := L N nodes1 b (xi 1%nat) in let Lc := L N nodes1 c (xi 2%nat) in
  hex_entry (hexn_basis_partials order nodes1 xi t) m
  = (nodes1 a, nodes1 b, nodes1 c, La * Lb * Lc,
     DL N nodes1 a (xi 0%nat) * Lb * Lc, La * DL N nodes1 b (xi 1%nat) * Lc, La * Lb * DL N nodes1 c (xi 2%nat)).
Proof.
  intros N Hm a b c La Lb Lc. subst a b c La Lb Lc. unfold hexn_basis_partials.
  apply (loop_at hex_entry (hexn_body order nodes1 xi) (fun m =>
    let a := (m mod N)%nat in let b := ((m / N) mod N)%nat in let c := (m / (N * N))%nat in
    let La := L N nodes1 a (xi 0%nat) in let Lb := L N nodes1 b (xi 1%nat) in let Lc := L N nodes1 c (xi 2%nat) in
    (nodes1 a, nodes1 b, nodes1 c, La * Lb * Lc,
     DL N nodes1 a (xi 0%nat) * Lb * Lc, La * DL N nodes1 b (xi 1%nat) * Lc, La * Lb * DL N nodes1 c (xi 2%nat))));
    [| |exact Hm].
  - clear m Hm t. intros m t Hm. cbv zeta. unfold hexn_body. fold N. rewrite hexn_idx_spec by (unfold N; lia).
    assert (N0 : (0 < N)%nat) by (unfold N; lia).
    assert (Ha : (m mod N < N)%nat) by (apply Nat.mod_upper_bound; lia).
    assert (Hb : ((m / N) mod N < N)%nat) by (apply Nat.mod_upper_bound; lia).
    assert (Hc : (m / (N * N) < N)%nat) by (apply Nat.div_lt_upper_bound; lia).
    set (t0 := with_nodes t _).
    pose proof (direction_spec order nodes1 xi m 0 (m mod N + 1) t0 ltac:(unfold N in *; lia)) as D0. cbv zeta in D0.
    set (t1 := direction order nodes1 xi m 0 (m mod N + 1) t0) in *.
    pose proof (direction_spec order nodes1 xi m 1 ((m / N) mod N + 1) t1 ltac:(unfold N in *; lia)) as D1. cbv zeta in D1.
    set (t2 := direction order nodes1 xi m 1 ((m / N) mod N + 1) t1) in *.
    pose proof (direction_spec order nodes1 xi m 2 (m / (N * N) + 1) t2 ltac:(unfold N in *; lia)) as D2. cbv zeta in D2.
    set (t3 := direction order nodes1 xi m 2 (m / (N * N) + 1) t2) in *.
    destruct D0 as (A1 & A2 & A3 & A4 & A5), D1 as (B1 & B2 & B3 & B4 & B5), D2 as (C1 & C2 & C3 & C4 & C5).
    unfold hex_entry, with_result. cbn [t_nodes t_basis t_partial].
    rewrite C4, C5, B4, B5, A4, A5, C1, B1, A1. unfold t0, with_nodes. cbn [t_nodes t_val t_dval].
    rewrite !set2_same. unfold set. cbn [Nat.eqb]. rewrite Nat.eqb_refl, !Nat.add_sub. reflexivity.
  - clear m Hm t. intros m t k Hk. unfold hexn_body. destruct (hexn_idx (order + 1) m) as [[i j] l].
    unfold direction. set (t0 := with_nodes t _).
    destruct (lagrange_1D order (xi 0%nat) nodes1 (t_val1 t0) (t_dval1 t0)) as [v dv]. cbv zeta.
    destruct (lagrange_1D order (xi 1%nat) nodes1 _ _) as [v' dv'].
    destruct (lagrange_1D order (xi 2%nat) nodes1 _ _) as [v'' dv''].
    unfold hex_entry, with_result. cbn [t_nodes t_basis t_partial].
    unfold t0, with_nodes. cbn [t_nodes t_basis t_partial]. rewrite !set2_other by exact Hk. unfold set.
    destruct (Nat.eqb_spec k m); [congruence|reflexivity].
Qed.
Lemma lag_position_spec numnodes dims nodes basis x0 d :
  lag_position numnodes dims nodes basis x0 d
  = if (d <? dims)%nat then x0 d + sum numnodes (fun v => nodes v d * basis v) else x0 d.
Proof.
  assert (A : forall v n x d, loop n (fun dim x => set x dim (x dim + nodes v dim * basis v)) x d
    = if (d <? n)%nat then x d + nodes v d * basis v else x d).
  { intros v n. induction n; intros x e; cbn [loop]; [reflexivity|]. unfold set.
    destruct (Nat.eqb_spec e n) as [->|Ne].
    - rewrite IHn, Nat.ltb_irrefl. destruct (Nat.ltb_spec n (S n)); [reflexivity|lia].
    - rewrite IHn. destruct (Nat.ltb_spec e n), (Nat.ltb_spec e (S n)); try lia; reflexivity. }
  unfold lag_position. induction numnodes; cbn [loop].
  - destruct (d <? dims)%nat; [simpl; ring|reflexivity].
  - rewrite A, IHnumnodes. destruct (d <? dims)%nat; [simpl; ring|reflexivity].
Qed.

(** ** Chebyshev nodes *)
Lemma cheb_spec pi order v j : (1 <= order)%nat -> (j <= order)%nat ->
  chebyshev_nodes_1D pi order v j
  = if Nat.eqb j order then 1 else if Nat.eqb j 0 then -1 else - cos (pi * (2 * INR j + 1) / (2 * (INR order + 1))).
Proof.
  intros Ho Hj. unfold chebyshev_nodes_1D. unfold set at 1. destruct (Nat.eqb_spec j order); [reflexivity|].
  unfold set at 1. destruct (Nat.eqb_spec j 0); [reflexivity|].
  rewrite (loop_at (fun v k => v k) _ (fun k => - cos (pi * (2 * INR k + 1) / (2 * (INR order + 1))))); [reflexivity| | |lia].
  - intros m s _. cbv zeta. unfold set. replace (S m - 1)%nat with m by lia. rewrite Nat.eqb_refl. rewrite S_INR.
    f_equal. f_equal. f_equal. f_equal. ring.
  - intros m s k Hk. cbv zeta. unfold set. replace (S m - 1)%nat with m by lia. destruct (Nat.eqb_spec k m); [congruence|reflexivity].
Qed.
(* the angle of node j *)
Definition cheb_angle (pi : R) (order j : nat) : R :=
  if Nat.eqb j order then PI else if Nat.eqb j 0 then 0 else pi * (2 * INR j + 1) / (2 * (INR order + 1)).
Lemma cheb_cos pi order v j : (1 <= order)%nat -> (j <= order)%nat ->
  chebyshev_nodes_1D pi order v j = - cos (cheb_angle pi order j).
Proof.
  intros Ho Hj. rewrite cheb_spec by assumption. unfold cheb_angle.
  destruct (Nat.eqb j order); [rewrite cos_PI; ring|]. destruct (Nat.eqb j 0); [rewrite cos_0; ring|reflexivity].
Qed.
Lemma cheb_theta pi order x : 0 < pi <= PI -> 0 <= x -> x < INR order ->
  0 < pi * (2 * x + 1) / (2 * (INR order + 1)) < PI.
Proof.
  intros Hp Hx Hx'. assert (H : 0 < 2 * (INR order + 1)) by lra. split.
  - apply Rdiv_lt_0_compat; [apply Rmult_lt_0_compat; lra|exact H].
  - apply (Rmult_lt_reg_r (2 * (INR order + 1))); [exact H|]. unfold Rdiv. rewrite Rmult_assoc, Rinv_l, Rmult_1_r by lra.
    apply Rle_lt_trans with (PI * (2 * x + 1)); [apply Rmult_le_compat_r; lra|].
    apply Rmult_lt_compat_l; [apply PI_RGT_0|lra].
Qed.
Lemma cheb_angle_range pi order j : 0 < pi <= PI -> (1 <= order)%nat -> (j <= order)%nat -> 0 <= cheb_angle pi order j <= PI.
Proof.
  intros Hp Ho Hj. pose proof PI_RGT_0. unfold cheb_angle. destruct (Nat.eqb_spec j order); [lra|]. destruct (Nat.eqb_spec j 0); [lra|].
  assert (A : INR j < INR order) by (apply lt_INR; lia). pose proof (pos_INR j).
  pose proof (cheb_theta pi order (INR j) Hp ltac:(lra) A). lra.
Qed.
Lemma cheb_angle_lt pi order i j : 0 < pi <= PI -> (1 <= order)%nat -> (i < j <= order)%nat ->
  cheb_angle pi order i < cheb_angle pi order j.
Proof.
  intros Hp Ho Hij. pose proof PI_RGT_0. unfold cheb_angle.
  destruct (Nat.eqb_spec i order); [lia|]. destruct (Nat.eqb_spec j 0); [lia|].
  assert (A : INR i < INR order) by (apply lt_INR; lia). pose proof (pos_INR i).
  pose proof (cheb_theta pi order (INR i) Hp ltac:(lra) A) as Ti.
  destruct (Nat.eqb_spec j order).
  - destruct (Nat.eqb_spec i 0); lra.
  - assert (B : INR j < INR order) by (apply lt_INR; lia). assert (C : INR i < INR j) by (apply lt_INR; lia).
    pose proof (cheb_theta pi order (INR j) Hp ltac:(lra) B) as Tj.
    destruct (Nat.eqb_spec i 0); [lra|]. apply Rmult_lt_compat_r; [apply Rinv_0_lt_compat; lra|].
    apply Rmult_lt_compat_l; lra.
Qed.
Lemma cheb_lt pi order v i j : 0 < pi <= PI -> (1 <= order)%nat -> (i < j <= order)%nat ->
  chebyshev_nodes_1D pi order v i < chebyshev_nodes_1D pi order v j.
Proof.
  intros Hp Ho Hij. rewrite !cheb_cos by lia. apply Ropp_lt_contravar.
  pose proof (cheb_angle_range pi order i Hp Ho ltac:(lia)). pose proof (cheb_angle_range pi order j Hp Ho ltac:(lia)).
  apply cos_decreasing_1; try lra. apply cheb_angle_lt; assumption.
Qed.
Lemma cos_lipschitz a b : Rabs (cos b - cos a) <= Rabs (b - a).
Proof.
  destruct (MVT_abs cos (fun x => - sin x) a b) as (c & E & _); [intros c _; apply derivable_pt_lim_cos|].
  rewrite E. rewrite <- (Rmult_1_l (Rabs (b - a))) at 2. apply Rmult_le_compat_r; [apply Rabs_pos|].
  rewrite Rabs_Ropp. apply Rabs_le. pose proof (SIN_bound c). lra.
Qed.
Lemma cheb_symmetric pi order v j : 0 < pi <= PI -> (1 <= order)%nat -> (j <= order)%nat ->
  Rabs (chebyshev_nodes_1D pi order v j + chebyshev_nodes_1D pi order v (order - j)%nat) <= PI - pi.
Proof.
  intros Hp Ho Hj. rewrite !cheb_spec by lia.
  destruct (Nat.eqb_spec j order) as [->|N1].
  { rewrite Nat.sub_diag. destruct (Nat.eqb_spec 0 order); [lia|]. rewrite Nat.eqb_refl.
    replace (1 + -1) with 0 by ring. rewrite Rabs_R0. lra. }
  destruct (Nat.eqb_spec j 0) as [->|N2].
  { rewrite Nat.sub_0_r, Nat.eqb_refl. replace (-1 + 1) with 0 by ring. rewrite Rabs_R0. lra. }
  destruct (Nat.eqb_spec (order - j) order); [lia|]. destruct (Nat.eqb_spec (order - j) 0); [lia|].
  rewrite minus_INR by lia. set (t := pi * (2 * INR j + 1) / (2 * (INR order + 1))).
  assert (0 <= INR order) by apply pos_INR.
  replace (pi * (2 * (INR order - INR j) + 1) / (2 * (INR order + 1))) with (pi - t) by (unfold t; field; lra).
  replace (- cos t + - cos (pi - t)) with (cos (PI - t) - cos (pi - t)).
  - eapply Rle_trans; [apply cos_lipschitz|]. replace (PI - t - (pi - t)) with (PI - pi) by ring.
    rewrite Rabs_right; lra.
  - rewrite Rtrigo_facts.cos_pi_minus. ring.
Qed.

(** ** the literal is below PI, by Machin's formula with 22 terms *)
Definition machin_num (k : nat) : Z := ((-1) ^ Z.of_nat k * (2 * 7 ^ (2 * Z.of_nat k + 1) + 3 ^ (2 * Z.of_nat k + 1)))%Z.
Definition machin_den (k : nat) : Z := ((2 * Z.of_nat k + 1) * 21 ^ (2 * Z.of_nat k + 1))%Z.
Lemma machin_term k : tg_alt PI_2_3_7_tg k = IZR (machin_num k) / IZR (machin_den k).
Proof.
  unfold tg_alt, PI_2_3_7_tg, Ratan_seq, machin_num, machin_den.
  assert (P : forall z, IZR (z ^ (2 * Z.of_nat k + 1)) = IZR z ^ (2 * k + 1)).
  { intros z. rewrite pow_IZR. f_equal. f_equal. lia. }
  assert (Q : IZR (2 * Z.of_nat k + 1) = INR (2 * k + 1)).
  { rewrite INR_IZR_INZ. f_equal. lia. }
  rewrite !mult_IZR, plus_IZR, mult_IZR, !P, Q, <- pow_IZR.
  assert (INR (2 * k + 1) <> 0) by (apply not_0_INR; lia).
  assert (A3 : 3 ^ (2 * k + 1) <> 0) by (apply pow_nonzero; lra).
  assert (A7 : 7 ^ (2 * k + 1) <> 0) by (apply pow_nonzero; lra).
  replace 21 with (3 * 7) by ring. rewrite Rpow_mult_distr, !pow_inv. field. auto.
Qed.
Fixpoint machin_sum (D : Z) (n : nat) : Z :=
  match n with O => machin_num 0 * (D / machin_den 0) | S k => machin_sum D k + machin_num n * (D / machin_den n) end%Z.
Fixpoint machin_ok (D : Z) (n : nat) : bool :=
  (D mod machin_den n =? 0)%Z && match n with O => true | S k => machin_ok D k end.
Lemma machin_sum_spec D n : machin_ok D n = true -> sum_f_R0 (tg_alt PI_2_3_7_tg) n * IZR D = IZR (machin_sum D n).
Proof.
  assert (T : forall k, (D mod machin_den k =? 0)%Z = true ->
    tg_alt PI_2_3_7_tg k * IZR D = IZR (machin_num k * (D / machin_den k))).
  { intros k E. apply Z.eqb_eq in E. rewrite machin_term, mult_IZR.
    assert (P : machin_den k <> 0%Z).
    { unfold machin_den. apply Z.neq_mul_0. split; [lia|]. apply Z.pow_nonzero; lia. }
    rewrite (Z.div_mod D (machin_den k) P) at 1. rewrite E, Z.add_0_r, mult_IZR. field. apply not_0_IZR. exact P. }
  induction n; cbn [machin_ok machin_sum sum_f_R0]; intros H; apply andb_prop in H as [H1 H2].
  - apply T; exact H1.
  - rewrite Rmult_plus_distr_r, IHn, plus_IZR by exact H2. f_equal. apply T; exact H1.
Qed.
Definition machin_D : Z := (21 ^ 43 * 294362129962575675)%Z.
Lemma machin_D_ok : machin_ok machin_D 21 = true.
Proof. vm_compute. reflexivity. Qed.
Lemma machin_D_pos : (0 <? machin_D)%Z = true.
Proof. vm_compute. reflexivity. Qed.
Lemma pi_above_aux (X : R) (D Z0 a b : Z) : (0 < b)%Z -> (0 < D)%Z -> X * IZR D = IZR Z0 -> X <= PI / 4 ->
  (a * D < 4 * Z0 * b)%Z -> IZR a / IZR b < PI.
Proof.
  intros Hb HD E HX H. apply IZR_lt in H. rewrite !mult_IZR in H. rewrite <- E in H. apply IZR_lt in Hb. apply IZR_lt in HD.
  apply (Rmult_lt_reg_r (IZR b)); [exact Hb|]. unfold Rdiv. rewrite Rmult_assoc, Rinv_l, Rmult_1_r by lra.
  apply (Rmult_lt_reg_r (IZR D)); [exact HD|]. eapply Rlt_le_trans; [exact H|].
  replace (4 * (X * IZR D) * IZR b) with (4 * X * (IZR b * IZR D)) by ring.
  replace (PI * IZR b * IZR D) with (PI * (IZR b * IZR D)) by ring.
  apply Rmult_le_compat_r; [apply Rmult_le_pos; lra|lra].
Qed.
Lemma machin_below : sum_f_R0 (tg_alt PI_2_3_7_tg) 21 <= PI / 4.
Proof. exact (proj1 (PI_2_3_7_ineq 10)). Qed.
Definition pi_check (a b : Z) : bool := ((0 <? b) && (a * machin_D <? 4 * machin_sum machin_D 21 * b))%Z.
Lemma pi_above (a b : Z) : pi_check a b = true -> IZR a / IZR b < PI.
Proof.
  unfold pi_check. rewrite andb_true_iff. intros [Hb H].
  exact (pi_above_aux _ machin_D _ a b (proj1 (Z.ltb_lt _ _) Hb) (proj1 (Z.ltb_lt _ _) machin_D_pos)
    (machin_sum_spec machin_D 21 machin_D_ok) machin_below (proj1 (Z.ltb_lt _ _) H)).
Qed.
(** the next partial sum lies above, so the constants are also close *)
Lemma machin_above : PI / 4 <= sum_f_R0 (tg_alt PI_2_3_7_tg) 20.
Proof. exact (proj2 (PI_2_3_7_ineq 10)). Qed.
Lemma machin_D_ok20 : machin_ok machin_D 20 = true.
Proof. vm_compute. reflexivity. Qed.
Lemma pi_below_aux (X : R) (D Z0 a b : Z) : (0 < b)%Z -> (0 < D)%Z -> X * IZR D = IZR Z0 -> PI / 4 <= X ->
  (4 * Z0 * b < a * D)%Z -> PI < IZR a / IZR b.
Proof.
  intros Hb HD E HX H. apply IZR_lt in H. rewrite !mult_IZR in H. rewrite <- E in H. apply IZR_lt in Hb. apply IZR_lt in HD.
  apply (Rmult_lt_reg_r (IZR b)); [exact Hb|]. unfold Rdiv. rewrite Rmult_assoc, Rinv_l, Rmult_1_r by lra.
  apply (Rmult_lt_reg_r (IZR D)); [exact HD|]. eapply Rle_lt_trans; [|exact H].
  replace (4 * (X * IZR D) * IZR b) with (4 * X * (IZR b * IZR D)) by ring.
  replace (PI * IZR b * IZR D) with (PI * (IZR b * IZR D)) by ring.
  apply Rmult_le_compat_r; [apply Rmult_le_pos; lra|lra].
Qed.
Definition pi_check_up (a b : Z) : bool := ((0 <? b) && (4 * machin_sum machin_D 20 * b <? a * machin_D))%Z.
Lemma pi_below (a b : Z) : pi_check_up a b = true -> PI < IZR a / IZR b.
Proof.
  unfold pi_check_up. rewrite andb_true_iff. intros [Hb H].
  exact (pi_below_aux _ machin_D _ a b (proj1 (Z.ltb_lt _ _) Hb) (proj1 (Z.ltb_lt _ _) machin_D_pos)
    (machin_sum_spec machin_D 20 machin_D_ok20) machin_above (proj1 (Z.ltb_lt _ _) H)).
Qed.
Lemma pi_literal_range : 0 < pi_literal < PI.
Proof.
  unfold pi_literal. split; [lra|]. rewrite pow_IZR. apply pi_above. vm_compute. reflexivity.
Qed.
Lemma pi_double_range : 0 < pi_double < PI.
Proof.
  unfold pi_double. split; [lra|]. rewrite pow_IZR. apply pi_above. vm_compute. reflexivity.
Qed.
