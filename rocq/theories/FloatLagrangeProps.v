(** Property C163: Lagrange polynomials of any order, QuadN and HexN in floating point.  [exactly] is finite, a number of the
    format and of that value; L and DL are the Lagrange polynomial and its derivative (LagrangeProofs.v, C58). *)
From Coq Require Import ZArith List Bool Lia Reals Lra Psatz SpecFloat.
From Verif Require Import Outcome VectorModel VectorProofs QuadratureProofs LagrangeModel LagrangeProofs LagrangeProps FloatModel FloatRound FloatProofs FloatProps FloatExpr FloatElementsProofs FloatElementsProps FloatLagrangeModel FloatLagrangeProofs.
Import ListNotations.
Local Open Scope R_scope.

(** ** the texts read over reals are the model of C58 and C59 *)
Theorem C163_text order :
  (forall x xi f g i, fst (rlagrange_1D order x xi f g) i = fst (lagrange_1D order x xi f g) i /\ snd (rlagrange_1D order x xi f g) i = snd (lagrange_1D order x xi f g) i)
  /\ (forall nodes1 xi t t' m, (m < (order + 1) * (order + 1))%nat -> quad_entryT (rquadn order nodes1 xi t) m = quad_entry (quadn_basis_partials order nodes1 xi t') m)
  /\ (forall nodes1 xi t t' m, (m < (order + 1) * ((order + 1) * (order + 1)))%nat -> hex_entryT (rhexn order nodes1 xi t) m = hex_entry (hexn_basis_partials order nodes1 xi t') m).
Proof.
  split; [|split].
  - intros x xi f g i. unfold rlagrange_1D. destruct (lagrange_specT Rplus Rminus Rmult Rdiv 0 1 order x xi f g i) as [-> ->]. destruct (lagrange_spec order x xi f g i) as [-> ->]. rewrite LR, DLR. split; reflexivity.
  - intros nodes1 xi t t' m Hm. unfold rquadn. rewrite quadn_specT, quadn_spec by exact Hm. rewrite !LR, !DLR. reflexivity.
  - intros nodes1 xi t t' m Hm. unfold rhexn. rewrite hexn_specT, hexn_spec by exact Hm. unfold hex_valueT. cbv zeta. rewrite !LR, !DLR. reflexivity.
Qed.
Print Assumptions C163_text.

(** ** admissible nodes and points: [apart_by prec emax a N xi] says that the N nodes are finite numbers of the format, no two of
    them nearer than 2^-a or farther than 2; [point_by] that a point is a number within 2 of all nodes and, unless it
    coincides with a node, not nearer to it than 2^-a *)
Definition apart_by (prec emax a : Z) (N : nat) (xi : nat -> spec_float) : Prop :=
  (forall j, (j < N)%nat -> number prec emax (xi j) /\ fin (xi j) = true)
  /\ (forall i j, (i < N)%nat -> (j < N)%nat -> i <> j -> pw (- a) <= Rabs (FR (xi i) - FR (xi j)) <= 2).
Definition point_by (prec emax a : Z) (N : nat) (xi : nat -> spec_float) (x : spec_float) : Prop :=
  number prec emax x /\ fin x = true
  /\ forall j, (j < N)%nat -> (FR x = FR (xi j) \/ pw (- a) <= Rabs (FR x - FR (xi j))) /\ Rabs (FR x - FR (xi j)) <= 2.
(** [room k]: k products of 1-D functions do not leave the range of the format *)
Definition room (prec emax a : Z) (k N : nat) : Prop :=
  (0 <= a)%Z /\ (Z.of_nat k * ((a + 2) * Z.of_nat N) + 4 <= emax)%Z /\ (64 * Z.of_nat N <= 2 ^ prec)%Z.
Lemma node_point prec emax a N xi k : apart_by prec emax a N xi -> (k < N)%nat -> point_by prec emax a N xi (xi k).
Proof.
  intros [H1 H2] Hk. destruct (H1 k Hk) as [X Y]. split; [exact X|]. split; [exact Y|]. intros j Hj. destruct (Nat.eq_dec k j) as [->|Ne].
  - split; [left; reflexivity|]. rewrite Rminus_diag_eq, Rabs_R0 by reflexivity. lra.
  - destruct (H2 k j Hk Hj Ne) as [A B]. split; [right; exact A|exact B].
Qed.
Lemma apart_distinct prec emax a N xi : apart_by prec emax a N xi -> distinct N (fun j => FR (xi j)).
Proof. intros [_ H] i j Hi Hj Ne E. destruct (H i j Hi Hj Ne) as [A _]. rewrite E, Rminus_diag_eq, Rabs_R0 in A by reflexivity. pose proof (pw_pos (- a)). lra. Qed.
Lemma room_1 prec emax a k N : (1 <= k)%nat -> room prec emax a k N -> (0 <= a)%Z /\ ((a + 2) * Z.of_nat N + 4 <= emax)%Z /\ (16 * Z.of_nat N <= 2 ^ prec)%Z.
Proof. intros K (A & B & C). repeat split; [exact A| |lia]. assert (Q : (0 <= (a + 2) * Z.of_nat N)%Z) by nia. nia. Qed.
Lemma point_gap prec emax a N xi x : point_by prec emax a N xi x -> forall j, (j < N)%nat -> apart a xi (FR x) j /\ Rabs (FR x - FR (xi j)) <= 2.
Proof. intros (_ & _ & G) j Hj. destruct (G j Hj) as [[E|E] B]; (split; [|exact B]); [left; lra|right; exact E]. Qed.

(** ** at the nodes: exactly 1 at the own node and exactly 0 at the others *)
Lemma LT_nodal prec emax a N xi i k : format prec emax -> room prec emax a 1 N -> apart_by prec emax a N xi -> (i < N)%nat -> (k < N)%nat ->
  exactly prec emax (LT (SFsub prec emax) (SFmul prec emax) (SFdiv prec emax) (of_int prec emax 1) N xi i (xi k)) (if Nat.eqb i k then 1 else 0).
Proof.
  intros Hf Hr Hx Hi Hk. destruct (room_1 prec emax a 1 N (le_n 1) Hr) as (A & C1 & C2). pose proof (node_point _ _ _ _ _ _ Hx Hk) as HP. pose proof (point_gap _ _ _ _ _ _ HP) as G. destruct HP as (PN & PF & _). pose proof (apart_distinct _ _ _ _ _ Hx) as Ds. destruct Hx as [X1 X2].
  destruct (Nat.eqb_spec i k) as [->|Ne].
  - destruct (den_near prec emax Hf N a A C1 C2 xi X1 X2 k Hk) as (D1 & _ & D3). unfold LT. change (selT (SFsub prec emax) (SFmul prec emax) (of_int prec emax 1) (fun j => negb (j =? k)) (xi k) xi N) with (denT (SFsub prec emax) (SFmul prec emax) (of_int prec emax 1) N xi k).
    set (d := denT _ _ _ N xi k) in *. destruct D1 as (DF & DN & s & S & ED). pose proof (rho_pos prec emax Hf (2 * N)) as R0. pose proof (pw_pos (- (a * Z.of_nat N))) as P0.
    assert (dn : FR d <> 0). { rewrite ED. apply Rmult_integral_contrapositive. split; [intros E; rewrite E, Rabs_R0 in D3|]; lra. }
    pose proof (div_correct prec emax ltac:(apply Hf) ltac:(destruct Hf; lia) _ _ DF DF DN DN dn) as AC. replace (FR d / FR d) with 1 in AC by (field; exact dn).
    destruct (unit_exact prec emax Hf false) as (F1 & N1 & E1). cbn [sgnR] in E1. assert (I : isfl prec emax 1) by (rewrite <- E1; apply isfl_FR; assumption).
    destruct (approx_exact prec emax _ _ _ AC I) as [F E]. split; [exact F|]. split; [exact (approx_valid prec emax _ _ _ AC)|exact E].
  - pose proof (L_near prec emax Hf N a A C1 C2 xi X1 X2 (xi k) PF PN G i Hi) as Q. rewrite LR, (L_nodal N (fun j => FR (xi j)) i k Ds Hi Hk) in Q. destruct (Nat.eqb_spec i k); [contradiction|].
    pose proof Q as (F & Nm & _). split; [exact F|]. split; [exact Nm|]. exact (near_0 _ _ _ _ Q).
Qed.
Theorem C163_nodal prec emax a order xi f g i k : format prec emax -> room prec emax a 1 (order + 1) -> apart_by prec emax a (order + 1) xi -> (i <= order)%nat -> (k <= order)%nat ->
  exactly prec emax (fst (flagrange_1D prec emax order (xi k) xi f g) i) (if Nat.eqb i k then 1 else 0).
Proof.
  intros Hf Hr Hx Hi Hk. unfold flagrange_1D. rewrite (proj1 (lagrange_specT _ _ _ _ _ _ order (xi k) xi f g i)). destruct (Nat.ltb_spec i (order + 1)); [|lia]. apply (LT_nodal prec emax a); try assumption; lia.
Qed.
Print Assumptions C163_nodal.
Lemma mul_exactly prec emax z w (b c : bool) : format prec emax -> exactly prec emax z (if b then 1 else 0) -> exactly prec emax w (if c then 1 else 0) ->
  exactly prec emax (SFmul prec emax z w) (if (b && c)%bool then 1 else 0).
Proof.
  intros Hf (F & N & E) (F' & N' & E'). pose proof (mul_correct prec emax ltac:(apply Hf) ltac:(destruct Hf; lia) _ _ F F' N N') as A. rewrite E, E' in A.
  replace ((if b then 1 else 0) * (if c then 1 else 0)) with (if (b && c)%bool then 1 else 0) in A by (destruct b, c; cbn; ring).
  destruct (unit_exact prec emax Hf false) as (F1 & N1 & E1). cbn [sgnR] in E1. assert (I : isfl prec emax (if (b && c)%bool then 1 else 0)) by (destruct (b && c)%bool; [rewrite <- E1; apply isfl_FR; assumption|apply isfl_0]).
  destruct (approx_exact prec emax _ _ _ A I) as [X Y]. split; [exact X|]. split; [exact (approx_valid prec emax _ _ _ A)|exact Y].
Qed.
(** the tensor products: basis function m at the node m' of the element, in the coordinates the element itself stores *)
Theorem C163_quadn_nodal prec emax a order nodes1 xi t t' m m' : let N := (order + 1)%nat in format prec emax -> room prec emax a 1 N -> apart_by prec emax a N nodes1 -> (m < N * N)%nat -> (m' < N * N)%nat ->
  (forall d, (d < 2)%nat -> xi d = f_nodes (fquadn prec emax order nodes1 xi t') m' d) ->
  exactly prec emax (f_basis (fquadn prec emax order nodes1 xi t) m) (if Nat.eqb m m' then 1 else 0).
Proof.
  intros N Hf Hr Hx Hm Hm' Hxi. pose proof (Hxi 0%nat ltac:(lia)) as E0. pose proof (Hxi 1%nat ltac:(lia)) as E1.
  pose proof (quadn_specT (SFadd prec emax) (SFsub prec emax) (SFmul prec emax) (SFdiv prec emax) f0 (of_int prec emax 1) order nodes1 xi t' m' Hm') as Q. cbv zeta in Q. fold (fquadn prec emax) in Q. unfold quad_entryT in Q. fold N in Q.
  assert (Q0 : f_nodes (fquadn prec emax order nodes1 xi t') m' 0%nat = nodes1 (m' mod N)%nat) by exact (f_equal (fun q => fst (fst (fst (fst q)))) Q). assert (Q1 : f_nodes (fquadn prec emax order nodes1 xi t') m' 1%nat = nodes1 (m' / N)%nat) by exact (f_equal (fun q => snd (fst (fst (fst q)))) Q). clear Q. rewrite Q0 in E0. rewrite Q1 in E1.
  pose proof (quadn_specT (SFadd prec emax) (SFsub prec emax) (SFmul prec emax) (SFdiv prec emax) f0 (of_int prec emax 1) order nodes1 xi t m Hm) as P. cbv zeta in P. fold (fquadn prec emax) in P. unfold quad_entryT in P. fold N in P. rewrite E0, E1 in P.
  apply (f_equal (fun q => snd (fst (fst q)))) in P. cbn [fst snd] in P. rewrite P. clear P.
  assert (N0 : (0 < N)%nat) by (unfold N; lia). assert (U : forall k, (k mod N < N)%nat) by (intros; apply Nat.mod_upper_bound; lia). assert (W : forall k, (k < N * N)%nat -> (k / N < N)%nat) by (intros; apply Nat.div_lt_upper_bound; lia).
  pose proof (mul_exactly prec emax _ _ _ _ Hf (LT_nodal prec emax a N nodes1 (m mod N) (m' mod N) Hf Hr Hx (U m) (U m')) (LT_nodal prec emax a N nodes1 (m / N) (m' / N) Hf Hr Hx (W m Hm) (W m' Hm'))) as R.
  replace (m =? m')%nat with ((m mod N =? m' mod N) && (m / N =? m' / N))%bool; [exact R|].
  pose proof (Nat.div_mod m N ltac:(lia)). pose proof (Nat.div_mod m' N ltac:(lia)).
  destruct (Nat.eqb_spec m m') as [->|Ne]; [rewrite !Nat.eqb_refl; reflexivity|]. destruct (Nat.eqb_spec (m mod N) (m' mod N)); [|reflexivity]. destruct (Nat.eqb_spec (m / N) (m' / N)); [exfalso; apply Ne; congruence|reflexivity].
Qed.
Print Assumptions C163_quadn_nodal.
Theorem C163_hexn_nodal prec emax a order nodes1 xi t t' m m' : let N := (order + 1)%nat in format prec emax -> room prec emax a 1 N -> apart_by prec emax a N nodes1 -> (m < N * (N * N))%nat -> (m' < N * (N * N))%nat ->
  (forall d, (d < 3)%nat -> xi d = f_nodes (fhexn prec emax order nodes1 xi t') m' d) ->
  exactly prec emax (f_basis (fhexn prec emax order nodes1 xi t) m) (if Nat.eqb m m' then 1 else 0).
Proof.
  intros N Hf Hr Hx Hm Hm' Hxi. pose proof (Hxi 0%nat ltac:(lia)) as E0. pose proof (Hxi 1%nat ltac:(lia)) as E1. pose proof (Hxi 2%nat ltac:(lia)) as E2.
  pose proof (hexn_specT (SFadd prec emax) (SFsub prec emax) (SFmul prec emax) (SFdiv prec emax) f0 (of_int prec emax 1) order nodes1 xi t' m' Hm') as Q. fold (fhexn prec emax) in Q. unfold hex_entryT, hex_valueT in Q. cbv zeta in Q. fold N in Q.
  assert (Q0 : f_nodes (fhexn prec emax order nodes1 xi t') m' 0%nat = nodes1 (m' mod N)%nat) by exact (f_equal (fun q => fst (fst (fst (fst (fst (fst q)))))) Q). assert (Q1 : f_nodes (fhexn prec emax order nodes1 xi t') m' 1%nat = nodes1 ((m' / N) mod N)%nat) by exact (f_equal (fun q => snd (fst (fst (fst (fst (fst q)))))) Q).
  assert (Q2 : f_nodes (fhexn prec emax order nodes1 xi t') m' 2%nat = nodes1 (m' / (N * N))%nat) by exact (f_equal (fun q => snd (fst (fst (fst (fst q))))) Q). clear Q. rewrite Q0 in E0. rewrite Q1 in E1. rewrite Q2 in E2.
  pose proof (hexn_specT (SFadd prec emax) (SFsub prec emax) (SFmul prec emax) (SFdiv prec emax) f0 (of_int prec emax 1) order nodes1 xi t m Hm) as P. fold (fhexn prec emax) in P. unfold hex_entryT, hex_valueT in P. cbv zeta in P. fold N in P. rewrite E0, E1, E2 in P.
  apply (f_equal (fun q => snd (fst (fst (fst q))))) in P. cbn [fst snd] in P. rewrite P. clear P.
  assert (N0 : (0 < N)%nat) by (unfold N; lia). assert (U : forall k, (k mod N < N)%nat) by (intros; apply Nat.mod_upper_bound; lia). assert (W : forall k, (k < N * (N * N))%nat -> (k / (N * N) < N)%nat) by (intros; apply Nat.div_lt_upper_bound; nia).
  pose proof (mul_exactly prec emax _ _ _ _ Hf (mul_exactly prec emax _ _ _ _ Hf (LT_nodal prec emax a N nodes1 (m mod N) (m' mod N) Hf Hr Hx (U m) (U m')) (LT_nodal prec emax a N nodes1 ((m / N) mod N) ((m' / N) mod N) Hf Hr Hx (U _) (U _)))
    (LT_nodal prec emax a N nodes1 (m / (N * N)) (m' / (N * N)) Hf Hr Hx (W m Hm) (W m' Hm'))) as R.
  replace (m =? m')%nat with ((m mod N =? m' mod N) && ((m / N) mod N =? (m' / N) mod N) && (m / (N * N) =? m' / (N * N)))%bool; [exact R|].
  destruct (Nat.eqb_spec m m') as [->|Ne]; [rewrite !Nat.eqb_refl; reflexivity|].
  destruct (Nat.eqb_spec (m mod N) (m' mod N)) as [A1|]; [|reflexivity]. destruct (Nat.eqb_spec ((m / N) mod N) ((m' / N) mod N)) as [A2|]; [|reflexivity]. destruct (Nat.eqb_spec (m / (N * N)) (m' / (N * N))) as [A3|]; [|reflexivity].
  exfalso. apply Ne. rewrite (Nat.div_mod m N), (Nat.div_mod m' N), A1 by lia. f_equal. f_equal. rewrite (Nat.div_mod (m / N) N), (Nat.div_mod (m' / N) N), A2 by lia. rewrite !Nat.div_div by lia. rewrite A3. reflexivity.
Qed.
Print Assumptions C163_hexn_nodal.

(** ** everywhere: relative error of the values *)
Theorem C163_accuracy prec emax a order xi f g x i : let N := (order + 1)%nat in format prec emax -> room prec emax a 1 N -> apart_by prec emax a N xi -> point_by prec emax a N xi x -> (i <= order)%nat ->
  let z := fst (flagrange_1D prec emax order x xi f g) i in let l := L N (fun j => FR (xi j)) i (FR x) in
  fin z = true /\ number prec emax z /\ Rabs (FR z - l) <= 2 * INR (4 * N + 1) * uu prec * Rabs l.
Proof.
  intros N Hf Hr Hx Hp Hi. cbv zeta. destruct (room_1 prec emax a 1 N (le_n 1) Hr) as (A & C1 & C2). pose proof (point_gap _ _ _ _ _ _ Hp) as G. destruct Hp as (PN & PF & _). destruct Hx as [X1 X2].
  unfold flagrange_1D. rewrite (proj1 (lagrange_specT _ _ _ _ _ _ order x xi f g i)). destruct (Nat.ltb_spec i (order + 1)) as [Hl|]; [|lia]. fold N in Hl |- *.
  pose proof (L_near prec emax Hf N a A C1 C2 xi X1 X2 x PF PN G i Hl) as Q. rewrite LR in Q. pose proof Q as (F & Nm & _). split; [exact F|]. split; [exact Nm|].
  apply (near_error prec emax Hf N); [exact C2|lia|exact Q].
Qed.
Print Assumptions C163_accuracy.
(** the computed values add up to 1 within the Lebesgue function of the nodes *)
Theorem C163_partition_of_unity prec emax a order xi f g x : let N := (order + 1)%nat in format prec emax -> room prec emax a 1 N -> apart_by prec emax a N xi -> point_by prec emax a N xi x ->
  Rabs (sum N (fun i => FR (fst (flagrange_1D prec emax order x xi f g) i)) - 1) <= 2 * INR (4 * N + 1) * uu prec * sum N (fun i => Rabs (L N (fun j => FR (xi j)) i (FR x))).
Proof.
  intros N Hf Hr Hx Hp. pose proof (apart_distinct _ _ _ _ _ Hx) as Ds. assert (One : sum N (fun i => L N (fun j => FR (xi j)) i (FR x)) = 1).
  { pose proof (reproduce N (fun j => FR (xi j)) [1] (FR x) Ds ltac:(unfold N; cbn; lia)) as H. replace (peval [1] (FR x)) with 1 in H by (simpl; ring). etransitivity; [|exact H]. apply sum_ext. intros i _. simpl. ring. }
  rewrite <- One at 1.
  assert (K : forall n, (n <= N)%nat -> Rabs (sum n (fun i => FR (fst (flagrange_1D prec emax order x xi f g) i)) - sum n (fun i => L N (fun j => FR (xi j)) i (FR x))) <= 2 * INR (4 * N + 1) * uu prec * sum n (fun i => Rabs (L N (fun j => FR (xi j)) i (FR x)))); [|apply K; lia].
  induction n; intros Hn; [cbn; rewrite Rminus_0_r, Rabs_R0; lra|]. specialize (IHn ltac:(lia)). repeat change (sum (S n) ?h) with (sum n h + h n). cbv beta.
  destruct (C163_accuracy prec emax a order xi f g x n Hf Hr Hx Hp ltac:(unfold N in *; lia)) as (_ & _ & E). fold N in E. set (c := 2 * INR (4 * N + 1) * uu prec) in *.
  match goal with |- Rabs (?p1 + ?p - (?p2 + ?q)) <= _ => replace (p1 + p - (p2 + q)) with ((p1 - p2) + (p - q)) by ring end. eapply Rle_trans; [apply Rabs_triang|]. rewrite Rmult_plus_distr_l. lra.
Qed.
Print Assumptions C163_partition_of_unity.
(** derivatives: the error relative to the sum of the magnitudes of the products that are added *)
Definition magnitude (N : nat) (xi : nat -> R) (i : nat) (x : R) : R :=
  sum N (fun j => if Nat.eqb j i then 0 else Rabs (prod N (fun k => if (negb (Nat.eqb k j) && negb (Nat.eqb k i))%bool then x - xi k else 1))) / Rabs (prod_ne N i (fun j => xi i - xi j)).
Theorem C163_derivative prec emax a order xi f g x i : let N := (order + 1)%nat in format prec emax -> room prec emax a 1 N -> apart_by prec emax a N xi -> point_by prec emax a N xi x -> (i <= order)%nat ->
  let z := snd (flagrange_1D prec emax order x xi f g) i in
  fin z = true /\ number prec emax z
  /\ Rabs (FR z - DL N (fun j => FR (xi j)) i (FR x)) <= 2 * INR (5 * N + 1) * uu prec * magnitude N (fun j => FR (xi j)) i (FR x) + eta prec emax.
Proof.
  intros N Hf Hr Hx Hp Hi. cbv zeta. destruct (room_1 prec emax a 1 N (le_n 1) Hr) as (A & C1 & C2). pose proof (point_gap _ _ _ _ _ _ Hp) as G. destruct Hp as (PN & PF & _). destruct Hx as [X1 X2].
  unfold flagrange_1D. rewrite (proj2 (lagrange_specT _ _ _ _ _ _ order x xi f g i)). destruct (Nat.ltb_spec i (order + 1)) as [Hl|]; [|lia]. fold N in Hl |- *.
  destruct (DL_near prec emax Hf N a A C1 C2 xi X1 X2 x PF PN G i Hl) as (F & Nm & E). split; [exact F|]. split; [exact Nm|]. rewrite DLR, denR in E. eapply Rle_trans; [exact E|]. apply Rplus_le_compat_r.
  replace (mags N xi x i N / Rabs (prod_ne N i (fun j : nat => FR (xi i) - FR (xi j)))) with (magnitude N (fun j => FR (xi j)) i (FR x)).
  2:{ unfold magnitude. f_equal. unfold mags. apply sum_ext. intros j _. destruct (j =? i)%nat; [reflexivity|]. unfold termT. rewrite selR_prod. reflexivity. }
  apply Rmult_le_compat_r; [|apply (gam_bound prec emax Hf N); [exact C2|unfold N; lia]].
  unfold magnitude. apply Rmult_le_pos; [|pose proof (Rabs_pos (prod_ne N i (fun j => FR (xi i) - FR (xi j)))) as P; destruct P as [P|P]; [apply Rlt_le, Rinv_0_lt_compat, P|rewrite <- P, Rinv_0; lra]].
  generalize N at 1. intros n. induction n; [cbn; lra|]. change (sum (S n) ?h) with (sum n h + h n). cbv beta. destruct (n =? i)%nat; [lra|]. match goal with |- 0 <= _ + Rabs ?q => pose proof (Rabs_pos q) end. lra.
Qed.
Print Assumptions C163_derivative.
Theorem C163_quadn_accuracy prec emax a order nodes1 xi t m : let N := (order + 1)%nat in format prec emax -> room prec emax a 2 N -> apart_by prec emax a N nodes1 -> (forall d, (d < 2)%nat -> point_by prec emax a N nodes1 (xi d)) -> (m < N * N)%nat ->
  let z := f_basis (fquadn prec emax order nodes1 xi t) m in let l := (L N (fun j => FR (nodes1 j)) (m mod N) (FR (xi 0%nat)) * L N (fun j => FR (nodes1 j)) (m / N) (FR (xi 1%nat)))%R in
  fin z = true /\ number prec emax z /\ Rabs (FR z - l) <= 2 * INR (8 * N + 3) * uu prec * Rabs l.
Proof.
  intros N Hf Hr Hx Hp Hm. cbv zeta. destruct (room_1 prec emax a 2 N ltac:(lia) Hr) as (A & C1 & C2). destruct Hr as (_ & R2 & R3). pose proof (point_gap _ _ _ _ _ _ (Hp 0%nat ltac:(lia))) as G0. pose proof (point_gap _ _ _ _ _ _ (Hp 1%nat ltac:(lia))) as G1. destruct (Hp 0%nat ltac:(lia)) as (PN & PF & _). destruct (Hp 1%nat ltac:(lia)) as (PN' & PF' & _). destruct Hx as [X1 X2].
  pose proof (quadn_specT (SFadd prec emax) (SFsub prec emax) (SFmul prec emax) (SFdiv prec emax) f0 (of_int prec emax 1) order nodes1 xi t m Hm) as P. cbv zeta in P. fold (fquadn prec emax) in P. unfold quad_entryT in P. fold N in P.
  apply (f_equal (fun q => snd (fst (fst q)))) in P. cbn [fst snd] in P. rewrite P. clear P.
  assert (N0 : (0 < N)%nat) by (unfold N; lia). assert (U : (m mod N < N)%nat) by (apply Nat.mod_upper_bound; lia). assert (W : (m / N < N)%nat) by (apply Nat.div_lt_upper_bound; lia).
  destruct (L_range prec emax Hf N a A C1 C2 nodes1 X1 X2 _ PF PN G0 _ U) as [B1 B2]. destruct (L_range prec emax Hf N a A C1 C2 nodes1 X1 X2 _ PF' PN' G1 _ W) as [B3 B4].
  pose proof (L_near prec emax Hf N a A C1 C2 nodes1 X1 X2 _ PF PN G0 _ U) as Q1. pose proof (L_near prec emax Hf N a A C1 C2 nodes1 X1 X2 _ PF' PN' G1 _ W) as Q2.
  destruct (near_mul_range prec emax Hf (2 * N) (4 * N + 1) (4 * N + 1) ((a + 1) * Z.of_nat N) ((a + 1) * Z.of_nat N) _ _ _ _ ltac:(lia) ltac:(lia) Q1 Q2 B1 B3 B2 B4 ltac:(nia)) as [Q _]. replace (4 * N + 1 + (4 * N + 1) + 1)%nat with (8 * N + 3)%nat in Q by lia.
  rewrite !LR in Q. pose proof Q as (F & Nm & _). split; [exact F|]. split; [exact Nm|]. apply (near_error prec emax Hf (2 * N)); [lia|lia|exact Q].
Qed.
Print Assumptions C163_quadn_accuracy.
Theorem C163_hexn_accuracy prec emax a order nodes1 xi t m : let N := (order + 1)%nat in format prec emax -> room prec emax a 3 N -> apart_by prec emax a N nodes1 -> (forall d, (d < 3)%nat -> point_by prec emax a N nodes1 (xi d)) -> (m < N * (N * N))%nat ->
  let z := f_basis (fhexn prec emax order nodes1 xi t) m in
  let l := (L N (fun j => FR (nodes1 j)) (m mod N) (FR (xi 0%nat)) * L N (fun j => FR (nodes1 j)) ((m / N) mod N) (FR (xi 1%nat)) * L N (fun j => FR (nodes1 j)) (m / (N * N)) (FR (xi 2%nat)))%R in
  fin z = true /\ number prec emax z /\ Rabs (FR z - l) <= 2 * INR (12 * N + 5) * uu prec * Rabs l.
Proof.
  intros N Hf Hr Hx Hp Hm. cbv zeta. destruct (room_1 prec emax a 3 N ltac:(lia) Hr) as (A & C1 & C2). destruct Hr as (_ & R2 & R3). pose proof (point_gap _ _ _ _ _ _ (Hp 0%nat ltac:(lia))) as G0. pose proof (point_gap _ _ _ _ _ _ (Hp 1%nat ltac:(lia))) as G1. pose proof (point_gap _ _ _ _ _ _ (Hp 2%nat ltac:(lia))) as G2.
  destruct (Hp 0%nat ltac:(lia)) as (PN & PF & _). destruct (Hp 1%nat ltac:(lia)) as (PN' & PF' & _). destruct (Hp 2%nat ltac:(lia)) as (PN'' & PF'' & _). destruct Hx as [X1 X2].
  pose proof (hexn_specT (SFadd prec emax) (SFsub prec emax) (SFmul prec emax) (SFdiv prec emax) f0 (of_int prec emax 1) order nodes1 xi t m Hm) as P. fold (fhexn prec emax) in P. unfold hex_entryT, hex_valueT in P. cbv zeta in P. fold N in P.
  apply (f_equal (fun q => snd (fst (fst (fst q))))) in P. cbn [fst snd] in P. rewrite P. clear P.
  assert (N0 : (0 < N)%nat) by (unfold N; lia). assert (U : forall k, (k mod N < N)%nat) by (intros; apply Nat.mod_upper_bound; lia). assert (W : (m / (N * N) < N)%nat) by (apply Nat.div_lt_upper_bound; nia).
  destruct (L_range prec emax Hf N a A C1 C2 nodes1 X1 X2 _ PF PN G0 _ (U m)) as [B1 B2]. destruct (L_range prec emax Hf N a A C1 C2 nodes1 X1 X2 _ PF' PN' G1 _ (U (m / N)%nat)) as [B3 B4]. destruct (L_range prec emax Hf N a A C1 C2 nodes1 X1 X2 _ PF'' PN'' G2 _ W) as [B5 B6].
  pose proof (L_near prec emax Hf N a A C1 C2 nodes1 X1 X2 _ PF PN G0 _ (U m)) as Q1. pose proof (L_near prec emax Hf N a A C1 C2 nodes1 X1 X2 _ PF' PN' G1 _ (U (m / N)%nat)) as Q2. pose proof (L_near prec emax Hf N a A C1 C2 nodes1 X1 X2 _ PF'' PN'' G2 _ W) as Q3.
  destruct (near_mul_range prec emax Hf (2 * N) (4 * N + 1) (4 * N + 1) ((a + 1) * Z.of_nat N) ((a + 1) * Z.of_nat N) _ _ _ _ ltac:(lia) ltac:(lia) Q1 Q2 B1 B3 B2 B4 ltac:(nia)) as (Q & B7 & B8).
  destruct (near_mul_range prec emax Hf (2 * N) (4 * N + 1 + (4 * N + 1) + 1) (4 * N + 1) ((a + 1) * Z.of_nat N + (a + 1) * Z.of_nat N) ((a + 1) * Z.of_nat N) _ _ _ _ ltac:(lia) ltac:(lia) Q Q3 B7 B5 B8 B6 ltac:(nia)) as (Q' & _). replace (4 * N + 1 + (4 * N + 1) + 1 + (4 * N + 1) + 1)%nat with (12 * N + 5)%nat in Q' by lia.
  rewrite !LR in Q'. pose proof Q' as (F & Nm & _). split; [exact F|]. split; [exact Nm|]. apply (near_error prec emax Hf (3 * N)); [lia|lia|exact Q'].
Qed.
Print Assumptions C163_hexn_accuracy.
(** distinct nodes are not enough: with 0, 2^-600 and 2^-599 the computed denominator is 0 and the function is NaN at its own node *)
Definition close_nodes (i : nat) : spec_float := nth i [f0; dnum 1 (-600); dnum 1 (-599)] f0.
Theorem C163_gap_needed : ~ (forall order xi f g i, (forall j, (j <= order)%nat -> number 53 1024 (xi j) /\ fin (xi j) = true) -> distinct (order + 1) (fun j => FR (xi j)) -> (i <= order)%nat ->
  exactly 53 1024 (fst (flagrange_1D 53 1024 order (xi i) xi f g) i) 1).
Proof.
  intros H. destruct (H 2%nat close_nodes (fun _ => f0) (fun _ => f0) 0%nat) as (F & _).
  - intros j Hj. destruct j as [|[|[|j]]]; [| | |lia]; split; vm_compute; reflexivity.
  - assert (E : forall i, (i < 3)%nat -> FR (close_nodes i) = nth i [0; pw (-600); 2 * pw (-600)] 0).
    { intros i Hi. destruct i as [|[|[|i]]]; [reflexivity| | |lia]; unfold close_nodes; cbn [nth].
      - replace (dnum 1 (-600)) with (S754_finite false 4503599627370496 (-652)) by (vm_compute; reflexivity). cbn [FR]. unfold sgnR. replace (-600)%Z with (52 + -652)%Z by lia. rewrite pw_add, <- (pw_Z 52) by lia. change (2 ^ 52)%Z with 4503599627370496%Z. ring.
      - replace (dnum 1 (-599)) with (S754_finite false 4503599627370496 (-651)) by (vm_compute; reflexivity). cbn [FR]. unfold sgnR. replace (-600)%Z with (52 + (-1 + -651))%Z by lia. rewrite !pw_add, pw_m1, <- (pw_Z 52) by lia. change (2 ^ 52)%Z with 4503599627370496%Z. field. }
    pose proof (pw_pos (-600)) as P. set (p := pw (-600)) in *. intros i j Hi Hj Ne Q. rewrite !E in Q by lia. destruct i as [|[|[|i]]]; [| | |lia]; (destruct j as [|[|[|j]]]; [| | |lia]); cbn [nth] in Q; try lra; contradiction.
  - lia.
  - vm_compute in F. discriminate F.
Qed.
Print Assumptions C163_gap_needed.
Definition three (i : nat) : spec_float := nth i [dnum (-1) 0; f0; dnum 1 0] f0.
Definition tenth : spec_float := S754_finite false 7205759403792794 (-56).
Lemma three_R i : (i < 3)%nat -> FR (three i) = nth i [-1; 0; 1] 0.
Proof.
  intros Hi. pose proof (pw_inv 52) as P. rewrite <- (pw_Z 52) in P by lia. change (2 ^ 52)%Z with 4503599627370496%Z in P. change (- (52))%Z with (-52)%Z in P.
  destruct i as [|[|[|i]]]; [|reflexivity| |lia]; unfold three; cbn [nth].
  - replace (dnum (-1) 0) with (S754_finite true 4503599627370496 (-52)) by (vm_compute; reflexivity). cbn [FR]. unfold sgnR. lra.
  - replace (dnum 1 0) with (S754_finite false 4503599627370496 (-52)) by (vm_compute; reflexivity). cbn [FR]. unfold sgnR. lra.
Qed.
Lemma tenth_R : / 16 <= FR tenth <= / 8.
Proof.
  cbn [FR tenth]. unfold sgnR. pose proof (pw_inv 56) as P. rewrite <- (pw_Z 56) in P by lia. change (2 ^ 56)%Z with 72057594037927936%Z in P. change (- (56))%Z with (-56)%Z in P. set (p := pw (-56)) in *. lra.
Qed.
Example C163_ex : (* quadratic elements with nodes -1, 0, 1: the hypotheses hold at 0.1 and at the nodes; computed values *)
  room 53 1024 4 3 3 /\ apart_by 53 1024 4 3 three /\ point_by 53 1024 4 3 three tenth
  /\ map (fst (flagrange_1D 53 1024 2 tenth three (fun _ => S754_nan) (fun _ => S754_nan))) [0%nat; 1%nat; 2%nat; 3%nat]
     = [S754_finite true 6485183463413515 (-57); S754_finite false 8917127262193583 (-53); S754_finite false 7926335344172074 (-57); S754_nan]
  /\ map (fst (flagrange_1D 53 1024 2 (three 1) three (fun _ => S754_nan) (fun _ => S754_nan))) [0%nat; 1%nat; 2%nat]
     = [S754_zero true; S754_finite false 4503599627370496 (-52); S754_zero false].
Proof.
  split; [unfold room; repeat split; lia|].
  assert (p4 : pw (-4) = / 16) by (pose proof (pw_inv 4) as P; rewrite pw_4 in P; change (- (4))%Z with (-4)%Z in P; lra).
  split; [|split].
  - split; [intros j Hj; destruct j as [|[|[|j]]]; [| | |lia]; split; vm_compute; reflexivity|]. intros i j Hi Hj Ne. rewrite !three_R by lia. change (- (4))%Z with (-4)%Z. rewrite p4.
    destruct i as [|[|[|i]]]; [| | |lia]; (destruct j as [|[|[|j]]]; [| | |lia]); try contradiction; cbn [nth]; (rewrite Rabs_pos_eq by lra; lra) || (rewrite Rabs_left by lra; lra).
  - split; [vm_compute; reflexivity|]. split; [reflexivity|]. pose proof tenth_R as T. intros j Hj. rewrite three_R by lia. change (- (4))%Z with (-4)%Z. rewrite p4. destruct j as [|[|[|j]]]; [| | |lia]; cbn [nth]; (rewrite Rabs_pos_eq by lra; split; [right|]; lra) || (rewrite Rabs_left by lra; split; [right|]; lra).
  - split; vm_compute; reflexivity.
Qed.
