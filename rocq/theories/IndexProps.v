(** Properties of the machine arithmetic of array views, of the operators of index_t and of loop counters. *)
From Coq Require Import List Arith ZArith QArith Qround Bool Lia.
From Verif Require Import Outcome BoundsModel BoundsProofs IndexModel.
Import ListNotations.
Local Open Scope Z_scope.

(** a value of type ptrdiff_t; an index whose components are *)
Definition ptrdiff (x : Z) : Prop := - 2 ^ 63 <= x < 2 ^ 63.
Definition pindex (l : index) : Prop := Forall ptrdiff l.

Lemma fits_spec x : fits x = true <-> ptrdiff x.
Proof. unfold fits, ptrdiff. rewrite andb_true_iff, Z.leb_le, Z.ltb_lt. tauto. Qed.
Lemma chk_ok x : ptrdiff x -> chk x = Ok x.
Proof. intros H. unfold chk. apply fits_spec in H. now rewrite H. Qed.
Lemma chk_inv x y : chk x = Ok y -> y = x /\ ptrdiff x.
Proof. unfold chk. destruct (fits x) eqn:E; [|discriminate]. intros H; injection H as <-. split; auto. now apply fits_spec. Qed.
Lemma chk_ub x : ~ ptrdiff x -> chk x = UB.
Proof. intros H. unfold chk. destruct (fits x) eqn:E; auto. now apply fits_spec in E. Qed.

Lemma collect_ok {A B} (f : A -> outcome B) (g : A -> B) l :
  (forall x, In x l -> f x = Ok (g x)) -> collect (map f l) = Ok (map g l).
Proof.
  induction l as [|a l IH]; cbn; intros H; auto. rewrite H by auto. cbn. rewrite IH by auto. reflexivity.
Qed.

(** ** C139: no overflow within the range of ptrdiff_t *)
Lemma prod_ge1 e : positive e -> 1 <= prod e.
Proof. intros H. apply prod_pos in H. lia. Qed.
Lemma prod_suffix a b : positive (a ++ b) -> prod b <= prod (a ++ b).
Proof.
  intros H. rewrite prod_app. apply Forall_app in H as [Ha Hb]. apply prod_ge1 in Ha, Hb. nia.
Qed.
Lemma stride_c_ok x r : positive r -> prod r < 2 ^ 63 -> stride_c (x :: r) (length r) = Ok (prod r).
Proof.
  revert x; induction r as [|y r IH]; intros x Hp Hb; [reflexivity|].
  cbn [length stride_c]. inversion Hp; subst. rewrite prod_cons in *.
  assert (prod r <= y * prod r) by (pose proof (prod_ge1 r H2); nia).
  cbn [tl]. rewrite IH by (auto; lia). cbn [bind]. unfold cmul. apply chk_ok.
  pose proof (prod_ge1 r H2). unfold ptrdiff. nia.
Qed.
Lemma make_strides_c_ok e : positive e -> prod e < 2 ^ 63 -> make_strides_c e = Ok (make_strides e).
Proof.
  intros Hp Hb. unfold make_strides_c, make_strides. apply collect_ok.
  intros i Hi. apply in_seq in Hi. cbn in Hi. unfold rank in *.
  assert (L : length (skipn i e) = (length e - i)%nat) by apply skipn_length.
  destruct (skipn i e) as [|x r] eqn:E; [cbn in L; lia|].
  assert (Q : (length e - i - 1 = length r)%nat) by (cbn in L; lia). rewrite Q, stride_rec_prod.
  assert (D : e = firstn i e ++ x :: r) by (rewrite <- E; symmetry; apply firstn_skipn).
  assert (P : positive (x :: r)) by (rewrite D in Hp; apply Forall_app in Hp; tauto).
  assert (B : prod (x :: r) <= prod e).
  { etransitivity; [apply (prod_suffix (firstn i e)); now rewrite <- D|]. rewrite <- D. apply Z.le_refl. }
  inversion P; subst. apply stride_c_ok; auto. rewrite prod_cons in B. pose proof (prod_ge1 r H2). nia.
Qed.

Lemma size_c_mod e : size_c e = prod e mod 2 ^ 64.
Proof.
  unfold size_c, rank.
  assert (G : forall l k r, 0 <= r < 2 ^ 64 -> (forall i, (i < length l)%nat -> get e (k + i) = nth i l 0) ->
    fold_left (fun r i => wrap (r * get e i)) (seq k (length l)) r = (r * prod l) mod 2 ^ 64).
  { induction l as [|a l IH]; intros k r Hr Hl.
    - cbn [length seq fold_left prod fold_right]. rewrite Z.mul_1_r. symmetry. now apply Z.mod_small.
    - cbn [length seq fold_left]. rewrite IH.
      + rewrite prod_cons. unfold wrap. rewrite Zmult_mod_idemp_l. f_equal.
        specialize (Hl 0%nat ltac:(cbn; lia)). rewrite Nat.add_0_r in Hl. cbn [nth] in Hl. rewrite Hl. ring.
      + unfold wrap. apply Z.mod_pos_bound. lia.
      + intros i Hi. specialize (Hl (S i) ltac:(cbn; lia)). rewrite <- Nat.add_succ_comm in Hl. exact Hl. }
  rewrite G; [now rewrite Z.mul_1_l|lia|]. intros i _. reflexivity.
Qed.

Lemma get_cons0 x l : get (x :: l) 0 = x. Proof. reflexivity. Qed.
Lemma linearize_c_ok e idx : e <> [] -> in_box e idx -> prod e < 2 ^ 63 ->
  linearize_c (contiguous e) idx = Ok (lin e idx).
Proof.
  intros Hne Hin Hb.
  (* every partial sum is between 0 and lin e idx, every product too *)
  assert (G : forall e idx o, in_box e idx -> 0 <= o -> o + lin e idx < 2 ^ 63 -> forall k F S',
    (forall i, (i < length e)%nat -> get F (k + i) = nth i idx 0 /\ get S' (k + i) = nth i (make_strides e) 0) ->
    fold_left (fun o i => bind o (fun o => bind (cmul (get F i) (get S' i)) (fun p => cadd o p)))
      (seq k (length e)) (Ok o) = Ok (o + lin e idx)).
  { clear. intros e idx o H. revert o. induction H as [|n i e idx Hn H IH]; intros o Ho Hb k F S' Hg.
    - cbn. f_equal. lia.
    - cbn [length seq fold_left bind].
      destruct (Hg 0%nat ltac:(cbn; lia)) as [g1 g2]. rewrite Nat.add_0_r, make_strides_cons in *.
      cbn [nth] in g1, g2. rewrite g1, g2.
      pose proof (lin_bound e idx H) as LB. cbn [lin] in Hb |- *.
      assert (P : 1 <= prod e) by (apply prod_ge1; eapply in_box_positive; eauto).
      assert (0 <= i * prod e) by nia.
      change (cmul i (prod e)) with (chk (i * prod e)). rewrite chk_ok by (unfold ptrdiff; lia). cbn [bind].
      change (cadd o (i * prod e)) with (chk (o + i * prod e)).
      rewrite chk_ok by (unfold ptrdiff; lia). rewrite IH; [f_equal; lia|lia|lia|].
      intros j Hj. destruct (Hg (S j) ltac:(cbn; lia)) as [h1 h2]. rewrite <- Nat.add_succ_comm in h1, h2.
      split; [exact h1|exact h2]. }
  destruct e as [|n e]; [congruence|]. inversion Hin as [|? i ? idx' Hi Hin']; subst.
  unfold linearize_c, contiguous, rank. cbn [exts strs length Nat.sub]. rewrite Nat.sub_0_r, make_strides_cons.
  rewrite !get_cons0. pose proof (lin_bound e idx' Hin') as LB. pose proof (lin_bound (n :: e) (i :: idx') Hin) as LB'.
  assert (P : 1 <= prod e) by (apply prod_ge1; eapply in_box_positive; eauto).
  cbn [lin] in *. change (cmul i (prod e)) with (chk (i * prod e)). rewrite chk_ok by (unfold ptrdiff; nia).
  rewrite (G e idx'); [reflexivity|auto|nia|lia|]. intros j Hj. split; reflexivity.
Qed.

(** As long as the number of elements is a ptrdiff_t, nothing overflows: the strides, the size and the offset of every
    contained index are those of unlimited arithmetic. *)
Theorem C139_no_overflow : forall e, e <> [] -> positive e -> prod e < 2 ^ 63 ->
  make_strides_c e = Ok (make_strides e) /\
  size_c e = prod e /\
  (forall idx, in_box e idx -> linearize_c (contiguous e) idx = Ok (linearize (contiguous e) idx) /\
    0 <= linearize (contiguous e) idx < size_c e) /\
  (forall dbg n, 0 <= n -> view_of_container_c dbg n (contiguous e) = view_of_container dbg n (contiguous e)).
Proof.
  intros e Hne Hp Hb. assert (Hs : size_c e = prod e).
  { rewrite size_c_mod. apply Z.mod_small. pose proof (prod_ge1 e Hp). lia. }
  split; [now apply make_strides_c_ok|]. split; auto. split.
  - intros idx Hin. rewrite linearize_lin by (auto; now apply in_box_length). split.
    + now apply linearize_c_ok.
    + rewrite Hs. now apply lin_bound.
  - intros dbg n Hn. unfold view_of_container_c, view_of_container. rewrite bsize_prod. cbn [exts contiguous].
    now rewrite Hs.
Qed.
Print Assumptions C139_no_overflow.
Example C139_ex : let e := [2 ^ 20; 2 ^ 21; 2 ^ 21 - 1; 2] in
  positive e /\ prod e < 2 ^ 63 /\ size_c e = 9223367638808264704 /\
  linearize_c (contiguous e) [2 ^ 20 - 1; 2 ^ 21 - 1; 2 ^ 21 - 2; 1] = Ok 9223367638808264703.
Proof. cbv zeta. split; [repeat constructor|]. vm_compute. auto. Qed.

(** size() is the number of elements modulo 2^64, whatever the extents *)
Theorem C139_size_mod : forall e, size_c e = prod e mod 2 ^ 64.
Proof. exact size_c_mod. Qed.
Print Assumptions C139_size_mod.

(** Beyond, the checks are void: bounds of 2^64 elements have size 0, and a view of them over an empty container passes
    the assertion; each of its indices is contained, though there is no element. *)
Theorem C139_size_refuted :
  ~ (forall e n v, positive e -> 0 <= n -> view_of_container_c true n (contiguous e) = Ok v -> prod e <= n) /\
  (forall e, prod e mod 2 ^ 64 = 0 ->
     size_c e = 0 /\ forall n, 0 <= n -> view_of_container_c true n (contiguous e) = Ok (mk_view (Some 0) (contiguous e))).
Proof.
  split.
  - intros H. specialize (H [2 ^ 32; 2 ^ 32] 0 (mk_view (Some 0) (contiguous [2 ^ 32; 2 ^ 32]))).
    assert (C : prod [2 ^ 32; 2 ^ 32] <= 0).
    { apply H; [repeat constructor|lia|]. vm_compute. reflexivity. }
    vm_compute in C. now apply C.
  - intros e He. rewrite <- size_c_mod in He. split; auto. intros n Hn.
    unfold view_of_container_c, assert_then. cbn [exts contiguous]. rewrite He.
    replace (n >=? 0) with true by (symmetry; rewrite Z.geb_leb; apply Z.leb_le; lia). reflexivity.
Qed.
Print Assumptions C139_size_refuted.

(** Strides overflow even for bounds without elements. *)
Theorem C139_empty_refuted :
  ~ (forall e, nonneg e -> prod e < 2 ^ 63 -> exists s, make_strides_c e = Ok s).
Proof.
  intros H. destruct (H [0; 2 ^ 32; 2 ^ 32]) as [s Hs]; [repeat constructor; lia|vm_compute; reflexivity|].
  vm_compute in Hs. discriminate.
Qed.
Print Assumptions C139_empty_refuted.

(** ** C140: the operators of index_t *)
Lemma zipw_ok f g a b : length a = length b -> (forall x y, In (x, y) (combine a b) -> f x y = Ok (g x y)) ->
  zipw f a b = Ok (map (fun p => g (fst p) (snd p)) (combine a b)).
Proof.
  revert b; induction a as [|x a IH]; intros [|y b] L H; try discriminate L; [reflexivity|].
  cbn. rewrite H by (cbn; auto). cbn. rewrite IH; [reflexivity|cbn in L; lia|]. intros; apply H; cbn; auto.
Qed.
Lemma zipw_inv (op : Z -> Z -> Z) a b c : length a = length b ->
  zipw (fun x y => chk (op x y)) a b = Ok c ->
  length c = length a /\ pindex c /\ forall i, (i < length a)%nat -> get c i = op (get a i) (get b i).
Proof.
  revert b c; induction a as [|x a IH]; intros [|y b] c L H; try discriminate L.
  - cbn in H. injection H as <-. split; [reflexivity|]. split; [constructor|]. cbn; intros; lia.
  - cbn in H. destruct (chk (op x y)) as [v| | |] eqn:E; try discriminate H. cbn in H.
    destruct (zipw _ a b) as [r| | |] eqn:R; try discriminate H. cbn in H. injection H as <-.
    apply chk_inv in E as [-> P]. cbn in L. destruct (IH b r ltac:(lia) R) as (l1 & l2 & l3).
    split; [cbn; lia|]. split; [constructor; auto|]. intros [|i] Hi; [reflexivity|]. apply l3. cbn in Hi. lia.
Qed.
Lemma get_ext a b : length a = length b -> (forall i, (i < length a)%nat -> get a i = get b i) -> a = b.
Proof. intros L H. apply (nth_ext a b 0 0); auto. Qed.
Lemma zipw_fits (op : Z -> Z -> Z) a b : length a = length b ->
  (forall i, (i < length a)%nat -> ptrdiff (op (get a i) (get b i))) ->
  exists c, zipw (fun x y => chk (op x y)) a b = Ok c.
Proof.
  revert b; induction a as [|x a IH]; intros [|y b] L H; try discriminate L; [now exists []|].
  cbn in L. destruct (IH b ltac:(lia)) as [r R].
  { intros i Hi. apply (H (S i)). cbn. lia. }
  exists (op x y :: r). cbn. rewrite chk_ok by (apply (H 0%nat); cbn; lia). cbn. rewrite R. reflexivity.
Qed.
Lemma pindex_get a i : pindex a -> ptrdiff (get a i).
Proof.
  intros H. unfold get. destruct (Nat.lt_ge_cases i (length a)) as [L|L].
  - eapply Forall_forall; [exact H|]. now apply nth_In.
  - rewrite nth_overflow by auto. unfold ptrdiff. lia.
Qed.

(** + and - work component by component, and each undoes the other; unary - is 0 - x. *)
Theorem C140_add_sub : forall a b, length a = length b -> pindex a -> pindex b ->
  (forall c, ix_add a b = Ok c ->
     length c = length a /\ (forall i, (i < length a)%nat -> get c i = get a i + get b i) /\
     ix_sub c b = Ok a /\ ix_add b a = Ok c) /\
  (forall c, ix_sub a b = Ok c ->
     length c = length a /\ (forall i, (i < length a)%nat -> get c i = get a i - get b i) /\
     ix_add c b = Ok a) /\
  ((forall i, (i < length a)%nat -> ptrdiff (get a i + get b i)) <-> exists c, ix_add a b = Ok c) /\
  ((forall i, (i < length a)%nat -> ptrdiff (get a i - get b i)) <-> exists c, ix_sub a b = Ok c).
Proof.
  intros a b L Pa Pb. unfold ix_add, ix_sub, cadd, csub.
  split; [|split; [|split; split]].
  - intros c H. destruct (zipw_inv Z.add a b c L H) as (h1 & h2 & h3).
    split; auto. split; auto. split.
    + destruct (zipw_fits Z.sub c b ltac:(lia)) as [d D].
      { intros i Hi. rewrite h3 by lia. replace (get a i + get b i - get b i) with (get a i) by ring. now apply pindex_get. }
      rewrite D. f_equal. destruct (zipw_inv Z.sub c b d ltac:(lia) D) as (d1 & d2 & d3).
      apply get_ext; [lia|]. intros i Hi. rewrite d3, h3 by lia. ring.
    + destruct (zipw_fits Z.add b a ltac:(lia)) as [d D].
      { intros i Hi. rewrite Z.add_comm, <- h3 by lia. now apply pindex_get. }
      rewrite D. f_equal. destruct (zipw_inv Z.add b a d ltac:(lia) D) as (d1 & d2 & d3).
      apply get_ext; [lia|]. intros i Hi. rewrite d3, h3 by lia. ring.
  - intros c H. destruct (zipw_inv Z.sub a b c L H) as (h1 & h2 & h3).
    split; auto. split; auto.
    destruct (zipw_fits Z.add c b ltac:(lia)) as [d D].
    { intros i Hi. rewrite h3 by lia. replace (get a i - get b i + get b i) with (get a i) by ring. now apply pindex_get. }
    rewrite D. f_equal. destruct (zipw_inv Z.add c b d ltac:(lia) D) as (d1 & d2 & d3).
    apply get_ext; [lia|]. intros i Hi. rewrite d3, h3 by lia. ring.
  - intros H. now apply (zipw_fits Z.add).
  - intros [c H] i Hi. destruct (zipw_inv Z.add a b c L H) as (h1 & h2 & h3).
    rewrite <- h3 by auto. now apply pindex_get.
  - intros H. now apply (zipw_fits Z.sub).
  - intros [c H] i Hi. destruct (zipw_inv Z.sub a b c L H) as (h1 & h2 & h3).
    rewrite <- h3 by auto. now apply pindex_get.
Qed.
Print Assumptions C140_add_sub.

Theorem C140_unary : forall a, pindex a ->
  ix_pos a = a /\
  (~ In (- 2 ^ 63) a -> ix_neg a = Ok (map Z.opp a)) /\
  (~ In (- 2 ^ 63) a -> bind (ix_neg a) ix_neg = Ok a) /\
  (forall x, ptrdiff x -> x <> 2 ^ 63 - 1 -> ix_incr x = Ok (x + 1) /\ bind (ix_incr x) ix_decr = Ok x).
Proof.
  intros a P. assert (N : ~ In (- 2 ^ 63) a -> ix_neg a = Ok (map Z.opp a)).
  { intros H. unfold ix_neg. apply collect_ok. intros x Hx. apply chk_ok.
    pose proof (proj1 (Forall_forall _ _) P x Hx) as Px. unfold ptrdiff in *. assert (x <> - 2 ^ 63) by (intros ->; tauto). lia. }
  split; [reflexivity|]. split; [exact N|]. split.
  - intros H. rewrite N by auto. cbn [bind]. unfold ix_neg. rewrite (collect_ok _ Z.opp).
    + rewrite map_map. f_equal. rewrite <- (map_id a) at 2. apply map_ext. intros; lia.
    + intros x Hx. apply in_map_iff in Hx as [y [<- Hy]]. apply chk_ok.
      pose proof (proj1 (Forall_forall _ _) P y Hy) as Py. unfold ptrdiff in *. assert (y <> - 2 ^ 63) by (intros ->; tauto). lia.
  - intros x Hx H. unfold ix_incr, ix_decr, cadd, csub. unfold ptrdiff in Hx.
    rewrite chk_ok by (unfold ptrdiff; lia). split; auto. cbn [bind].
    rewrite chk_ok by (unfold ptrdiff; lia). f_equal. lia.
Qed.
Print Assumptions C140_unary.

Lemma to_ptrdiff_int k : ptrdiff k -> to_ptrdiff (SInt k) = Ok k.
Proof. intros H. cbn. f_equal. unfold ptrdiff in H. rewrite Z.mod_small by lia. lia. Qed.

(** Integer factors and divisors work component by component, division truncating towards zero, and division by a
    factor undoes the multiplication. *)
Theorem C140_integers : forall a k, pindex a -> ptrdiff k ->
  ((forall x, In x a -> ptrdiff (x * k)) -> ix_mul a (SInt k) = Ok (map (fun x => x * k) a)) /\
  ((exists x, In x a /\ ~ ptrdiff (x * k)) -> ix_mul a (SInt k) = UB) /\
  (k <> 0 -> (k = -1 -> ~ In (- 2 ^ 63) a) -> ix_div a (SInt k) = Ok (map (fun x => Z.quot x k) a)) /\
  (a <> [] -> ix_div a (SInt 0) = UB) /\
  (k <> 0 -> forall c, ix_mul a (SInt k) = Ok c -> (k = -1 -> ~ In (- 2 ^ 63) c) -> ix_div c (SInt k) = Ok a).
Proof.
  intros a k P K. assert (M : (forall x, In x a -> ptrdiff (x * k)) -> ix_mul a (SInt k) = Ok (map (fun x => x * k) a)).
  { intros H. unfold ix_mul. apply collect_ok. intros x Hx. rewrite to_ptrdiff_int by auto. cbn [bind].
    apply chk_ok. auto. }
  assert (U : (exists x, In x a /\ ~ ptrdiff (x * k)) -> ix_mul a (SInt k) = UB).
  { clear M P. unfold ix_mul. rewrite to_ptrdiff_int by auto. cbn [bind].
    induction a as [|y a IH]; intros [x [Hx Hn]]; [destruct Hx|]. cbn [map collect]. unfold cmul at 1.
    destruct (fits (y * k)) eqn:E.
    - apply fits_spec in E. rewrite chk_ok by auto. cbn [bind]. destruct Hx as [->|Hx]; [tauto|].
      rewrite IH by eauto. reflexivity.
    - unfold chk. rewrite E. reflexivity. }
  assert (D : forall a, pindex a -> k <> 0 -> (k = -1 -> ~ In (- 2 ^ 63) a) ->
    ix_div a (SInt k) = Ok (map (fun x => Z.quot x k) a)).
  { clear a P M U. intros a P Hk Hm. unfold ix_div. apply collect_ok. intros x Hx. rewrite to_ptrdiff_int by auto.
    cbn [bind]. unfold cdiv. destruct (Z.eqb_spec k 0); [tauto|]. apply chk_ok.
    pose proof (proj1 (Forall_forall _ _) P x Hx) as Px. unfold ptrdiff in *.
    destruct (Z.eq_dec k (-1)) as [->|Hk1].
    - change (-1) with (- (1)). rewrite Z.quot_opp_r, Z.quot_1_r by lia.
      assert (x <> - 2 ^ 63) by (intros ->; now apply Hm). lia.
    - destruct (Z.eq_dec k 1) as [->|Hk2]; [rewrite Z.quot_1_r; lia|].
      assert (A : Z.abs (Z.quot x k) <= 2 ^ 62).
      { rewrite <- Z.quot_abs by lia. rewrite Z.quot_div_nonneg by lia.
        apply Z.le_trans with (Z.abs x / 2); [apply Z.div_le_compat_l; lia|].
        apply Z.le_trans with (2 ^ 63 / 2); [apply Z.div_le_mono; lia|]. vm_compute. discriminate. }
      lia. }
  split; [exact M|]. split; [exact U|]. split; [auto|]. split.
  - intros Ha. destruct a; [congruence|reflexivity].
  - intros Hk c Hc Hm.
    assert (F : forall x, In x a -> ptrdiff (x * k)).
    { intros x Hx. destruct (fits (x * k)) eqn:E; [now apply fits_spec|].
      rewrite U in Hc by (exists x; split; auto; rewrite <- fits_spec; congruence). discriminate. }
    rewrite M in Hc by auto. injection Hc as <-. rewrite D; auto.
    + f_equal. rewrite map_map. rewrite <- (map_id a) at 2. apply map_ext. intros x. now apply Z.quot_mul.
    + apply Forall_forall. intros y Hy. apply in_map_iff in Hy as [x [<- Hx]]. auto.
Qed.
Print Assumptions C140_integers.
Example C140_ex : ix_add [3; -4; 5] [1; 1; -7] = Ok [4; -3; -2] /\ ix_mul [3; -4; 5] (SInt (-2)) = Ok [-6; 8; -10] /\
  ix_div [7; -7; 2 ^ 63 - 1] (SInt 2) = Ok [3; -3; 2 ^ 62 - 1] /\ ix_add [2 ^ 63 - 1] [1] = UB /\ ix_neg [1; -2] = Ok [-1; 2].
Proof. vm_compute. auto. Qed.

(** A floating-point factor or divisor is truncated to an integer first: halving an index gives zero, and dividing it
    by one half is a division by zero. *)
Theorem C140_fraction_refuted :
  ~ (forall a q c, pindex a -> ix_mul a (SFlt q) = Ok c -> forall i, (i < length a)%nat ->
       get c i = Qtrunc (inject_Z (get a i) * q)) /\
  (forall a n d, pindex a -> Z.abs n < Zpos d ->
     ix_mul a (SFlt (n # d)) = Ok (map (fun _ => 0) a) /\ (a <> [] -> ix_div a (SFlt (n # d)) = UB)).
Proof.
  split.
  - intros H. specialize (H [10] (1 # 2)%Q [0]). assert (C : get [0] 0 = Qtrunc (inject_Z (get [10] 0) * (1 # 2))).
    { apply H; [repeat constructor; unfold ptrdiff; lia|vm_compute; reflexivity|cbn; lia]. }
    vm_compute in C. discriminate C.
  - intros a n d P H. assert (T : to_ptrdiff (SFlt (n # d)) = Ok 0).
    { cbn. assert (Q : Qtrunc (n # d) = 0).
      { unfold Qtrunc. cbn. apply Z.quot_small_iff; lia. }
      rewrite Q. reflexivity. }
    split.
    + unfold ix_mul. apply collect_ok. intros x Hx. rewrite T. cbn [bind]. unfold cmul. rewrite Z.mul_0_r. reflexivity.
    + intros Ha. destruct a as [|x a]; [congruence|]. unfold ix_div. cbn [map collect]. rewrite T. reflexivity.
Qed.
Print Assumptions C140_fraction_refuted.

(** a whole number held in a floating-point variable is harmless *)
Theorem C140_whole : forall a k, ptrdiff k ->
  ix_mul a (SFlt (inject_Z k)) = ix_mul a (SInt k) /\ ix_div a (SFlt (inject_Z k)) = ix_div a (SInt k).
Proof.
  intros a k K. assert (T : to_ptrdiff (SFlt (inject_Z k)) = to_ptrdiff (SInt k)).
  { rewrite to_ptrdiff_int by auto. cbn. unfold Qtrunc, inject_Z. cbn. rewrite Z.quot_1_r. now apply chk_ok. }
  unfold ix_mul, ix_div. now rewrite T.
Qed.
Print Assumptions C140_whole.

(** ** C141: the counters *)
Lemma wrap_small x : 0 <= x < 2 ^ 64 -> wrap x = x.
Proof. apply Z.mod_small. Qed.

Lemma counter_loop_visits c bound : (forall i, 0 <= i < bound -> counter_next c i = Ok (i + 1)) -> bound < 2 ^ 64 ->
  forall n i fuel, 0 <= i -> i + Z.of_nat n = bound -> (n < fuel)%nat ->
  counter_loop fuel c i bound = Some (Ok (map (fun j => i + Z.of_nat j) (seq 0 n))).
Proof.
  intros Hc Hb. induction n as [|n IH]; intros i fuel Hi E F; (destruct fuel as [|fuel]; [lia|]); cbn [counter_loop];
    unfold counter_less; rewrite wrap_small by lia.
  - destruct (Z.ltb_spec i bound); [lia|]. reflexivity.
  - destruct (Z.ltb_spec i bound); [|lia]. rewrite Hc by lia. rewrite (IH (i + 1) fuel) by lia.
    cbn [option_map bind seq map]. do 2 f_equal. replace (i + Z.of_nat 0) with i by lia. f_equal.
    rewrite <- seq_shift, map_map. apply map_ext. intros j. lia.
Qed.

(** For every N a size_t can hold, a loop from first to last <= N with the counter chosen for N visits exactly
    first, ..., last-1 in this order, ends, and never overflows. *)
Theorem C141_counter : forall (N : Z) (first last : nat) fuel,
  (first <= last)%nat -> Z.of_nat last <= N < 2 ^ 64 -> (last - first < fuel)%nat ->
  counted fuel N (Z.of_nat first) (Z.of_nat last) =
    Some (Ok (map Z.of_nat (seq first (last - first)))).
Proof.
  intros N f l fuel H1 H2 H3. unfold counted, select_counter.
  assert (A : map Z.of_nat (seq f (l - f)) = map (fun j => Z.of_nat f + Z.of_nat j) (seq 0 (l - f))).
  { rewrite <- (Nat.add_0_r f) at 1. rewrite Nat.add_comm.
    assert (G : forall k n m, map Z.of_nat (seq (n + k) m) = map (fun j => Z.of_nat k + Z.of_nat j) (seq n m)).
    { intros k n m; revert n; induction m as [|m IH]; intros n; cbn; [reflexivity|]. f_equal; [lia|]. apply (IH (S n)). }
    apply G. }
  rewrite A. destruct (Z.ltb_spec N (2 ^ 31 - 1)).
  - cbn [counter_init]. rewrite Z.mod_small by lia. replace (Z.of_nat f + 2 ^ 31 - 2 ^ 31) with (Z.of_nat f) by ring.
    apply counter_loop_visits; try lia. intros i Hi. cbn. destruct (Z.eqb_spec i 2147483647); [lia|reflexivity].
  - cbn [counter_init]. apply counter_loop_visits; try lia. intros i Hi. cbn [counter_next]. f_equal. apply wrap_small. lia.
Qed.
Print Assumptions C141_counter.
Example C141_ex : counted 7 10 2 8 = Some (Ok [2; 3; 4; 5; 6; 7]) /\ select_counter 10 = CInt /\
  select_counter (2 ^ 31) = CSize /\
  counter_loop 5 (select_counter (2 ^ 31)) (2 ^ 31 - 2) (2 ^ 31) = Some (Ok [2 ^ 31 - 2; 2 ^ 31 - 1]).
Proof. vm_compute. auto. Qed.
