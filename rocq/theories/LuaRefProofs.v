(** The invariant of Lua references: shared pointer counts agree with the objects, keys in use are distinct. *)
From Coq Require Import List Arith Bool Lia.
From Verif Require Import Outcome LuaRefModel.
Import ListNotations.

Definition b2n (b : bool) : nat := if b then 1 else 0.
Fixpoint cnt {A} (p : A -> bool) (l : list A) : nat := match l with [] => 0 | x :: l' => b2n (p x) + cnt p l' end.
Lemma cnt_app {A} (p : A -> bool) l1 l2 : cnt p (l1 ++ l2) = cnt p l1 + cnt p l2.
Proof. induction l1 as [|x l1 IH]; cbn; [reflexivity|rewrite IH; lia]. Qed.
Lemma cnt_set {A} (p : A -> bool) l n x y : nth_error l n = Some x -> cnt p (set_nth n y l) + b2n (p x) = cnt p l + b2n (p y).
Proof.
  revert n; induction l as [|a l IH]; intros [|n] H; cbn in *; try discriminate.
  - injection H as ->. lia.
  - pose proof (IH _ H). lia.
Qed.
Lemma cnt_pos {A} (p : A -> bool) l : 0 < cnt p l -> exists n x, nth_error l n = Some x /\ p x = true.
Proof.
  induction l as [|a l IH]; cbn; [lia|]. intros H. destruct (p a) eqn:E.
  - exists 0, a. now split.
  - destruct IH as (n & x & H1 & H2); [cbn in H; lia|]. exists (S n), x. now split.
Qed.
Lemma cnt_pos' {A} (p : A -> bool) l n x : nth_error l n = Some x -> p x = true -> 0 < cnt p l.
Proof.
  revert n; induction l as [|a l IH]; intros [|n] H E; cbn in *; try discriminate.
  - injection H as ->. rewrite E. cbn. lia.
  - pose proof (IH _ H E). lia.
Qed.
Lemma set_len {A} n (x : A) l : length (set_nth n x l) = length l.
Proof. revert n; induction l as [|a l IH]; intros [|n]; cbn; congruence. Qed.
Lemma set_same {A} n (x y : A) l : nth_error l n = Some x -> nth_error (set_nth n y l) n = Some y.
Proof. revert n; induction l as [|a l IH]; intros [|n] H; cbn in *; try discriminate; [reflexivity|exact (IH _ H)]. Qed.
Lemma set_other {A} n m (y : A) l : n <> m -> nth_error (set_nth n y l) m = nth_error l m.
Proof. revert n m; induction l as [|a l IH]; intros [|n] [|m] H; cbn; try reflexivity; try congruence. apply IH; congruence. Qed.
Lemma set_map {A B} (f : A -> B) n x y l : nth_error l n = Some x -> f y = f x -> map f (set_nth n y l) = map f l.
Proof.
  revert n; induction l as [|a l IH]; intros [|n] H E; cbn in *; try discriminate.
  - injection H as ->. now rewrite E.
  - now rewrite (IH _ H E).
Qed.
Lemma nth_snoc {A} (l : list A) x n : nth_error (l ++ [x]) n = if n =? length l then Some x else nth_error l n.
Proof.
  revert n; induction l as [|a l IH]; intros [|n]; cbn; try reflexivity.
  - now destruct n.
  - apply IH.
Qed.
Lemma Forall2_nth {A B} (R : A -> B -> Prop) l1 l2 n x :
  Forall2 R l1 l2 -> nth_error l1 n = Some x -> exists y, nth_error l2 n = Some y /\ R x y.
Proof.
  intros H; revert n; induction H as [|a b l1 l2 H1 H2 IH]; intros [|n] E; cbn in *; try discriminate.
  - injection E as ->. eauto.
  - eauto.
Qed.
Lemma Forall2_nth' {A B} (R : A -> B -> Prop) l1 l2 n y :
  Forall2 R l1 l2 -> nth_error l2 n = Some y -> exists x, nth_error l1 n = Some x /\ R x y.
Proof.
  intros H; revert n; induction H as [|a b l1 l2 H1 H2 IH]; intros [|n] E; cbn in *; try discriminate.
  - injection E as ->. eauto.
  - eauto.
Qed.
Lemma Forall2_set {A B} (R : A -> B -> Prop) l1 l2 n x y : Forall2 R l1 l2 -> R x y -> Forall2 R (set_nth n x l1) (set_nth n y l2).
Proof. intros H E; revert n; induction H as [|a b l1 l2 H1 H2 IH]; intros [|n]; cbn; constructor; auto. Qed.
Lemma Forall2_snoc {A B} (R : A -> B -> Prop) l1 l2 x y : Forall2 R l1 l2 -> R x y -> Forall2 R (l1 ++ [x]) (l2 ++ [y]).
Proof. intros H E. apply Forall2_app; auto. Qed.
Lemma Forall2_imp {A B} (R Q : A -> B -> Prop) l1 l2 :
  (forall n x y, nth_error l1 n = Some x -> R x y -> Q x y) -> Forall2 R l1 l2 -> Forall2 Q l1 l2.
Proof.
  intros H F; induction F as [|a b l1 l2 H1 H2 IH]; constructor.
  - exact (H 0 a b eq_refl H1).
  - apply IH. intros n x y E. exact (H (S n) x y E).
Qed.

(** replacing an element, stated without the model *)
Definition put {A} (n : nat) (x : A) (l : list A) : list A := firstn n l ++ x :: skipn (S n) l.
Lemma set_put {A} n (x y : A) l : nth_error l n = Some y -> set_nth n x l = put n x l.
Proof.
  unfold put. revert n; induction l as [|a l IH]; intros [|n] H; cbn in *; try discriminate; [reflexivity|]. f_equal. exact (IH _ H).
Qed.

Section Proofs.
Context {V : Type} (fresh : list (nat * V) -> nat).
Hypothesis fresh_ok : forall l, ~ In (fresh l) (map fst l).
Notation world := (@world V).
Notation op := (@op V).

(** the plain values that references stand for *)
Inductive sobj := SBase | SVal (v : option V) | SMoved.
Definition sstep (s : list (option sobj)) (p : op) : option (list (option sobj)) :=
  match p with
  | Copy o => match nth_error s o with Some (Some x) => Some (s ++ [Some x]) | _ => None end
  | Move o => match nth_error s o with Some (Some x) => Some (put o (Some SMoved) s ++ [Some x]) | _ => None end
  | Destroy o => match nth_error s o with Some (Some x) => Some (put o None s) | _ => None end
  | MakeRef o v => match nth_error s o with
      | Some (Some SBase) | Some (Some (SVal _)) => Some (s ++ [Some (SVal v)]) | _ => None end
  end.

Definition is_ref (b : nat) (x : option obj) : bool := match x with Some (Ref c) => c =? b | _ => false end.
Definition user (x : option obj) : bool := match x with Some Base | Some (Ref _) => true | _ => false end.
Definition live (x : block) : bool := negb (b_uses x =? 0).
Definition rel (keys : list (option nat)) (reg : list (nat * V)) (x : option obj) (y : option sobj) : Prop :=
  match x, y with
  | None, None => True
  | Some Base, Some SBase => True
  | Some Moved, Some SMoved => True
  | Some (Ref b), Some (SVal v) =>
      match nth_error keys b with Some None => v = None | Some (Some k) => v = lookup k reg /\ v <> None | None => False end
  | _, _ => False
  end.
Record inv (w : world) (s : list (option sobj)) : Prop := mk_inv {
  i_rel : Forall2 (rel (map b_key (w_blocks w)) (w_reg w)) (w_objs w) s;
  i_cnt : forall b x, nth_error (w_blocks w) b = Some x -> b_uses x = cnt (is_ref b) (w_objs w);
  i_uses : w_uses w = cnt user (w_objs w) + cnt live (w_blocks w);
  i_open : w_open w = negb (w_uses w =? 0);
  i_inj : forall b c x y k, nth_error (w_blocks w) b = Some x -> nth_error (w_blocks w) c = Some y ->
      live x = true -> live y = true -> b_key x = Some k -> b_key y = Some k -> b = c;
  i_nodup : NoDup (map fst (w_reg w));
  i_reg : forall k, In k (map fst (w_reg w)) -> exists b x, nth_error (w_blocks w) b = Some x /\ live x = true /\ b_key x = Some k }.

Lemma inv_start : inv start [Some SBase].
Proof.
  constructor; cbn.
  - repeat constructor.
  - intros [|b] x; discriminate.
  - reflexivity.
  - reflexivity.
  - intros [|b] c x y k; discriminate.
  - constructor.
  - intros k [].
Qed.
Lemma lookup_in k (l : list (nat * V)) : lookup k l <> None <-> In k (map fst l).
Proof.
  induction l as [|[i v] l IH]; cbn; [tauto|]. destruct (Nat.eqb_spec i k) as [->|N].
  - split; [auto|discriminate].
  - rewrite IH. split; [auto|]. intros [E|E]; [congruence|exact E].
Qed.
Lemma lookup_delete k j (l : list (nat * V)) : j <> k -> lookup j (delete_key k l) = lookup j l.
Proof.
  intros N. unfold delete_key. induction l as [|[i v] l IH]; cbn; [reflexivity|].
  destruct (Nat.eqb_spec i k) as [->|Nk]; cbn.
  - destruct (Nat.eqb_spec k j); [congruence|exact IH].
  - now rewrite IH.
Qed.
Lemma delete_in k j (l : list (nat * V)) : In j (map fst (delete_key k l)) <-> In j (map fst l) /\ j <> k.
Proof.
  unfold delete_key. induction l as [|[i v] l IH]; cbn; [tauto|].
  destruct (Nat.eqb_spec i k) as [->|Nk]; cbn; rewrite IH; intuition congruence.
Qed.
Lemma delete_nodup k (l : list (nat * V)) : NoDup (map fst l) -> NoDup (map fst (delete_key k l)).
Proof.
  induction l as [|[i v] l IH]; cbn; [auto|]. intros H. inversion H as [|? ? H1 H2]; subst.
  destruct (negb (i =? k)); cbn; [|auto]. constructor; [|auto].
  change (~ In i (map fst (delete_key k l))). rewrite delete_in. tauto.
Qed.
Lemma rel_cnt_none b l (s : list (option sobj)) keys reg n c :
  Forall2 (rel keys reg) l s -> cnt (is_ref b) l = 0 -> nth_error l n = Some (Some (Ref c)) -> c <> b.
Proof.
  intros _ H E ->. pose proof (cnt_pos' (is_ref b) l n _ E) as P. cbn in P. rewrite Nat.eqb_refl in P. specialize (P eq_refl). lia.
Qed.
Lemma rel_block w s o b : inv w s -> nth_error (w_objs w) o = Some (Some (Ref b)) ->
  exists x, nth_error (w_blocks w) b = Some x /\ 0 < b_uses x.
Proof.
  intros I E. destruct (Forall2_nth _ _ _ _ _ (i_rel _ _ I) E) as (y & _ & R). cbn in R. destruct y as [[|v|]|]; try contradiction.
  rewrite nth_error_map in R. destruct (nth_error (w_blocks w) b) as [x|] eqn:Eb; cbn in R; [|contradiction].
  exists x. split; [reflexivity|]. rewrite (i_cnt _ _ I _ _ Eb). apply (cnt_pos' _ _ _ _ E). cbn. apply Nat.eqb_refl.
Qed.
Lemma inv_open w s o x : inv w s -> nth_error (w_objs w) o = Some x -> user x = true -> w_open w = true.
Proof.
  intros I E U. rewrite (i_open _ _ I), (i_uses _ _ I). pose proof (cnt_pos' _ _ _ _ E U).
  destruct (Nat.eqb_spec (cnt user (w_objs w) + cnt live (w_blocks w)) 0); [lia|reflexivity].
Qed.

Lemma inv_copy w s o x : inv w s -> nth_error s o = Some (Some x) ->
  exists w', step fresh w (Copy o) = Ok w' /\ inv w' (s ++ [Some x]).
Proof.
  intros I E. destruct (Forall2_nth' _ _ _ _ _ (i_rel _ _ I) E) as (y & Ey & R). cbn. rewrite Ey.
  destruct y as [[|b|]|]; try (destruct x; contradiction); cbn in R.
  - destruct x; try contradiction. cbn. eexists; split; [reflexivity|]. destruct I as [I1 I2 I3 I4 I5 I6 I7].
    constructor; cbn; auto.
    + apply Forall2_snoc; [exact I1|exact I].
    + intros b y Eb. rewrite cnt_app. cbn. rewrite (I2 _ _ Eb). lia.
    + rewrite cnt_app. cbn. lia.
    + rewrite I4, I3. pose proof (cnt_pos' user _ _ _ Ey eq_refl). destruct (Nat.eqb_spec (cnt user (w_objs w) + cnt live (w_blocks w)) 0); [lia|reflexivity].
  - destruct x as [|v|]; try contradiction. destruct (rel_block _ _ _ _ I Ey) as (x & Eb & P). cbn. rewrite Eb. cbn.
    pose proof (inv_open _ _ _ _ I Ey eq_refl) as O.
    eexists; split; [reflexivity|]. destruct I as [I1 I2 I3 I4 I5 I6 I7].
    assert (Kk : map b_key (set_nth b {| b_key := b_key x; b_uses := S (b_uses x) |} (w_blocks w)) = map b_key (w_blocks w)) by (apply (set_map b_key _ x); auto).
    assert (N : forall c y, nth_error (set_nth b {| b_key := b_key x; b_uses := S (b_uses x) |} (w_blocks w)) c = Some y -> live y = true ->
              exists y', nth_error (w_blocks w) c = Some y' /\ b_key y' = b_key y /\ live y' = true).
    { intros c y Ec L. destruct (Nat.eq_dec b c) as [<-|Nc].
      - rewrite (set_same _ _ _ _ Eb) in Ec. injection Ec as <-. exists x. repeat split; auto. unfold live. destruct (b_uses x); [lia|reflexivity].
      - rewrite set_other in Ec by auto. eauto. }
    constructor; cbn.
    + rewrite Kk. apply Forall2_snoc; [exact I1|exact R].
    + intros c y Ec. rewrite cnt_app. cbn. destruct (Nat.eqb_spec b c) as [<-|Nc].
      * rewrite (set_same _ _ _ _ Eb) in Ec. injection Ec as <-. cbn. rewrite (I2 _ _ Eb). lia.
      * rewrite set_other in Ec by auto. rewrite (I2 _ _ Ec). cbn. lia.
    + rewrite cnt_app. cbn. pose proof (cnt_set live _ _ _ {| b_key := b_key x; b_uses := S (b_uses x) |} Eb) as Q.
      unfold live in Q at 2 4. cbn in Q. destruct (b_uses x); [lia|]. cbn in Q. lia.
    + exact O.
    + intros c d y z k Ec Ed Ly Lz Ky Kz. destruct (N _ _ Ec Ly) as (y' & ? & ? & ?). destruct (N _ _ Ed Lz) as (z' & ? & ? & ?).
      eapply (I5 c d y' z' k); eauto; congruence.
    + exact I6.
    + intros k Ik. destruct (I7 k Ik) as (c & y & Ec & Ly & Ky). destruct (Nat.eq_dec b c) as [<-|Nc].
      * exists b. eexists. rewrite (set_same _ _ _ _ Eb). split; [reflexivity|]. split; [reflexivity|]. cbn. congruence.
      * exists c, y. rewrite set_other by auto. auto.
  - destruct x; try contradiction. cbn. eexists; split; [reflexivity|]. destruct I as [I1 I2 I3 I4 I5 I6 I7].
    constructor; cbn; auto.
    + apply Forall2_snoc; [exact I1|exact I].
    + intros b y Eb. rewrite cnt_app. cbn. rewrite (I2 _ _ Eb). lia.
    + rewrite cnt_app. cbn. lia.
Qed.
Lemma inv_move w s o x : inv w s -> nth_error s o = Some (Some x) ->
  exists w', step fresh w (Move o) = Ok w' /\ inv w' (set_nth o (Some SMoved) s ++ [Some x]).
Proof.
  intros I E. destruct (Forall2_nth' _ _ _ _ _ (i_rel _ _ I) E) as (y & Ey & R). cbn. rewrite Ey.
  destruct y as [y|]; [|destruct x; contradiction]. eexists; split; [reflexivity|]. destruct I as [I1 I2 I3 I4 I5 I6 I7].
  constructor; cbn; auto.
  - apply Forall2_snoc; [|exact R]. apply Forall2_set; [exact I1|exact I].
  - intros b z Eb. rewrite cnt_app, (I2 _ _ Eb). pose proof (cnt_set (is_ref b) _ _ _ (Some Moved) Ey) as Q. cbn in Q |- *. lia.
  - rewrite cnt_app. pose proof (cnt_set user _ _ _ (Some Moved) Ey) as Q. cbn in Q |- *. lia.
Qed.
Lemma inv_make w s o v : inv w s -> nth_error s o = Some (Some SBase) \/ (exists u, nth_error s o = Some (Some (SVal u))) ->
  exists w', step fresh w (MakeRef o v) = Ok w' /\ inv w' (s ++ [Some (SVal v)]).
Proof.
  intros I E.
  assert (U : exists y, nth_error (w_objs w) o = Some y /\ user y = true).
  { destruct E as [E|[u E]]; destruct (Forall2_nth' _ _ _ _ _ (i_rel _ _ I) E) as (y & Ey & R); exists y; (split; [exact Ey|]);
      destruct y as [[| |]|]; cbn in *; try contradiction; reflexivity. }
  destruct U as (y & Ey & U). pose proof (inv_open _ _ _ _ I Ey U) as O.
  assert (St : step fresh w (MakeRef o v) = make_ref fresh w v).
  { cbn. rewrite Ey. destruct y as [[| |]|]; cbn in U; try discriminate; reflexivity. }
  rewrite St. unfold make_ref. rewrite O. cbn [negb]. eexists; split; [reflexivity|].
  destruct I as [I1 I2 I3 I4 I5 I6 I7].
  set (r := match v with Some x => (fresh (w_reg w), x) :: w_reg w | None => w_reg w end).
  set (k := match v with Some _ => Some (fresh (w_reg w)) | None => None end).
  assert (NR : forall n c, nth_error (w_objs w) n = Some (Some (Ref c)) -> c < length (w_blocks w)).
  { intros n c En. destruct (Forall2_nth _ _ _ _ _ I1 En) as (z & _ & R). cbn in R. destruct z as [[|z|]|]; try contradiction.
    rewrite nth_error_map in R. destruct (nth_error (w_blocks w) c) eqn:Ec; [|contradiction]. apply nth_error_Some. congruence. }
  assert (Lk : forall j, j <> fresh (w_reg w) -> lookup j r = lookup j (w_reg w)).
  { intros j Hj. subst r. destruct v; [|reflexivity]. cbn. destruct (Nat.eqb_spec (fresh (w_reg w)) j); congruence. }
  assert (Fr : forall b x, nth_error (w_blocks w) b = Some x -> live x = true -> b_key x <> Some (fresh (w_reg w))).
  { intros b x Eb L Kx. destruct (cnt_pos (is_ref b) (w_objs w)) as (n & z & En & Ez).
    - rewrite <- (I2 _ _ Eb). unfold live in L. destruct (b_uses x); [discriminate|lia].
    - destruct z as [[|c|]|]; cbn in Ez; try discriminate. apply Nat.eqb_eq in Ez; subst c.
      destruct (Forall2_nth _ _ _ _ _ I1 En) as (z & _ & R). cbn in R. destruct z as [[|z|]|]; try contradiction.
      rewrite nth_error_map, Eb in R. cbn in R. rewrite Kx in R. destruct R as [R1 R2]. apply (fresh_ok (w_reg w)). apply lookup_in. congruence. }
  constructor; cbn.
  - apply Forall2_snoc.
    + eapply Forall2_imp; [|exact I1]. intros n x z En R. destruct x as [[|c|]|]; destruct z as [[|z|]|]; cbn in R |- *; try contradiction; auto.
      rewrite map_app. pose proof (NR _ _ En) as Lc. rewrite nth_error_app1 by (rewrite map_length; exact Lc).
      rewrite nth_error_map in R |- *. destruct (nth_error (w_blocks w) c) as [x|] eqn:Ec; cbn in R |- *; [|contradiction].
      destruct (b_key x) as [j|] eqn:Kj; [|exact R]. destruct R as [R1 R2]. split; [|exact R2]. rewrite Lk; [exact R1|].
      intros ->. apply (fresh_ok (w_reg w)). apply lookup_in. congruence.
    + cbn. rewrite map_app, nth_error_app2 by (rewrite map_length; lia). rewrite map_length, Nat.sub_diag. cbn. subst k r.
      destruct v; [|reflexivity]. cbn. rewrite Nat.eqb_refl. split; [reflexivity|discriminate].
  - intros b x Eb. rewrite cnt_app. cbn. rewrite nth_snoc in Eb. destruct (Nat.eqb_spec b (length (w_blocks w))) as [->|Nb].
    + injection Eb as <-. cbn. rewrite Nat.eqb_refl. cbn.
      enough (cnt (is_ref (length (w_blocks w))) (w_objs w) = 0) by lia.
      destruct (cnt (is_ref (length (w_blocks w))) (w_objs w)) eqn:C; [reflexivity|].
      destruct (cnt_pos (is_ref (length (w_blocks w))) (w_objs w)) as (m & z & En & Ez); [lia|].
      destruct z as [[|c|]|]; cbn in Ez; try discriminate. apply Nat.eqb_eq in Ez; subst c. pose proof (NR _ _ En). lia.
    + rewrite (I2 _ _ Eb). destruct (Nat.eqb_spec (length (w_blocks w)) b); [congruence|]. cbn. lia.
  - rewrite !cnt_app. cbn. lia.
  - reflexivity.
  - intros b c x z j Eb Ec Lx Lz Kx Kz. rewrite nth_snoc in Eb, Ec.
    destruct (Nat.eqb_spec b (length (w_blocks w))) as [->|Nb]; destruct (Nat.eqb_spec c (length (w_blocks w))) as [->|Nc]; auto.
    + injection Eb as <-. cbn in Kx. subst k. destruct v; [|discriminate]. exfalso. apply (Fr _ _ Ec Lz). congruence.
    + injection Ec as <-. cbn in Kz. subst k. destruct v; [|discriminate]. exfalso. apply (Fr _ _ Eb Lx). congruence.
    + eapply I5; eauto.
  - subst r. destruct v; [|exact I6]. cbn. constructor; [apply fresh_ok|exact I6].
  - intros j Ij.
    assert (Old : In j (map fst (w_reg w)) -> exists b x, nth_error (w_blocks w ++ [mk_block k 1]) b = Some x /\ live x = true /\ b_key x = Some j).
    { intros H. destruct (I7 j H) as (b & x & Eb & Lx & Kx). exists b, x. rewrite nth_snoc.
      destruct (Nat.eqb_spec b (length (w_blocks w))) as [->|]; [|auto]. assert (length (w_blocks w) < length (w_blocks w)) by (apply nth_error_Some; congruence). lia. }
    subst r. destruct v as [x|]; [|auto]. cbn in Ij. destruct Ij as [<-|Ij]; [|auto].
    exists (length (w_blocks w)). eexists. rewrite nth_snoc, Nat.eqb_refl. split; [reflexivity|]. split; reflexivity.
Qed.
Lemma inv_destroy w s o x : inv w s -> nth_error s o = Some (Some x) ->
  exists w', step fresh w (Destroy o) = Ok w' /\ inv w' (set_nth o None s).
Proof.
  intros I E. destruct (Forall2_nth' _ _ _ _ _ (i_rel _ _ I) E) as (y & Ey & R). cbn. rewrite Ey.
  destruct y as [[|b|]|]; try (destruct x; contradiction); cbn in R.
  - destruct x; try contradiction. cbn. destruct I as [I1 I2 I3 I4 I5 I6 I7]. unfold release_state.
    pose proof (cnt_set user _ _ _ None Ey) as Q. cbn in Q.
    destruct (w_uses w) as [|n] eqn:Un; [lia|]. cbn. eexists; split; [reflexivity|].
    constructor; cbn; auto.
    + apply Forall2_set; [exact I1|exact I].
    + intros b y Eb. pose proof (cnt_set (is_ref b) _ _ _ None Ey) as Q'. cbn in Q'. rewrite (I2 _ _ Eb). lia.
    + lia.
    + rewrite I4. cbn. now destruct (n =? 0).
  - destruct x as [|v|]; try contradiction. destruct (rel_block _ _ _ _ I Ey) as (x & Eb & P).
    pose proof (inv_open _ _ _ _ I Ey eq_refl) as O.
    destruct I as [I1 I2 I3 I4 I5 I6 I7].
    pose proof (cnt_set user _ _ _ None Ey) as Qu. cbn in Qu.
    assert (Qr : forall c, cnt (is_ref c) (set_nth o None (w_objs w)) + b2n (b =? c) = cnt (is_ref c) (w_objs w)).
    { intros c. pose proof (cnt_set (is_ref c) _ _ _ None Ey) as Q. cbn in Q. lia. }
    assert (Kk : forall u, map b_key (set_nth b {| b_key := b_key x; b_uses := u |} (w_blocks w)) = map b_key (w_blocks w)) by (intros u; apply (set_map b_key _ x); auto).
    cbn. unfold release_block. rewrite Eb. destruct (b_uses x) as [|[|n]] eqn:Ux; [lia| |].
    + (* the last user *)
      assert (Cb : cnt (is_ref b) (set_nth o None (w_objs w)) = 0).
      { pose proof (Qr b) as Q. rewrite Nat.eqb_refl in Q. cbn in Q. pose proof (I2 _ _ Eb). lia. }
      pose proof (cnt_set live _ _ _ {| b_key := b_key x; b_uses := 0 |} Eb) as Ql. unfold live in Ql at 2 4. rewrite Ux in Ql. cbn in Ql.
      assert (Lx : live x = true) by (unfold live; now rewrite Ux).
      set (r := match b_key x with Some k => delete_key k (w_reg w) | None => w_reg w end).
      assert (Un : unref (with_block w b {| b_key := b_key x; b_uses := 0 |}) (b_key x) =
                   Ok (with_reg (with_block w b {| b_key := b_key x; b_uses := 0 |}) r)).
      { unfold unref. cbn. rewrite O. cbn. subst r. rewrite nth_error_map, Eb in R. cbn in R. destruct (b_key x) as [k|]; [|destruct w; reflexivity].
        destruct R as [R1 R2]. destruct (lookup k (w_reg w)); [reflexivity|congruence]. }
      rewrite Un. cbn. unfold release_state. cbn. destruct (w_uses w) as [|[|u]] eqn:Uu; [lia|lia|]. cbn.
      eexists; split; [reflexivity|].
      assert (N : forall c y, nth_error (set_nth b {| b_key := b_key x; b_uses := 0 |} (w_blocks w)) c = Some y -> live y = true ->
                nth_error (w_blocks w) c = Some y /\ c <> b).
      { intros c y Ec L. destruct (Nat.eq_dec b c) as [<-|Nc].
        - rewrite (set_same _ _ _ _ Eb) in Ec. injection Ec as <-. discriminate.
        - rewrite set_other in Ec by auto. auto. }
      constructor; cbn.
      * rewrite Kk. apply Forall2_imp with (R := rel (map b_key (w_blocks w)) (w_reg w)).
        -- intros m p q Em Rm. destruct p as [[|c|]|]; destruct q as [[|q|]|]; cbn in Rm |- *; try contradiction; auto.
           assert (Nc : c <> b). { intros ->. pose proof (cnt_pos' (is_ref b) _ _ _ Em) as Z. cbn in Z. rewrite Nat.eqb_refl in Z. specialize (Z eq_refl). lia. }
           rewrite nth_error_map in Rm |- *. destruct (nth_error (w_blocks w) c) as [z|] eqn:Ec; cbn in Rm |- *; [|contradiction].
           destruct (b_key z) as [j|] eqn:Kz; [|exact Rm]. destruct Rm as [R1 R2]. split; [|exact R2]. subst r.
           destruct (b_key x) as [k|] eqn:Kx; [|exact R1]. rewrite lookup_delete; [exact R1|]. intros ->. apply Nc.
           eapply (I5 c b z x k); eauto. unfold live. rewrite (I2 _ _ Ec).
           assert (Z : nth_error (w_objs w) m = Some (Some (Ref c))).
           { destruct (Nat.eq_dec o m) as [<-|Nm]; [|now rewrite set_other in Em by auto].
             rewrite (set_same _ _ _ _ Ey) in Em. discriminate. }
           pose proof (cnt_pos' (is_ref c) _ _ _ Z) as Z'. cbn in Z'. rewrite Nat.eqb_refl in Z'. specialize (Z' eq_refl).
           destruct (cnt (is_ref c) (w_objs w)); [lia|reflexivity].
        -- apply Forall2_set; [exact I1|exact I].
      * intros c y Ec. pose proof (Qr c) as Q. destruct (Nat.eqb_spec b c) as [<-|Nc].
        -- rewrite (set_same _ _ _ _ Eb) in Ec. injection Ec as <-. cbn. congruence.
        -- rewrite set_other in Ec by auto. cbn in Q. rewrite (I2 _ _ Ec). lia.
      * lia.
      * rewrite O. now destruct (u =? 0).
      * intros c d y z k Ec Ed Ly Lz Ky Kz. destruct (N _ _ Ec Ly). destruct (N _ _ Ed Lz). eapply (I5 c d y z k); eauto.
      * subst r. destruct (b_key x); [apply delete_nodup|]; exact I6.
      * intros k Ik.
        assert (H : In k (map fst (w_reg w)) /\ b_key x <> Some k).
        { subst r. destruct (b_key x) as [j|]; [|split; [exact Ik|discriminate]]. rewrite delete_in in Ik. split; [tauto|]. intros [= ->]. tauto. }
        destruct H as [H1 H2]. destruct (I7 k H1) as (c & y & Ec & Ly & Ky). exists c, y. rewrite set_other; [auto|]. intros <-. congruence.
    + cbn. unfold release_state. cbn.
      pose proof (cnt_set live _ _ _ {| b_key := b_key x; b_uses := S n |} Eb) as Ql. unfold live in Ql at 2 4. rewrite Ux in Ql. cbn in Ql.
      assert (Lx : live x = true) by (unfold live; now rewrite Ux).
      destruct (w_uses w) as [|u] eqn:Uu; [lia|]. cbn. eexists; split; [reflexivity|].
      assert (N : forall c y, nth_error (set_nth b {| b_key := b_key x; b_uses := S n |} (w_blocks w)) c = Some y -> live y = true ->
                exists y', nth_error (w_blocks w) c = Some y' /\ b_key y' = b_key y /\ live y' = true).
      { intros c y Ec L. destruct (Nat.eq_dec b c) as [<-|Nc].
        - rewrite (set_same _ _ _ _ Eb) in Ec. injection Ec as <-. eauto.
        - rewrite set_other in Ec by auto. eauto. }
      constructor; cbn.
      * rewrite Kk. apply Forall2_set; [exact I1|exact I].
      * intros c y Ec. pose proof (Qr c) as Q. destruct (Nat.eqb_spec b c) as [<-|Nc].
        -- rewrite (set_same _ _ _ _ Eb) in Ec. injection Ec as <-. cbn in *. pose proof (I2 _ _ Eb). lia.
        -- rewrite set_other in Ec by auto. cbn in Q. rewrite (I2 _ _ Ec). lia.
      * lia.
      * rewrite I4. cbn. now destruct (u =? 0).
      * intros c d y z k Ec Ed Ly Lz Ky Kz. destruct (N _ _ Ec Ly) as (y' & ? & ? & ?). destruct (N _ _ Ed Lz) as (z' & ? & ? & ?).
        eapply (I5 c d y' z' k); eauto; congruence.
      * exact I6.
      * intros k Ik. destruct (I7 k Ik) as (c & y & Ec & Ly & Ky). destruct (Nat.eq_dec b c) as [<-|Nc].
        -- exists b. eexists. rewrite (set_same _ _ _ _ Eb). split; [reflexivity|]. split; [reflexivity|]. cbn. congruence.
        -- exists c, y. rewrite set_other by auto. auto.
  - destruct x; try contradiction. cbn. eexists; split; [reflexivity|]. destruct I as [I1 I2 I3 I4 I5 I6 I7].
    pose proof (cnt_set user _ _ _ None Ey) as Q. cbn in Q.
    constructor; cbn; auto.
    + apply Forall2_set; [exact I1|exact I].
    + intros b y Eb. pose proof (cnt_set (is_ref b) _ _ _ None Ey) as Q'. cbn in Q'. rewrite (I2 _ _ Eb). lia.
    + lia.
Qed.
Lemma inv_step w s p s' : inv w s -> sstep s p = Some s' -> exists w', step fresh w p = Ok w' /\ inv w' s'.
Proof.
  intros I E. destruct p as [o|o|o|o v]; cbn [sstep] in E; destruct (nth_error s o) as [[x|]|] eqn:Eo; try discriminate.
  - injection E as <-. now apply inv_copy.
  - injection E as <-. rewrite <- (set_put _ _ _ _ Eo). now apply inv_move.
  - injection E as <-. rewrite <- (set_put _ _ _ _ Eo). now apply (inv_destroy _ _ _ x).
  - destruct x; try discriminate; injection E as <-; apply inv_make; eauto.
Qed.
Lemma inv_misuse w s p : inv w s -> sstep s p = None -> step fresh w p = UB.
Proof.
  intros I E. destruct p as [o|o|o|o v]; cbn [sstep step] in *; destruct (nth_error (w_objs w) o) as [[y|]|] eqn:Ew; try reflexivity;
    destruct (Forall2_nth _ _ _ _ _ (i_rel _ _ I) Ew) as (z & Ez & R); rewrite Ez in E; destruct y, z as [[]|]; cbn in R; try contradiction;
    try discriminate; reflexivity.
Qed.
End Proofs.

(** * Function wrappers *)
Section Wrappers.
Context {R : Type}.
Notation wworld := (@wworld R).
Notation wop := (@wop R).
(** wrappers as plain values; an object given away or used by a wrapper is no longer the caller's to change *)
Record sworld := mk_sw { s_objs : list (option R); s_referred : list nat; s_wraps : list (option R) }.
Definition mem (i : nat) (l : list nat) : bool := existsb (Nat.eqb i) l.
Definition swstep (s : sworld) (p : wop) : option sworld :=
  match p with
  | New r => Some (mk_sw (s_objs s ++ [Some r]) (s_referred s) (s_wraps s))
  | Kill i => match nth_error (s_objs s) i with
      | Some (Some _) => if mem i (s_referred s) then None else Some (mk_sw (put i None (s_objs s)) (s_referred s) (s_wraps s)) | _ => None end
  | Assign i r => match nth_error (s_objs s) i with
      | Some (Some _) => if mem i (s_referred s) then None else Some (mk_sw (put i (Some r) (s_objs s)) (s_referred s) (s_wraps s)) | _ => None end
  | WrapUnique i => match nth_error (s_objs s) i with
      | Some (Some r) => if mem i (s_referred s) then None else Some (mk_sw (put i None (s_objs s)) (s_referred s) (s_wraps s ++ [Some r])) | _ => None end
  | WrapRef i => match nth_error (s_objs s) i with
      | Some (Some r) => Some (mk_sw (s_objs s ++ [None]) (i :: s_referred s) (s_wraps s ++ [Some r])) | _ => None end
  | CopyW j => match nth_error (s_wraps s) j with
      | Some (Some r) => Some (mk_sw (s_objs s) (s_referred s) (s_wraps s ++ [Some r])) | _ => None end
  | KillW j => match nth_error (s_wraps s) j with
      | Some (Some _) => Some (mk_sw (s_objs s) (s_referred s) (put j None (s_wraps s))) | _ => None end
  end.
Definition uses_owner (b : nat) (x : option wrapper) : bool := match x with Some y => plua_func y =? b | None => false end.
Definition wrel (w : wworld) (s : sworld) (x : option wrapper) (y : option R) : Prop :=
  match x, y with
  | None, None => True
  | Some x, Some r => nth_error (ww_res w) (lua_func x) = Some (Some r) /\
      exists o, nth_error (ww_owners w) (plua_func x) = Some o /\
        (lua_func x = o_res o \/ (mem (lua_func x) (s_referred s) = true /\ nth_error (s_objs s) (lua_func x) = Some (Some r)))
  | _, _ => False
  end.
Record winv (w : wworld) (s : sworld) : Prop := mk_winv {
  wi_len : length (ww_res w) = length (s_objs s);
  wi_objs : forall i r, nth_error (s_objs s) i = Some (Some r) -> nth_error (ww_res w) i = Some (Some r);
  wi_rel : Forall2 (wrel w s) (ww_wraps w) (s_wraps s);
  wi_cnt : forall b o, nth_error (ww_owners w) b = Some o -> o_uses o = cnt (uses_owner b) (ww_wraps w);
  wi_own : forall b o, nth_error (ww_owners w) b = Some o -> 0 < o_uses o ->
      (exists r, nth_error (ww_res w) (o_res o) = Some (Some r)) /\ nth_error (s_objs s) (o_res o) = Some None;
  wi_inj : forall b c o p, nth_error (ww_owners w) b = Some o -> nth_error (ww_owners w) c = Some p -> 0 < o_uses o -> 0 < o_uses p ->
      o_res o = o_res p -> b = c }.
Lemma winv_start : winv (mk_ww [] [] []) (mk_sw [] [] []).
Proof.
  constructor; cbn; try (now intros [|b]); try (intros [|b]; discriminate); auto.
Qed.
Lemma put_same {A} n (x y : A) l : nth_error l n = Some y -> nth_error (put n x l) n = Some x.
Proof. intros H. rewrite <- (set_put _ _ _ _ H). exact (set_same _ _ _ _ H). Qed.
Lemma put_other {A} n m (x y : A) l : nth_error l n = Some y -> n <> m -> nth_error (put n x l) m = nth_error l m.
Proof. intros H N. rewrite <- (set_put _ _ _ _ H). exact (set_other _ _ _ _ N). Qed.
Lemma put_len {A} n (x y : A) l : nth_error l n = Some y -> length (put n x l) = length l.
Proof. intros H. rewrite <- (set_put _ _ _ _ H). apply set_len. Qed.
Lemma wrel_nth w s n x : winv w s -> nth_error (ww_wraps w) n = Some (Some x) -> exists r o, nth_error (s_wraps s) n = Some (Some r) /\
  nth_error (ww_res w) (lua_func x) = Some (Some r) /\ nth_error (ww_owners w) (plua_func x) = Some o /\ 0 < o_uses o /\
  (lua_func x = o_res o \/ (mem (lua_func x) (s_referred s) = true /\ nth_error (s_objs s) (lua_func x) = Some (Some r))).
Proof.
  intros I E. destruct (Forall2_nth _ _ _ _ _ (wi_rel _ _ I) E) as ([r|] & Er & H); [|contradiction].
  destruct H as (H1 & o & H2 & H3). exists r, o. repeat split; auto. rewrite (wi_cnt _ _ I _ _ H2). apply (cnt_pos' _ _ _ _ E). apply Nat.eqb_refl.
Qed.
Lemma wstep_ok w s p s' : winv w s -> swstep s p = Some s' -> exists w', wstep w p = Ok w' /\ winv w' s'.
Proof.
  intros I E. pose proof (fun n x => wrel_nth w s n x I) as WR. destruct I as [I1 I2 I3 I4 I5 I6].
  assert (LT : forall (l : list (option R)) i x, nth_error l i = Some x -> i < length l) by (intros l i x H; apply nth_error_Some; congruence).
  assert (OW : forall b o n, nth_error (ww_owners w) b = Some o -> 0 < o_uses o ->
    (forall c t, nth_error (ww_owners w) c = Some t -> exists t', nth_error (set_nth b (mk_owner (o_res o) n) (ww_owners w)) c = Some t' /\ o_res t' = o_res t) /\
    (forall c t, nth_error (set_nth b (mk_owner (o_res o) n) (ww_owners w)) c = Some t ->
       exists t', nth_error (ww_owners w) c = Some t' /\ o_res t' = o_res t /\ (o_uses t' = o_uses t \/ (t' = o /\ 0 < o_uses o)))).
  { intros b o n Eb Po. split; intros c t Ec; (destruct (Nat.eq_dec b c) as [<-|N]; [|rewrite set_other in * by exact N; eauto 6]).
    - rewrite (set_same _ _ _ _ Eb). rewrite Eb in Ec. injection Ec as <-. eauto.
    - rewrite (set_same _ _ _ _ Eb) in Ec. injection Ec as <-. exists o. repeat split; auto. }
  destruct p as [r|i|i r|i|i|j|j]; cbn [swstep wstep] in *.
  - injection E as <-. eexists; split; [reflexivity|]. constructor; cbn; auto.
    + rewrite !app_length, I1. reflexivity.
    + intros i q. rewrite !nth_snoc, I1. destruct (i =? length (s_objs s)); [auto|apply I2].
    + eapply Forall2_imp; [|exact I3]. intros n [x|] [y|] _; cbn; auto. intros (H1 & o & H2 & H3). rewrite !nth_snoc, I1.
      pose proof (LT _ _ _ H1). destruct (Nat.eqb_spec (lua_func x) (length (s_objs s))); [lia|]. eauto.
    + intros b o Eb P. destruct (I5 b o Eb P) as [[q H1] H2]. rewrite !nth_snoc, I1. pose proof (LT _ _ _ H2).
      destruct (Nat.eqb_spec (o_res o) (length (s_objs s))); [lia|eauto].
  - unfold alive. destruct (nth_error (s_objs s) i) as [[q|]|] eqn:Ei; try discriminate. destruct (mem i (s_referred s)) eqn:Em; [discriminate|].
    injection E as <-. rewrite (I2 _ _ Ei). eexists; split; [reflexivity|]. pose proof (I2 _ _ Ei) as Ri.
    constructor; cbn; auto.
    + rewrite set_len, (put_len _ _ _ _ Ei). exact I1.
    + intros k t. destruct (Nat.eq_dec i k) as [<-|N]; [rewrite (put_same _ _ _ _ Ei); discriminate|].
      rewrite (put_other _ _ _ _ _ Ei N), set_other by exact N. apply I2.
    + eapply Forall2_imp; [|exact I3]. intros n [x|] [y|] En; cbn; auto. intros (H1 & o & H2 & H3).
      assert (N : i <> lua_func x).
      { intros ->. destruct H3 as [H3|[H3 _]]; [|congruence]. destruct (WR _ _ En) as (r' & o' & _ & _ & Ho & P & _).
        rewrite H2 in Ho. injection Ho as <-. destruct (I5 _ _ H2 P) as [_ H]. rewrite <- H3 in H. congruence. }
      rewrite set_other by exact N. split; [exact H1|]. exists o. split; [exact H2|]. rewrite (put_other _ _ _ _ _ Ei N). exact H3.
    + intros b o Eb P. destruct (I5 b o Eb P) as [H1 H2]. assert (N : i <> o_res o) by (intros ->; congruence).
      rewrite set_other by exact N. rewrite (put_other _ _ _ _ _ Ei N). auto.
  - unfold alive. destruct (nth_error (s_objs s) i) as [[q|]|] eqn:Ei; try discriminate. destruct (mem i (s_referred s)) eqn:Em; [discriminate|].
    injection E as <-. rewrite (I2 _ _ Ei). eexists; split; [reflexivity|]. pose proof (I2 _ _ Ei) as Ri.
    constructor; cbn; auto.
    + rewrite set_len, (put_len _ _ _ _ Ei). exact I1.
    + intros k t. destruct (Nat.eq_dec i k) as [<-|N]; [rewrite (put_same _ _ _ _ Ei), (set_same _ _ _ _ Ri); auto|].
      rewrite (put_other _ _ _ _ _ Ei N), set_other by exact N. apply I2.
    + eapply Forall2_imp; [|exact I3]. intros n [x|] [y|] En; cbn; auto. intros (H1 & o & H2 & H3).
      assert (N : i <> lua_func x).
      { intros ->. destruct H3 as [H3|[H3 _]]; [|congruence]. destruct (WR _ _ En) as (r' & o' & _ & _ & Ho & P & _).
        rewrite H2 in Ho. injection Ho as <-. destruct (I5 _ _ H2 P) as [_ H]. rewrite <- H3 in H. congruence. }
      rewrite set_other by exact N. split; [exact H1|]. exists o. split; [exact H2|]. rewrite (put_other _ _ _ _ _ Ei N). exact H3.
    + intros b o Eb P. destruct (I5 b o Eb P) as [H1 H2]. assert (N : i <> o_res o) by (intros ->; congruence).
      rewrite set_other by exact N. rewrite (put_other _ _ _ _ _ Ei N). auto.
  - unfold alive. destruct (nth_error (s_objs s) i) as [[q|]|] eqn:Ei; try discriminate. destruct (mem i (s_referred s)) eqn:Em; [discriminate|].
    injection E as <-. rewrite (I2 _ _ Ei). eexists; split; [reflexivity|]. pose proof (I2 _ _ Ei) as Ri.
    assert (Z : cnt (uses_owner (length (ww_owners w))) (ww_wraps w) = 0).
    { destruct (cnt (uses_owner (length (ww_owners w))) (ww_wraps w)) eqn:C; [reflexivity|].
      destruct (cnt_pos (uses_owner (length (ww_owners w))) (ww_wraps w)) as (m & [x|] & En & Ez); [lia| |discriminate].
      apply Nat.eqb_eq in Ez. destruct (WR _ _ En) as (r' & o' & _ & _ & Ho & _). rewrite Ez in Ho.
      assert (length (ww_owners w) < length (ww_owners w)) by (apply nth_error_Some; congruence). lia. }
    constructor; cbn; auto.
    + rewrite (put_len _ _ _ _ Ei). exact I1.
    + intros k t. destruct (Nat.eq_dec i k) as [<-|N]; [rewrite (put_same _ _ _ _ Ei); discriminate|].
      rewrite (put_other _ _ _ _ _ Ei N). apply I2.
    + apply Forall2_snoc.
      * eapply Forall2_imp; [|exact I3]. intros n [x|] [y|] En; cbn; auto. intros (H1 & o & H2 & H3). split; [exact H1|]. exists o.
        rewrite nth_snoc. destruct (Nat.eqb_spec (plua_func x) (length (ww_owners w))) as [Eq|_].
        { rewrite Eq in H2. assert (length (ww_owners w) < length (ww_owners w)) by (apply nth_error_Some; congruence). lia. }
        split; [exact H2|]. destruct H3 as [H3|[H3 H4]]; [now left|right]. split; [exact H3|]. rewrite (put_other _ _ _ _ _ Ei); [exact H4|]. intros ->. congruence.
      * cbn. split; [exact Ri|]. eexists. rewrite nth_snoc, Nat.eqb_refl. split; [reflexivity|]. now left.
    + intros b o Eb. rewrite cnt_app. cbn. rewrite nth_snoc in Eb. destruct (Nat.eqb_spec b (length (ww_owners w))) as [->|Nb].
      * injection Eb as <-. cbn. rewrite Nat.eqb_refl, Z. reflexivity.
      * rewrite (I4 _ _ Eb). destruct (Nat.eqb_spec (length (ww_owners w)) b); [congruence|]. cbn. lia.
    + intros b o Eb P. rewrite nth_snoc in Eb. destruct (Nat.eqb_spec b (length (ww_owners w))) as [->|Nb].
      * injection Eb as <-. cbn. split; [eauto|]. exact (put_same _ _ _ _ Ei).
      * destruct (I5 b o Eb P) as [H1 H2]. split; [exact H1|]. rewrite (put_other _ _ _ _ _ Ei); [exact H2|]. intros ->. congruence.
    + intros b c o t Eb Ec P Q Eq. rewrite nth_snoc in Eb, Ec.
      destruct (Nat.eqb_spec b (length (ww_owners w))) as [->|Nb]; destruct (Nat.eqb_spec c (length (ww_owners w))) as [->|Nc]; auto.
      * injection Eb as <-. cbn in Eq. destruct (I5 _ _ Ec Q) as [_ H]. congruence.
      * injection Ec as <-. cbn in Eq. destruct (I5 _ _ Eb P) as [_ H]. congruence.
      * eapply I6; eauto.
  - unfold alive. destruct (nth_error (s_objs s) i) as [[q|]|] eqn:Ei; try discriminate.
    injection E as <-. rewrite (I2 _ _ Ei). eexists; split; [reflexivity|]. pose proof (I2 _ _ Ei) as Ri.
    pose proof (LT _ _ _ Ei) as Li.
    assert (Z : cnt (uses_owner (length (ww_owners w))) (ww_wraps w) = 0).
    { destruct (cnt (uses_owner (length (ww_owners w))) (ww_wraps w)) eqn:C; [reflexivity|].
      destruct (cnt_pos (uses_owner (length (ww_owners w))) (ww_wraps w)) as (m & [x|] & En & Ez); [lia| |discriminate].
      apply Nat.eqb_eq in Ez. destruct (WR _ _ En) as (r' & o' & _ & _ & Ho & _). rewrite Ez in Ho.
      assert (length (ww_owners w) < length (ww_owners w)) by (apply nth_error_Some; congruence). lia. }
    constructor; cbn; auto.
    + rewrite !app_length, I1. reflexivity.
    + intros k t. rewrite !nth_snoc, I1. destruct (k =? length (s_objs s)); [discriminate|apply I2].
    + apply Forall2_snoc.
      * eapply Forall2_imp; [|exact I3]. intros n [x|] [y|] En; cbn; auto. intros (H1 & o & H2 & H3). rewrite !nth_snoc, I1.
        pose proof (LT _ _ _ H1). destruct (Nat.eqb_spec (lua_func x) (length (s_objs s))); [lia|]. split; [exact H1|]. exists o.
        destruct (Nat.eqb_spec (plua_func x) (length (ww_owners w))) as [Eq|_].
        { rewrite Eq in H2. assert (length (ww_owners w) < length (ww_owners w)) by (apply nth_error_Some; congruence). lia. }
        split; [exact H2|]. destruct H3 as [H3|[H3 H4]]; [now left|right]. split; [|exact H4]. unfold mem in H3. rewrite H3. apply orb_true_r.
      * cbn. rewrite !nth_snoc, I1, Nat.eqb_refl. destruct (Nat.eqb_spec i (length (s_objs s))); [lia|]. split; [exact Ri|].
        eexists. split; [reflexivity|]. right. rewrite Nat.eqb_refl. split; [reflexivity|exact Ei].
    + intros b o Eb. rewrite cnt_app. cbn. rewrite nth_snoc in Eb. destruct (Nat.eqb_spec b (length (ww_owners w))) as [->|Nb].
      * injection Eb as <-. cbn. rewrite Nat.eqb_refl, Z. reflexivity.
      * rewrite (I4 _ _ Eb). destruct (Nat.eqb_spec (length (ww_owners w)) b); [congruence|]. cbn. lia.
    + intros b o Eb P. rewrite nth_snoc in Eb. rewrite !nth_snoc, I1. destruct (Nat.eqb_spec b (length (ww_owners w))) as [->|Nb].
      * injection Eb as <-. cbn [o_res]. rewrite I1, Nat.eqb_refl. eauto.
      * destruct (I5 b o Eb P) as [H1 H2]. pose proof (LT _ _ _ H2). destruct (Nat.eqb_spec (o_res o) (length (s_objs s))); [lia|auto].
    + intros b c o t Eb Ec P Q Eq. rewrite nth_snoc in Eb, Ec.
      destruct (Nat.eqb_spec b (length (ww_owners w))) as [->|Nb]; destruct (Nat.eqb_spec c (length (ww_owners w))) as [->|Nc]; auto.
      * injection Eb as <-. cbn in Eq. destruct (I5 _ _ Ec Q) as [_ H]. pose proof (LT _ _ _ H). lia.
      * injection Ec as <-. cbn in Eq. destruct (I5 _ _ Eb P) as [_ H]. pose proof (LT _ _ _ H). lia.
      * eapply I6; eauto.
  - destruct (nth_error (s_wraps s) j) as [[q|]|] eqn:Ej; try discriminate. injection E as <-.
    destruct (Forall2_nth' _ _ _ _ _ I3 Ej) as ([x|] & Ex & H); [|contradiction]. rewrite Ex. cbn in H.
    destruct (WR _ _ Ex) as (_ & o & _ & _ & Ho & Po & _). rewrite Ho. eexists; split; [reflexivity|].
    destruct (OW (plua_func x) o (S (o_uses o)) Ho Po) as [K1 K2].
    constructor; cbn [ww_res ww_owners ww_wraps s_objs s_referred s_wraps]; auto.
    + apply Forall2_snoc.
      * eapply Forall2_imp; [|exact I3]. intros n [y|] [z|] En; cbn; auto. intros (H1 & t & H2 & H3). split; [exact H1|].
        destruct (K1 _ _ H2) as (t' & H4 & H5). exists t'. split; [exact H4|]. rewrite H5. exact H3.
      * cbn. destruct H as (H1 & t & H2 & H3). split; [exact H1|]. destruct (K1 _ _ H2) as (t' & H4 & H5). exists t'. split; [exact H4|]. rewrite H5. exact H3.
    + intros b t Eb. rewrite cnt_app. cbn. destruct (Nat.eqb_spec (plua_func x) b) as [<-|Nb].
      * rewrite (set_same _ _ _ _ Ho) in Eb. injection Eb as <-. cbn. rewrite (I4 _ _ Ho). lia.
      * rewrite set_other in Eb by exact Nb. rewrite (I4 _ _ Eb). cbn. lia.
    + intros b t Eb P. destruct (K2 _ _ Eb) as (t' & H4 & H5 & H6). rewrite <- H5. apply (I5 _ _ H4). destruct H6 as [->|[-> H6]]; lia.
    + intros b c t u Eb Ec P Q Eq. destruct (K2 _ _ Eb) as (t' & H4 & H5 & H6). destruct (K2 _ _ Ec) as (u' & H7 & H8 & H9).
      eapply (I6 b c t' u'); eauto; [destruct H6 as [->|[-> H6]]; lia|destruct H9 as [->|[-> H9]]; lia|congruence].
  - destruct (nth_error (s_wraps s) j) as [[q|]|] eqn:Ej; try discriminate. injection E as <-.
    destruct (Forall2_nth' _ _ _ _ _ I3 Ej) as ([x|] & Ex & H); [|contradiction]. rewrite Ex. cbn in H.
    destruct (WR _ _ Ex) as (_ & o & _ & _ & Ho & Po & _). rewrite Ho. rewrite <- (set_put _ _ _ _ Ej).
    assert (Qc : forall b, cnt (uses_owner b) (set_nth j None (ww_wraps w)) + b2n (plua_func x =? b) = cnt (uses_owner b) (ww_wraps w)).
    { intros b. pose proof (cnt_set (uses_owner b) _ _ _ None Ex) as Q. cbn in Q. lia. }
    destruct o as [i [|[|n]]]; [cbn in Po; lia| |].
    + destruct (I5 _ _ Ho Po) as [[r Hr] Hs]. cbn in Hr, Hs. unfold alive. rewrite Hr. eexists; split; [reflexivity|].
      destruct (OW (plua_func x) _ 0 Ho Po) as [K1 K2]. cbn in K1, K2.
      pose proof (I4 _ _ Ho) as C1. cbn in C1. pose proof (Qc (plua_func x)) as C2. rewrite Nat.eqb_refl in C2. cbn in C2.
      constructor; cbn [ww_res ww_owners ww_wraps s_objs s_referred s_wraps].
      * rewrite set_len. exact I1.
      * intros k t Ek. rewrite set_other; [exact (I2 _ _ Ek)|]. intros ->. congruence.
      * apply Forall2_imp with (R := wrel w s).
        -- intros m [y|] [z|] Em; cbn; auto. intros (H1 & t & H2 & H3).
           assert (Ny : plua_func y <> plua_func x).
           { intros Eq. pose proof (cnt_pos' (uses_owner (plua_func x)) _ _ _ Em) as Z. cbn in Z. rewrite Eq, Nat.eqb_refl in Z. specialize (Z eq_refl). lia. }
           assert (Em' : nth_error (ww_wraps w) m = Some (Some y)).
           { destruct (Nat.eq_dec j m) as [<-|Nm]; [rewrite (set_same _ _ _ _ Ex) in Em; discriminate|now rewrite set_other in Em]. }
           assert (Ni : i <> lua_func y).
           { intros ->. destruct H3 as [H3|[_ H3]]; [|congruence]. apply Ny.
             destruct (WR _ _ Em') as (_ & t2 & _ & _ & Ht & Pt & _). rewrite H2 in Ht. injection Ht as <-.
             eapply (I6 _ _ _ _ H2 Ho); [exact Pt|exact Po|]. cbn. congruence. }
           rewrite set_other by exact Ni. split; [exact H1|]. destruct (K1 _ _ H2) as (t' & H4 & H5). exists t'. split; [exact H4|]. rewrite H5. exact H3.
        -- apply Forall2_set; [exact I3|exact I].
      * intros b t Eb. pose proof (Qc b) as Q. destruct (Nat.eqb_spec (plua_func x) b) as [<-|Nb].
        -- rewrite (set_same _ _ _ _ Ho) in Eb. injection Eb as <-. cbn in *. lia.
        -- rewrite set_other in Eb by exact Nb. rewrite (I4 _ _ Eb). cbn in Q. lia.
      * intros b t Eb P. assert (Nb : plua_func x <> b). { intros <-. rewrite (set_same _ _ _ _ Ho) in Eb. injection Eb as <-. cbn in P. lia. }
        rewrite set_other in Eb by exact Nb. destruct (I5 _ _ Eb P) as [H1 H2]. split; [|exact H2]. rewrite set_other; [exact H1|].
        intros ->. apply Nb. eapply (I6 _ _ _ _ Ho Eb); auto.
      * intros b c t u Eb Ec P Q Eq. destruct (K2 _ _ Eb) as (t' & H4 & H5 & H6). destruct (K2 _ _ Ec) as (u' & H7 & H8 & H9).
        eapply (I6 b c t' u'); eauto; [destruct H6 as [->|[-> H6]]; lia|destruct H9 as [->|[-> H9]]; lia|congruence].
    + eexists; split; [reflexivity|].
      destruct (OW (plua_func x) _ (S n) Ho Po) as [K1 K2]. cbn in K1, K2.
      constructor; cbn [ww_res ww_owners ww_wraps s_objs s_referred s_wraps]; auto.
      * apply Forall2_imp with (R := wrel w s).
        -- intros m [y|] [z|] Em; cbn; auto. intros (H1 & t & H2 & H3). split; [exact H1|].
           destruct (K1 _ _ H2) as (t' & H4 & H5). exists t'. split; [exact H4|]. rewrite H5. exact H3.
        -- apply Forall2_set; [exact I3|exact I].
      * intros b t Eb. pose proof (Qc b) as Q. destruct (Nat.eqb_spec (plua_func x) b) as [<-|Nb].
        -- rewrite (set_same _ _ _ _ Ho) in Eb. injection Eb as <-. pose proof (I4 _ _ Ho). cbn in *. lia.
        -- rewrite set_other in Eb by exact Nb. rewrite (I4 _ _ Eb). cbn in Q. lia.
      * intros b t Eb P. destruct (K2 _ _ Eb) as (t' & H4 & H5 & H6). rewrite <- H5. apply (I5 _ _ H4). destruct H6 as [->|[-> H6]]; lia.
      * intros b c t u Eb Ec P Q Eq. destruct (K2 _ _ Eb) as (t' & H4 & H5 & H6). destruct (K2 _ _ Ec) as (u' & H7 & H8 & H9).
        eapply (I6 b c t' u'); eauto; [destruct H6 as [->|[-> H6]]; lia|destruct H9 as [->|[-> H9]]; lia|congruence].
Qed.
End Wrappers.
