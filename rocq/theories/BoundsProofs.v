From Coq Require Import List Arith ZArith Bool Lia Sorting.Sorted.
From Verif Require Import Outcome ListExtra BoundsModel.
Import ListNotations.
Local Open Scope Z_scope.

(** * specification vocabulary *)
(** volume of a box *)
Definition prod (e : list Z) : Z := fold_right Z.mul 1 e.
(** [idx] is a valid multi-dimensional index of a box with extents [e] *)
Definition in_box (e idx : list Z) : Prop := Forall2 (fun n i => 0 <= i < n) e idx.
(** all extents are positive *)
Definition positive (e : list Z) : Prop := Forall (fun n => 0 < n) e.
Definition nonneg (e : list Z) : Prop := Forall (fun n => 0 <= n) e.
(** row-major (lexicographic) order *)
Fixpoint lex_lt (a b : list Z) : Prop :=
  match a, b with
  | x :: a', y :: b' => x < y \/ x = y /\ lex_lt a' b'
  | _, _ => False
  end.

(** * structural versions of the loops *)
Fixpoint lin (e idx : list Z) : Z :=
  match e, idx with _ :: r, i :: t => i * prod r + lin r t | _, _ => 0 end.
Fixpoint unrank (e : list Z) (n : Z) : list Z :=
  match e with [] => [] | _ :: r => n / prod r :: unrank r (n mod prod r) end.
Fixpoint dot (a b : list Z) : Z :=
  match a, b with x :: a', y :: b' => x * y + dot a' b' | _, _ => 0 end.
Fixpoint succ (e idx : list Z) : option (list Z) :=
  match e, idx with
  | n :: r, i :: t => match succ r t with
                      | Some t' => Some (i :: t')
                      | None => if i <? n - 1 then Some (i + 1 :: repeat 0 (length t)) else None
                      end
  | _, _ => None
  end.
Fixpoint pred (e idx : list Z) : option (list Z) :=
  match e, idx with
  | n :: r, i :: t => match pred r t with
                      | Some t' => Some (i :: t')
                      | None => if i >=? 1 then Some (i - 1 :: map (fun n => n - 1) r) else None
                      end
  | _, _ => None
  end.

Lemma prod_cons n e : prod (n :: e) = n * prod e.
Proof. reflexivity. Qed.
Lemma prod_pos e : positive e -> 0 < prod e.
Proof. induction 1; [reflexivity|]. rewrite prod_cons. nia. Qed.
Lemma prod_nonneg e : nonneg e -> 0 <= prod e.
Proof. induction 1; [discriminate|]. rewrite prod_cons. nia. Qed.
Lemma prod_app a b : prod (a ++ b) = prod a * prod b.
Proof. induction a; cbn [app]; rewrite ?prod_cons; [change (prod []) with 1; lia|]. rewrite IHa. lia. Qed.
Lemma in_box_length e idx : in_box e idx -> length idx = length e.
Proof. induction 1; simpl; congruence. Qed.
Lemma in_box_positive e idx : in_box e idx -> positive e.
Proof. induction 1; constructor; auto. lia. Qed.

(** * fold over the components *)
Lemma fold_seq_shift {A} (F : A -> nat -> A) n k s :
  fold_left F (seq (S k) n) s = fold_left (fun a i => F a (S i)) (seq k n) s.
Proof. revert k s; induction n as [|n IH]; intros; simpl; [reflexivity|apply IH]. Qed.

Lemma stride_rec_prod x r : stride_rec (x :: r) (length r) = prod r.
Proof.
  revert x; induction r as [|y r IH]; intros x; [reflexivity|].
  cbn [length stride_rec tl]. rewrite IH. reflexivity.
Qed.
Lemma make_strides_cons n r : make_strides (n :: r) = prod r :: make_strides r.
Proof.
  unfold make_strides, rank. cbn [length seq map skipn].
  replace (S (length r) - 0 - 1)%nat with (length r) by lia. rewrite stride_rec_prod. f_equal.
  rewrite <- seq_shift, map_map. apply map_ext_in. intros i Hi. cbn [skipn].
  replace (S (length r) - S i - 1)%nat with (length r - i - 1)%nat by lia. reflexivity.
Qed.
Lemma make_strides_length e : length (make_strides e) = length e.
Proof. unfold make_strides. rewrite map_length, seq_length. reflexivity. Qed.

Lemma bsize_prod b : bsize b = prod (exts b).
Proof.
  unfold bsize. destruct b as [e s]. cbn [exts]. clear s.
  assert (G : forall e a, fold_left (fun r i => r * get e i) (seq 0 (rank e)) a = a * prod e).
  { clear e. induction e as [|n e IH]; intros a; [simpl; lia|].
    unfold rank in *. cbn [length seq fold_left]. rewrite fold_seq_shift, prod_cons.
    rewrite Z.mul_assoc. rewrite <- IH. reflexivity. }
  rewrite G. lia.
Qed.
Lemma fold_dot a b (s : Z) : length a = length b ->
  fold_left (fun o i => o + get a i * get b i) (seq 0 (length b)) s = s + dot a b.
Proof.
  revert b s; induction a as [|x a IH]; intros [|y b] s H; try discriminate; [simpl; lia|].
  cbn [length seq fold_left dot]. rewrite fold_seq_shift.
  change (get (x :: a) 0) with x. change (get (y :: b) 0) with y.
  transitivity ((s + x * y) + dot a b); [|lia]. rewrite <- IH by (simpl in H; lia). reflexivity.
Qed.
Lemma static_linearize_dot b idx : length idx = length (exts b) -> length (strs b) = length (exts b) ->
  static_linearize b idx = dot idx (strs b).
Proof. intros H1 H2. unfold static_linearize, rank. rewrite <- H2, fold_dot by congruence. lia. Qed.
Lemma linearize_dot b idx : exts b <> [] -> length idx = length (exts b) ->
  length (strs b) = length (exts b) -> linearize b idx = dot idx (strs b).
Proof.
  intros H0 H1 H2. rewrite <- static_linearize_dot by assumption.
  unfold linearize, static_linearize, rank.
  destruct (exts b) as [|n e]; [congruence|]. cbn [length].
  replace (S (length e) - 1)%nat with (length e) by lia. cbn [seq fold_left].
  rewrite Z.add_0_l. reflexivity.
Qed.
Lemma dot_strides e idx : length idx = length e -> dot idx (make_strides e) = lin e idx.
Proof.
  revert idx; induction e as [|n e IH]; intros [|i idx] H; try discriminate; [reflexivity|].
  rewrite make_strides_cons. cbn [dot lin]. rewrite IH by (simpl in H; lia). reflexivity.
Qed.
Lemma linearize_lin e idx : e <> [] -> length idx = length e -> linearize (contiguous e) idx = lin e idx.
Proof.
  intros H1 H2. rewrite linearize_dot; cbn [contiguous exts strs]; auto using make_strides_length.
  apply dot_strides. exact H2.
Qed.

(** * lin and unrank *)
Lemma lin_bound e idx : in_box e idx -> 0 <= lin e idx < prod e.
Proof.
  induction 1 as [|n i e idx H _ IH]; [cbn; lia|]. rewrite prod_cons. cbn [lin]. nia.
Qed.
Lemma lin_inj e a b : in_box e a -> in_box e b -> lin e a = lin e b -> a = b.
Proof.
  intros Ha; revert b; induction Ha as [|n i e a Hi Ha IH]; intros b Hb E; inversion Hb as [|? j ? b' Hj Hb']; subst; [reflexivity|].
  cbn [lin] in E. pose proof (lin_bound e a Ha). pose proof (lin_bound e b' Hb').
  assert (i = j) by nia. subst j. f_equal. apply IH; [exact Hb'|lia].
Qed.
Lemma unrank_in e n : positive e -> 0 <= n < prod e -> in_box e (unrank e n).
Proof.
  intros He; revert n; induction He as [|m e Hm He IH]; intros n Hn; [constructor|].
  rewrite prod_cons in Hn. pose proof (prod_pos e He). constructor.
  - split; [apply Z.div_pos; lia|apply Z.div_lt_upper_bound; [lia|rewrite Z.mul_comm; lia]].
  - apply IH. apply Z.mod_pos_bound. lia.
Qed.
Lemma lin_unrank e n : positive e -> 0 <= n < prod e -> lin e (unrank e n) = n.
Proof.
  intros He; revert n; induction He as [|m e Hm He IH]; intros n Hn; [cbn in *; lia|].
  pose proof (prod_pos e He). cbn [lin unrank]. rewrite IH by (apply Z.mod_pos_bound; lia).
  pose proof (Z.div_mod n (prod e)). lia.
Qed.
Lemma unrank_lin e idx : in_box e idx -> unrank e (lin e idx) = idx.
Proof.
  intros H. pose proof (in_box_positive _ _ H) as P. pose proof (lin_bound _ _ H) as B.
  apply (lin_inj e); auto using unrank_in, lin_unrank.
Qed.
Lemma lex_lin e a b : in_box e a -> in_box e b -> (lex_lt a b <-> lin e a < lin e b).
Proof.
  intros Ha; revert b; induction Ha as [|n i e a Hi Ha IH]; intros b Hb; inversion Hb as [|? j ? b' Hj Hb']; subst.
  - simpl. lia.
  - cbn [lex_lt lin]. pose proof (lin_bound e a Ha). pose proof (lin_bound e b' Hb').
    rewrite (IH b' Hb'). split.
    + intros [H'|[-> H']]; nia.
    + intros H'. destruct (Z.lt_trichotomy i j) as [|[->|]]; [auto| |nia]. right. split; [reflexivity|lia].
Qed.

(** * succ *)
Definition ones (e : list Z) : list Z := map (Z.max 1) e.
Lemma zeros_in e : positive e -> in_box e (repeat 0 (length e)).
Proof. induction 1; simpl; constructor; auto. lia. Qed.
Lemma lin_zeros e : lin e (repeat 0 (length e)) = 0.
Proof. induction e; simpl; auto. Qed.
Lemma lasts_in e : positive e -> in_box e (map (fun n => n - 1) e).
Proof. induction 1; simpl; constructor; auto. lia. Qed.
Lemma lin_lasts e : lin e (map (fun n => n - 1) e) = prod e - 1.
Proof. induction e as [|n e IH]; [reflexivity|]. cbn [map lin]. rewrite IH, prod_cons. lia. Qed.
Lemma succ_spec e idx : in_box e idx ->
  match succ e idx with
  | Some idx' => in_box e idx' /\ lin e idx' = lin e idx + 1
  | None => lin e idx = prod e - 1
  end.
Proof.
  induction 1 as [|n i e idx Hi H IH]; [reflexivity|]. cbn [succ].
  destruct (succ e idx) as [t|].
  - destruct IH as [I E]. split; [constructor; assumption|]. cbn [lin]. lia.
  - pose proof (in_box_positive _ _ H) as P. pose proof (in_box_length _ _ H) as L.
    destruct (Z.ltb_spec i (n - 1)).
    + rewrite L. split.
      * constructor; [lia|]. apply zeros_in. exact P.
      * cbn [lin]. rewrite lin_zeros, IH. lia.
    + cbn [lin]. rewrite prod_cons, IH. assert (i = n - 1) by lia. subst i. lia.
Qed.
Lemma succ_snoc e idx n i : length idx = length e ->
  succ (e ++ [n]) (idx ++ [i]) =
    if i <? n - 1 then Some (idx ++ [i + 1])
    else match succ e idx with Some t => Some (t ++ [0]) | None => None end.
Proof.
  revert idx; induction e as [|m e IH]; intros [|j idx] H; try discriminate.
  - simpl. destruct (i <? n - 1); reflexivity.
  - cbn [app succ]. rewrite IH by (simpl in H; lia). destruct (i <? n - 1); [reflexivity|].
    destruct (succ e idx); [reflexivity|]. destruct (j <? m - 1); [|reflexivity].
    rewrite app_length. cbn [app length]. rewrite Nat.add_1_r, <- repeat_cons. reflexivity.
Qed.
Lemma pred_snoc e idx n i : length idx = length e ->
  pred (e ++ [n]) (idx ++ [i]) =
    if i >=? 1 then Some (idx ++ [i - 1])
    else match pred e idx with Some t => Some (t ++ [n - 1]) | None => None end.
Proof.
  revert idx; induction e as [|m e IH]; intros [|j idx] H; try discriminate.
  - simpl. destruct (i >=? 1); reflexivity.
  - cbn [app pred]. rewrite IH by (simpl in H; lia). destruct (i >=? 1); [reflexivity|].
    destruct (pred e idx); [reflexivity|]. destruct (j >=? 1); [|reflexivity].
    rewrite map_app. reflexivity.
Qed.
Lemma pred_spec e idx : in_box e idx ->
  match pred e idx with
  | Some idx' => in_box e idx' /\ lin e idx' = lin e idx - 1
  | None => lin e idx = 0
  end.
Proof.
  induction 1 as [|n i e idx Hi H IH]; [reflexivity|]. cbn [pred].
  destruct (pred e idx) as [t|].
  - destruct IH as [I E]. split; [constructor; assumption|]. cbn [lin]. lia.
  - pose proof (in_box_positive _ _ H) as P. rewrite Z.geb_leb.
    destruct (Z.leb_spec 1 i).
    + split; [constructor; [lia|apply lasts_in; exact P]|]. cbn [lin]. rewrite lin_lasts, IH. lia.
    + cbn [lin]. assert (i = 0) by lia. subst i. lia.
Qed.

(** * the loops from the right *)
Lemma put_mid a x b v : put (a ++ x :: b) (length a) v = a ++ v :: b.
Proof. induction a; simpl; congruence. Qed.
Lemma get_mid a x b : get (a ++ x :: b) (length a) = x.
Proof. unfold get. induction a; simpl; auto. Qed.
Lemma snoc_cases {A} (l : list A) n : length l = S n -> exists a x, l = a ++ [x] /\ length a = n.
Proof.
  intros H. destruct (@exists_last _ l) as (a & x & ->); [destruct l; discriminate|].
  exists a, x. rewrite app_length in H. simpl in H. split; [reflexivity|lia].
Qed.
Lemma incr_loop_succ : forall k e1 e2 c1 c2, length e1 = k -> length c1 = k ->
  incr_loop (e1 ++ e2) k (c1 ++ c2) =
  match succ e1 c1 with Some t => t ++ c2 | None => e1 ++ e2 end.
Proof.
  induction k as [|k IH]; intros e1 e2 c1 c2 He Hc.
  - destruct e1; [|discriminate]. reflexivity.
  - destruct (snoc_cases e1 k He) as (a & n & -> & Ha).
    destruct (snoc_cases c1 k Hc) as (c & i & -> & Hc').
    rewrite <- !app_assoc. cbn [app incr_loop].
    assert (G1 : get (a ++ n :: e2) k = n) by (rewrite <- Ha; apply get_mid).
    assert (G2 : get (c ++ i :: c2) k = i) by (rewrite <- Hc'; apply get_mid).
    assert (G3 : forall v, put (c ++ i :: c2) k v = c ++ v :: c2) by (intros v; rewrite <- Hc'; apply put_mid).
    rewrite G1, G2, !G3.
    rewrite succ_snoc by congruence. destruct (i <? n - 1); [rewrite <- app_assoc; reflexivity|].
    rewrite IH by assumption.
    destruct (succ a c); [rewrite <- app_assoc|]; reflexivity.
Qed.
Lemma it_incr_succ e cur : length cur = length e ->
  it_incr e cur = match succ e cur with Some t => t | None => e end.
Proof.
  intros H. unfold it_incr, rank.
  pose proof (incr_loop_succ (length e) e [] cur [] eq_refl H) as E. rewrite !app_nil_r in E.
  rewrite E. destruct (succ e cur); [apply app_nil_r|reflexivity].
Qed.
Lemma decr_loop_pred : forall k e1 e2 c1 c2, length e1 = k -> length c1 = k ->
  decr_loop (e1 ++ e2) k (c1 ++ c2) =
  match pred e1 c1 with Some t => Ok (t ++ c2) | None => Throw end.
Proof.
  induction k as [|k IH]; intros e1 e2 c1 c2 He Hc.
  - destruct e1; [|discriminate]. reflexivity.
  - destruct (snoc_cases e1 k He) as (a & n & -> & Ha).
    destruct (snoc_cases c1 k Hc) as (c & i & -> & Hc').
    rewrite <- !app_assoc. cbn [app decr_loop].
    assert (G1 : get (a ++ n :: e2) k = n) by (rewrite <- Ha; apply get_mid).
    assert (G2 : get (c ++ i :: c2) k = i) by (rewrite <- Hc'; apply get_mid).
    assert (G3 : forall v, put (c ++ i :: c2) k v = c ++ v :: c2) by (intros v; rewrite <- Hc'; apply put_mid).
    rewrite G1, G2, !G3.
    rewrite pred_snoc by congruence. destruct (i >=? 1); [rewrite <- app_assoc; reflexivity|].
    rewrite IH by assumption.
    destruct (pred a c); [rewrite <- app_assoc|]; reflexivity.
Qed.

(** * comparisons *)
Lemma idx_eq_spec a b : idx_eq a b = true <-> a = b.
Proof.
  revert b; induction a as [|x a IH]; intros [|y b]; simpl; try (split; congruence).
  rewrite andb_true_iff, Z.eqb_eq, IH. split; [intros [-> ->]; reflexivity|intros H; injection H; auto].
Qed.
Lemma idx_lt_spec a b : length a = length b ->
  (idx_lt a b = true <-> exists i, (i < length a)%nat /\ get a i < get b i).
Proof.
  revert b; induction a as [|x a IH]; intros [|y b] H; try discriminate; cbn [idx_lt].
  - split; [discriminate|]. intros (i & Hi & _). simpl in Hi. lia.
  - destruct (Z.ltb_spec x y).
    + split; [intros _|reflexivity]. exists 0%nat. simpl. split; [lia|assumption].
    + rewrite IH by (simpl in H; lia). split.
      * intros (i & Hi & E). exists (S i). simpl. split; [lia|exact E].
      * intros ([|i] & Hi & E); [unfold get in E; simpl in E; lia|].
        exists i. simpl in Hi. split; [lia|exact E].
Qed.
Lemma idx_le_spec a b : length a = length b -> (idx_le a b = true <-> Forall2 Z.le a b).
Proof.
  unfold idx_le. revert b; induction a as [|x a IH]; intros [|y b] H; try discriminate; cbn [idx_lt].
  - split; [constructor|reflexivity].
  - destruct (Z.ltb_spec y x).
    + split; [discriminate|]. intros F. inversion F; subst. lia.
    + rewrite IH by (simpl in H; lia). split.
      * intros F. constructor; assumption.
      * intros F. inversion F; subst. assumption.
Qed.
Lemma idx_ge_le a b : idx_ge a b = idx_le b a.
Proof. reflexivity. Qed.
Lemma idx_ge_refl e : idx_ge e e = true.
Proof. rewrite idx_ge_le. apply idx_le_spec; [reflexivity|]. induction e; constructor; auto. lia. Qed.
Lemma idx_ge_in e cur : e <> [] -> in_box e cur -> idx_ge cur e = false.
Proof.
  intros H0 H. destruct (idx_ge cur e) eqn:E; [|reflexivity]. exfalso.
  rewrite idx_ge_le in E. apply idx_le_spec in E; [|symmetry; apply in_box_length; exact H].
  inversion H; subst; [congruence|]. inversion E; subst. lia.
Qed.

(** * iteration *)
Lemma succ_ones e cur : in_box (ones e) cur -> succ e cur = succ (ones e) cur.
Proof.
  revert cur; induction e as [|n e IH]; intros cur H; inversion H as [|? i ? t Hi Ht]; subst; [reflexivity|].
  cbn [ones map succ]. fold (ones e). rewrite IH by exact Ht. destruct (succ (ones e) t); [reflexivity|].
  destruct (Z.ltb_spec i (n - 1)), (Z.ltb_spec i (Z.max 1 n - 1)); try reflexivity; lia.
Qed.
Lemma ones_positive e : positive (ones e).
Proof. induction e; constructor; auto. lia. Qed.
Lemma ones_length e : length (ones e) = length e.
Proof. apply map_length. Qed.
Lemma ones_id e : positive e -> ones e = e.
Proof. induction 1; [reflexivity|]. cbn [ones map]. fold (ones l). rewrite IHForall. f_equal. lia. Qed.
Definition all_zero (e : list Z) : Prop := Forall (fun n => n = 0) e.
Lemma in_ones_self e : in_box (ones e) e -> all_zero e.
Proof.
  induction e as [|n e IH]; intros H; [constructor|]. inversion H; subst. constructor; [lia|apply IH; assumption].
Qed.
(** list of indices numbered j, j+1, .. *)
Definition rows (e : list Z) (j n : nat) : list (list Z) :=
  map (fun k => unrank e (Z.of_nat k)) (seq j n).
Lemma it_loop_end fuel e : (0 < fuel)%nat -> it_loop fuel e e = Some [].
Proof. destruct fuel; [lia|]. intros _. cbn [it_loop]. unfold it_end. rewrite (proj2 (idx_eq_spec e e) eq_refl). reflexivity. Qed.
Lemma it_loop_rows e : ~ all_zero e -> forall m j cur fuel,
  in_box (ones e) cur -> lin (ones e) cur = Z.of_nat j ->
  Z.of_nat j + Z.of_nat (S m) = prod (ones e) -> (S m < fuel)%nat ->
  it_loop fuel e cur = Some (rows (ones e) j (S m)).
Proof.
  intros Hz. induction m as [|m IH]; intros j cur fuel Hin Hlin Hp Hf;
    (destruct fuel as [|fuel]; [lia|]); cbn [it_loop]; unfold it_end;
    (destruct (idx_eq cur e) eqn:E;
     [apply idx_eq_spec in E; subst cur; exfalso; apply Hz, in_ones_self; exact Hin|]);
    rewrite it_incr_succ by (rewrite (in_box_length _ _ Hin); apply ones_length);
    rewrite (succ_ones e cur Hin);
    pose proof (succ_spec _ _ Hin) as S0;
    assert (Hc : cur = unrank (ones e) (Z.of_nat j)) by (rewrite <- Hlin; symmetry; apply unrank_lin; exact Hin).
  - destruct (succ (ones e) cur) as [t|].
    + destruct S0 as [I L]. pose proof (lin_bound _ _ I). lia.
    + rewrite it_loop_end by lia. cbn [option_map rows seq map]. unfold rows. simpl. rewrite <- Hc. reflexivity.
  - destruct (succ (ones e) cur) as [t|]; [|lia]. destruct S0 as [I L].
    rewrite (IH (S j) t fuel) by (try assumption; lia).
    unfold rows. cbn [option_map seq map]. rewrite <- Hc. reflexivity.
Qed.
Lemma it_begin_in e : in_box (ones e) (it_begin e).
Proof. unfold it_begin, rank. rewrite <- (ones_length e). apply zeros_in, ones_positive. Qed.
Lemma it_visit_rows e : ~ all_zero e -> forall fuel, (Z.to_nat (prod (ones e)) < fuel)%nat ->
  it_visit fuel e = Some (rows (ones e) 0 (Z.to_nat (prod (ones e)))).
Proof.
  intros Hz fuel Hf. pose proof (prod_pos _ (ones_positive e)) as P.
  destruct (Z.to_nat (prod (ones e))) as [|m] eqn:E; [lia|].
  apply it_loop_rows; auto.
  - apply it_begin_in.
  - unfold it_begin, rank. rewrite <- (ones_length e). apply lin_zeros.
  - lia.
Qed.
Lemma rows_in e j n idx : positive e -> Z.of_nat j + Z.of_nat n <= prod e ->
  (In idx (rows e j n) <-> in_box e idx /\ Z.of_nat j <= lin e idx < Z.of_nat j + Z.of_nat n).
Proof.
  intros P H. unfold rows. rewrite in_map_iff. split.
  - intros (k & <- & Hk). apply in_seq in Hk. rewrite lin_unrank by (auto; lia).
    split; [apply unrank_in; auto; lia|lia].
  - intros (I & B). exists (Z.to_nat (lin e idx)). rewrite Z2Nat.id by lia.
    split; [apply unrank_lin; exact I|]. apply in_seq. lia.
Qed.
Lemma rows_sorted e : positive e -> forall n j, Z.of_nat j + Z.of_nat n <= prod e ->
  StronglySorted lex_lt (rows e j n).
Proof.
  intros P. induction n as [|n IH]; intros j H; [constructor|].
  change (rows e j (S n)) with (unrank e (Z.of_nat j) :: rows e (S j) n).
  constructor; [apply IH; lia|]. apply Forall_forall. intros idx Hi.
  apply rows_in in Hi; [|exact P|lia]. destruct Hi as [I B].
  apply (lex_lin e); [apply unrank_in; auto; lia|exact I|]. rewrite lin_unrank by (auto; lia). lia.
Qed.
Lemma rows_length e j n : length (rows e j n) = n.
Proof. unfold rows. rewrite map_length, seq_length. reflexivity. Qed.

(** * positions: n increments from begin() *)
Definition nth_pos (e : list Z) (n : nat) : list Z := Nat.iter n (it_incr e) (it_begin e).
Lemma nth_pos_spec e : positive e -> forall n, Z.of_nat n < prod e -> nth_pos e n = unrank e (Z.of_nat n).
Proof.
  intros P. induction n as [|n IH]; intros H.
  - change (nth_pos e 0) with (repeat 0 (length e)). change (Z.of_nat 0) with 0.
    rewrite <- (unrank_lin e (repeat 0 (length e))) at 1 by (apply zeros_in; exact P).
    rewrite lin_zeros. reflexivity.
  - unfold nth_pos in *. cbn [Nat.iter nat_rect]. unfold Nat.iter in IH. rewrite IH by lia.
    assert (I : in_box e (unrank e (Z.of_nat n))) by (apply unrank_in; auto; lia).
    rewrite it_incr_succ by (apply in_box_length; exact I).
    pose proof (succ_spec _ _ I) as S0. pose proof (lin_unrank e (Z.of_nat n) P ltac:(lia)) as L.
    destruct (succ e (unrank e (Z.of_nat n))) as [t|].
    + destruct S0 as [It Lt]. rewrite L in Lt. rewrite Nat2Z.inj_succ.
      unfold Z.succ. rewrite <- Lt. symmetry. apply unrank_lin. exact It.
    + lia.
Qed.
Lemma nth_pos_end e : positive e -> nth_pos e (Z.to_nat (prod e)) = it_end e.
Proof.
  intros P. pose proof (prod_pos e P). destruct (Z.to_nat (prod e)) as [|n] eqn:E; [lia|].
  unfold nth_pos. cbn [Nat.iter nat_rect]. change (it_incr e (nth_pos e n) = it_end e).
  rewrite nth_pos_spec by (auto; lia).
  assert (I : in_box e (unrank e (Z.of_nat n))) by (apply unrank_in; auto; lia).
  rewrite it_incr_succ by (apply in_box_length; exact I).
  pose proof (succ_spec _ _ I) as S0. pose proof (lin_unrank e (Z.of_nat n) P ltac:(lia)) as L.
  destruct (succ e (unrank e (Z.of_nat n))) as [t|]; [|reflexivity].
  destruct S0 as [It Lt]. pose proof (lin_bound _ _ It). lia.
Qed.

Lemma it_decr_in e cur : e <> [] -> in_box e cur ->
  it_decr e cur = match pred e cur with Some t => Ok t | None => Throw end.
Proof.
  intros H0 H. unfold it_decr. rewrite idx_ge_in by assumption. unfold rank.
  pose proof (decr_loop_pred (length e) e [] cur [] eq_refl (in_box_length _ _ H)) as E.
  rewrite !app_nil_r in E. rewrite E. destruct (pred e cur); [rewrite app_nil_r|]; reflexivity.
Qed.
Lemma it_decr_end e : it_decr e (it_end e) = Ok (map (fun n => n - 1) e).
Proof. unfold it_decr, it_end. rewrite idx_ge_refl. reflexivity. Qed.
Lemma it_decr_pos e n : e <> [] -> positive e -> Z.of_nat n < prod e ->
  it_decr e (nth_pos e (S n)) = Ok (nth_pos e n).
Proof.
  intros H0 P H. rewrite (nth_pos_spec e P n H).
  destruct (Z.eq_dec (Z.of_nat (S n)) (prod e)) as [E|E].
  - replace (S n) with (Z.to_nat (prod e)) by lia. rewrite nth_pos_end by exact P.
    rewrite it_decr_end. f_equal. rewrite <- (unrank_lin e (map (fun n => n - 1) e)) by (apply lasts_in; exact P).
    rewrite lin_lasts. f_equal. lia.
  - rewrite nth_pos_spec by (auto; lia).
    assert (I : in_box e (unrank e (Z.of_nat (S n)))) by (apply unrank_in; auto; lia).
    rewrite it_decr_in by assumption. pose proof (pred_spec _ _ I) as S0.
    rewrite lin_unrank in S0 by (auto; lia).
    destruct (pred e (unrank e (Z.of_nat (S n)))) as [t|]; [|lia].
    destruct S0 as [It Lt]. f_equal. rewrite <- (unrank_lin e t It). f_equal. lia.
Qed.
Lemma it_decr_begin e : e <> [] -> positive e -> it_decr e (it_begin e) = Throw.
Proof.
  intros H0 P. assert (I : in_box e (it_begin e)) by (apply zeros_in; exact P).
  rewrite it_decr_in by assumption. pose proof (pred_spec _ _ I) as S0.
  destruct (pred e (it_begin e)) as [t|]; [|reflexivity]. destruct S0 as [It Lt].
  unfold it_begin, rank in Lt. rewrite lin_zeros in Lt. pose proof (lin_bound _ _ It). lia.
Qed.
Lemma nth_pos_begin_only e n : e <> [] -> positive e -> Z.of_nat n <= prod e ->
  (nth_pos e n = it_begin e <-> n = 0%nat).
Proof.
  intros H0 P H. split; [|intros ->; reflexivity]. intros E.
  destruct n as [|n]; [reflexivity|]. exfalso.
  pose proof (it_decr_pos e n H0 P ltac:(lia)) as D. rewrite E in D.
  rewrite it_decr_begin in D by assumption. discriminate.
Qed.
Lemma it_rloop_rows e : e <> [] -> positive e -> forall n fuel, Z.of_nat n <= prod e -> (n < fuel)%nat ->
  it_rloop fuel e (nth_pos e n) = Some (Ok (rev (rows e 0 n))).
Proof.
  intros H0 P. induction n as [|n IH]; intros fuel H Hf; (destruct fuel as [|fuel]; [lia|]); cbn [it_rloop].
  - change (nth_pos e 0) with (it_begin e). rewrite (proj2 (idx_eq_spec _ _) eq_refl). reflexivity.
  - destruct (idx_eq (nth_pos e (S n)) (it_begin e)) eqn:E.
    + apply idx_eq_spec, nth_pos_begin_only in E; auto. discriminate.
    + rewrite it_decr_pos by (auto; lia). rewrite IH by lia.
      cbn [option_map bind]. rewrite (nth_pos_spec e P n) by lia.
      unfold rows. rewrite seq_S, map_app, rev_app_distr. reflexivity.
Qed.

(** * linear positions and random access *)
Lemma lin_snoc e idx n i : length idx = length e -> lin (e ++ [n]) (idx ++ [i]) = lin e idx * n + i.
Proof.
  revert idx; induction e as [|m e IH]; intros [|j idx] H; try discriminate.
  - cbn. lia.
  - cbn [app lin]. rewrite IH by (simpl in H; lia). rewrite prod_app. cbn [prod fold_right]. lia.
Qed.
Lemma lin_loop_spec d : forall k e1 e2 c1 c2 res mul, length e1 = k -> length c1 = k ->
  lin_loop (e1 ++ e2) (c1 ++ c2) d k res mul = res + mul * lin e1 (map (fun x => x - d) c1).
Proof.
  induction k as [|k IH]; intros e1 e2 c1 c2 res mul He Hc.
  - destruct e1; [|discriminate]. cbn. lia.
  - destruct (snoc_cases e1 k He) as (a & n & -> & Ha).
    destruct (snoc_cases c1 k Hc) as (c & i & -> & Hc').
    rewrite <- !app_assoc. cbn [app lin_loop].
    assert (G1 : get (a ++ n :: e2) k = n) by (rewrite <- Ha; apply get_mid).
    assert (G2 : get (c ++ i :: c2) k = i) by (rewrite <- Hc'; apply get_mid).
    rewrite G1, G2, IH by assumption. rewrite map_app. cbn [map].
    rewrite lin_snoc by (rewrite map_length; congruence). lia.
Qed.
Lemma it_linearize_in e cur : e <> [] -> in_box e cur -> it_linearize e cur = lin e cur.
Proof.
  intros H0 H. unfold it_linearize. rewrite idx_ge_in by assumption. unfold rank.
  pose proof (lin_loop_spec 0 (length e) e [] cur [] 0 1 eq_refl (in_box_length _ _ H)) as E.
  rewrite !app_nil_r in E. rewrite E.
  rewrite (map_ext (fun x => x - 0) (fun x => x)), map_id by (intros; lia). lia.
Qed.
Lemma it_linearize_end e : it_linearize e (it_end e) = prod e.
Proof.
  unfold it_linearize, it_end. rewrite idx_ge_refl. unfold rank.
  pose proof (lin_loop_spec 1 (length e) e [] e [] 1 1 eq_refl eq_refl) as E.
  rewrite !app_nil_r in E. rewrite E, lin_lasts. lia.
Qed.
Lemma it_linearize_pos e n : e <> [] -> positive e -> Z.of_nat n <= prod e ->
  it_linearize e (nth_pos e n) = Z.of_nat n.
Proof.
  intros H0 P H. destruct (Z.eq_dec (Z.of_nat n) (prod e)) as [E|E].
  - replace n with (Z.to_nat (prod e)) by lia. rewrite nth_pos_end by exact P.
    rewrite it_linearize_end. lia.
  - rewrite nth_pos_spec by (auto; lia).
    rewrite it_linearize_in by (auto; apply unrank_in; auto; lia). apply lin_unrank; auto. lia.
Qed.
Lemma it_strides_loop_spec : forall k e1 x e2 z, length e1 = k -> length z = k ->
  it_strides_loop (e1 ++ x :: e2) k (z ++ prod e2 :: make_strides e2) = make_strides (e1 ++ x :: e2).
Proof.
  induction k as [|k IH]; intros e1 x e2 z He Hz.
  - destruct e1; [|discriminate]. destruct z; [|discriminate]. cbn [app it_strides_loop].
    symmetry. apply make_strides_cons.
  - destruct (snoc_cases e1 k He) as (a & n & -> & Ha).
    destruct (snoc_cases z k Hz) as (c & i & -> & Hc').
    cbn [it_strides_loop].
    assert (G1 : get ((a ++ [n]) ++ x :: e2) (S k) = x) by (rewrite <- He; apply get_mid).
    assert (G2 : get ((c ++ [i]) ++ prod e2 :: make_strides e2) (S k) = prod e2) by (rewrite <- Hz; apply get_mid).
    rewrite G1, G2, <- !app_assoc. cbn [app].
    assert (G3 : forall v w, put (c ++ i :: w) k v = c ++ v :: w) by (intros v w; rewrite <- Hc'; apply put_mid).
    rewrite G3. rewrite <- (IH a n (x :: e2) c Ha Hc'). rewrite make_strides_cons, prod_cons.
    rewrite (Z.mul_comm x). reflexivity.
Qed.
Lemma it_strides_spec e : e <> [] -> it_strides e = make_strides e.
Proof.
  intros H. unfold it_strides, rank. destruct (exists_last H) as (a & x & ->).
  rewrite app_length. cbn [length]. replace (length a + 1 - 1)%nat with (length a) by lia.
  rewrite Nat.add_1_r. change (repeat 0 (S (length a))) with (0 :: repeat 0 (length a)).
  rewrite repeat_cons.
  assert (E : put (repeat 0 (length a) ++ [0]) (length a) 1 = repeat 0 (length a) ++ [1]).
  { rewrite <- (repeat_length 0 (length a)) at 2. apply put_mid. }
  rewrite E. apply (it_strides_loop_spec (length a) a x [] (repeat 0 (length a))); [reflexivity|apply repeat_length].
Qed.
Lemma delinearize_unrank e n : positive e -> 0 <= n -> delinearize (make_strides e) n = unrank e n.
Proof.
  intros P; revert n; induction P as [|m e Hm P IH]; intros n Hn; [reflexivity|].
  rewrite make_strides_cons. cbn [delinearize unrank]. pose proof (prod_pos e P).
  rewrite Z.quot_div_nonneg, Z.rem_mod_nonneg by lia. rewrite IH; [reflexivity|].
  apply Z.mod_pos_bound. lia.
Qed.
Lemma unrank_zero e : positive e -> unrank e 0 = repeat 0 (length e).
Proof.
  intros P. rewrite <- (unrank_lin e (repeat 0 (length e))) by (apply zeros_in; exact P).
  rewrite lin_zeros. reflexivity.
Qed.
Lemma unrank_size n e : positive (n :: e) -> unrank (n :: e) (prod (n :: e)) = n :: repeat 0 (length e).
Proof.
  intros P. inversion P as [|? ? Hn Pe]; subst. pose proof (prod_pos e Pe).
  cbn [unrank]. rewrite prod_cons, Z.div_mul, Z.mod_mul by lia. rewrite unrank_zero by exact Pe. reflexivity.
Qed.
Lemma in_box_bounds e c : in_box e c -> idx_ge c (repeat 0 (length e)) = true /\ idx_ge e c = true.
Proof.
  intros H. rewrite !idx_ge_le, !idx_le_spec; rewrite ?repeat_length, ?(in_box_length _ _ H); auto.
  split; induction H; cbn [length repeat]; constructor; auto; lia.
Qed.
Lemma it_plus_pos dbg e a b : e <> [] -> positive e -> Z.of_nat a <= prod e -> Z.of_nat b < prod e ->
  it_plus dbg e (nth_pos e a) (Z.of_nat b - Z.of_nat a) = Ok (nth_pos e b).
Proof.
  intros H0 P Ha Hb. unfold it_plus. rewrite it_linearize_pos, it_strides_spec by assumption.
  replace (Z.of_nat a + (Z.of_nat b - Z.of_nat a)) with (Z.of_nat b) by lia.
  rewrite delinearize_unrank by (auto; lia). rewrite <- nth_pos_spec by assumption.
  assert (I : in_box e (nth_pos e b)) by (rewrite nth_pos_spec by assumption; apply unrank_in; auto; lia).
  destruct (in_box_bounds e _ I) as [E1 E2]. unfold rank. rewrite E1, E2. unfold assert_then.
  rewrite andb_false_r. reflexivity.
Qed.
Lemma it_plus_size dbg n e a : positive (n :: e) -> Z.of_nat a <= prod (n :: e) ->
  it_plus dbg (n :: e) (nth_pos (n :: e) a) (prod (n :: e) - Z.of_nat a) = Ok (n :: repeat 0 (length e)).
Proof.
  intros P Ha. unfold it_plus. rewrite it_linearize_pos, it_strides_spec by (assumption || discriminate).
  replace (Z.of_nat a + (prod (n :: e) - Z.of_nat a)) with (prod (n :: e)) by lia.
  pose proof (prod_pos _ P). rewrite delinearize_unrank by (auto; lia). rewrite unrank_size by exact P.
  inversion P as [|? ? Hn Pe]; subst.
  assert (E1 : idx_ge (n :: repeat 0 (length e)) (repeat 0 (rank (n :: e))) = true).
  { rewrite idx_ge_le. apply idx_le_spec; unfold rank; simpl; rewrite ?repeat_length; [reflexivity|].
    constructor; [lia|]. clear. induction e; simpl; constructor; auto. lia. }
  assert (E2 : idx_ge (n :: e) (n :: repeat 0 (length e)) = true).
  { rewrite idx_ge_le. apply idx_le_spec; simpl; rewrite ?repeat_length; [reflexivity|].
    constructor; [lia|]. clear -Pe. induction Pe; simpl; constructor; auto. lia. }
  rewrite E1, E2. unfold assert_then. rewrite andb_false_r. reflexivity.
Qed.

(** * views *)
Lemma contains_spec b idx : length idx = length (exts b) -> (contains b idx = true <-> in_box (exts b) idx).
Proof.
  unfold contains. generalize (exts b) as e. intros e; revert idx; induction e as [|n e IH]; intros [|i idx] H; try discriminate; cbn [contains_loop].
  - split; [constructor|reflexivity].
  - rewrite Z.geb_leb. destruct (Z.ltb_spec i 0); cbn [orb].
    + split; [discriminate|]. intros F. inversion F; subst. lia.
    + destruct (Z.leb_spec n i).
      * split; [discriminate|]. intros F. inversion F; subst. lia.
      * rewrite IH by (simpl in H; lia). split; [intros F; constructor; [lia|exact F]|].
        intros F. inversion F; subst. assumption.
Qed.
Lemma shift_left_cons x l : shift_left (x :: l) = l.
Proof.
  unfold shift_left, rank. cbn [length]. replace (S (length l) - 1)%nat with (length l) by lia.
  rewrite <- seq_shift, map_map. change (map (fun i => nth i l 0) (seq 0 (length l)) = l).
  apply list_eq_nth with (d := 0); [rewrite map_length, seq_length; reflexivity|].
  intros i Hi. rewrite map_length, seq_length in Hi.
  rewrite (nth_indep _ 0 (nth 0 l 0)) by (rewrite map_length, seq_length; exact Hi).
  rewrite (map_nth (fun i => nth i l 0)), seq_nth by exact Hi. reflexivity.
Qed.
Lemma dot_add a b s : length a = length b -> length s = length a -> dot (idx_add a b) s = dot a s + dot b s.
Proof.
  revert b s; induction a as [|x a IH]; intros [|y b] [|t s] H1 H2; try discriminate; [reflexivity|].
  cbn [idx_add dot]. rewrite IH by (simpl in *; lia). lia.
Qed.
Lemma idx_add_length a b : length a = length b -> length (idx_add a b) = length a.
Proof. revert b; induction a; intros [|? b] H; try discriminate; simpl; auto. Qed.
Lemma idx_add_assoc a b c : idx_add (idx_add a b) c = idx_add a (idx_add b c).
Proof. revert b c; induction a; intros [|y b] [|z c]; simpl; auto. rewrite IHa. f_equal. lia. Qed.
