From Coq Require Import List ZArith Bool Lia.
From Verif Require Import Outcome ListExtra ArrayRefModel.
Import ListNotations.
Open Scope Z_scope.

(** ** Specification: the same operations on plain sequences *)
Section Spec.
Context {T : Type}.
Definition zlen (l : list T) : Z := Z.of_nat (length l).
Definition ztake (n : Z) (l : list T) : list T := firstn (Z.to_nat n) l.
Definition zdrop (n : Z) (l : list T) : list T := skipn (Z.to_nat n) l.

Definition seq_step (l : list T) (o : aop) : option (list T) :=
  match o with
  | ASubstr p n => Some (ztake n (zdrop p l))
  | APrefix n => if n <=? zlen l then Some (zdrop n l) else None
  | ASuffix n => if n <=? zlen l then Some (ztake (zlen l - n) l) else None
  | APopFront => match l with [] => None | _ :: t => Some t end
  | APopBack => match l with [] => None | _ => Some (removelast l) end
  | AClear => Some []
  end.
Fixpoint seq_run (l : list T) (os : list aop) : option (list T) :=
  match os with
  | [] => Some l
  | o :: t => match seq_step l o with Some l' => seq_run l' t | None => None end
  end.

(** [r] designates the part [l] of [base] *)
Definition window (base : list T) (r : aref) (l : list T) : Prop :=
  alen r = zlen l /\
  ((ptr r = None /\ l = []) \/
   exists pre post, base = pre ++ l ++ post /\ ptr r = Some (zlen pre)).

Definition args_ok (o : aop) : Prop :=
  match o with
  | ASubstr p n => 0 <= p < size_mod /\ 0 <= n < size_mod
  | APrefix n | ASuffix n => 0 <= n < size_mod
  | _ => True
  end.
End Spec.

Section Lemmas.
Context {T : Type}.
Implicit Types base l : list T.

Lemma zlen_nonneg l : 0 <= zlen l. Proof. unfold zlen; lia. Qed.

Lemma window_len base r l : window base r l -> zlen l <= zlen base.
Proof.
  intros (_ & [(_ & ->)|(pre & post & -> & _)]).
  - unfold zlen; simpl; lia.
  - unfold zlen. rewrite !app_length. lia.
Qed.

Lemma window_drop base r l p n l' :
  window base r l -> 0 <= p <= zlen l -> 0 <= n <= zlen l - p ->
  l' = ztake n (zdrop p l) ->
  exists q, ptr_add (ptr r) p = Ok q /\ window base (mkref q n) l'.
Proof.
  intros (Ha & Hw) Hp Hn ->.
  assert (Hlen : zlen (ztake n (zdrop p l)) = n).
  { unfold zlen, ztake, zdrop in *. rewrite firstn_length, skipn_length. lia. }
  destruct Hw as [(Hp0 & ->)|(pre & post & E & Hp0)].
  - rewrite Hp0. unfold zlen in Hp, Hn; simpl in Hp, Hn.
    replace p with 0 by lia. simpl. eexists; split; [reflexivity|].
    unfold ztake, zdrop. rewrite skipn_nil, firstn_nil.
    split; [unfold zlen; simpl; lia|]. left. auto.
  - rewrite Hp0. simpl. eexists; split; [reflexivity|].
    split; [simpl; lia|]. right.
    exists (pre ++ firstn (Z.to_nat p) l), (skipn (Z.to_nat n) (skipn (Z.to_nat p) l) ++ post).
    split.
    + rewrite E. unfold ztake, zdrop. rewrite <- !app_assoc. f_equal.
      rewrite <- (firstn_skipn (Z.to_nat p) l) at 1. rewrite <- app_assoc. f_equal.
      rewrite <- (firstn_skipn (Z.to_nat n) (skipn (Z.to_nat p) l)) at 1.
      rewrite <- app_assoc. reflexivity.
    + simpl. f_equal. unfold zlen in *. rewrite app_length, firstn_length. lia.
Qed.

Lemma substr_window base r l p n :
  window base r l -> 0 <= p -> 0 <= n ->
  exists r', substr r p n = Ok r' /\ window base r' (ztake n (zdrop p l)).
Proof.
  intros W Hp Hn. assert (Ha : alen r = zlen l) by apply W.
  pose proof (zlen_nonneg l) as Hz.
  (* the clamped arguments *)
  pose (p' := Z.min p (zlen l)). pose (n' := Z.min n (zlen l - p')).
  assert (Hc : ztake n (zdrop p l) = ztake n' (zdrop p' l)).
  { unfold ztake, zdrop, n', p', zlen in *.
    destruct (Z.le_gt_cases p (Z.of_nat (length l))) as [H|H].
    - rewrite (Z.min_l p) by lia.
      destruct (Z.le_gt_cases n (Z.of_nat (length l) - p)) as [H1|H1].
      + rewrite Z.min_l by lia. reflexivity.
      + rewrite Z.min_r by lia. rewrite !firstn_all2; auto; rewrite skipn_length; lia.
    - rewrite (skipn_all2 (n:=Z.to_nat p)) by lia.
      rewrite (skipn_all2 (n:=Z.to_nat (Z.min p _))) by lia.
      rewrite !firstn_nil. reflexivity. }
  destruct (window_drop base r l p' n' (ztake n' (zdrop p' l)) W) as (q & Eq & W');
    try (unfold n', p'; lia); [reflexivity|].
  rewrite Hc. exists (mkref q n'). split; [|exact W'].
  unfold substr. simpl. rewrite Ha.
  destruct (Z.ltb_spec (zlen l) p).
  - assert (E1 : p' = zlen l) by (unfold p'; lia).
    destruct (Z.ltb_spec (zlen l) (zlen l)); [lia|].
    destruct (Z.ltb_spec (zlen l - zlen l) n).
    + destruct (Z.ltb_spec (zlen l) (zlen l)); [lia|].
      destruct (Z.ltb_spec (zlen l - zlen l) (zlen l - zlen l)); [lia|].
      rewrite <- E1, Eq. simpl. do 2 f_equal. unfold n'. lia.
    + rewrite <- E1, Eq. simpl. do 2 f_equal. unfold n'. lia.
  - assert (E1 : p' = p) by (unfold p'; lia).
    destruct (Z.ltb_spec (zlen l - p) n).
    + destruct (Z.ltb_spec (zlen l) p); [lia|].
      destruct (Z.ltb_spec (zlen l - p) (zlen l - p)); [lia|].
      rewrite <- E1, Eq. simpl. do 2 f_equal. unfold n'. lia.
    + rewrite <- E1, Eq. simpl. do 2 f_equal. unfold n'. lia.
Qed.

Lemma prefix_ok dbg base r l n :
  window base r l -> zlen base < size_mod -> 0 <= n <= zlen l ->
  exists r', remove_prefix dbg r n = Ok r' /\ window base r' (zdrop n l).
Proof.
  intros W Hs Hn. assert (Ha : alen r = zlen l) by apply W.
  pose proof (window_len _ _ _ W).
  unfold remove_prefix, assert_then. rewrite Ha.
  destruct (Z.leb_spec n (zlen l)); [|lia]. cbn [negb]. rewrite andb_false_r.
  rewrite Z.mod_small by lia.
  destruct (window_drop base r l n (zlen l - n) (zdrop n l) W Hn) as (q & Eq & W');
    try lia.
  { unfold ztake, zdrop, zlen in *. symmetry. apply firstn_all2. rewrite skipn_length. lia. }
  rewrite Eq, bind_ok. eauto.
Qed.

Lemma suffix_ok dbg base r l n :
  window base r l -> zlen base < size_mod -> 0 <= n <= zlen l ->
  exists r', remove_suffix dbg r n = Ok r' /\ window base r' (ztake (zlen l - n) l).
Proof.
  intros W Hs Hn. assert (Ha : alen r = zlen l) by apply W.
  pose proof (window_len _ _ _ W).
  unfold remove_suffix, assert_then. rewrite Ha.
  destruct (Z.leb_spec n (zlen l)); [|lia]. cbn [negb]. rewrite andb_false_r.
  rewrite Z.mod_small by lia.
  destruct (window_drop base r l 0 (zlen l - n) (ztake (zlen l - n) l) W)
    as (q & Eq & W'); try lia.
  { reflexivity. }
  eexists. split; [reflexivity|].
  unfold ptr_add in Eq. destruct (ptr r) as [o|]; simpl in Eq; injection Eq as <-; [|exact W'].
  rewrite Z.add_0_r in W'. exact W'.
Qed.

Lemma astep_sim base r l o :
  window base r l -> zlen base < size_mod -> args_ok o ->
  match seq_step l o with
  | Some l' => exists r', astep true r o = Ok r' /\ window base r' l'
  | None => astep true r o = AssertFail
  end.
Proof.
  intros W Hs Ho. assert (Ha : alen r = zlen l) by apply W.
  destruct o as [p n|n|n| | |]; simpl in *.
  - apply substr_window; try lia. exact W.
  - destruct (Z.leb_spec n (zlen l)).
    + apply prefix_ok; auto; lia.
    + unfold remove_prefix, assert_then. rewrite Ha.
      destruct (Z.leb_spec n (zlen l)); [lia|]. reflexivity.
  - destruct (Z.leb_spec n (zlen l)).
    + apply suffix_ok; auto; lia.
    + unfold remove_suffix, assert_then. rewrite Ha.
      destruct (Z.leb_spec n (zlen l)); [lia|]. reflexivity.
  - destruct l as [|x l].
    + unfold remove_prefix, assert_then. rewrite Ha. reflexivity.
    + apply (prefix_ok true base r (x :: l) 1 W Hs). unfold zlen; simpl; lia.
  - destruct l as [|x l].
    + unfold remove_suffix, assert_then. rewrite Ha. reflexivity.
    + destruct (suffix_ok true base r (x :: l) 1 W Hs) as (r' & E & W').
      { unfold zlen; simpl; lia. }
      exists r'. split; [exact E|].
      assert (R : removelast (x :: l) = ztake (zlen (x :: l) - 1) (x :: l)).
      { rewrite removelast_firstn_len. unfold ztake, zlen. f_equal.
        simpl length. lia. }
      rewrite R. exact W'.
  - eexists. split; [reflexivity|]. split; [reflexivity|]. left; auto.
Qed.

Lemma arun_sim base os : forall r l,
  window base r l -> zlen base < size_mod -> Forall args_ok os ->
  match seq_run l os with
  | Some l' => exists r', arun true r os = Ok r' /\ window base r' l'
  | None => arun true r os = AssertFail
  end.
Proof.
  induction os as [|o os IH]; intros r l W Hs HF; simpl; [eauto|].
  inversion HF as [|? ? Ho Hos]; subst.
  pose proof (astep_sim base r l o W Hs Ho) as S.
  destruct (seq_step l o) as [l'|].
  - destruct S as (r' & E & W'). rewrite E, bind_ok. apply IH; auto.
  - rewrite S. reflexivity.
Qed.

Lemma full_window base : window base (aref_full base) base.
Proof.
  split; [reflexivity|]. right. exists [], []. rewrite app_nil_r. auto.
Qed.

Lemma aload_window base r l i : window base r l -> 0 <= i ->
  (exists v, nth_error l (Z.to_nat i) = Some v /\ aload base r i = Ok v) \/
  nth_error l (Z.to_nat i) = None.
Proof.
  intros (Ha & Hw) Hi.
  destruct (nth_error l (Z.to_nat i)) as [v|] eqn:E; [left|right; reflexivity].
  exists v. split; [reflexivity|].
  destruct Hw as [(_ & ->)|(pre & post & Eb & Hp)].
  - destruct (Z.to_nat i); discriminate.
  - unfold aload. rewrite Hp. unfold zlen.
    destruct (Z.leb_spec 0 (Z.of_nat (length pre) + i)); [|lia].
    assert (Hi' : (Z.to_nat i < length l)%nat) by (apply nth_error_Some; congruence).
    rewrite Eb, nth_error_app2 by lia.
    replace (Z.to_nat (Z.of_nat (length pre) + i) - length pre)%nat with (Z.to_nat i) by lia.
    rewrite nth_error_app1 by lia. rewrite E. reflexivity.
Qed.

Lemma aat_window base r l i : window base r l -> 0 <= i ->
  aat base r i = match nth_error l (Z.to_nat i) with Some v => Ok v | None => Throw end.
Proof.
  intros W Hi. unfold aat. assert (Ha : alen r = zlen l) by apply W. rewrite Ha.
  destruct (aload_window base r l i W Hi) as [(v & E & L)|E].
  - rewrite E, L. assert (Hi' : (Z.to_nat i < length l)%nat) by (apply nth_error_Some; congruence).
    destruct (Z.leb_spec (zlen l) i); [unfold zlen in *; lia|reflexivity].
  - rewrite E. apply nth_error_None in E.
    destruct (Z.leb_spec (zlen l) i); [reflexivity|unfold zlen in *; lia].
Qed.

Lemma load_n_window base r l : window base r l -> forall n i,
  (i + n <= length l)%nat ->
  load_n base r (Z.of_nat i) n = Ok (firstn n (skipn i l)).
Proof.
  intros W. induction n as [|n IH]; intros i Hi; [reflexivity|].
  cbn [load_n].
  destruct (aload_window base r l (Z.of_nat i) W) as [(v & E & L)|E]; [lia| |].
  - rewrite L, bind_ok. replace (Z.of_nat i + 1) with (Z.of_nat (S i)) by lia.
    rewrite IH by lia. rewrite bind_ok. rewrite Nat2Z.id in E.
    destruct (nth_error_split _ _ E) as (l1 & l2 & El & Hl1).
    rewrite El, <- Hl1. rewrite skipn_len_app.
    replace (S (length l1)) with (length l1 + 1)%nat by lia.
    rewrite skipn_plus_app. reflexivity.
  - rewrite Nat2Z.id in E. apply nth_error_None in E. lia.
Qed.

Lemma avec_window base r l : window base r l -> avec base r = Ok l.
Proof.
  intros W. unfold avec. assert (Ha : alen r = zlen l) by apply W. rewrite Ha.
  unfold zlen. rewrite Nat2Z.id.
  change 0 with (Z.of_nat 0). rewrite (load_n_window base r l W (length l) 0) by lia.
  simpl. rewrite firstn_all. reflexivity.
Qed.
End Lemmas.
