From Coq Require Import List Arith ZArith NArith Ascii Bool Lia ZifyN.
From Verif Require Import Outcome ListExtra StringModel.
Import ListNotations.

(** ** Specifications *)

(** [pat] occurs in [s] at offset [i] *)
Definition occurs_at (pat s : str) (i : nat) : Prop :=
  exists a b, s = a ++ pat ++ b /\ length a = i.

(** [out] is [s] with leftmost, non-overlapping occurrences of [from] replaced by [to] *)
Inductive replaced (from to : str) : str -> str -> Prop :=
| rep_none s : (forall i, ~ occurs_at from s i) -> replaced from to s s
| rep_first a rest out :
    (forall i, i < length a -> ~ occurs_at from (a ++ from ++ rest) i) ->
    replaced from to rest out ->
    replaced from to (a ++ from ++ rest) (a ++ to ++ out).

(** [s] is separators and tokens alternately; inner separators are not empty *)
Inductive tokenised (d : ascii -> bool) : str -> list str -> Prop :=
| tok_end ws : forallb d ws = true -> tokenised d ws []
| tok_cons ws t rest ts :
    forallb d ws = true -> t <> [] -> forallb (fun c => negb (d c)) t = true ->
    match rest with [] => True | c :: _ => d c = true end ->
    tokenised d rest ts -> tokenised d (ws ++ t ++ rest) (t :: ts).

Definition digits_value (ds : list N) : N := fold_left (fun v d => (10 * v + d)%N) ds 0%N.

(** ** replace_all *)
Lemma prefixb_spec p s : prefixb p s = true <-> exists b, s = p ++ b.
Proof.
  revert s; induction p as [|a p IH]; intros s; simpl.
  - split; [eauto|reflexivity].
  - destruct s as [|b s]; [split; [discriminate|intros (b & E); discriminate]|].
    rewrite andb_true_iff, Ascii.eqb_eq, IH. split.
    + intros [-> (b' & ->)]. eauto.
    + intros (b' & E). injection E as -> ->. eauto.
Qed.

Lemma find0_some s pat i : find0 s pat = Some i ->
  exists a b, s = a ++ pat ++ b /\ length a = i /\ forall j, j < i -> ~ occurs_at pat s j.
Proof.
  revert i; induction s as [|c s IH]; intros i; simpl.
  - destruct (prefixb pat []) eqn:E; [|discriminate]. intros H; injection H as <-.
    apply prefixb_spec in E. destruct E as (b & E).
    exists [], b. simpl. repeat split; auto. intros j Hj; lia.
  - destruct (prefixb pat (c :: s)) eqn:E.
    + intros H; injection H as <-. apply prefixb_spec in E. destruct E as (b & E).
      exists [], b. simpl. repeat split; auto. intros j Hj; lia.
    + destruct (find0 s pat) as [k|]; [|discriminate]. intros H; injection H as <-.
      destruct (IH k eq_refl) as (a & b & Es & Hl & Hn).
      exists (c :: a), b. simpl. repeat split; try congruence.
      intros j Hj (a' & b' & Ea & Hl'). destruct a' as [|x a'].
      * simpl in *. assert (prefixb pat (c :: s) = true) by (apply prefixb_spec; eauto).
        congruence.
      * simpl in *. injection Ea as -> Ea. apply (Hn (length a')); [lia|].
        exists a', b'. auto.
Qed.

Lemma find0_none s pat : find0 s pat = None -> forall i, ~ occurs_at pat s i.
Proof.
  induction s as [|c s IH]; simpl.
  - destruct (prefixb pat []) eqn:E; [discriminate|]. intros _ i (a & b & Es & _).
    destruct a; [|discriminate]. simpl in Es.
    assert (prefixb pat [] = true) by (apply prefixb_spec; eauto). congruence.
  - destruct (prefixb pat (c :: s)) eqn:E; [discriminate|].
    destruct (find0 s pat) eqn:F; [discriminate|]. intros _ i (a & b & Es & Hl).
    destruct a as [|x a].
    + simpl in Es. assert (prefixb pat (c :: s) = true) by (apply prefixb_spec; eauto). congruence.
    + simpl in Es. injection Es as -> Es. apply (IH eq_refl (length a)).
      exists a, b. auto.
Qed.

Lemma replace_loop_spec from to : from <> [] -> forall n rest done fuel,
  length rest <= n -> length rest < fuel ->
  exists out, replace_loop fuel from to (done ++ rest) (length done) = Some (done ++ out)
              /\ replaced from to rest out.
Proof.
  intros Hf. assert (Hf1 : 0 < length from) by (destruct from; [congruence|simpl; lia]).
  induction n as [|n IH]; intros rest done fuel Hn Hfuel;
    (destruct fuel as [|fuel]; [lia|]); simpl; unfold str_find;
    (destruct (Nat.ltb_spec (length (done ++ rest)) (length done)) as [H|H];
      [rewrite app_length in H; lia|]); rewrite skipn_len_app.
  - destruct rest; [|simpl in Hn; lia]. simpl.
    destruct from as [|c from]; [congruence|]. simpl.
    exists []. split; [reflexivity|]. apply rep_none.
    intros i (a & b & E & _). destruct a; discriminate.
  - destruct (find0 rest from) as [i|] eqn:F.
    + destruct (find0_some _ _ _ F) as (a & b & Es & Hl & Hno). subst rest i.
      rewrite !app_length in Hn, Hfuel.
      cbn [option_map]. unfold str_replace.
      rewrite firstn_plus_app, firstn_len_app.
      replace (length done + length a + length from)
        with (length done + (length a + length from)) by lia.
      rewrite skipn_plus_app, skipn_plus_app, skipn_len_app.
      replace ((done ++ a) ++ to ++ b) with ((done ++ a ++ to) ++ b) by (rewrite <- !app_assoc; reflexivity).
      replace (length done + length a + length to) with (length (done ++ a ++ to))
        by (rewrite !app_length; lia).
      destruct (IH b (done ++ a ++ to) fuel) as (out & E & R); [lia|lia|].
      exists (a ++ to ++ out). split.
      * rewrite E, <- !app_assoc. reflexivity.
      * apply rep_first; assumption.
    + cbn [option_map]. exists rest. split; [reflexivity|].
      apply rep_none. apply find0_none. exact F.
Qed.

Lemma replace_all_spec from to s : from <> [] ->
  exists out, replaced from to s out /\ forall fuel, length s < fuel -> replace_all fuel s from to = Some out.
Proof.
  intros Hf.
  destruct (replace_loop_spec from to Hf (length s) s [] (S (length s))) as (out & E & R); try lia.
  exists out. split; [exact R|].
  intros fuel Hfu. unfold replace_all.
  (* more fuel does not change the result *)
  assert (Mono : forall f1 s1 p1 o1, replace_loop f1 from to s1 p1 = Some o1 ->
            forall f2, f1 <= f2 -> replace_loop f2 from to s1 p1 = Some o1).
  { induction f1 as [|f1 IH]; intros s1 p1 o1; simpl; [discriminate|].
    intros H f2 H2. destruct f2 as [|f2]; [lia|]. simpl.
    destruct (str_find s1 from p1); [|exact H]. apply IH; [exact H|lia]. }
  apply Mono with (f1 := S (length s)); [exact E|lia].
Qed.

Lemma replaced_det from to s o1 o2 : from <> [] ->
  replaced from to s o1 -> replaced from to s o2 -> o1 = o2.
Proof.
  intros Hf R1. revert o2. induction R1 as [s Hn|a rest out Hn R1 IH]; intros o2 R2.
  - inversion R2 as [s' H' E1 E2|a' rest' out' H' R' E1 E2]; subst; [reflexivity|].
    exfalso. apply (Hn (length a')). exists a', rest'. auto.
  - inversion R2 as [s' H' E1 E2|a' rest' out' H' R' E1 E2]; subst.
    + exfalso. apply (H' (length a)). exists a, rest. auto.
    + assert (Hl : length a = length a').
      { destruct (Nat.lt_trichotomy (length a) (length a')) as [L|[L|L]]; [|exact L|].
        - exfalso. apply (H' (length a) L). exists a, rest. auto.
        - exfalso. apply (Hn (length a') L). exists a', rest'. auto. }
      assert (a = a').
      { apply (f_equal (firstn (length a))) in E1. rewrite firstn_len_app, Hl, firstn_len_app in E1.
        congruence. }
      subst a'. apply app_inv_head in E1. apply app_inv_head in E1. subst rest'.
      f_equal. f_equal. apply IH. exact R'.
Qed.

Lemma replace_all_empty_pattern s to : forall fuel, replace_all fuel s [] to = None.
Proof.
  intros fuel. unfold replace_all.
  assert (forall f s1 p, p <= length s1 -> replace_loop f [] to s1 p = None).
  { induction f as [|f IH]; intros s1 p Hp; simpl; [reflexivity|].
    unfold str_find. destruct (Nat.ltb_spec (length s1) p); [lia|].
    assert (E : find0 (skipn p s1) [] = Some 0) by (destruct (skipn p s1); reflexivity).
    rewrite E. cbn [option_map]. apply IH.
    unfold str_replace. rewrite !app_length, firstn_length, skipn_length. simpl. lia. }
  apply H. lia.
Qed.

(** ** paths *)
Lemma rfind_none s c : rfind s c = None <-> ~ In c s.
Proof.
  induction s as [|x s IH]; simpl; [tauto|].
  destruct (rfind s c) eqn:E.
  - split; [discriminate|]. intros H. exfalso. apply H. right.
    assert (~ ~ In c s) by (intros K; apply IH in K; discriminate).
    destruct (in_dec ascii_dec c s); tauto.
  - destruct (Ascii.eqb_spec x c); split; try discriminate.
    + intros H; exfalso; apply H; auto.
    + intros _ [H|H]; [congruence|]. apply IH in H; auto.
    + reflexivity.
Qed.
Lemma rfind_last a b c : ~ In c b -> rfind (a ++ c :: b) c = Some (length a).
Proof.
  intros Hb. induction a as [|x a IH]; simpl.
  - apply rfind_none in Hb. rewrite Hb, Ascii.eqb_refl. reflexivity.
  - rewrite IH. reflexivity.
Qed.
Lemma rfind_some s c i : rfind s c = Some i ->
  exists a b, s = a ++ c :: b /\ length a = i /\ ~ In c b.
Proof.
  revert i; induction s as [|x s IH]; intros i; simpl; [discriminate|].
  destruct (rfind s c) as [k|] eqn:E.
  - intros H; injection H as <-. destruct (IH k eq_refl) as (a & b & -> & Hl & Hb).
    exists (x :: a), b. simpl. auto.
  - destruct (Ascii.eqb_spec x c); [|discriminate]. intros H; injection H as <-. subst x.
    exists [], s. apply rfind_none in E. auto.
Qed.

Lemma substr_after (a b : str) c n : length (a ++ c :: b) - 1 <= n ->
  str_substr (a ++ c :: b) (length a + 1) n = Ok b.
Proof.
  intros Hn. rewrite app_length in Hn. simpl in Hn. unfold str_substr.
  destruct (Nat.ltb_spec (length (a ++ c :: b)) (length a + 1)) as [H|H];
    [rewrite app_length in H; simpl in H; lia|].
  rewrite skipn_plus_app. simpl. rewrite firstn_all2 by lia. reflexivity.
Qed.
Lemma substr_before (a b : str) : str_substr (a ++ b) 0 (length a) = Ok a.
Proof. unfold str_substr. simpl. rewrite firstn_len_app. reflexivity. Qed.

Lemma basename_spec d b : ~ In sep b -> basename (d ++ sep :: b) = Ok b.
Proof.
  intros Hb. unfold basename. rewrite rfind_last by exact Hb. apply substr_after. lia.
Qed.
Lemma basename_nosep b : ~ In sep b -> basename b = Ok b.
Proof. intros Hb. unfold basename. apply rfind_none in Hb. rewrite Hb. reflexivity. Qed.
Lemma basename_total s : exists b, basename s = Ok b /\ ~ In sep b /\
  (s = b \/ exists d, s = d ++ sep :: b).
Proof.
  destruct (rfind s sep) as [i|] eqn:E.
  - destruct (rfind_some _ _ _ E) as (a & b & -> & _ & Hb). exists b.
    rewrite basename_spec by exact Hb. eauto.
  - apply rfind_none in E. exists s. rewrite basename_nosep by exact E. auto.
Qed.

Lemma ext_of_base base b : basename base = Ok b ->
  (forall st e, b = st ++ dot :: e -> ~ In dot e -> file_extension base = Ok e) /\
  (~ In dot b -> file_extension base = Ok []).
Proof.
  intros E. unfold file_extension. rewrite E, bind_ok. split.
  - intros st e -> He. rewrite rfind_last by exact He. apply substr_after. lia.
  - intros H. apply rfind_none in H. rewrite H. reflexivity.
Qed.

Lemma split_ext_dot a e : ~ In dot e -> split_extension (a ++ dot :: e) = Ok (a, e).
Proof.
  intros He. unfold split_extension. rewrite rfind_last by exact He.
  rewrite substr_before, bind_ok, substr_after by lia. reflexivity.
Qed.
Lemma split_ext_nodot s : ~ In dot s -> split_extension s = Ok (s, []).
Proof. intros H. unfold split_extension. apply rfind_none in H. rewrite H. reflexivity. Qed.
Lemma remove_ext_dot a e : ~ In dot e -> remove_extension (a ++ dot :: e) = Ok a.
Proof.
  intros He. unfold remove_extension. rewrite rfind_last by exact He. apply substr_before.
Qed.
Lemma remove_ext_nodot s : ~ In dot s -> remove_extension s = Ok s.
Proof. intros H. unfold remove_extension. apply rfind_none in H. rewrite H. reflexivity. Qed.

(** ** split *)
Lemma skip_ws_spec d s : exists ws, s = ws ++ skip_ws d s /\ forallb d ws = true /\
  match skip_ws d s with [] => True | c :: _ => d c = false end.
Proof.
  induction s as [|c s (ws & E & H & K)]; simpl.
  - exists []. auto.
  - destruct (d c) eqn:D.
    + exists (c :: ws). simpl. rewrite D. rewrite <- E. auto.
    + exists []. simpl. auto.
Qed.
Lemma span_tok_spec d s a b : span_tok d s = (a, b) ->
  s = a ++ b /\ forallb (fun c => negb (d c)) a = true /\
  match b with [] => True | c :: _ => d c = true end.
Proof.
  revert a b; induction s as [|c s IH]; intros a b; simpl.
  - intros E; injection E as <- <-. auto.
  - destruct (d c) eqn:D.
    + intros E; injection E as <- <-. simpl. auto.
    + destruct (span_tok d s) as (a0, b0). intros E; injection E as <- <-.
      destruct (IH a0 b0 eq_refl) as (-> & H & K). simpl. rewrite D. auto.
Qed.

Lemma read_tokens_spec d : forall fuel s, length s < fuel ->
  exists ts, read_tokens fuel d s = Some ts /\ tokenised d s ts.
Proof.
  induction fuel as [|fuel IH]; intros s Hs; [lia|]. cbn [read_tokens].
  destruct (skip_ws_spec d s) as (ws & E & Hw & K).
  destruct (skip_ws d s) as [|c s'] eqn:Es.
  - exists []. split; [reflexivity|]. rewrite app_nil_r in E. subst s. apply tok_end. exact Hw.
  - destruct (span_tok d (c :: s')) as (a, b) eqn:Sp.
    destruct (span_tok_spec _ _ _ _ Sp) as (Eab & Ha & Kb).
    assert (Hne : a <> []).
    { intros ->. simpl in Sp. rewrite K in Sp. destruct (span_tok d s'); discriminate. }
    assert (length b < fuel).
    { rewrite E, Eab, !app_length in Hs. destruct a; [congruence|simpl in Hs; lia]. }
    destruct (IH b H) as (ts & Ets & T).
    exists (a :: ts). rewrite Ets. split; [reflexivity|].
    rewrite E, Eab. apply tok_cons; auto.
Qed.

Lemma app_run_unique (d : ascii -> bool) (a a' b b' : str) :
  a ++ b = a' ++ b' -> forallb d a = true -> forallb d a' = true ->
  match b with [] => True | c :: _ => d c = false end ->
  match b' with [] => True | c :: _ => d c = false end -> a = a' /\ b = b'.
Proof.
  revert a'; induction a as [|x a IH]; intros [|y a'] E Ha Ha' Hb Hb'; simpl in *.
  - auto.
  - subst b. apply andb_true_iff in Ha'. destruct Ha' as [H _]. congruence.
  - subst b'. apply andb_true_iff in Ha. destruct Ha as [H _]. congruence.
  - injection E as -> E. apply andb_true_iff in Ha, Ha'. destruct Ha as [_ Ha], Ha' as [_ Ha'].
    destruct (IH a' E Ha Ha' Hb Hb') as [-> ->]. auto.
Qed.

Lemma tokenised_unique d s ts1 ts2 : tokenised d s ts1 -> tokenised d s ts2 -> ts1 = ts2.
Proof.
  intros T1. revert ts2.
  induction T1 as [ws Hw|ws t rest ts Hw Ht Hd Hr T1 IH]; intros ts2 T2.
  - inversion T2 as [ws' Hw' E1 E2|ws' t' rest' ts' Hw' Ht' Hd' Hr' T' E1 E2]; subst; [reflexivity|].
    exfalso. destruct t' as [|c t']; [congruence|].
    rewrite forallb_app in Hw. apply andb_true_iff in Hw. destruct Hw as [_ Hw].
    simpl in Hw, Hd'. apply andb_true_iff in Hw, Hd'. destruct Hw as [H1 _], Hd' as [H2 _].
    rewrite H1 in H2. discriminate.
  - inversion T2 as [ws' Hw' E1 E2|ws' t' rest' ts' Hw' Ht' Hd' Hr' T' E1 E2]; subst.
    + exfalso. destruct t as [|c t]; [congruence|].
      rewrite forallb_app in Hw'. apply andb_true_iff in Hw'. destruct Hw' as [_ Hw'].
      simpl in Hw', Hd. apply andb_true_iff in Hw', Hd. destruct Hw' as [H1 _], Hd as [H2 _].
      rewrite H1 in H2. discriminate.
    + destruct (app_run_unique d ws ws' (t ++ rest) (t' ++ rest')) as [-> E]; auto.
      { destruct t as [|c t]; [congruence|]. simpl in *. apply andb_true_iff in Hd.
        destruct Hd as [H _]. destruct (d c); [discriminate|reflexivity]. }
      { destruct t' as [|c t']; [congruence|]. simpl in *. apply andb_true_iff in Hd'.
        destruct Hd' as [H _]. destruct (d c); [discriminate|reflexivity]. }
      destruct (app_run_unique (fun c => negb (d c)) t t' rest rest') as [-> ->]; auto.
      { destruct rest; auto. rewrite Hr. reflexivity. }
      { destruct rest'; auto. rewrite Hr'. reflexivity. }
      f_equal. apply IH. exact T'.
Qed.

Lemma split_spec s delims :
  (forall c, In c delims -> nat_of_ascii c < 128) ->
  exists ts, split s delims = Ok ts /\ tokenised (is_delim delims) s ts.
Proof.
  intros Hd. destruct s as [|c s].
  - exists []. split; [reflexivity|]. apply tok_end. reflexivity.
  - unfold split.
    assert (E : existsb (fun c => 128 <=? nat_of_ascii c) delims = false).
    { apply not_true_is_false. intros E. apply existsb_exists in E. destruct E as (x & Hx & E).
      apply Nat.leb_le in E. specialize (Hd x Hx). lia. }
    rewrite E.
    destruct (read_tokens_spec (is_delim delims) (S (length (c :: s))) (c :: s)) as (ts & Et & T); [lia|].
    rewrite Et. eauto.
Qed.

Lemma tokenised_ext (d e : ascii -> bool) s ts : (forall c, d c = e c) -> tokenised d s ts -> tokenised e s ts.
Proof.
  intros E T. induction T as [ws H|ws t rest ts H1 H2 H3 H4 T IH].
  - apply tok_end. rewrite <- H. clear -E. induction ws; simpl; rewrite ?E; congruence.
  - apply tok_cons; auto.
    + rewrite <- H1. clear -E. induction ws; simpl; rewrite ?E; congruence.
    + rewrite <- H3. clear -E. induction t; simpl; rewrite ?E; congruence.
    + destruct rest; rewrite <- ?E; auto.
Qed.

(** ** digits *)
Lemma digits_loop_spec : forall fuel number d, (number < 10 ^ N.of_nat fuel)%N ->
  exists k, digits_loop (S fuel) number d = Some (d + k)%N /\
    (number < 10 ^ k)%N /\ (k = 0 /\ number = 0 \/ (0 < k /\ 10 ^ (k - 1) <= number))%N.
Proof.
  induction fuel as [|fuel IH]; intros number d H.
  - simpl in H. assert (number = 0%N) by lia. subst. exists 0%N.
    rewrite N.add_0_r. split; [reflexivity|]. split; [reflexivity|left; auto].
  - simpl. destruct (N.eqb_spec number 0) as [->|Hn].
    + exists 0%N. rewrite N.add_0_r. split; [reflexivity|]. split; [reflexivity|left; auto].
    + destruct (IH (N.div number 10) (N.succ d)) as (k & E & H1 & H2).
      { apply N.div_lt_upper_bound; [lia|]. rewrite <- N.pow_succ_r'.
        replace (N.succ (N.of_nat fuel)) with (N.of_nat (S fuel)) by lia. exact H. }
      exists (N.succ k). simpl in E. rewrite E.
      pose proof (N.div_mod number 10 ltac:(lia)) as DM.
      pose proof (N.mod_lt number 10 ltac:(lia)) as ML.
      split; [f_equal; lia|]. split.
      * rewrite N.pow_succ_r'. nia.
      * right. split; [lia|]. replace (N.succ k - 1)%N with k by lia.
        destruct H2 as [[-> H2]|[Hk H2]].
        -- simpl. lia.
        -- assert (Ek : (10 ^ k = 10 * 10 ^ (k - 1))%N)
             by (rewrite <- N.pow_succ_r'; f_equal; lia).
           rewrite Ek. clear - H2 DM. remember (_ mod 10)%N as M. lia.
Qed.

Lemma num_digits_spec n fuel : (n < 10 ^ N.of_nat fuel)%N ->
  exists d, num_digits (S fuel) n = Some d /\ (1 <= d)%N /\ (n < 10 ^ d)%N /\
            (n = 0 /\ d = 1 \/ 10 ^ (d - 1) <= n)%N.
Proof.
  intros H. unfold num_digits.
  pose proof (N.div_mod n 10 ltac:(lia)) as DM.
  pose proof (N.mod_lt n 10 ltac:(lia)) as ML.
  destruct (digits_loop_spec fuel (N.div n 10) 1) as (k & E & H1 & H2).
  { assert (N.div n 10 <= n)%N by (apply N.div_le_upper_bound; lia). lia. }
  exists (1 + k)%N. split; [exact E|]. split; [lia|]. split.
  - replace (1 + k)%N with (N.succ k) by lia. rewrite N.pow_succ_r'. nia.
  - replace (1 + k - 1)%N with k by lia. destruct H2 as [[-> H2]|[Hk H2]].
    + simpl. lia.
    + right. assert (Ek : (10 ^ k = 10 * 10 ^ (k - 1))%N)
             by (rewrite <- N.pow_succ_r'; f_equal; lia).
           rewrite Ek. clear - H2 DM. remember (_ mod 10)%N as M. lia.
Qed.

Lemma fold_value ds v : fold_left (fun v d => (10 * v + d)%N) ds v
  = (v * 10 ^ N.of_nat (length ds) + digits_value ds)%N.
Proof.
  unfold digits_value. revert v; induction ds as [|d ds IH]; intros v.
  - simpl. lia.
  - cbn [fold_left length]. rewrite IH, (IH (10 * 0 + d)%N).
    rewrite Nat2N.inj_succ, N.pow_succ_r'. lia.
Qed.
Lemma digits_value_cons d ds : digits_value (d :: ds) = (d * 10 ^ N.of_nat (length ds) + digits_value ds)%N.
Proof. unfold digits_value at 1. cbn [fold_left]. rewrite fold_value. lia. Qed.
Lemma digits_value_zeros k ds : digits_value (repeat 0%N k ++ ds) = digits_value ds.
Proof. induction k; simpl; [reflexivity|]. rewrite digits_value_cons. simpl. lia. Qed.

Lemma decimal_spec : forall fuel n acc, (n < 10 ^ N.of_nat (S fuel))%N ->
  exists ds, decimal (S fuel) n acc = Some (ds ++ acc) /\
    digits_value ds = n /\ Forall (fun d => (d < 10)%N) ds /\ ds <> [] /\
    (n < 10 ^ N.of_nat (length ds))%N /\
    ((n = 0)%N /\ length ds = 1 \/ (10 ^ N.of_nat (length ds - 1) <= n)%N).
Proof.
  induction fuel as [|fuel IH]; intros n acc H;
    pose proof (N.div_mod n 10 ltac:(lia)) as DM;
    pose proof (N.mod_lt n 10 ltac:(lia)) as ML;
    cbn [decimal]; destruct (N.eqb_spec (N.div n 10) 0) as [E0|E0].
  1,3: exists [N.modulo n 10]; rewrite E0 in DM;
    (split; [reflexivity|]);
    (split; [unfold digits_value; cbn [fold_left]; lia|]);
    (split; [constructor; [lia|constructor]|]);
    (split; [discriminate|]);
    cbn [length]; change (10 ^ N.of_nat 1)%N with 10%N; change (10 ^ N.of_nat (1-1))%N with 1%N;
    (split; lia).
  - exfalso. change (10 ^ N.of_nat 1)%N with 10%N in H. apply E0.
    apply N.div_small. exact H.
  - destruct (IH (N.div n 10) (N.modulo n 10 :: acc)) as (ds & E & V & F & NE & U & L).
    { apply N.div_lt_upper_bound; [lia|]. rewrite <- N.pow_succ_r'.
      replace (N.succ (N.of_nat (S fuel))) with (N.of_nat (S (S fuel))) by lia. exact H. }
    cbn [decimal] in E.
    exists (ds ++ [N.modulo n 10]). rewrite <- app_assoc. split; [exact E|].
    split.
    { unfold digits_value in *. rewrite fold_left_app, V. cbn [fold_left]. lia. }
    split; [apply Forall_app; split; [exact F|constructor; [lia|constructor]]|].
    split; [destruct ds; discriminate|].
    rewrite app_length. cbn [length].
    assert (Hl : 0 < length ds) by (destruct ds; [congruence|simpl; lia]).
    split.
    + replace (length ds + 1) with (S (length ds)) by lia.
      rewrite Nat2N.inj_succ, N.pow_succ_r'. nia.
    + right. destruct L as [[L1 L2]|L]; [lia|].
      replace (length ds + 1 - 1) with (S (length ds - 1)) by lia.
      rewrite Nat2N.inj_succ, N.pow_succ_r'. nia.
Qed.

Lemma zero_padded_spec fuel n w : (n < 10 ^ N.of_nat (S fuel))%N ->
  exists ds k, zero_padded (S fuel) n w = Some ds /\ digits_value ds = n /\
    Forall (fun d => (d < 10)%N) ds /\ num_digits (S (S fuel)) n = Some (N.of_nat k) /\
    length ds = Nat.max w k.
Proof.
  intros H. destruct (decimal_spec fuel n [] H) as (ds & E & V & F & NE & U & L).
  exists (repeat 0%N (w - length ds) ++ ds), (length ds).
  unfold zero_padded. rewrite E, app_nil_r. split; [reflexivity|].
  split; [rewrite digits_value_zeros; exact V|]. split.
  { apply Forall_app; split; [|exact F]. apply Forall_forall. intros x Hx.
    apply repeat_spec in Hx. lia. }
  split; [|rewrite app_length, repeat_length; lia].
  destruct (num_digits_spec n (S fuel) H) as (d & Ed & D1 & D2 & D3). rewrite Ed. f_equal.
  assert (Hl : 0 < length ds) by (destruct ds; [congruence|simpl; lia]).
  (* both bounds determine the number of digits *)
  destruct L as [[L1 L2]|L]; destruct D3 as [[D3 D4]|D3].
  - lia.
  - subst n. assert (10 ^ (d - 1) <> 0)%N by (apply N.pow_nonzero; lia). lia.
  - subst n. assert (10 ^ N.of_nat (length ds - 1) <> 0)%N by (apply N.pow_nonzero; lia). lia.
  - assert (d - 1 < N.of_nat (length ds))%N by (apply (N.pow_lt_mono_r_iff 10); lia).
    assert (N.of_nat (length ds - 1) < d)%N by (apply (N.pow_lt_mono_r_iff 10); lia).
    lia.
Qed.
