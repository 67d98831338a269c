(** Specification (a bounded sequence) and lemmas for fixed_vector. *)
From Coq Require Import List Arith ZArith Bool Lia.
From Verif Require Import Outcome ListExtra FixedVectorModel.
Import ListNotations.

(** ** Specification: an ordinary sequence with a size bound. *)
Section Spec.
Context {T : Type}.

Inductive sres : Type :=
| SOk (l : list T)      (* the sequence after the operation *)
| SReject               (* would exceed the capacity / invalid position: must be refused *)
| SUndefined.           (* the caller broke the precondition: nothing is claimed *)

Definition seq_insert (l : list T) (p : nat) (xs : list T) : list T :=
  firstn p l ++ xs ++ skipn p l.

Definition seq_erase (l : list T) (f e : nat) : list T := firstn f l ++ skipn e l.

Definition accept (c : bool) (l : list T) : sres := if c then SOk l else SReject.

Definition spec_step (cap : nat) (l : list T) (o : op T) : sres :=
  match o with
  | OPush v => accept (length l <? cap) (l ++ [v])
  | OPop => SOk (removelast l)
  | OClear => SOk []
  | OAssignFill c v => accept (c <=? cap) (repeat v c)
  | OAssignRange xs => accept (length xs <=? cap) xs
  | OResizeVal c v => accept (c <=? cap) (firstn c l ++ repeat v (c - length l))
  | OInsert p v => accept ((length l <? cap) && (p <=? length l)) (seq_insert l p [v])
  | OInsertFill p c v =>
      accept ((length l + c <=? cap) && (p <=? length l)) (seq_insert l p (repeat v c))
  | OInsertRange p xs =>
      accept ((length l + length xs <=? cap) && (p <=? length l)) (seq_insert l p xs)
  | OInsertIlist p xs =>
      if length l + length xs <=? cap
      then (if p <=? length l then SOk (seq_insert l p xs) else SUndefined)
      else SReject
  | OErase p =>
      if p <? length l then SOk (seq_erase l p (S p))
      else if length l =? 0 then SOk [] else SUndefined
  | OEraseRange f e =>
      if (f <=? e) && (e <=? length l) then SOk (seq_erase l f e) else SUndefined
  end.

Fixpoint spec_run (cap : nat) (l : list T) (os : list (op T)) : sres :=
  match os with
  | [] => SOk l
  | o :: rest =>
      match spec_step cap l o with
      | SOk l' => spec_run cap l' rest
      | r => r
      end
  end.

(** The vector [s] of capacity [N] shows exactly the sequence [l]. *)
Definition shows (N : nat) (s : fv T) (l : list T) : Prop :=
  length (store s) = N /\ len s <= N /\ contents s = map Some l.

(** size()+count does not wrap around size_t. *)
Definition no_wrap (N : nat) (o : op T) : Prop :=
  match o with
  | OInsertFill _ c _ => (Z.of_nat N + Z.of_nat c < two64)%Z
  | _ => True
  end.
End Spec.

(** ** Lemmas *)
Section Lemmas.
Context {T : Type}.
Implicit Types (l t x : list (option T)) (s : fv T) (q : list T).

Definition rep (N : nat) s q : Prop :=
  exists t, store s = map Some q ++ t /\ len s = length q /\ length q + length t = N.

Lemma shows_rep N s q : shows N s q <-> rep N s q.
Proof.
  unfold shows, rep, contents. split.
  - intros (H1 & H2 & H3).
    exists (skipn (len s) (store s)).
    assert (Hl : len s = length q).
    { apply (f_equal (@length _)) in H3. rewrite firstn_length, map_length in H3. lia. }
    repeat split; auto.
    + rewrite <- H3. symmetry. apply firstn_skipn.
    + rewrite skipn_length. lia.
  - intros (t & Hs & Hl & HN). rewrite Hs, Hl.
    rewrite app_length, map_length. repeat split; try lia.
    rewrite firstn_app, map_length, Nat.sub_diag, firstn_O, app_nil_r.
    apply firstn_all2. rewrite map_length. lia.
Qed.

Lemma upd_app a v w t : upd (a ++ w :: t) (length a) v = a ++ v :: t.
Proof. induction a; simpl; congruence. Qed.
Lemma upd_length l i v : length (upd l i v) = length l.
Proof. revert i; induction l; destruct i; simpl; auto. Qed.
Lemma cell_app a w t : cell (a ++ w :: t) (length a) = w.
Proof. unfold cell. rewrite app_nth2, Nat.sub_diag by lia. reflexivity. Qed.
Lemma cell_map q t i : i < length q -> cell (map Some q ++ t) i = nth_error q i.
Proof.
  intros H. unfold cell. rewrite app_nth1 by (rewrite map_length; lia).
  revert i H. induction q; simpl; intros i H; [lia|].
  destruct i; simpl; auto. apply IHq. lia.
Qed.

(** left shift: any implementation of std::copy is correct *)
Lemma copy_loop_left b : forall a x t, x <> [] ->
  exists y, length y = length x /\
    copy_loop (length b) (length a + length x) (length a) (a ++ x ++ b ++ t) = a ++ b ++ y ++ t.
Proof.
  induction b as [|b0 b IH]; intros a x t Hx.
  - exists x. simpl. auto.
  - destruct x as [|x0 x]; [congruence|].
    simpl length. simpl copy_loop.
    assert (Hc : cell (a ++ (x0 :: x) ++ (b0 :: b) ++ t) (length a + S (length x)) = b0).
    { unfold cell. rewrite app_nth2 by lia.
      rewrite app_nth2 by (simpl; lia).
      replace (length a + S (length x) - length a - length (x0 :: x)) with 0 by (simpl; lia).
      reflexivity. }
    change (a ++ x0 :: x ++ b0 :: b ++ t) with (a ++ (x0 :: x) ++ (b0 :: b) ++ t).
    rewrite Hc.
    change (a ++ (x0 :: x) ++ (b0 :: b) ++ t) with (a ++ x0 :: (x ++ b0 :: b ++ t)).
    rewrite upd_app.
    replace (a ++ b0 :: x ++ b0 :: b ++ t) with ((a ++ [b0]) ++ (x ++ [b0]) ++ b ++ t)
      by (rewrite <- !app_assoc; reflexivity).
    replace (S (length a + S (length x))) with (length (a ++ [b0]) + length (x ++ [b0]))
      by (rewrite !app_length; simpl; lia).
    replace (S (length a)) with (length (a ++ [b0])) by (rewrite app_length; simpl; lia).
    destruct (IH (a ++ [b0]) (x ++ [b0]) t) as (y & Hy & E).
    { destruct x; discriminate. }
    exists y. split.
    + rewrite Hy, app_length; simpl; lia.
    + rewrite E, <- !app_assoc. reflexivity.
Qed.

Lemma memmove_left b a x t :
  exists y, length y = length x /\
    memmove (length b) (length a + length x) (length a) (a ++ x ++ b ++ t) = a ++ b ++ y ++ t.
Proof.
  unfold memmove. exists (skipn (length b) (x ++ b)). split.
  - rewrite skipn_length, app_length. lia.
  - rewrite firstn_len_app.
    replace (firstn (length b) (skipn (length a + length x) (a ++ x ++ b ++ t))) with b.
    2:{ rewrite (app_assoc a x), <- app_length, skipn_len_app, firstn_len_app. reflexivity. }
    rewrite skipn_plus_app. f_equal. f_equal.
    rewrite (app_assoc x b t), skipn_app.
    replace (length b - length (x ++ b)) with 0 by (rewrite app_length; lia).
    rewrite skipn_O. reflexivity.
Qed.

Lemma std_copy_left m a x b t :
  x <> [] ->
  exists y, length y = length x /\
    std_copy m (length a + length x) (length a + length x + length b) (length a)
      (a ++ x ++ b ++ t) = Ok (if length b =? 0 then a ++ x ++ b ++ t else a ++ b ++ y ++ t).
Proof.
  intros Hx. unfold std_copy.
  destruct (Nat.ltb_spec (length a + length x + length b) (length a + length x)); [lia|].
  replace (length a + length x + length b - (length a + length x)) with (length b) by lia.
  destruct (length b =? 0) eqn:E0; [exists x; auto|].
  destruct (Nat.ltb_spec (length (a ++ x ++ b ++ t)) (length a + length b)) as [H1|H1];
    [rewrite !app_length in H1; lia|].
  destruct (Nat.ltb_spec (length (a ++ x ++ b ++ t)) (length a + length x + length b)) as [H2|H2];
    [rewrite !app_length in H2; lia|].
  cbn [orb].
  assert (0 < length x) by (destruct x; [congruence|simpl; lia]).
  destruct (copy_loop_left b a x t Hx) as (y & Hy & Ey).
  destruct (memmove_left b a x t) as (z & Hz & Ez).
  destruct m.
  - destruct (Nat.leb_spec (length a + length x) (length a)); [lia|].
    cbn [andb]. rewrite Ey. eauto.
  - rewrite Ez. eauto.
  - rewrite Ey. eauto.
Qed.

(** right shift by c with memmove *)
Lemma memmove_right a b t c : c <= length t ->
  memmove (length b) (length a) (length a + c) (a ++ b ++ t)
  = a ++ firstn c (b ++ t) ++ b ++ skipn c t.
Proof.
  intros Hc. unfold memmove.
  rewrite firstn_plus_app, skipn_len_app, firstn_len_app.
  rewrite <- app_assoc. do 3 f_equal.
  replace (length a + c + length b) with (length a + (length b + c)) by lia.
  rewrite skipn_plus_app, skipn_plus_app. reflexivity.
Qed.

(** right shift by c, front to back, when the destination does not overlap the source *)
Lemma copy_loop_right b : forall a u w t, length w = length b -> 
  copy_loop (length b) (length a) (length a + length b + length u) (a ++ b ++ u ++ w ++ t)
  = a ++ b ++ u ++ b ++ t.
Proof.
  induction b as [|b0 b IH]; intros a u w t Hw.
  - destruct w; [reflexivity|discriminate].
  - destruct w as [|w0 w]; [discriminate|]. simpl in Hw. simpl length. simpl copy_loop.
    assert (Hc : cell (a ++ b0 :: b ++ u ++ w0 :: w ++ t) (length a) = b0) by apply cell_app.
    rewrite Hc.
    replace (a ++ b0 :: b ++ u ++ w0 :: w ++ t) with ((a ++ b0 :: b ++ u) ++ w0 :: w ++ t)
      by (rewrite <- app_assoc; simpl; rewrite <- app_assoc; reflexivity).
    replace (length a + S (length b) + length u) with (length (a ++ b0 :: b ++ u))
      by (rewrite app_length; simpl; rewrite app_length; lia).
    rewrite upd_app.
    replace ((a ++ b0 :: b ++ u) ++ b0 :: w ++ t) with ((a ++ [b0]) ++ b ++ (u ++ [b0]) ++ w ++ t)
      by (rewrite <- !app_assoc; simpl; rewrite <- !app_assoc; reflexivity).
    replace (S (length a)) with (length (a ++ [b0])) by (rewrite app_length; simpl; lia).
    replace (S (length (a ++ b0 :: b ++ u))) with (length (a ++ [b0]) + length b + length (u ++ [b0]))
      by (rewrite !app_length; simpl; rewrite !app_length; lia).
    rewrite IH by lia. rewrite <- !app_assoc. simpl. rewrite <- ?app_assoc. reflexivity.
Qed.

(** an implementation is good for shifting n elements right by c *)
Definition shift_ok (m : copy_impl) (n c : nat) : Prop := m = Memmove \/ n <= c.

Lemma std_copy_right m a b t c :
  shift_ok m (length b) c -> c <= length t ->
  exists y, length y = c /\
    (forall i, i < length a + c -> cell (a ++ y ++ b ++ skipn c t) i = cell (a ++ b ++ t) i) /\
    std_copy m (length a) (length a + length b) (length a + c) (a ++ b ++ t)
    = Ok (a ++ y ++ b ++ skipn c t).
Proof.
  intros Hok Hc.
  exists (firstn c (b ++ t)).
  assert (Hy : length (firstn c (b ++ t)) = c) by (rewrite firstn_length, app_length; lia).
  split; [exact Hy|]. split.
  { intros i Hi. unfold cell. rewrite app_assoc, app_nth1 by (rewrite app_length; lia).
    rewrite <- firstn_plus_app. rewrite <- (firstn_skipn (length a + c) (a ++ b ++ t)) at 2.
    rewrite app_nth1; [reflexivity|]. rewrite firstn_length, !app_length. lia. }
  unfold std_copy.
  destruct (Nat.ltb_spec (length a + length b) (length a)); [lia|].
  replace (length a + length b - length a) with (length b) by lia.
  destruct (Nat.eqb_spec (length b) 0) as [E0|E0].
  { destruct b; [|discriminate]. simpl.
    rewrite firstn_skipn. reflexivity. }
  destruct (Nat.ltb_spec (length (a ++ b ++ t)) (length a + c + length b)) as [H1|H1];
    [rewrite !app_length in H1; lia|].
  destruct (Nat.ltb_spec (length (a ++ b ++ t)) (length a + length b)) as [H2|H2];
    [rewrite !app_length in H2; lia|].
  cbn [orb].
  assert (Hcl : length b <= c ->
     copy_loop (length b) (length a) (length a + c) (a ++ b ++ t)
     = a ++ firstn c (b ++ t) ++ b ++ skipn c t).
  { intros Hbc.
    pose (u := firstn (c - length b) t).
    pose (w := firstn (length b) (skipn (c - length b) t)).
    assert (Hu : length u = c - length b) by (unfold u; rewrite firstn_length; lia).
    assert (Hw : length w = length b)
      by (unfold w; rewrite firstn_length, skipn_length; lia).
    assert (Ht : t = u ++ w ++ skipn c t).
    { unfold u, w. rewrite <- (firstn_skipn (c - length b) t) at 1. f_equal.
      rewrite <- (firstn_skipn (length b) (skipn (c - length b) t)) at 1. f_equal.
      rewrite skipn_skipn. f_equal. lia. }
    rewrite Ht at 1.
    replace (length a + c) with (length a + length b + length u) by lia.
    rewrite copy_loop_right by exact Hw.
    f_equal. rewrite !app_assoc. f_equal. f_equal.
    rewrite firstn_app. rewrite firstn_all2 by lia. reflexivity. }
  destruct m.
  - destruct Hok as [|Hok]; [discriminate|].
    destruct (Nat.ltb_spec (length a + c) (length a + length b)); [lia|].
    rewrite andb_false_r. rewrite Hcl by lia. reflexivity.
  - rewrite memmove_right by lia. reflexivity.
  - destruct Hok as [|Hok]; [discriminate|]. rewrite Hcl by lia. reflexivity.
Qed.

(** ** insertion *)
Lemma fill_app a x (v : option T) w : 
  fill_n (length a) (length x) v (a ++ x ++ w) = Ok (a ++ repeat v (length x) ++ w).
Proof.
  unfold fill_n.
  destruct (Nat.ltb_spec (length (a ++ x ++ w)) (length a + length x)) as [H|H];
    [rewrite !app_length in H; lia|].
  rewrite firstn_len_app. rewrite skipn_plus_app, skipn_len_app. reflexivity.
Qed.
Lemma copy_in_app a x q w : length x = length q ->
  copy_in q (length a) (a ++ x ++ w) = Ok (a ++ map Some q ++ w).
Proof.
  intros E. unfold copy_in. rewrite <- E.
  destruct (Nat.ltb_spec (length (a ++ x ++ w)) (length a + length x)) as [H|H];
    [rewrite !app_length in H; lia|].
  rewrite firstn_len_app. rewrite skipn_plus_app, skipn_len_app. reflexivity.
Qed.

Lemma map_repeat_some (v : T) c : repeat (Some v) c = map Some (repeat v c).
Proof. induction c; simpl; congruence. Qed.

(** the value read through an argument after the right shift *)
Definition arg_value (q : list T) (pos c : nat) (a : arg T) : option T :=
  match a with
  | AVal v => Some v
  | ARef k => if k <? pos + c then nth_error q k else nth_error q (k - c)
  end.
Definition arg_valid (q : list T) (a : arg T) : Prop :=
  match a with AVal _ => True | ARef k => k < length q end.

Lemma deref_shift q1 q2 t c y (a : arg T) :
  c <= length t -> length y = c -> arg_valid (q1 ++ q2) a ->
  (forall i, i < length q1 + c ->
     cell (map Some q1 ++ y ++ map Some q2 ++ skipn c t) i
     = cell (map Some q1 ++ map Some q2 ++ t) i) ->
  deref a (map Some q1 ++ y ++ map Some q2 ++ skipn c t)
  = arg_value (q1 ++ q2) (length q1) c a.
Proof.
  intros Hc Hy Hv Hcell. destruct a as [v|k]; simpl; [reflexivity|].
  simpl in Hv. rewrite app_length in Hv.
  destruct (Nat.ltb_spec k (length q1 + c)).
  - rewrite Hcell by lia. rewrite app_assoc, <- map_app. apply cell_map.
    rewrite app_length. lia.
  - unfold cell.
    rewrite app_nth2 by (rewrite map_length; lia).
    rewrite app_nth2 by (rewrite map_length; lia).
    rewrite map_length, Hy.
    fold (cell (map Some q2 ++ skipn c t) (k - length q1 - c)).
    rewrite cell_map by lia.
    rewrite nth_error_app2 by lia. f_equal. lia.
Qed.

Lemma insert_gen dbg m N s q p c (a : arg T) v :
  rep N s q -> p <= length q -> length q + c <= N ->
  (Z.of_nat (length q) + Z.of_nat c < two64)%Z ->
  shift_ok m (length q - p) c -> arg_valid q a ->
  (c = 0 \/ arg_value q p c a = Some v) ->
  exists s', insert_fill dbg m s p (Z.of_nat c) a = Ok (s', p) /\
             rep N s' (firstn p q ++ repeat v c ++ skipn p q).
Proof.
  intros (t & Hs & Hl & HN) Hp Hc Hw Hok Hav Hval.
  unfold insert_fill, assert_then, validate, assert_then, capacity.
  rewrite Hs, Hl, app_length, map_length.
  rewrite Z.mod_small by lia.
  destruct (Z.leb_spec (Z.of_nat (length q) + Z.of_nat c) (Z.of_nat (length q + length t))); [|lia].
  destruct (Nat.leb_spec p (length q)); [|lia].
  cbn [negb]. rewrite !andb_false_r.
  destruct (Z.eqb_spec (Z.of_nat c) 0) as [E|E].
  { assert (c = 0) by lia. subst c. exists s. split; [reflexivity|].
    simpl. rewrite firstn_skipn. exists t. auto. }
  destruct Hval as [|Hval]; [lia|].
  destruct (Z.ltb_spec (Z.of_nat (length q + length t)) (Z.of_nat p + Z.of_nat c)); [lia|].
  rewrite Nat2Z.id.
  destruct (split_at q p Hp) as (q1 & q2 & Eq & Hq1 & -> & ->).
  assert (Hq2 : length q = length q1 + length q2) by (rewrite Eq, app_length; reflexivity).
  destruct (std_copy_right m (map Some q1) (map Some q2) t c) as (y & Hy & Hcell & E2).
  { rewrite map_length. replace (length q2) with (length q - p) by lia. exact Hok. }
  { lia. }
  rewrite !map_length in E2. 
  replace (map Some q ++ t) with (map Some q1 ++ map Some q2 ++ t)
    by (rewrite Eq, map_app, app_assoc; reflexivity).
  replace (length q) with (length q1 + length q2) by lia.
  rewrite <- Hq1, E2, bind_ok. rewrite map_length in Hcell.
  rewrite deref_shift; auto; try lia.
  2:{ rewrite <- Eq. exact Hav. }
  rewrite <- Eq, Hq1, Hval.
  pose proof (fill_app (map Some q1) y (Some v) (map Some q2 ++ skipn c t)) as F.
  rewrite map_length, Hy, Hq1 in F. rewrite F, bind_ok.
  eexists. split; [reflexivity|].
  exists (skipn c t). simpl.
  rewrite map_repeat_some, !map_app, <- !app_assoc.
  repeat split.
  - rewrite !app_length, repeat_length. lia.
  - rewrite !app_length, repeat_length, skipn_length. lia.
Qed.

Lemma write_app a w t v : write (a ++ w :: t) (length a) v = Ok (a ++ v :: t).
Proof.
  unfold write. destruct (Nat.ltb_spec (length a) (length (a ++ w :: t))) as [H|H].
  - rewrite upd_app. reflexivity.
  - rewrite app_length in H; simpl in H; lia.
Qed.

Lemma insert1_gen dbg m N s q p a v :
  rep N s q -> p <= length q -> length q < N ->
  shift_ok m (length q - p) 1 -> arg_valid q a -> arg_value q p 1 a = Some v ->
  exists s', insert1 dbg m s p a = Ok (s', p) /\
             rep N s' (firstn p q ++ [v] ++ skipn p q).
Proof.
  intros (t & Hs & Hl & HN) Hp Hc Hok Hav Hval.
  unfold insert1, assert_then, validate, assert_then, capacity.
  rewrite Hs, Hl, app_length, map_length.
  destruct (Nat.ltb_spec (length q) (length q + length t)); [|lia].
  destruct (Nat.leb_spec p (length q)); [|lia].
  cbn [negb]. rewrite !andb_false_r.
  destruct (split_at q p Hp) as (q1 & q2 & Eq & Hq1 & -> & ->).
  assert (Hq2 : length q = length q1 + length q2) by (rewrite Eq, app_length; reflexivity).
  destruct (std_copy_right m (map Some q1) (map Some q2) t 1) as (y & Hy & Hcell & E2).
  { rewrite map_length. replace (length q2) with (length q - p) by lia. exact Hok. }
  { lia. }
  rewrite !map_length in E2.
  replace (map Some q ++ t) with (map Some q1 ++ map Some q2 ++ t)
    by (rewrite Eq, map_app, app_assoc; reflexivity).
  replace (length q) with (length q1 + length q2) by lia.
  replace (S p) with (length q1 + 1) by lia.
  rewrite <- Hq1, E2, bind_ok. rewrite map_length in Hcell.
  rewrite deref_shift; auto; try lia.
  2:{ rewrite <- Eq. exact Hav. }
  rewrite <- Eq, Hq1, Hval.
  destruct y as [|y0 [|]]; try discriminate.
  pose proof (write_app (map Some q1) y0 (map Some q2 ++ skipn 1 t) (Some v)) as F.
  rewrite map_length, Hq1 in F. cbn [app]. rewrite F, bind_ok.
  eexists. split; [reflexivity|].
  exists (skipn 1 t). simpl store. simpl len.
  rewrite !map_app. cbn [map]. rewrite <- !app_assoc. cbn [app].
  repeat split.
  - rewrite !app_length. simpl. lia.
  - rewrite !app_length. cbn [length]. rewrite skipn_length. lia.
Qed.

Lemma insert_range_gen dbg ck m N s q p xs :
  rep N s q -> p <= length q -> length q + length xs <= N ->
  shift_ok m (length q - p) (length xs) ->
  exists s', insert_range dbg m ck s p xs = Ok (s', p) /\
             rep N s' (firstn p q ++ xs ++ skipn p q).
Proof.
  intros (t & Hs & Hl & HN) Hp Hc Hok.
  unfold insert_range, assert_then, capacity.
  rewrite Hs, Hl, app_length, map_length.
  destruct (Nat.leb_spec (length q + length xs) (length q + length t)); [|lia].
  destruct (Nat.leb_spec p (length q)); [|lia].
  cbn [negb]. rewrite !andb_false_r.
  destruct (Nat.eqb_spec (length xs) 0) as [E|E].
  { destruct xs; [|discriminate]. exists s. split; [reflexivity|].
    simpl. rewrite firstn_skipn. exists t. auto. }
  destruct (split_at q p Hp) as (q1 & q2 & Eq & Hq1 & -> & ->).
  assert (Hq2 : length q = length q1 + length q2) by (rewrite Eq, app_length; reflexivity).
  destruct (std_copy_right m (map Some q1) (map Some q2) t (length xs)) as (y & Hy & Hcell & E2).
  { rewrite map_length. replace (length q2) with (length q - p) by lia. exact Hok. }
  { lia. }
  rewrite !map_length in E2.
  replace (map Some q ++ t) with (map Some q1 ++ map Some q2 ++ t)
    by (rewrite Eq, map_app, app_assoc; reflexivity).
  replace (length q) with (length q1 + length q2) by lia.
  rewrite <- Hq1, E2, bind_ok.
  pose proof (copy_in_app (map Some q1) y xs (map Some q2 ++ skipn (length xs) t) Hy) as F.
  rewrite map_length in F. rewrite F, bind_ok.
  eexists. split; [reflexivity|].
  exists (skipn (length xs) t). simpl.
  rewrite !map_app, <- !app_assoc.
  repeat split.
  - rewrite !app_length. lia.
  - rewrite !app_length, skipn_length. lia.
Qed.

(** ** erasure: correct for every std::move implementation *)
Lemma erase_shift m q f e t N :
  f < e -> e <= length q -> length q + length t = N ->
  exists l t', (if e =? length q then Ok (map Some q ++ t)
                else std_copy m e (length q) f (map Some q ++ t)) = Ok l /\
     l = map Some (firstn f q ++ skipn e q) ++ t' /\
     length (firstn f q ++ skipn e q) + length t' = N.
Proof.
  intros Hfe He HN.
  destruct (split_at q f) as (q1 & r & Eq & Hq1 & Hf1 & Hf2); [lia|].
  destruct (split_at r (e - f)) as (x & b & Er & Hx & Hx1 & Hx2).
  { apply (f_equal (@length _)) in Eq. rewrite app_length in Eq. lia. }
  assert (Hse : skipn e q = b).
  { rewrite Eq, Er. replace e with (length q1 + (e - f)) by lia.
    rewrite skipn_plus_app, <- Hx, skipn_len_app. reflexivity. }
  rewrite Hf1, Hse.
  assert (Hlen : length q = length q1 + length x + length b)
    by (rewrite Eq, Er, !app_length; lia).
  assert (Em : map Some q ++ t = map Some q1 ++ map Some x ++ map Some b ++ t)
    by (rewrite Eq, Er, !map_app, <- !app_assoc; reflexivity).
  destruct (Nat.eqb_spec e (length q)) as [E|E].
  - assert (length b = 0) by lia. destruct b; [|discriminate].
    exists (map Some q ++ t), (map Some x ++ t).
    repeat split.
    + rewrite Em, app_nil_r. reflexivity.
    + rewrite app_nil_r, app_length, map_length. lia.
  - destruct (std_copy_left m (map Some q1) (map Some x) (map Some b) t) as (y & Hy & Ey).
    { destruct x; [simpl in Hx; lia|discriminate]. }
    rewrite !map_length in Ey. rewrite map_length in Hy.
    destruct (Nat.eqb_spec (length b) 0); [lia|].
    replace (length q) with (length q1 + length x + length b) by lia.
    replace e with (length q1 + length x) by lia.
    rewrite Em. replace f with (length q1) by lia. rewrite Ey.
    do 2 eexists. split; [reflexivity|]. split.
    + rewrite map_app, <- app_assoc. reflexivity.
    + rewrite !app_length. lia.
Qed.

Lemma erase1_gen dbg m N s q p :
  rep N s q -> p < length q ->
  exists s', erase1 dbg m s p = Ok (s', p) /\ rep N s' (firstn p q ++ skipn (S p) q).
Proof.
  intros (t & Hs & Hl & HN) Hp.
  destruct (erase_shift m q p (S p) t N) as (l & t' & E & El & Hn); try lia.
  unfold erase1, validate, assert_then. rewrite Hl.
  destruct (Nat.eqb_spec (length q) 0); [lia|].
  destruct (Nat.leb_spec p (length q)); [|lia].
  cbn [negb]. rewrite andb_false_r. rewrite Hs, E, bind_ok.
  eexists. split; [reflexivity|].
  exists t'. cbn [store len]. repeat split; auto.
  rewrite app_length, firstn_length, skipn_length. lia.
Qed.

Lemma erase_range_gen dbg m N s q f e :
  rep N s q -> f < e -> e <= length q ->
  exists s', erase_range dbg m s f e = Ok (s', f) /\ rep N s' (firstn f q ++ skipn e q).
Proof.
  intros (t & Hs & Hl & HN) Hf He.
  destruct (erase_shift m q f e t N) as (l & t' & E & El & Hn); try lia.
  unfold erase_range, validate, assert_then. rewrite Hl.
  destruct (Nat.eqb_spec (length q) 0); [lia|].
  destruct (Nat.eqb_spec f e); [lia|].
  destruct (Nat.leb_spec f (length q)); [|lia].
  destruct (Nat.leb_spec e (length q)); [|lia].
  cbn [negb]. rewrite !andb_false_r.
  destruct (Nat.ltb_spec e f); [lia|].
  rewrite Hs, E, bind_ok.
  eexists. split; [reflexivity|].
  exists t'. simpl. repeat split; auto.
  rewrite app_length, firstn_length, skipn_length. lia.
Qed.

(** ** the step simulation *)
Lemma rep_firstn N s q c : rep N s q -> c <= length q ->
  rep N (mkfv (store s) c) (firstn c q).
Proof.
  intros (t & Hs & Hl & HN) Hc.
  exists (map Some (skipn c q) ++ t). simpl. repeat split.
  - rewrite app_assoc, <- map_app, firstn_skipn. exact Hs.
  - rewrite firstn_length. lia.
  - rewrite firstn_length, app_length, map_length, skipn_length. lia.
Qed.

Lemma step_ok m N s q o q' dbg :
  m = Memmove -> rep N s q -> no_wrap N o -> spec_step N q o = SOk q' ->
  exists s', step dbg m s o = Ok s' /\ rep N s' q'.
Proof.
  intros Hm HR Hw Hsp.
  assert (HR0 := HR). destruct HR as (t & Hs & Hl & HN).
  assert (Hsh : forall n c, shift_ok m n c) by (intros; left; exact Hm).
  destruct o as [v| | |c v|xs|c v|p v|p c v|p xs|p xs|p|f e];
    simpl in Hsp; unfold accept in Hsp; simpl step.
  - (* push *)
    destruct (Nat.ltb_spec (length q) N) as [H|H]; [|discriminate]. injection Hsp as <-.
    unfold push_back, assert_then, capacity. rewrite Hs, Hl, app_length, map_length.
    destruct (Nat.ltb_spec (length q) (length q + length t)); [|lia].
    cbn [negb]. rewrite andb_false_r.
    destruct t as [|t0 t]; [simpl in HN; lia|].
    pose proof (write_app (map Some q) t0 t (Some v)) as F. rewrite map_length in F.
    simpl deref. rewrite F, bind_ok. eexists. split; [reflexivity|].
    exists t. simpl. rewrite map_app, <- app_assoc, app_length. simpl in *. repeat split; lia.
  - (* pop *)
    injection Hsp as <-. unfold pop_back. rewrite Hl.
    destruct (Nat.eqb_spec (length q) 0) as [H|H].
    + exists s. split; [reflexivity|]. destruct q; [exact HR0|discriminate].
    + eexists. split; [reflexivity|].
      destruct (exists_last (l:=q)) as (q0 & x & Eq); [destruct q; simpl in H; congruence|].
      assert (Hr : removelast q = firstn (length q - 1) q).
      { rewrite Eq, removelast_last, app_length. simpl.
        replace (length q0 + 1 - 1) with (length q0) by lia.
        rewrite firstn_len_app. reflexivity. }
      rewrite Hr. apply rep_firstn; [exact HR0|lia].
  - injection Hsp as <-. eexists. split; [reflexivity|].
    apply (rep_firstn N s q 0 HR0). lia.
  - (* assign fill *)
    destruct (Nat.leb_spec c N) as [H|H]; [|discriminate]. injection Hsp as <-.
    unfold assign_fill, assert_then, capacity.
    assert (HcN : length (store s) = N) by (rewrite Hs, app_length, map_length; lia).
    rewrite HcN. destruct (Nat.leb_spec c N); [|lia]. cbn [negb]. rewrite andb_false_r.
    unfold fill_n. rewrite HcN. destruct (Nat.ltb_spec N (0 + c)); [lia|].
    rewrite bind_ok. eexists. split; [reflexivity|].
    exists (skipn c (store s)). simpl. rewrite map_repeat_some, repeat_length, skipn_length.
    repeat split; lia.
  - destruct (Nat.leb_spec (length xs) N) as [H|H]; [|discriminate]. injection Hsp as <-.
    unfold assign_range, assert_then, capacity.
    assert (HcN : length (store s) = N) by (rewrite Hs, app_length, map_length; lia).
    rewrite HcN. destruct (Nat.leb_spec (length xs) N); [|lia]. cbn [negb]. rewrite andb_false_r.
    unfold copy_in. rewrite HcN. destruct (Nat.ltb_spec N (0 + length xs)); [lia|].
    rewrite bind_ok. eexists. split; [reflexivity|].
    exists (skipn (length xs) (store s)). simpl. rewrite skipn_length.
    repeat split; lia.
  - (* resize *)
    destruct (Nat.leb_spec c N) as [H|H]; [|discriminate]. injection Hsp as <-.
    unfold resize_val, assert_then, capacity.
    assert (HcN : length (store s) = N) by (rewrite Hs, app_length, map_length; lia).
    rewrite HcN. destruct (Nat.leb_spec c N); [|lia]. cbn [negb]. rewrite andb_false_r.
    rewrite Hl, Hs. unfold fill_n.
    destruct (Nat.ltb_spec (length (map Some q ++ t)) (length q + (c - length q))) as [H1|H1];
      [rewrite app_length, map_length in H1; lia|].
    rewrite bind_ok. eexists. split; [reflexivity|].
    destruct (Nat.le_gt_cases c (length q)) as [Hle|Hgt].
    + replace (c - length q) with 0 by lia. cbn [repeat]. rewrite Nat.add_0_r.
      rewrite app_nil_l, app_nil_r, firstn_skipn, <- Hs. apply rep_firstn; assumption.
    + rewrite (firstn_all2 q) by lia.
      assert (E1 : firstn (length q) (map Some q ++ t) = map Some q)
        by (rewrite <- (map_length Some q) at 1; apply firstn_len_app).
      assert (E2 : skipn (length q + (c - length q)) (map Some q ++ t) = skipn (c - length q) t)
        by (rewrite <- (map_length Some q) at 1; apply skipn_plus_app).
      rewrite E1, E2, map_repeat_some.
      exists (skipn (c - length q) t). simpl.
      rewrite map_app, <- app_assoc, app_length, repeat_length, skipn_length. repeat split; lia.
  - (* insert *)
    destruct (Nat.ltb_spec (length q) N); [|discriminate].
    destruct (Nat.leb_spec p (length q)); [|discriminate]. injection Hsp as <-.
    destruct (insert1_gen dbg m N s q p (AVal v) v) as (s' & E & R); auto; try exact I.
    exists s'. rewrite E. split; [reflexivity|exact R].
  - destruct (Nat.leb_spec (length q + c) N); [|discriminate].
    destruct (Nat.leb_spec p (length q)); [|discriminate]. injection Hsp as <-.
    simpl in Hw.
    destruct (insert_gen dbg m N s q p c (AVal v) v) as (s' & E & R); auto; try exact I; try lia.
    exists s'. rewrite E. split; [reflexivity|exact R].
  - destruct (Nat.leb_spec (length q + length xs) N); [|discriminate].
    destruct (Nat.leb_spec p (length q)); [|discriminate]. injection Hsp as <-.
    destruct (insert_range_gen dbg true m N s q p xs) as (s' & E & R); auto.
    exists s'. rewrite E. split; [reflexivity|exact R].
  - destruct (Nat.leb_spec (length q + length xs) N); [|discriminate].
    destruct (Nat.leb_spec p (length q)); [|discriminate]. injection Hsp as <-.
    destruct (insert_range_gen dbg false m N s q p xs) as (s' & E & R); auto.
    exists s'. rewrite E. split; [reflexivity|exact R].
  - destruct (Nat.ltb_spec p (length q)).
    + injection Hsp as <-. destruct (erase1_gen dbg m N s q p HR0) as (s' & E & R); auto.
      exists s'. rewrite E. split; [reflexivity|exact R].
    + destruct (Nat.eqb_spec (length q) 0) as [E|E]; [|discriminate]. injection Hsp as <-.
      exists s. unfold erase1. rewrite Hl, E. simpl. split; [reflexivity|].
      destruct q; [exact HR0|discriminate].
  - destruct (Nat.leb_spec f e); [|discriminate].
    destruct (Nat.leb_spec e (length q)); [|discriminate]. injection Hsp as <-.
    destruct (Nat.eq_dec f e) as [->|Hne].
    + exists s. unfold erase_range. rewrite Hl, Nat.eqb_refl.
      unfold seq_erase. rewrite firstn_skipn.
      destruct (length q =? 0); simpl; auto.
    + destruct (erase_range_gen dbg m N s q f e HR0) as (s' & E & R); auto; [lia|].
      exists s'. rewrite E. split; [reflexivity|exact R].
Qed.

Lemma step_reject m N s q o :
  rep N s q -> no_wrap N o -> spec_step N q o = SReject -> step true m s o = AssertFail.
Proof.
  intros HR Hw Hsp. destruct HR as (t & Hs & Hl & HN).
  assert (HcN : length (store s) = N) by (rewrite Hs, app_length, map_length; lia).
  destruct o as [v| | |c v|xs|c v|p v|p c v|p xs|p xs|p|f e];
    simpl in Hsp; unfold accept in Hsp; simpl step;
    try discriminate.
  - destruct (Nat.ltb_spec (length q) N) as [H|H]; [discriminate|].
    unfold push_back, assert_then, capacity. rewrite HcN, Hl.
    destruct (Nat.ltb_spec (length q) N); [lia|]. reflexivity.
  - destruct (Nat.leb_spec c N) as [H|H]; [discriminate|].
    unfold assign_fill, assert_then, capacity. rewrite HcN.
    destruct (Nat.leb_spec c N); [lia|]. reflexivity.
  - destruct (Nat.leb_spec (length xs) N) as [H|H]; [discriminate|].
    unfold assign_range, assert_then, capacity. rewrite HcN.
    destruct (Nat.leb_spec (length xs) N); [lia|]. reflexivity.
  - destruct (Nat.leb_spec c N) as [H|H]; [discriminate|].
    unfold resize_val, assert_then, capacity. rewrite HcN.
    destruct (Nat.leb_spec c N); [lia|]. reflexivity.
  - unfold insert1, validate, assert_then, capacity. rewrite HcN, Hl.
    destruct (Nat.ltb_spec (length q) N); cbn [negb andb]; [|reflexivity].
    destruct (Nat.leb_spec p (length q)); cbn [negb andb]; [discriminate|reflexivity].
  - unfold insert_fill, validate, assert_then, capacity. rewrite HcN, Hl.
    simpl in Hw. rewrite Z.mod_small by lia.
    destruct (Nat.leb_spec (length q + c) N).
    + destruct (Nat.leb_spec p (length q)); [discriminate|].
      destruct (Z.leb_spec (Z.of_nat (length q) + Z.of_nat c) (Z.of_nat N)); [|lia].
      reflexivity.
    + destruct (Z.leb_spec (Z.of_nat (length q) + Z.of_nat c) (Z.of_nat N)); [lia|].
      reflexivity.
  - unfold insert_range, assert_then, capacity. rewrite HcN, Hl.
    destruct (Nat.leb_spec (length q + length xs) N); [|reflexivity].
    destruct (Nat.leb_spec p (length q)); [discriminate|reflexivity].
  - unfold insert_range, assert_then, capacity. rewrite HcN, Hl.
    destruct (Nat.leb_spec (length q + length xs) N); [|reflexivity].
    destruct (Nat.leb_spec p (length q)); discriminate.
  - destruct (Nat.ltb_spec p (length q)); [discriminate|].
    destruct (length q =? 0); discriminate.
  - destruct ((f <=? e) && (e <=? length q)); discriminate.
Qed.

Lemma run_refines N os : forall s q,
  rep N s q -> Forall (no_wrap N) os ->
  match spec_run N q os with
  | SOk q' => exists s', run true Memmove s os = Ok s' /\ rep N s' q'
  | SReject => run true Memmove s os = AssertFail
  | SUndefined => True
  end.
Proof.
  induction os as [|o os IH]; intros s q HR HF; simpl; [eauto|].
  inversion HF as [|? ? Ho Hos]; subst.
  destruct (spec_step N q o) as [q1| |] eqn:E; auto.
  - destruct (step_ok Memmove N s q o q1 true eq_refl HR Ho E) as (s1 & E1 & R1).
    rewrite E1, bind_ok. apply IH; assumption.
  - rewrite (step_reject Memmove N s q o HR Ho E). reflexivity.
Qed.

(** in a release build accepted histories behave the same *)
Lemma run_release N os : forall s q q',
  rep N s q -> Forall (no_wrap N) os -> spec_run N q os = SOk q' ->
  exists s', run false Memmove s os = Ok s' /\ rep N s' q'.
Proof.
  induction os as [|o os IH]; intros s q q' HR HF E; simpl in *.
  - injection E as <-. eauto.
  - inversion HF as [|? ? Ho Hos]; subst.
    destruct (spec_step N q o) as [q1| |] eqn:E1; try discriminate.
    destruct (step_ok Memmove N s q o q1 false eq_refl HR Ho E1) as (s1 & E2 & R1).
    rewrite E2, bind_ok. eapply IH; eauto.
Qed.

Lemma empty_rep N : rep N (@fv_empty T N) [].
Proof. exists (repeat None N). simpl. rewrite repeat_length. auto. Qed.

(** ** element access *)
Lemma at_spec N s q i : rep N s q ->
  at_ s i = match nth_error q i with Some v => Ok (Some v) | None => Throw end.
Proof.
  intros (t & Hs & Hl & HN). unfold at_, index, capacity. rewrite Hl.
  destruct (Nat.leb_spec (length q) i) as [H|H].
  - apply nth_error_None in H. rewrite H. reflexivity.
  - rewrite Hs, app_length, map_length.
    destruct (Nat.ltb_spec i (length q + length t)); [|lia].
    rewrite cell_map by lia.
    destruct (nth_error q i) eqn:E; [reflexivity|]. apply nth_error_None in E. lia.
Qed.

(** ** operator== *)
Lemma std_equal_prefix (eqb : T -> T -> bool) q1 q2 t :
  length q1 <= length q2 ->
  std_equal eqb (map Some q1) (map Some q2 ++ t)
  = Ok (forallb (fun p => eqb (fst p) (snd p)) (combine q1 q2)).
Proof.
  revert q2; induction q1 as [|x q1 IH]; intros [|y q2] H; simpl in *; try lia; try reflexivity.
  destruct (eqb x y); simpl; [apply IH; lia|reflexivity].
Qed.

Lemma rep_contents N s q : rep N s q -> contents s = map Some q.
Proof. intros H. apply shows_rep in H. apply H. Qed.

Lemma fv_eq_prefix (eqb : T -> T -> bool) N s1 s2 q1 q2 :
  (forall x0 y0 : T, eqb x0 y0 = true <-> x0 = y0) ->
  rep N s1 q1 -> rep N s2 q2 -> length q1 <= length q2 ->
  exists b, fv_eq eqb s1 s2 = Ok b /\ (b = true <-> firstn (length q1) q2 = q1).
Proof.
  intros He R1 R2 Hl. unfold fv_eq. rewrite (rep_contents _ _ _ R1).
  destruct R2 as (t & Hs & _ & _). rewrite Hs, std_equal_prefix by exact Hl.
  eexists; split; [reflexivity|].
  clear R1 Hs t. revert q2 Hl; induction q1 as [|x q1 IH]; intros [|y q2] Hl; simpl in *;
    try lia; try tauto.
  rewrite andb_true_iff, He, IH by lia. split; [intros [-> ->]; reflexivity|].
  intros E; injection E; intros; subst; auto.
Qed.

(** ** front-to-back copying smears *)
Lemma copy_loop_smear (b0 : option T) b : forall a (t0 : option T) t,
  copy_loop (S (length b)) (length a) (S (length a)) (a ++ b0 :: b ++ t0 :: t)
  = a ++ b0 :: repeat b0 (S (length b)) ++ t.
Proof.
  induction b as [|b1 b IH]; intros a t0 t.
  - simpl. unfold cell. rewrite app_nth2, Nat.sub_diag by lia. simpl.
    replace (a ++ b0 :: t0 :: t) with ((a ++ [b0]) ++ t0 :: t) by (rewrite <- app_assoc; reflexivity).
    replace (S (length a)) with (length (a ++ [b0])) by (rewrite app_length; simpl; lia).
    rewrite upd_app, <- app_assoc. reflexivity.
  - change (length (b1 :: b)) with (S (length b)).
    remember (S (length b)) as n. simpl copy_loop.
    replace (cell (a ++ b0 :: b1 :: b ++ t0 :: t) (length a)) with b0
      by (symmetry; apply cell_app).
    replace (a ++ b0 :: b1 :: b ++ t0 :: t) with ((a ++ [b0]) ++ b1 :: b ++ t0 :: t)
      by (rewrite <- app_assoc; reflexivity).
    replace (S (length a)) with (length (a ++ [b0])) by (rewrite app_length; simpl; lia).
    rewrite upd_app. subst n. rewrite IH. rewrite <- app_assoc. reflexivity.
Qed.

Lemma insert1_smear dbg N s q p v w :
  rep N s q -> p < length q -> length q < N -> nth_error q p = Some w ->
  exists s', insert1 dbg ElementLoop s p (AVal v) = Ok (s', p) /\
             rep N s' (firstn p q ++ [v] ++ repeat w (length q - p)).
Proof.
  intros (t & Hs & Hl & HN) Hp Hc Hw.
  unfold insert1, assert_then, validate, assert_then, capacity.
  rewrite Hs, Hl, app_length, map_length.
  destruct (Nat.ltb_spec (length q) (length q + length t)); [|lia].
  destruct (Nat.leb_spec p (length q)); [|lia].
  cbn [negb]. rewrite !andb_false_r.
  destruct (split_at q p) as (q1 & q2 & Eq & Hq1 & Ef & Es); [lia|].
  rewrite Ef.
  destruct q2 as [|w' q2]; [rewrite Eq, app_nil_r in Hp; lia|].
  assert (w' = w).
  { rewrite Eq, nth_error_app2, Hq1, Nat.sub_diag in Hw by lia. simpl in Hw. congruence. }
  subst w'.
  destruct t as [|t0 t]; [simpl in *; lia|].
  assert (Hq : length q = length q1 + S (length q2)) by (rewrite Eq, app_length; reflexivity).
  unfold std_copy.
  destruct (Nat.ltb_spec (length q) p); [lia|].
  destruct (Nat.eqb_spec (length q - p) 0); [lia|].
  rewrite app_length, map_length.
  destruct (Nat.ltb_spec (length q + length (t0 :: t)) (S p + (length q - p))); [simpl in *; lia|].
  destruct (Nat.ltb_spec (length q + length (t0 :: t)) (length q)); [lia|].
  cbn [orb]. rewrite bind_ok.
  replace (length q - p) with (S (length q2)) by lia.
  pose proof (copy_loop_smear (Some w) (map Some q2) (map Some q1) t0 t) as S1.
  rewrite !map_length in S1.
  rewrite Eq, map_app, <- app_assoc. cbn [map app].
  rewrite <- Hq1, S1.
  pose proof (write_app (map Some q1) (Some w) (repeat (Some w) (S (length q2)) ++ t) (Some v)) as F.
  rewrite map_length in F. simpl deref. rewrite F, bind_ok.
  eexists. split; [reflexivity|].
  exists t. simpl store; simpl len.
  rewrite !map_app. rewrite map_repeat_some. rewrite <- !app_assoc. cbn [map app].
  repeat split.
  - rewrite !app_length. simpl. rewrite repeat_length. lia.
  - rewrite !app_length. cbn [length]. rewrite repeat_length. simpl in *. lia.
Qed.

Lemma insert1_strict_ub dbg N s q p v :
  rep N s q -> S p < length q -> length q < N ->
  insert1 dbg Strict s p (AVal v) = UB.
Proof.
  intros (t & Hs & Hl & HN) Hp Hc.
  unfold insert1, assert_then, validate, assert_then, capacity.
  rewrite Hs, Hl, app_length, map_length.
  destruct (Nat.ltb_spec (length q) (length q + length t)); [|lia].
  destruct (Nat.leb_spec p (length q)); [|lia].
  cbn [negb]. rewrite !andb_false_r.
  unfold std_copy.
  destruct (Nat.ltb_spec (length q) p); [lia|].
  destruct (Nat.eqb_spec (length q - p) 0); [lia|].
  rewrite app_length, map_length.
  destruct (Nat.ltb_spec (length q + length t) (S p + (length q - p))); [lia|].
  destruct (Nat.ltb_spec (length q + length t) (length q)); [lia|].
  cbn [orb].
  destruct (Nat.leb_spec p (S p)); [|lia].
  destruct (Nat.ltb_spec (S p) (length q)); [|lia]. reflexivity.
Qed.

(** ** resize without a value *)
Lemma resize_shrink_grow N s q c : rep N s q -> c <= length q ->
  exists s1 s2, resize true s c = Ok s1 /\ shows N s1 (firstn c q) /\
                resize true s1 (length q) = Ok s2 /\ shows N s2 q.
Proof.
  intros HR Hc. destruct HR as (t & Hs & Hl & HN).
  assert (HcN : length (store s) = N) by (rewrite Hs, app_length, map_length; lia).
  exists (mkfv (store s) c), (mkfv (store s) (length q)).
  unfold resize, assert_then, capacity. cbn [store]. rewrite HcN.
  destruct (Nat.leb_spec c N); [|lia]. destruct (Nat.leb_spec (length q) N); [|lia].
  repeat split; cbn [store len]; auto; try lia.
  - apply (shows_rep N (mkfv (store s) c)). apply rep_firstn; [|lia]. exists t. auto.
  - apply (shows_rep N (mkfv (store s) (length q))).
    replace q with (firstn (length q) q) at 2 by apply firstn_all.
    apply rep_firstn; [|lia]. exists t; auto.
Qed.
End Lemmas.
