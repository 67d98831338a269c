(** Properties C102-C106: timers, adaptor and helpers of the Catalyst interface. *)
From Coq Require Import List Arith ZArith Ascii Bool Lia.
From Verif Require Import Outcome ListExtra StringModel StringProofs FloatModel CatalystModel CatalystProofs.
Import ListNotations.

Lemma str_eq_spec a b : reflect (a = b) (str_eq a b).
Proof. unfold str_eq. destruct (list_eq_dec ascii_dec a b); constructor; assumption. Qed.
Lemma str_eq_refl a : str_eq a a = true.
Proof. destruct (str_eq_spec a a); congruence. Qed.

(** ** C102: getDuration *)
Definition is_start (n : str) (o : top) : Prop := exists t, o = Start n t.
Definition is_stop (n : str) (o : top) : Prop := exists t, o = Stop n t.
Lemma upd_eq m n v : upd m n v n = v.
Proof. unfold upd. rewrite str_eq_refl. reflexivity. Qed.
Lemma upd_ne m n v x : x <> n -> upd m n v x = m x.
Proof. intros H. unfold upd. destruct (str_eq_spec x n); congruence. Qed.
Lemma insert_ne m n v x : x <> n -> insert m n v x = m x.
Proof. intros H. unfold insert. destruct (m n); [reflexivity|apply upd_ne, H]. Qed.
Definition name_of (o : top) : str := match o with Start n _ | Stop n _ => n end.
(* a call about another name changes nothing about n *)
Lemma run_other s o n : name_of o <> n -> timers (run s o) n = timers s n /\ durations (run s o) n = durations s n.
Proof.
  intros H. assert (H' : n <> name_of o) by congruence. destruct o as [k t|k t]; simpl in *; unfold start, stop; destruct (timers s k); simpl.
  all: rewrite ?upd_ne, ?insert_ne by assumption; split; reflexivity.
Qed.
(* durations exist only for timers that exist *)
Definition ok (s : timer) : Prop := forall n, timers s n = None -> durations s n = None.
Lemma ok_run s o : ok s -> ok (run s o).
Proof.
  intros K n H. destruct (str_eq_spec (name_of o) n) as [E|E].
  - subst n. destruct o as [k t|k t]; simpl in *; unfold start, stop in *; destruct (timers s k) eqn:T; simpl in *.
    + rewrite upd_eq in H. discriminate.
    + unfold insert in H. rewrite T, upd_eq in H. discriminate.
    + congruence.
    + apply K, T.
  - destruct (run_other s o n E) as [A B]. rewrite A in H. rewrite B. apply K, H.
Qed.
Lemma ok_runs l : ok (fold_left run l timer0).
Proof. assert (G : forall s, ok s -> ok (fold_left run l s)) by (induction l as [|o l IH]; intros s K; simpl; [exact K|apply IH, ok_run, K]). apply G. intros n _. reflexivity. Qed.
Lemma started s n t : ok s -> timers (run s (Start n t)) n = Some t /\ durations (run s (Start n t)) n = None.
Proof.
  intros K. simpl. unfold start. destruct (timers s n) eqn:E; simpl.
  - rewrite !upd_eq. split; reflexivity.
  - unfold insert. rewrite E, upd_eq. split; [reflexivity|apply K, E].
Qed.
Lemma keeps l : forall s n t, ok s -> timers s n = Some t -> durations s n = None -> (forall o, In o l -> ~ is_start n o /\ ~ is_stop n o) ->
  timers (fold_left run l s) n = Some t /\ durations (fold_left run l s) n = None.
Proof.
  induction l as [|o l IH]; intros s n t K T D H; simpl; [split; assumption|].
  assert (N : name_of o <> n) by (destruct (H o (or_introl eq_refl)) as [H1 H2]; intros <-; destruct o; [apply H1|apply H2]; eexists; reflexivity).
  destruct (run_other s o n N) as [A B]. apply IH; [apply ok_run, K|congruence|congruence|intros; apply H; right; assumption].
Qed.
Lemma frozen l : forall s n t d, timers s n = Some t -> durations s n = Some d -> (forall o, In o l -> ~ is_start n o) ->
  durations (fold_left run l s) n = Some d.
Proof.
  induction l as [|o l IH]; intros s n t d T D H; simpl; [exact D|].
  destruct (str_eq_spec (name_of o) n) as [E|E].
  - destruct o as [k u|k u]; simpl in E; subst k; [exfalso; apply (H _ (or_introl eq_refl)); eexists; reflexivity|].
    apply (IH _ _ t); [| |intros; apply H; right; assumption]; simpl; unfold stop; rewrite T; simpl; [exact T|]. unfold insert. rewrite D. exact D.
  - destruct (run_other s o n E) as [A B]. apply (IH _ _ t); [congruence|congruence|intros; apply H; right; assumption].
Qed.
Lemma stopped s n t u : timers s n = Some t -> durations s n = None ->
  timers (run s (Stop n u)) n = Some t /\ durations (run s (Stop n u)) n = Some (u - t)%Z.
Proof. intros T D. cbn [run]. unfold stop. rewrite T. cbn [fst timers durations]. split; [exact T|]. unfold insert. rewrite D, upd_eq. reflexivity. Qed.
(** after the last start of a timer, its duration is up to the FIRST stop that follows *)
Theorem C102_first_stop : forall n t0 t1 h1 h2 h3, (forall o, In o h2 -> ~ is_start n o /\ ~ is_stop n o) -> (forall o, In o h3 -> ~ is_start n o) ->
  get_duration n (fold_left run (h1 ++ Start n t0 :: h2 ++ Stop n t1 :: h3) timer0) = Some (t1 - t0)%Z.
Proof.
  intros n t0 t1 h1 h2 h3 H2 H3. rewrite fold_left_app. cbn [fold_left]. rewrite fold_left_app. cbn [fold_left].
  pose proof (ok_runs h1) as K. set (s := fold_left run h1 timer0) in *. clearbody s. destruct (started s n t0 K) as [T D].
  destruct (keeps h2 _ _ _ (ok_run _ _ K) T D H2) as [T2 D2].
  destruct (stopped _ _ _ t1 T2 D2) as [T3 D3]. exact (frozen h3 _ _ _ _ T3 D3 H3).
Qed.
(** it is unknown while the timer runs, and for a timer never started *)
Theorem C102_running : forall n t0 h1 h2, (forall o, In o h2 -> ~ is_start n o /\ ~ is_stop n o) ->
  get_duration n (fold_left run (h1 ++ Start n t0 :: h2) timer0) = None.
Proof.
  intros n t0 h1 h2 H2. rewrite fold_left_app. cbn [fold_left]. pose proof (ok_runs h1) as K. destruct (started _ n t0 K) as [T D].
  exact (proj2 (keeps h2 _ _ _ (ok_run _ _ K) T D H2)).
Qed.
Theorem C102_never : forall n h, (forall o, In o h -> ~ is_start n o) -> get_duration n (fold_left run h timer0) = None.
Proof.
  intros n h H. assert (G : forall s, ok s -> timers s n = None -> timers (fold_left run h s) n = None /\ ok (fold_left run h s)).
  { induction h as [|o h IH]; intros s K T; simpl; [split; assumption|]. apply IH; [intros; apply H; right; assumption|apply ok_run, K|].
    destruct (str_eq_spec (name_of o) n) as [E|E]; [|rewrite (proj1 (run_other s o n E)); exact T].
    destruct o as [k t|k t]; simpl in E; subst k; [exfalso; apply (H _ (or_introl eq_refl)); eexists; reflexivity|]. simpl. unfold stop. rewrite T. exact T. }
  destruct (G timer0) as [A B]; [intros k _; reflexivity|reflexivity|]. apply B, A.
Qed.
(** a later stop is not recorded *)
Theorem C102_last_stop_refuted : forall n t0 t1 t2, get_duration n (fold_left run [Start n t0; Stop n t1; Stop n t2] timer0) = Some (t1 - t0)%Z.
Proof. intros. apply (C102_first_stop n t0 t1 [] [] [Stop n t2]); [intros o []|intros o [<-|[]] [t E]; discriminate]. Qed.
Print Assumptions C102_first_stop.
Print Assumptions C102_running.
Print Assumptions C102_never.
Print Assumptions C102_last_stop_refuted.
Definition nm (c : nat) : str := [ascii_of_nat c].
Example C102_example : let h := [Start (nm 65) 5; Start (nm 66) 6; Stop (nm 65) 9; Stop (nm 66) 20; Stop (nm 65) 30; Start (nm 66) 40]%Z in
  get_duration (nm 65) (fold_left run h timer0) = Some 4%Z /\ get_duration (nm 66) (fold_left run h timer0) = None.
Proof. split; reflexivity. Qed.

(** ** C103: the adaptor runs pipelines when they ask, and always on the last step *)
Theorem C103_process : forall wants last, adaptor_process wants last = wants last.
Proof. intros wants []; reflexivity. Qed.
Theorem C103_process_catalyst_refuted : forall wants, wants false = false -> wants true = true -> process_catalyst wants false = true /\ adaptor_process wants false = false.
Proof. intros wants H0 H1. unfold process_catalyst, adaptor_process. split; assumption. Qed.
Theorem C103_finalize_refuted : forall P (p : option P), finalize_adaptor p = UB.
Proof. reflexivity. Qed.
Print Assumptions C103_process.
Print Assumptions C103_process_catalyst_refuted.
Print Assumptions C103_finalize_refuted.
Example C103_example : process_catalyst (fun forced => forced) false = true /\ adaptor_process (fun forced => forced) false = false.
Proof. split; reflexivity. Qed.

(** ** C104: scripts are looked up in the directory of the input file *)
Theorem C104_directory_partial : forall dir base l, ~ In sep base -> get_scripts (dir ++ sep :: base) (Ok (Some l)) = Ok (map (fun f => dir ++ sep :: f) l).
Proof.
  intros dir base l H. unfold get_scripts. destruct (dir ++ sep :: base) eqn:E; [destruct dir; discriminate|]. rewrite <- E.
  rewrite rfind_last by exact H. rewrite substr_before. reflexivity.
Qed.
(** a file name without a directory is itself taken for the directory *)
Theorem C104_bare_refuted : forall base l, base <> [] -> ~ In sep base -> get_scripts base (Ok (Some l)) = Ok (map (fun f => base ++ sep :: f) l).
Proof.
  intros base l N H. unfold get_scripts. destruct base as [|c b] eqn:E; [congruence|]. rewrite <- E in *.
  rewrite (proj2 (rfind_none base sep) H). unfold str_substr. rewrite (proj2 (Nat.ltb_ge _ _)) by lia. cbn [bind skipn]. rewrite firstn_all. reflexivity.
Qed.
(** no input file or no list: no scripts *)
Theorem C104_none : (forall j, get_scripts [] j = Ok []) /\ forall input, get_scripts input (Ok None) = Ok [].
Proof. split; [reflexivity|]. intros [|c r]; [reflexivity|]. unfold get_scripts, str_substr. cbn [length Nat.ltb Nat.leb bind]. reflexivity. Qed.
Print Assumptions C104_directory_partial.
Print Assumptions C104_bare_refuted.
Print Assumptions C104_none.
Example C104_example : let d := nm 100 in get_scripts (d ++ sep :: nm 105) (Ok (Some [nm 115])) = Ok [d ++ sep :: nm 115]
  /\ get_scripts (nm 105) (Ok (Some [nm 115])) = Ok [nm 105 ++ sep :: nm 115].
Proof. split; reflexivity. Qed.

(** ** C105: replaceInString replaces the first occurrence *)
Theorem C105_first_partial : forall s pat to i, occurs_at pat s i -> (forall j, j < i -> ~ occurs_at pat s j) ->
  replace_in_string s pat to = Ok (firstn i s ++ to ++ skipn (i + length pat) s).
Proof.
  intros s pat to i O M. unfold replace_in_string, str_find. cbn [Nat.ltb Nat.leb skipn]. replace (length s <? 0) with false by (symmetry; apply Nat.ltb_ge; lia).
  destruct (find0 s pat) as [k|] eqn:E; cbn [option_map Nat.add].
  - destruct (find0_some s pat k E) as (a & b & Es & La & Mk). assert (Ok_ : occurs_at pat s k) by (exists a, b; split; assumption). assert (k = i) as ->; [|reflexivity].
    destruct (Nat.lt_trichotomy k i) as [L|[L|L]]; [exfalso; exact (M k L Ok_)|exact L|exfalso; exact (Mk i L O)].
  - exfalso. exact (find0_none s pat E i O).
Qed.
(** without an occurrence it throws instead of returning the text *)
Theorem C105_absent_refuted : forall s pat to, (forall i, ~ occurs_at pat s i) -> replace_in_string s pat to = Throw.
Proof.
  intros s pat to H. unfold replace_in_string, str_find. destruct (length s <? 0); [reflexivity|]. cbn [skipn].
  destruct (find0 s pat) as [k|] eqn:E; [|reflexivity]. destruct (find0_some s pat k E) as (a & b & Es & La & _). exfalso. apply (H k). exists a, b. split; assumption.
Qed.
Print Assumptions C105_first_partial.
Print Assumptions C105_absent_refuted.
Example C105_example : let a := ascii_of_nat 97 in let b := ascii_of_nat 98 in replace_in_string [a; b; a; b] [b] [a; a] = Ok [a; a; a; a; b]
  /\ replace_in_string [a] [b] [a] = Throw /\ occurs_at [b] [a; b; a; b] 1.
Proof. split; [reflexivity|]. split; [reflexivity|]. exists [ascii_of_nat 97], [ascii_of_nat 97; ascii_of_nat 98]. split; reflexivity. Qed.

(** ** C106: comparisons of files and images *)
Lemma std_equal_iff a : forall b, length a = length b -> (std_equal a b = true <-> a = b).
Proof.
  induction a as [|x a IH]; intros [|y b] H; try discriminate; simpl; [split; reflexivity|]. injection H as H.
  rewrite andb_true_iff, (IH b H), Ascii.eqb_eq. split; [intros [-> ->]; reflexivity|intros E; injection E; auto].
Qed.
Theorem C106_files : forall a b, compare_files a b = true <-> exists x, a = Some x /\ b = Some x.
Proof.
  intros [x|] [y|]; simpl; try (split; [discriminate|intros (z & A & B); discriminate]).
  destruct (Nat.eqb_spec (length x) (length y)) as [L|L]; simpl.
  - rewrite (std_equal_iff x y L). split; [intros ->; eauto|intros (z & A & B); congruence].
  - split; [discriminate|]. intros (z & A & B). injection A as ->. injection B as ->. congruence.
Qed.
(** bytes that differ, counted at positions *)
Definition differing (a b : list ascii) : nat := length (filter (fun p => negb (Ascii.eqb (fst p) (snd p))) (combine a b)).
Lemma diff_count_spec a : forall b, diff_count a b = differing a b.
Proof.
  unfold differing. induction a as [|x a IH]; intros [|y b]; simpl; try reflexivity. rewrite IH. destruct (Ascii.eqb x y); reflexivity.
Qed.
Lemma differing_le a b : differing a b <= length a.
Proof.
  unfold differing. revert b. induction a as [|x a IH]; intros [|y b]; simpl; try lia. specialize (IH b). destruct (negb _); simpl; lia.
Qed.
(** what imageCompare decides, whatever the size *)
Lemma image_compare_spec : forall a b, let size i := width i * height i * channels i in (forall x, a = Some x -> length (bytes x) = size x) -> (forall y, b = Some y -> length (bytes y) = size y) ->
  (image_compare a b = true <-> exists x y, a = Some x /\ b = Some y /\ width x = width y /\ height x = height y /\ channels x = channels y
     /\ too_different (Z.of_nat (differing (bytes x) (bytes y))) (Z.of_nat (size x)) = false).
Proof.
  intros [x|] [y|] size Hx Hy; cbn -[Nat.mul Nat.ltb Nat.eqb Z.of_nat too_different]; try (split; [discriminate|intros (u & v & A & B & _); discriminate]).
  specialize (Hx x eq_refl). specialize (Hy y eq_refl). unfold size in *.
  destruct (Nat.eqb_spec (width x) (width y)) as [W|W]; cbn [negb]; [|split; [discriminate|intros (u & v & A & B & C & _); congruence]].
  destruct (Nat.eqb_spec (height x) (height y)) as [Hh|Hh]; cbn [negb]; [|split; [discriminate|intros (u & v & A & B & _ & C & _); congruence]].
  destruct (Nat.eqb_spec (channels x) (channels y)) as [Ch|Ch]; cbn [negb]; [|split; [discriminate|intros (u & v & A & B & _ & _ & C & _); congruence]].
  replace (firstn (width x * height x * channels x) (bytes x)) with (bytes x) by (rewrite <- Hx, firstn_all; reflexivity).
  replace (firstn (width x * height x * channels x) (bytes y)) with (bytes y) by (rewrite W, Hh, Ch, <- Hy, firstn_all; reflexivity).
  rewrite diff_count_spec. destruct (too_different _ _) eqn:L.
  - split; [discriminate|]. intros (u & v & A & B & _ & _ & _ & D). injection A as <-. injection B as <-. congruence.
  - split; [|reflexivity]. intros _. exists x, y. repeat split; assumption.
Qed.
(** images of less than 2^24 bytes are similar when they load, have the same shape and at most one byte in fifty differs *)
Theorem C106_images : forall a b, let size i := width i * height i * channels i in (forall x, a = Some x -> length (bytes x) = size x) -> (forall y, b = Some y -> length (bytes y) = size y) ->
  (forall x, a = Some x -> (Z.of_nat (size x) < 2 ^ 24)%Z) ->
  (image_compare a b = true <-> exists x y, a = Some x /\ b = Some y /\ width x = width y /\ height x = height y /\ channels x = channels y
     /\ 50 * differing (bytes x) (bytes y) <= size x).
Proof.
  intros a b size Hx Hy Hs. rewrite (image_compare_spec a b Hx Hy).
  assert (T : forall x y, a = Some x -> too_different (Z.of_nat (differing (bytes x) (bytes y))) (Z.of_nat (size x)) = false <-> 50 * differing (bytes x) (bytes y) <= size x).
  { intros x y E. pose proof (differing_le (bytes x) (bytes y)) as L. rewrite (Hx x E) in L.
    pose proof (too_different_exact (Z.of_nat (differing (bytes x) (bytes y))) (Z.of_nat (size x)) ltac:(lia) (Hs x E)) as X.
    destruct (too_different _ _); split; intros H; try discriminate; try reflexivity.
    - exfalso. assert (Y : true = true) by reflexivity. apply X in Y. lia.
    - assert (Y : ~ (Z.of_nat (size x) < 50 * Z.of_nat (differing (bytes x) (bytes y)))%Z) by (intros Y; apply X in Y; discriminate). lia. }
  split; intros (x & y & E1 & E2 & W & H & C & D); exists x, y; repeat (split; [assumption|]); apply (T x y E1); exact D.
Qed.
(** a larger image: more than one byte in fifty differs, but the rounded share is not above 0.02 *)
Theorem C106_large_refuted : forall x y, Z.of_nat (width x) = 2401%Z -> Z.of_nat (height x) = 2433%Z -> channels x = 3 ->
  width y = width x -> height y = height x -> channels y = channels x ->
  length (bytes x) = width x * height x * channels x -> length (bytes y) = width y * height y * channels y ->
  Z.of_nat (differing (bytes x) (bytes y)) = 350498%Z ->
  image_compare (Some x) (Some y) = true /\ width x * height x * channels x < 50 * differing (bytes x) (bytes y).
Proof.
  intros x y W H C W' H' C' Lx Ly D.
  assert (Sz : Z.of_nat (width x * height x * channels x) = 17524899%Z) by (rewrite C; lia).
  split; [|lia]. apply (image_compare_spec (Some x) (Some y)); [intros u [= <-]; exact Lx|intros u [= <-]; exact Ly|].
  exists x, y. repeat (split; [congruence|]). rewrite Sz, D. vm_compute. reflexivity.
Qed.
Lemma differing_same l r : differing (l ++ r) (l ++ r) = 0.
Proof. induction (l ++ r) as [|x t IH]; [reflexivity|]. unfold differing in *. simpl. rewrite Ascii.eqb_refl. exact IH. Qed.
Lemma differing_repeat c d k r : c <> d -> differing (repeat c k ++ r) (repeat d k ++ r) = k.
Proof.
  intros N. induction k as [|k IH]; [apply (differing_same [] r)|]. unfold differing in *. simpl.
  destruct (Ascii.eqb_spec c d); [contradiction|]. cbn [negb length]. f_equal. exact IH.
Qed.
Example C106_large_ex : exists x y, Z.of_nat (width x) = 2401%Z /\ Z.of_nat (height x) = 2433%Z /\ channels x = 3 /\
  width y = width x /\ height y = height x /\ channels y = channels x /\
  length (bytes x) = width x * height x * channels x /\ length (bytes y) = width y * height y * channels y /\
  Z.of_nat (differing (bytes x) (bytes y)) = 350498%Z.
Proof.
  pose (w := Z.to_nat 2401). pose (h := Z.to_nat 2433). pose (k := Z.to_nat 350498). pose (m := Z.to_nat 17174401).
  assert (W : Z.of_nat w = 2401%Z) by (apply Z2Nat.id; lia). assert (H : Z.of_nat h = 2433%Z) by (apply Z2Nat.id; lia).
  assert (K : Z.of_nat k = 350498%Z) by (apply Z2Nat.id; lia). assert (M : Z.of_nat m = 17174401%Z) by (apply Z2Nat.id; lia).
  clearbody w h k m. pose (a := ascii_of_nat 48). pose (b := ascii_of_nat 49). assert (N : a <> b) by discriminate. clearbody a b.
  exists (mk_image w h 3 (repeat a k ++ repeat a m)), (mk_image w h 3 (repeat b k ++ repeat a m)). cbn [width height channels bytes].
  rewrite (differing_repeat a b k (repeat a m) N), !app_length, !repeat_length.
  assert (E : k + m = w * h * 3) by lia. repeat split; assumption.
Qed.
Print Assumptions C106_large_refuted.
Theorem C106_symmetric : forall a b, image_compare a b = image_compare b a.
Proof.
  assert (S : forall a b, diff_count a b = diff_count b a).
  { induction a as [|x a IH]; intros [|y b]; simpl; try reflexivity. rewrite IH. rewrite (Ascii.eqb_sym x y). reflexivity. }
  intros [x|] [y|]; try reflexivity. simpl. rewrite (Nat.eqb_sym (width y)), (Nat.eqb_sym (height y)), (Nat.eqb_sym (channels y)).
  destruct (Nat.eqb_spec (width x) (width y)) as [W|]; [|reflexivity]. destruct (Nat.eqb_spec (height x) (height y)) as [Hh|]; [|reflexivity].
  destruct (Nat.eqb_spec (channels x) (channels y)) as [C|]; [|reflexivity]. cbn [negb]. rewrite W, Hh, C, S. reflexivity.
Qed.
(** similarity is not transitive: three images of fifty bytes *)
Definition img (k : nat) : option image := Some (mk_image 50 1 1 (repeat (ascii_of_nat 49) k ++ repeat (ascii_of_nat 48) (50 - k))).
Theorem C106_not_transitive : image_compare (img 0) (img 1) = true /\ image_compare (img 1) (img 2) = true /\ image_compare (img 0) (img 2) = false.
Proof. repeat split; vm_compute; reflexivity. Qed.
(** images without pixels are similar *)
Example C106_empty : image_compare (Some (mk_image 0 0 3 [])) (Some (mk_image 0 0 3 [])) = true.
Proof. reflexivity. Qed.
Print Assumptions C106_files.
Print Assumptions C106_images.
Print Assumptions C106_symmetric.
Print Assumptions C106_not_transitive.
