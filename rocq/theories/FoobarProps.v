(** C177: the user-defined class of the atomics examples. *)
From Coq Require Import List ZArith Bool Lia Permutation.
From Verif Require Import Outcome AtomicsModel AtomicsProofs AtomicsRuns AtomicsProps AtomicsTypesModel AtomicsTypesProps AtomicsTestModel AtomicsTestProps FoobarModel.
Import ListNotations.
Local Open Scope Z_scope.

Definition byte (x : Z) : Prop := 0 <= x < 256.
Definition bytes (f : foo) : Prop := byte (fa f) /\ byte (fb f) /\ byte (fc f) /\ byte (fd f).
Lemma wrap_byte v : wrap uchar v = v mod 256.
Proof. unfold wrap, uchar, lo. cbn [signed wid bits]. rewrite Z.sub_0_r, Z.add_0_r. reflexivity. Qed.
Lemma byte_holds v : byte v <-> holds uchar v = true.
Proof. rewrite holds_spec. change (lo uchar) with 0. change (hi uchar) with 255. unfold byte. lia. Qed.

(** ** every operator works on each byte as on a single unsigned char, and is undefined when one of the four is *)
Theorem C177_each : forall o b f g, o <> Amin -> o <> Amax ->
  (foo_op o b f = Ok g <-> language uchar tint o (fa f) b = Ok (fa g) /\ language uchar tint o (fb f) b = Ok (fb g)
     /\ language uchar tint o (fc f) b = Ok (fc g) /\ language uchar tint o (fd f) b = Ok (fd g)).
Proof.
  intros o b f g N1 N2. assert (E : foo_op o b f = each (fun x => language uchar tint o x b) f) by (destruct o; congruence || reflexivity).
  rewrite E. unfold each, bind. destruct g as [a' b' c' d']. cbn [fa fb fc fd].
  destruct (language uchar tint o (fa f) b), (language uchar tint o (fb f) b), (language uchar tint o (fc f) b), (language uchar tint o (fd f) b);
    (split; [intros H; try discriminate H; injection H as <- <- <- <-; repeat split|intros (H1 & H2 & H3 & H4); congruence]).
Qed.
Print Assumptions C177_each.
(** a foo made from one number stays one: the variable is a single unsigned char four times *)
Theorem C177_uniform : forall o b v, o <> Amin -> o <> Amax -> byte v ->
  (forall r, language uchar tint o v b = Ok r -> foo_op o b (mk_foo v v v v) = Ok (mk_foo r r r r) /\ byte r) /\
  (language uchar tint o v b = UB -> foo_op o b (mk_foo v v v v) = UB).
Proof.
  intros o b v N1 N2 Hv. split.
  - intros r Hr. split; [apply C177_each; auto|]. apply byte_holds.
    destruct o; try congruence; cbn [language] in Hr; unfold bind in Hr;
      repeat match type of Hr with context [match ?x with _ => _ end] => destruct x; try discriminate Hr end; injection Hr as <-; apply wrap_holds.
  - intros Hu. destruct o; try congruence; cbn [foo_op]; unfold each; cbn [fa]; rewrite Hu; reflexivity.
Qed.
Print Assumptions C177_uniform.
(** += and -= are modulo 256 in each byte *)
Lemma byte_add x d : byte x -> Z.abs d <= 2 ^ 30 -> language uchar tint Aadd x d = Ok ((x + d) mod 256) /\ language uchar tint Asub x d = Ok ((x - d) mod 256).
Proof.
  intros Hx Hd. unfold byte in Hx. cbn [language]. change (common uchar tint) with tint.
  rewrite (wrap_id tint x), (wrap_id tint d) by (apply tint_holds; lia). unfold arith. cbn [signed tint].
  assert (A : holds tint (x + d) = true) by (apply tint_holds; lia). assert (S : holds tint (x - d) = true) by (apply tint_holds; lia).
  fold tint. rewrite A, S. unfold bind. rewrite !wrap_byte. split; reflexivity.
Qed.
Theorem C177_add : forall f d, bytes f -> Z.abs d <= 2 ^ 30 ->
  foo_op Aadd d f = Ok (mk_foo ((fa f + d) mod 256) ((fb f + d) mod 256) ((fc f + d) mod 256) ((fd f + d) mod 256)) /\
  foo_op Asub d f = Ok (mk_foo ((fa f - d) mod 256) ((fb f - d) mod 256) ((fc f - d) mod 256) ((fd f - d) mod 256)).
Proof.
  intros f d (A & B & C & D) Hd. split; apply C177_each; try discriminate; cbn [fa fb fc fd]; repeat split; apply byte_add; assumption.
Qed.
Print Assumptions C177_add.
Theorem C177_steps : forall f d, bytes f -> d = 1 \/ d = -1 -> let g := mk_foo ((fa f + d) mod 256) ((fb f + d) mod 256) ((fc f + d) mod 256) ((fd f + d) mod 256) in
  foo_pre d f = (Ok g, Ok g) /\ fst (foo_post d f) = Ok g.
Proof.
  intros f d Hf Hd g. destruct (C177_add f d Hf ltac:(lia)) as [E _]. unfold foo_pre, foo_post. change (each (language_step uchar d) f) with (foo_op Aadd d f).
  rewrite E. split; reflexivity.
Qed.
Print Assumptions C177_steps.
(** violated: foo++ and foo-- return the new value, never the old one *)
Theorem C177_post_refuted : forall f d, bytes f -> d = 1 \/ d = -1 ->
  exists g, foo_post d f = (Ok g, Ok g) /\ fa g <> fa f /\ fb g <> fb f /\ fc g <> fc f /\ fd g <> fd f.
Proof.
  intros f d Hf Hd. destruct (C177_steps f d Hf Hd) as [E _]. eexists. split; [exact E|]. cbn [fa fb fc fd].
  assert (K : forall x, byte x -> (x + d) mod 256 <> x).
  { intros x Hx E'. unfold byte in Hx. pose proof (Z.div_mod (x + d) 256 ltac:(lia)). lia. }
  destruct Hf as (A & B & C & D). repeat split; apply K; assumption.
Qed.
Print Assumptions C177_post_refuted.
(** so an atomic<foo> returns it too, in a run of one post-increment of foo(7) *)
Definition keep (v : outcome foo) : outcome foo := v.
Ltac step_keep f := lazymatch goal with R : run keep _ _ _ ?c |- _ =>
  let S := f c in let R' := fresh "R" in pose proof (run_snoc keep _ _ _ _ _ _ _ R S) as R'; clear R; cbn [cell mux th add_event app init] in R'; rename R' into R end.
Theorem C177_post_run_refuted : exists n h c, run keep (init (Ok (foo_of 7)) [[atom_foo_post Strong 1]]) n h c /\ finished c /\
  ress 0 h = [Ok (foo_of 8)] /\ cell c = Ok (foo_of 8).
Proof.
  set (o := atom_foo_post Strong 1). set (v := Ok (foo_of 7)). set (w := Ok (foo_of 8)).
  pose proof (run_nil keep (init v [[o]])) as R.
  step_keep ltac:(fun c => constr:(s_call keep 0 c o [] eq_refl)).
  step_keep ltac:(fun c => constr:(s_load keep 0 c o [] v eq_refl (or_introl eq_refl) eq_refl)).
  step_keep ltac:(fun c => constr:(s_cas_ok keep 0 c o [] v w eq_refl eq_refl eq_refl)).
  step_keep ltac:(fun c => constr:(s_return keep 0 c o [] w eq_refl)).
  eexists _, _, _. split; [exact R|]. split; [intros [|[|t]]; reflexivity|]. split; reflexivity.
Qed.
Print Assumptions C177_post_run_refuted.

(** ** min and max by the order of the file: afterwards b < a (a < b) should be false *)
Theorem C177_min_max : forall f b, bytes f ->
  (exists g, foo_op Amin b f = Ok g /\ (g = f \/ g = mk_foo (b mod 256) (b mod 256) (b mod 256) (b mod 256)) /\
     (bar_less_foo b g = false <-> fa f + fb f + fc f + fd f <= b \/ 4 * (b mod 256) <= b)) /\
  (exists g, foo_op Amax b f = Ok g /\ (g = f \/ g = mk_foo (b mod 256) (b mod 256) (b mod 256) (b mod 256)) /\
     (foo_less_bar g b = false <-> b <= fa f + fb f + fc f + fd f \/ b <= 4 * (b mod 256))).
Proof.
  intros f b (A & B & C & D). unfold byte in *. pose proof (Z.mod_pos_bound b 256 ltac:(lia)) as M. pose proof (Z.div_mod b 256 ltac:(lia)) as DM.
  split; cbn [foo_op]; unfold bar_less_foo, foo_less_bar, foo_of; rewrite wrap_byte.
  - eexists. split; [reflexivity|]. fold (total f). destruct (Z.ltb_spec b (total f)) as [L|G].
    + split; [right; reflexivity|]. rewrite Z.ltb_ge. unfold total in *. cbn [fa fb fc fd]. lia.
    + split; [left; reflexivity|]. rewrite Z.ltb_ge. unfold total in *. lia.
  - eexists. split; [reflexivity|]. fold (total f). destruct (Z.ltb_spec (total f) b) as [L|G].
    + split; [right; reflexivity|]. rewrite Z.ltb_ge. unfold total in *. cbn [fa fb fc fd]. lia.
    + split; [left; reflexivity|]. rewrite Z.ltb_ge. unfold total in *. lia.
Qed.
Print Assumptions C177_min_max.
(** violated: min(foo(1), bar(2)) raises the variable to foo(2), which bar(2) is still less than; max with bar(256) lowers it to 0;
    and min with two bars depends on their order *)
Theorem C177_min_max_refuted : foo_op Amin 2 (foo_of 1) = Ok (foo_of 2) /\ bar_less_foo 2 (foo_of 2) = true
  /\ foo_op Amax 256 (foo_of 1) = Ok (foo_of 0) /\ foo_less_bar (foo_of 0) 256 = true
  /\ bind (foo_op Amin 2 (foo_of 10)) (foo_op Amin 3) = Ok (foo_of 3) /\ bind (foo_op Amin 3 (foo_of 10)) (foo_op Amin 2) = Ok (foo_of 2).
Proof. vm_compute. repeat split. Qed.
Print Assumptions C177_min_max_refuted.

(** ** threads: any number of them adding to an atomic<foo>, in any schedule: no update is lost in any byte *)
Definition shift (f : foo) (d : Z) : foo := mk_foo ((fa f + d) mod 256) ((fb f + d) mod 256) ((fc f + d) mod 256) ((fd f + d) mod 256).
Lemma fold_foo s l : forall f, bytes f -> (forall d, In d l -> Z.abs d <= 2 ^ 30) ->
  fold_left (fun v o => fst (fn o v)) (map (atom_foo s Aadd) l) (Ok f) = Ok (shift f (fold_right Z.add 0 l)).
Proof.
  induction l as [|d l IH]; intros f Hf Hd.
  - cbn. f_equal. destruct f as [a b c e], Hf as (A & B & C & D). unfold byte in *. cbn [fa fb fc fd] in *. unfold shift. cbn [fa fb fc fd]. rewrite !Z.add_0_r, !Z.mod_small by lia. reflexivity.
  - cbn [map fold_left fold_right atom_foo fn lift fst bind]. rewrite (proj1 (C177_add f d Hf (Hd d (or_introl eq_refl)))). rewrite IH.
    + f_equal. unfold shift. cbn [fa fb fc fd]. rewrite !Zplus_mod_idemp_l, !Z.add_assoc. reflexivity.
    + repeat split; cbn [fa fb fc fd]; apply Z.mod_pos_bound; lia.
    + intros e He. apply Hd. right. exact He.
Qed.
Theorem C177_threads : forall (B : Type) (dec : B -> outcome foo) (b0 : B) s f deltas n h c, bytes f -> dec b0 = Ok f ->
  (s = Strong \/ s = Weak \/ s = Lock \/ (s = Serial /\ (length deltas <= 1)%nat)) -> (forall d, In d (concat deltas) -> Z.abs d <= 2 ^ 30) ->
  run dec (init b0 (map (map (atom_foo s Aadd)) deltas)) n h c -> finished c ->
  let sum := fold_right Z.add 0 (concat deltas) in
  dec (cell c) = Ok (mk_foo ((fa f + sum) mod 256) ((fb f + sum) mod 256) ((fc f + sum) mod 256) ((fd f + sum) mod 256)).
Proof.
  intros B dec b0 s f deltas n h c Hf D Hs Hd R Fi sum.
  assert (A : allowed (map sch (concat (map (map (atom_foo s Aadd)) deltas))) (length (map (map (atom_foo s Aadd)) deltas))).
  { assert (S : forall x, In x (map sch (concat (map (map (atom_foo s Aadd)) deltas))) -> x = s).
    { intros x Hx. rewrite <- concat_map, map_map in Hx. apply in_map_iff in Hx. destruct Hx as (y & <- & _). reflexivity. }
    unfold allowed. rewrite !Forall_forall, map_length. destruct Hs as [->|[->|[->|[-> L]]]].
    - left. intros x Hx. rewrite (S x Hx). split; discriminate.
    - left. intros x Hx. rewrite (S x Hx). split; discriminate.
    - right. left. exact S.
    - right. right. exact L. }
  destruct (C174_final _ _ _ _ _ _ _ _ A R Fi) as (l & P & ->). rewrite <- concat_map in P.
  destruct (Permutation_map_inv _ _ P) as (ds & -> & Pd). rewrite D, fold_foo; [|exact Hf|].
  - rewrite <- (sum_perm _ _ Pd). reflexivity.
  - intros d Hin. apply Hd. apply (Permutation_in _ (Permutation_sym Pd)). exact Hin.
Qed.
Print Assumptions C177_threads.
(** for the punned schemes: the 32-bit integer determines the foo, and every such integer is one *)
Theorem C177_pun : (forall f g, bytes f -> bytes g -> pun f = pun g -> f = g) /\ (forall f, bytes f -> 0 <= pun f < 2 ^ 32) /\
  (forall n, 0 <= n < 2 ^ 32 -> exists f, bytes f /\ pun f = n).
Proof.
  unfold pun, bytes, byte. split; [|split].
  - intros [a b c d] [a' b' c' d']. cbn [fa fb fc fd]. intros H1 H2 E. change (2 ^ 8) with 256 in E. change (2 ^ 16) with 65536 in E. change (2 ^ 24) with 16777216 in E.
    assert (a = a') by lia. subst. assert (b = b') by lia. subst. assert (c = c') by lia. subst. f_equal. lia.
  - intros f H. lia.
  - intros n Hn. exists (mk_foo (n mod 256) ((n / 256) mod 256) ((n / 65536) mod 256) (n / 16777216)). cbn [fa fb fc fd].
    pose proof (Z.div_mod n 256 ltac:(lia)). pose proof (Z.div_mod (n / 256) 256 ltac:(lia)). pose proof (Z.div_mod (n / 65536) 256 ltac:(lia)).
    assert (E1 : n / 256 / 256 = n / 65536) by (rewrite Z.div_div by lia; reflexivity). assert (E2 : n / 65536 / 256 = n / 16777216) by (rewrite Z.div_div by lia; reflexivity).
    pose proof (Z.mod_pos_bound n 256 ltac:(lia)). pose proof (Z.mod_pos_bound (n / 256) 256 ltac:(lia)). pose proof (Z.mod_pos_bound (n / 65536) 256 ltac:(lia)).
    assert (0 <= n / 16777216 < 256) by (split; [apply Z.div_pos; lia|apply Z.div_lt_upper_bound; lia]). split; [repeat split; lia|]. lia.
Qed.
Print Assumptions C177_pun.
Example C177_ex : foo_op Amul 2 (foo_of 200) = Ok (foo_of 144) /\ foo_op Adiv 0 (foo_of 1) = UB /\ foo_op Ashl 2 (mk_foo 1 2 64 255) = Ok (mk_foo 4 8 0 252)
  /\ foo_op Asub 2 (foo_of 0) = Ok (mk_foo 254 254 254 254) /\ pun (mk_foo 1 2 3 4) = 67305985 /\ foo_of (-1) = mk_foo 255 255 255 255
  /\ foo_op Axor 2 (mk_foo 1 2 3 4) = Ok (mk_foo 3 0 1 6) /\ foo_op Amax 5 (foo_of 1) = Ok (foo_of 5) /\ foo_op Amax 4 (foo_of 1) = Ok (foo_of 1).
Proof. vm_compute. repeat split. Qed.
Example C177_atom_ex : fn (atom_foo Weak Aadd 2) (Ok (foo_of 1)) = (Ok (foo_of 3), Ok (foo_of 3)) /\ fn (atom_foo_pre Lock (-1)) (Ok (foo_of 0)) = (Ok (foo_of 255), Ok (foo_of 255))
  /\ fn (atom_foo Lock Amod 0) (Ok (foo_of 1)) = (UB, UB) /\ fn (atom_foo Lock Aor 4) UB = (UB, UB).
Proof. vm_compute. repeat split. Qed.
(** two threads, the first one's exchange failing once *)
Example C177_threads_ex : exists n h c, run keep (init (Ok (foo_of 1)) (map (map (atom_foo Strong Aadd)) [[200]; [100]])) n h c /\ finished c /\
  cell c = Ok (mk_foo 45 45 45 45) /\ (1 + (200 + (100 + 0))) mod 256 = 45.
Proof.
  cbn [map]. set (o := atom_foo Strong Aadd 200). set (p := atom_foo Strong Aadd 100).
  set (v := Ok (foo_of 1)). set (w := Ok (foo_of 101)). set (x := Ok (foo_of 45)).
  pose proof (run_nil keep (init v [[o]; [p]])) as R.
  step_keep ltac:(fun c => constr:(s_call keep 0 c o [] eq_refl)).
  step_keep ltac:(fun c => constr:(s_call keep 1 c p [] eq_refl)).
  step_keep ltac:(fun c => constr:(s_load keep 0 c o [] v eq_refl (or_introl eq_refl) eq_refl)).
  step_keep ltac:(fun c => constr:(s_load keep 1 c p [] v eq_refl (or_introl eq_refl) eq_refl)).
  step_keep ltac:(fun c => constr:(s_cas_ok keep 1 c p [] v w eq_refl eq_refl eq_refl)).
  assert (N : w <> v) by (vm_compute; discriminate).
  step_keep ltac:(fun c => constr:(s_cas_fail keep 0 c o [] v eq_refl (or_introl N))).
  step_keep ltac:(fun c => constr:(s_cas_ok keep 0 c o [] w x eq_refl eq_refl eq_refl)).
  step_keep ltac:(fun c => constr:(s_return keep 0 c o [] x eq_refl)).
  step_keep ltac:(fun c => constr:(s_return keep 1 c p [] w eq_refl)).
  eexists _, _, _. split; [exact R|]. split; [intros [|[|[|t]]]; reflexivity|]. split; reflexivity.
Qed.
