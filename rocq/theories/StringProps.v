(** Property theorems for ristra/utils/string_utils.h (C08-C11). *)
From Coq Require Import List Arith NArith Ascii String Bool Lia.
From Verif Require Import Outcome ListExtra StringModel StringProofs.
Import ListNotations.
Local Notation L := list_ascii_of_string.

(** C08. Non-empty pattern: terminates (length+1 rounds suffice) with the leftmost
    non-overlapping replacement, which is unique. *)
Theorem C08_replace_all_partial : forall (s from to : str), from <> [] ->
  exists out, replaced from to s out /\
    (forall out', replaced from to s out' -> out' = out) /\
    (forall fuel, List.length s < fuel -> replace_all fuel s from to = Some out).
Proof.
  exact (fun s from to Hf =>
    match replace_all_spec from to s Hf with
    | ex_intro _ out (conj R E) =>
        ex_intro _ out (conj R (conj (fun o' R' => replaced_det from to s o' out Hf R' R) E)) end).
Qed.
Print Assumptions C08_replace_all_partial.

Example C08_case : L "ab"%string <> [] /\
  replace_all 10 (L "aabbab") (L "ab") (L "abab") = Some (L "aababbabab").
Proof. split; [discriminate|vm_compute; reflexivity]. Qed.

(** Empty pattern: the loop never finishes, whatever the string and the replacement. *)
Theorem C08_empty_pattern_refuted : forall (s to : str) fuel, replace_all fuel s [] to = None.
Proof. exact replace_all_empty_pattern. Qed.
Print Assumptions C08_empty_pattern_refuted.

(** C09. basename is the part after the last separator, for every path. *)
Theorem C09_basename : forall s : str,
  exists b, basename s = Ok b /\ ~ In sep b /\ (s = b \/ exists d, s = d ++ sep :: b).
Proof. exact basename_total. Qed.
Print Assumptions C09_basename.

(** The last component has a dot: all helpers agree and nothing is lost. [stem] may contain
    directories and dots. Missing: paths whose last component has no dot (refuted below). *)
Theorem C09_extension_partial : forall stem ext : str, ~ In dot ext -> ~ In sep ext ->
  split_extension (stem ++ dot :: ext) = Ok (stem, ext) /\
  remove_extension (stem ++ dot :: ext) = Ok stem /\
  file_extension (stem ++ dot :: ext) = Ok ext.
Proof.
  intros stem ext Hd Hs.
  split; [apply split_ext_dot; exact Hd|]. split; [apply remove_ext_dot; exact Hd|].
  destruct (basename_total stem) as (b & Eb & Hb & Cases).
  assert (E : basename (stem ++ dot :: ext) = Ok (b ++ dot :: ext)).
  { assert (Hn : ~ In sep (b ++ dot :: ext)).
    { rewrite in_app_iff. simpl. intros [H|[H|H]]; try tauto. discriminate. }
    destruct Cases as [->|(d & ->)].
    - apply basename_nosep. exact Hn.
    - rewrite <- app_assoc. simpl. apply basename_spec. exact Hn. }
  apply (proj1 (ext_of_base _ _ E) b ext eq_refl Hd).
Qed.
Print Assumptions C09_extension_partial.

(** No dot anywhere: no extension, stem unchanged. *)
Theorem C09_no_extension : forall s : str, ~ In dot s ->
  split_extension s = Ok (s, []) /\ remove_extension s = Ok s /\ file_extension s = Ok [].
Proof.
  intros s H. split; [apply split_ext_nodot; exact H|]. split; [apply remove_ext_nodot; exact H|].
  destruct (basename_total s) as (b & Eb & Hb & Cases).
  apply (proj2 (ext_of_base _ _ Eb)). intros K. apply H.
  destruct Cases as [->|(d & ->)]; [exact K|]. apply in_app_iff. right. right. exact K.
Qed.
Print Assumptions C09_no_extension.

(** A dot in a directory name is taken for an extension by two of the three helpers. *)
Theorem C09_dotted_directory_refuted : exists s : str,
  file_extension s = Ok [] /\ split_extension s = Ok (L "run", L "d/mesh") /\
  remove_extension s = Ok (L "run").
Proof. exists (L "run.d/mesh"). repeat split; vm_compute; reflexivity. Qed.
Print Assumptions C09_dotted_directory_refuted.

Example C09_case : ~ In dot (L "tar") /\ ~ In sep (L "tar") /\
  split_extension (L "a.b/c.tar") = Ok (L "a.b/c", L "tar").
Proof.
  split; [|split]; [| |vm_compute; reflexivity];
    intros H; repeat (destruct H as [H|H]; [discriminate|]); exact H.
Qed.

(** C10. split returns the unique decomposition into maximal runs. Separators are the given
    delimiters and, always, space (32) and the control characters 9 to 13. *)
Theorem C10_split : forall (s delims : str) (is_sep : ascii -> bool),
  (forall c, In c delims -> nat_of_ascii c < 128) ->
  (forall c, is_sep c = true <-> nat_of_ascii c = 32 \/ 9 <= nat_of_ascii c <= 13 \/ In c delims) ->
  exists ts, split s delims = Ok ts /\ tokenised is_sep s ts /\
             forall ts', tokenised is_sep s ts' -> ts' = ts.
Proof.
  intros s delims is_sep H Hsep.
  assert (E : forall c, is_sep c = is_delim delims c).
  { intros c. apply eq_true_iff_eq. rewrite Hsep. unfold is_delim, classic_space.
    rewrite !orb_true_iff, andb_true_iff, Nat.eqb_eq, !Nat.leb_le, existsb_exists. split.
    - intros [A|[A|A]]; auto. right. exists c. split; [exact A|apply Ascii.eqb_refl].
    - intros [[A|A]|(x & A & B)]; auto. apply Ascii.eqb_eq in B. subst x. auto. }
  destruct (split_spec s delims H) as (ts & Es & T). exists ts. split; [exact Es|].
  assert (G : forall f g ts, (forall c, f c = g c) -> tokenised f s ts -> tokenised g s ts)
    by (intros; eapply tokenised_ext; eauto).
  split; [apply (G _ _ _ (fun c => eq_sym (E c)) T)|].
  intros ts' T'. apply (tokenised_unique (is_delim delims) s); [apply (G _ _ _ E T')|exact T].
Qed.
Print Assumptions C10_split.

Example C10_case : (forall c, In c (L ",;") -> nat_of_ascii c < 128) /\
  split (L ",a b;;c,") (L ",;") = Ok [L "a"; L "b"; L "c"].
Proof.
  split; [|vm_compute; reflexivity].
  intros c [<-|[<-|[]]]; apply Nat.ltb_lt; vm_compute; reflexivity.
Qed.

(** A delimiter outside 7-bit ASCII indexes the class table with a negative char. *)
Theorem C10_negative_delim_ub : exists (s delims : str), split s delims = UB.
Proof. exists (L "ab"), [ascii_of_nat 200]. vm_compute. reflexivity. Qed.
Print Assumptions C10_negative_delim_ub.

(** C11. num_digits is the number of decimal digits (the loop is done within the fuel). *)
Theorem C11_num_digits : forall (n : N) (fuel : nat), (n < 10 ^ N.of_nat fuel)%N ->
  exists d, num_digits (S fuel) n = Some d /\ (1 <= d)%N /\ (n < 10 ^ d)%N /\
            ((n = 0 /\ d = 1) \/ 10 ^ (d - 1) <= n)%N.
Proof. exact num_digits_spec. Qed.
Print Assumptions C11_num_digits.

(** zero_padded: digits only, denotes n, width max(padding, digits). *)
Theorem C11_zero_padded : forall (fuel : nat) (n : N) (w : nat), (n < 10 ^ N.of_nat (S fuel))%N ->
  exists ds k, zero_padded (S fuel) n w = Some ds /\ digits_value ds = n /\
    Forall (fun d => (d < 10)%N) ds /\ num_digits (S (S fuel)) n = Some (N.of_nat k) /\
    List.length ds = Nat.max w k.
Proof. exact zero_padded_spec. Qed.
Print Assumptions C11_zero_padded.

Example C11_case : (4294967295 < 10 ^ N.of_nat 10)%N /\ num_digits 11 4294967295 = Some 10%N
  /\ zero_padded 10 42 6 = Some [0; 0; 0; 0; 4; 2]%N.
Proof. repeat split; vm_compute; reflexivity. Qed.

(** ** C142: to_wstring *)
(** the text cut into characters by the decoding: [ws] are their wide characters *)
Inductive decodes (dec : str -> option (N * nat)) : str -> list N -> Prop :=
| dec_nil : decodes dec [] []
| dec_cons : forall text w k ws, text <> [] -> dec text = Some (w, k) -> 1 <= k -> k <= List.length text ->
    decodes dec (skipn k text) ws -> decodes dec text (w :: ws).

Lemma decodes_length dec text ws : decodes dec text ws -> List.length ws <= List.length text.
Proof.
  induction 1 as [|text w k ws Ht D K K' H IH]; cbn; [lia|]. rewrite skipn_length in IH. lia.
Qed.
Lemma mbstowcs_decodes dec text ws : decodes dec text ws -> forall n, List.length text <= n -> mbstowcs dec n text = ws.
Proof.
  induction 1 as [|text w k ws Ht D K K' H IH]; intros n Hn; [destruct n; reflexivity|].
  destruct n as [|n]; [destruct text; [congruence|cbn in Hn; lia]|]. cbn. destruct text as [|a t]; [congruence|].
  rewrite D. f_equal. apply IH. rewrite skipn_length. lia.
Qed.

(** The result is always as long as the text has bytes: the wide characters, then one NUL for each byte beyond. *)
Theorem C142_to_wstring : forall dec text ws, decodes dec text ws ->
  to_wstring dec text = ws ++ repeat 0%N (List.length text - List.length ws) /\
  (List.length ws = List.length text -> to_wstring dec text = ws).
Proof.
  intros dec text ws H. assert (E : to_wstring dec text = ws ++ repeat 0%N (List.length text - List.length ws)).
  { unfold to_wstring. rewrite (mbstowcs_decodes dec text ws H) by lia. reflexivity. }
  split; auto. intros L. rewrite E, L, Nat.sub_diag. cbn. apply app_nil_r.
Qed.
Print Assumptions C142_to_wstring.

(** so the conversion is right exactly for texts whose characters take one byte each, ASCII texts in particular *)
Theorem C142_single_bytes : forall dec text ws, decodes dec text ws ->
  (to_wstring dec text = ws <-> List.length ws = List.length text).
Proof.
  intros dec text ws H. destruct (C142_to_wstring dec text ws H) as [E R]. split; auto.
  intros T. rewrite E in T. apply (f_equal (@List.length N)) in T. rewrite app_length, repeat_length in T.
  pose proof (decodes_length dec text ws H). lia.
Qed.
Print Assumptions C142_single_bytes.

Theorem C142_ascii : forall dec text, (forall a t, (N_of_ascii a < 128)%N -> dec (a :: t) = Some (N_of_ascii a, 1)) ->
  Forall (fun a => (N_of_ascii a < 128)%N) text -> to_wstring dec text = map N_of_ascii text.
Proof.
  intros dec text D H. apply C142_to_wstring; [|apply map_length].
  induction H as [|a t Ha H IH]; [constructor|]. cbn. apply (dec_cons dec (a :: t) (N_of_ascii a) 1); auto.
  - discriminate.
  - cbn; lia.
Qed.
Print Assumptions C142_ascii.
Lemma decs_ascii : (forall a t, (N_of_ascii a < 128)%N -> dec_c (a :: t) = Some (N_of_ascii a, 1)) /\
  (forall a t, (N_of_ascii a < 128)%N -> dec_utf8 (a :: t) = Some (N_of_ascii a, 1)).
Proof.
  split; intros a t H; apply N.ltb_lt in H; unfold dec_c, dec_utf8; cbv zeta; rewrite H; reflexivity.
Qed.
Example C142_ex : to_wstring dec_utf8 (L "abc") = [97; 98; 99]%N /\
  (forall a t, (N_of_ascii a < 128)%N -> dec_utf8 (a :: t) = Some (N_of_ascii a, 1)).
Proof. split; [vm_compute; reflexivity|apply decs_ascii]. Qed.

(** In UTF-8 the letter e with acute accent (bytes 195 169) gives the character 233 followed by a NUL; in the C locale, where
    the bytes are invalid, it gives two NULs and no error. *)
Theorem C142_multibyte_refuted :
  ~ (forall dec text ws, decodes dec text ws -> to_wstring dec text = ws) /\
  to_wstring dec_utf8 [ascii_of_N 195; ascii_of_N 169] = [233; 0]%N /\
  to_wstring dec_c [ascii_of_N 195; ascii_of_N 169] = [0; 0]%N /\
  (forall dec a t, dec (a :: t) = None -> to_wstring dec (a :: t) = repeat 0%N (S (List.length t))).
Proof.
  split; [|split; [vm_compute; reflexivity|split; [vm_compute; reflexivity|]]].
  - intros H. specialize (H dec_utf8 [ascii_of_N 195; ascii_of_N 169] [233%N]).
    assert (D : decodes dec_utf8 [ascii_of_N 195; ascii_of_N 169] [233%N]).
    { apply (dec_cons _ _ 233%N 2); [discriminate|vm_compute; reflexivity|lia|cbn; lia|cbn; constructor]. }
    apply H in D. vm_compute in D. discriminate D.
  - intros dec a t D. unfold to_wstring. cbn [List.length mbstowcs]. rewrite D. reflexivity.
Qed.
Print Assumptions C142_multibyte_refuted.
