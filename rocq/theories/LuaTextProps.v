(** Property theorems for the texts of the Lua interface (C160, C161). *)
From Coq Require Import String Ascii List Bool Arith ZArith Lia.
From Coq Require DecimalString DecimalZ.
From Verif Require Import Outcome LuaModel LuaProofs LuaTextModel ArrayTextModel ArrayTextProps.
Import ListNotations.
Open Scope lua_scope.
Open Scope string_scope.

Section Props.
Context {W F : Type} (L : lua W F) (show : F -> string).
Notation val := (val F).
Notation M := (M W F).
Lemma nth_rev {A} (l : list A) n : (n < List.length l)%nat -> nth_error (rev l) n = nth_error l (List.length l - 1 - n).
Proof.
  intros H. destruct l as [|d l0]; [cbn in H; lia|]. set (l := d :: l0) in *.
  rewrite (nth_error_nth' _ d) by (rewrite rev_length; exact H). rewrite (nth_error_nth' l d) by lia.
  rewrite rev_nth by exact H. do 2 f_equal. lia.
Qed.
Lemma at_pos (s : st W F) p v : nth_error (rev (stk s)) p = Some v -> at_ (Z.of_nat (S p)) s = (s, Ok v).
Proof.
  intros E. assert (H : (p < List.length (stk s))%nat) by (rewrite <- rev_length; apply nth_error_Some; congruence).
  unfold at_, depth. destruct (Z.ltb_spec 0 (Z.of_nat (S p))); [|lia]. destruct (Z.leb_spec (Z.of_nat (S p)) (Z.of_nat (List.length (stk s)))); [|lia].
  rewrite nth_rev in E by exact H.
  replace (Z.to_nat (Z.of_nat (List.length (stk s)) - Z.of_nat (S p))) with (List.length (stk s) - 1 - p)%nat by lia. rewrite E. reflexivity.
Qed.

(** * C160. A dump lists all values from the bottom of the stack to its top, one line each, and leaves the stack alone *)
Definition line (p : nat) (v : val) : string := setw3 (dec (Z.of_nat p)) ++ " : " ++ row_text L show v.
Lemma dump_rows_spec (s : st W F) n : forall p, (p + n = List.length (stk s))%nat ->
  dump_rows L show (S p) n s = (s, Ok (fold_right (fun q t => line (S q) (nth q (rev (stk s)) VNil) ++ line_end ++ t) "" (seq p n))).
Proof.
  induction n as [|n IH]; intros p H; [reflexivity|]. cbn [dump_rows seq fold_right].
  assert (E : nth_error (rev (stk s)) p = Some (nth p (rev (stk s)) VNil)) by (apply nth_error_nth'; rewrite rev_length; lia).
  assert (G : get_row L show (Z.of_nat (S p)) s = (s, Ok (row_text L show (nth p (rev (stk s)) VNil)))).
  { unfold get_row. rewrite (bnd_ok _ _ _ _ _ (at_pos s p _ E)). reflexivity. }
  rewrite (bnd_ok _ _ _ _ _ G). rewrite (bnd_ok _ _ _ _ _ (IH (S p) ltac:(lia))). unfold ret, line. rewrite !append_assoc. reflexivity.
Qed.
Theorem C160_empty : forall s : st W F, stk s = [] -> dump_stack L show s = (s, Ok ("(stack empty)" ++ line_end)).
Proof. intros s E. unfold dump_stack, bnd, gettop. rewrite E. reflexivity. Qed.
Print Assumptions C160_empty.
Lemma free_blanks n : free newline (blanks n) = true. Proof. induction n; [reflexivity|exact IHn]. Qed.
Lemma free_uint d : free newline (DecimalString.NilEmpty.string_of_uint d) = true.
Proof. induction d; cbn; auto. Qed.
Lemma free_dec z : free newline (dec z) = true.
Proof.
  unfold dec, DecimalString.NilZero.string_of_int, DecimalString.NilZero.string_of_uint.
  destruct (Z.to_int z) as [d|d]; destruct d; try reflexivity; cbn; apply free_uint.
Qed.
Lemma free_line p v : free newline (row_text L show v) = true -> free newline (line p v) = true.
Proof. intros H. unfold line, setw3. rewrite !free_app, H, free_blanks, free_dec. reflexivity. Qed.
(** the words of a row: what kind of value it is, and its text *)
Definition kind (v : val) : string :=
  match v with VStr _ => "string" | VBool _ => "bool  " | VInt _ | VFlt _ => "number" | VNil | VTab _ | VFun _ => "other " end.
Definition content (v : val) : string :=
  match v with
  | VStr x => cstr x | VBool true => "true" | VBool false => "false" | VInt z => show (int_to_f L z) | VFlt x => show x
  | VNil => "nil" | VTab _ => "table" | VFun _ => "function"
  end.
Lemma len_app (a b : string) : String.length (a ++ b) = (String.length a + String.length b)%nat.
Proof. induction a as [|c a IH]; [reflexivity|]. cbn. now rewrite IH. Qed.
Lemma len_blanks n : String.length (blanks n) = n. Proof. induction n; cbn; congruence. Qed.
Lemma line_spec p v : exists b d, line p v = b ++ d ++ " : " ++ kind v ++ " >> " ++ content v /\
  b = blanks (String.length b) /\ String.length (b ++ d) = Nat.max 3 (String.length d) /\
  option_map Z.of_int (DecimalString.NilZero.int_of_string d) = Some (Z.of_nat p).
Proof.
  exists (blanks (3 - String.length (dec (Z.of_nat p)))), (dec (Z.of_nat p)). repeat split.
  - unfold line, setw3. rewrite append_assoc. do 3 f_equal. destruct v as [|[]| | | | |]; reflexivity.
  - now rewrite len_blanks.
  - rewrite len_app, len_blanks. lia.
  - unfold dec. rewrite DecimalString.NilZero.isi; [cbn; now rewrite DecimalZ.of_to|..]; destruct p; cbn; try discriminate.
    all: intros [=]; apply (DecimalPos.Unsigned.to_uint_nonnil _) in H0; auto.
Qed.
Lemma split_lines (f : nat -> string) l : (forall q, In q l -> free newline (f q) = true) ->
  split newline (fold_right (fun q t => f q ++ line_end ++ t) "" l) = (map f l ++ [""])%list.
Proof.
  induction l as [|q l IH]; intros H; [reflexivity|]. cbn [fold_right map List.app].
  change (line_end ++ fold_right (fun q t => f q ++ line_end ++ t) "" l) with (String newline (fold_right (fun q t => f q ++ line_end ++ t) "" l)).
  rewrite split_app by (apply H; now left). rewrite IH; [reflexivity|]. intros r Hr. apply H. now right.
Qed.
Theorem C160_dump : forall s : st W F, stk s <> [] -> (forall v, In v (stk s) -> free newline (content v) = true) ->
  exists text lines, dump_stack L show s = (s, Ok text) /\ split newline text = "Row : Type   >> Value" :: lines ++ [""] /\
  List.length lines = List.length (stk s) /\
  forall q v, nth_error (rev (stk s)) q = Some v -> exists b d,
    nth_error lines q = Some (b ++ d ++ " : " ++ kind v ++ " >> " ++ content v) /\
    b = blanks (String.length b) /\ String.length (b ++ d) = Nat.max 3 (String.length d) /\
    option_map Z.of_int (DecimalString.NilZero.int_of_string d) = Some (Z.of_nat (S q)).
Proof.
  intros s N H.
  set (ls := map (fun q => line (S q) (nth q (rev (stk s)) VNil)) (seq 0 (List.length (stk s)))).
  eexists. exists ls. split; [|split; [|split]].
  - unfold dump_stack. unfold bnd at 1, gettop. destruct (Nat.eqb_spec (List.length (stk s)) 0) as [Z|_].
    { destruct (stk s); [congruence|discriminate]. }
    rewrite (bnd_ok _ _ _ _ _ (dump_rows_spec s (List.length (stk s)) 0 eq_refl)). reflexivity.
  - change (line_end ++ ?t) with (String newline t). rewrite split_app by reflexivity. f_equal.
    rewrite split_lines; [reflexivity|]. intros q Hq. apply in_seq in Hq. apply free_line.
    assert (X : In (nth q (rev (stk s)) VNil) (stk s)) by (apply in_rev; apply nth_In; rewrite rev_length; lia).
    specialize (H _ X). clear X. destruct (nth q (rev (stk s)) VNil) as [|[]| | | | |]; cbn [row_text content type_name] in *; unfold to_number; cbn [num_of]; rewrite ?free_app; try rewrite H; reflexivity.
  - subst ls. now rewrite map_length, seq_length.
  - intros q v E. destruct (line_spec (S q) v) as (b & d & X & Y). exists b, d. split; [|exact Y].
    assert (Lq : (q < List.length (stk s))%nat) by (rewrite <- rev_length; apply nth_error_Some; congruence).
    subst ls. rewrite nth_error_map. rewrite (nth_error_nth' _ 0%nat) by (rewrite seq_length; exact Lq). rewrite seq_nth by exact Lq. cbn [option_map Nat.add].
    rewrite (nth_error_nth _ _ _ E). congruence.
Qed.
Print Assumptions C160_dump.
(** the row printed with an error message is the last one of the dump *)
Theorem C160_last : forall (s : st W F) v l, stk s = v :: l -> exists b d,
  print_last_row L show s = (s, Ok ("Row : Type   >> Value" ++ line_end ++ (b ++ d ++ " : " ++ kind v ++ " >> " ++ content v) ++ line_end)) /\
  b = blanks (String.length b) /\ String.length (b ++ d) = Nat.max 3 (String.length d) /\
  option_map Z.of_int (DecimalString.NilZero.int_of_string d) = Some (Z.of_nat (List.length (stk s))).
Proof.
  intros [k cp rf w] v l E. cbn in E. subst k. destruct (line_spec (S (List.length l)) v) as (b & d & X & Y). exists b, d. split; [|exact Y].
  unfold print_last_row. unfold bnd at 1, gettop. cbn [stk].
  assert (G : get_row L show (-1) (mk_st (v :: l) cp rf w) = (mk_st (v :: l) cp rf w, Ok (row_text L show v))).
  { unfold get_row. rewrite (bnd_ok _ _ _ _ _ (at_top v l cp rf w)). reflexivity. }
  rewrite (bnd_ok _ _ _ _ _ G). unfold ret. rewrite <- X. unfold line. cbn [List.length]. rewrite !append_assoc. reflexivity.
Qed.
Print Assumptions C160_last.

(** * C161. Names of results *)
Lemma arg_types_spec (s : st W F) n : forall p, (p + n <= List.length (stk s))%nat ->
  arg_types (S p) n s = (s, Ok (String.concat "," (map type_name (firstn n (skipn p (rev (stk s))))))).
Proof.
  induction n as [|n IH]; intros p H; [reflexivity|]. cbn [arg_types].
  assert (E : nth_error (rev (stk s)) p = Some (nth p (rev (stk s)) VNil)) by (apply nth_error_nth'; rewrite rev_length; lia).
  rewrite (bnd_ok _ _ _ _ _ (at_pos s p _ E)). rewrite (bnd_ok _ _ _ _ _ (IH (S p) ltac:(lia))). unfold ret. do 2 f_equal.
  assert (K : skipn p (rev (stk s)) = nth p (rev (stk s)) VNil :: skipn (S p) (rev (stk s))).
  { clear - E. revert p E. induction (rev (stk s)) as [|a k IHk]; intros [|p] E; try discriminate; [reflexivity|]. exact (IHk p E). }
  rewrite K. cbn [firstn map]. destruct (Nat.eqb_spec n 0) as [->|Nn]; [cbn; now rewrite append_nil|].
  set (tl := firstn n (skipn (S p) (rev (stk s)))). assert (T : tl <> []).
  { intros T. apply (f_equal (@List.length _)) in T. subst tl. rewrite firstn_length, skipn_length, rev_length in T. cbn in T. lia. }
  destruct tl as [|a tl]; [congruence|]. reflexivity.
Qed.
(** the named call is the call of LuaModel.v *)
Theorem C161_same_call : forall name r args (s : st W F),
  fst (call_op_named L name r args s) = fst (call_op L r args s) /\
  bind (snd (call_op_named L name r args s)) (fun x => Ok (snd x)) = snd (call_op L r args s).
Proof.
  intros name r args s. unfold call_op_named, call_op.
  assert (B : forall A (m : M A) (k : A -> M (string * @result F)) (h : A -> M (@result F)) s0,
    (forall a s1, fst (k a s1) = fst (h a s1) /\ bind (snd (k a s1)) (fun x => Ok (snd x)) = snd (h a s1)) ->
    fst (bnd m k s0) = fst (bnd m h s0) /\ bind (snd (bnd m k s0)) (fun x => Ok (snd x)) = snd (bnd m h s0)).
  { intros A m k h s0 H. unfold bnd. destruct (m s0) as [s1 [a| | |]]; cbn; auto. }
  apply B; intros pos0 s1. apply B; intros _ s2. apply B; intros _ s3. apply B; intros _ s4. apply B; intros n s5.
  rewrite !(bnd_ok gettop _ s5 s5 (List.length (stk s5)) eq_refl).
  assert (T : exists ts, arg_types (S pos0) (List.length (stk s5) - pos0) s5 = (s5, Ok ts)).
  { destruct (Nat.le_gt_cases pos0 (List.length (stk s5))) as [H|H].
    - eexists. apply arg_types_spec. lia.
    - replace (List.length (stk s5) - pos0)%nat with 0%nat by lia. eexists. reflexivity. }
  destruct T as [ts T]. rewrite !(bnd_ok _ _ _ _ _ T). apply B. intros [] s6; [|now split].
  apply B; intros _ s7. apply B; intros pos1 s8. apply B; intros l s9. now split.
Qed.
Print Assumptions C161_same_call.
(** the name of a successful call lists the function itself before the arguments *)
Theorem C161_call_name : forall name r x rest f args l cp rf (w : W) s' name' r', rev (res_refs r) = x :: rest -> deref rf x = VFun f ->
  length l + length (args_vals args) + 2 <= cp -> cp <= max_stack L ->
  call_op_named L name r args (mk_st l cp rf w) = (s', Ok (name', r')) ->
  name' = name ++ "(" ++ String.concat "," (map type_name (VFun f :: args_vals args)) ++ ")".
Proof.
  intros name r x rest f args l cp rf w s' name' r' E D H Hm C. unfold call_op_named in C.
  rewrite (bnd_ok gettop _ (mk_st l cp rf w) (mk_st l cp rf w) (List.length l) eq_refl) in C.
  rewrite (bnd_ok _ _ _ _ _ (check_stack_ok L 1 l cp rf w ltac:(lia))) in C. replace (Nat.max cp (List.length l + 1)) with cp in C by lia.
  rewrite (bnd_ok _ _ _ _ _ (push_last_ok L r x rest l cp rf w E ltac:(lia))) in C. replace (Nat.max cp (List.length l + 1)) with cp in C by lia.
  rewrite D in C.
  assert (CF : check_function (mk_st (VFun f :: l) cp rf w) = (mk_st (VFun f :: l) cp rf w, Ok tt)).
  { unfold check_function, check_nil. rewrite bnd_assoc. rewrite (bnd_ok _ _ _ _ _ (at_top _ l cp rf w)). cbn [ret].
    unfold bnd at 1, ret. rewrite (bnd_ok _ _ _ _ _ (at_top _ l cp rf w)). reflexivity. }
  rewrite (bnd_ok _ _ _ _ _ CF) in C.
  rewrite (bnd_ok _ _ _ _ _ (push_args_ok L args (VFun f :: l) cp rf w ltac:(cbn [List.length]; lia) Hm)) in C.
  rewrite (bnd_ok gettop _ (mk_st (rev (args_vals args) ++ VFun f :: l) cp rf w) _ _ eq_refl) in C. cbn [stk] in C.
  rewrite (bnd_ok _ _ _ _ _ (arg_types_spec (mk_st (rev (args_vals args) ++ VFun f :: l) cp rf w) (List.length (rev (args_vals args) ++ VFun f :: l) - List.length l) (List.length l)
    ltac:(cbn [stk]; rewrite app_length; cbn [List.length]; lia))) in C.
  cbn [stk] in C. rewrite rev_app_distr, rev_involutive in C. cbn [rev] in C. rewrite <- app_assoc in C.
  replace (skipn (List.length l) (rev l ++ [VFun f] ++ args_vals args)) with (VFun f :: args_vals args) in C.
  2: { rewrite <- (rev_length l), skipn_app, skipn_all, Nat.sub_diag. reflexivity. }
  replace (firstn _ (VFun f :: args_vals args)) with (VFun f :: args_vals args) in C.
  2: { symmetry. apply firstn_all2. rewrite app_length, rev_length. cbn [List.length]. lia. }
  set (ts := String.concat _ _) in *. clearbody ts.
  unfold bnd at 1 in C. destruct (pcall L _ _) as [s1 [[]| | |]]; try discriminate.
  unfold bnd at 1 in C. destruct (check_result s1) as [s2 [[]| | |]]; try discriminate.
  unfold bnd at 1 in C. unfold gettop in C. unfold bnd at 1 in C. destruct (make_refs _ s2) as [s3 [lr| | |]]; try discriminate.
  unfold ret in C. congruence.
Qed.
Print Assumptions C161_call_name.
(** REFUTED: it is never the list of the types of the arguments *)
Theorem C161_call_name_refuted : forall name r x rest f args l cp rf (w : W) s' name' r', rev (res_refs r) = x :: rest -> deref rf x = VFun f ->
  length l + length (args_vals args) + 2 <= cp -> cp <= max_stack L ->
  call_op_named L name r args (mk_st l cp rf w) = (s', Ok (name', r')) ->
  name' <> name ++ "(" ++ String.concat "," (map type_name (args_vals args)) ++ ")".
Proof.
  intros name r x rest f args l cp rf w s' name' r' E D H Hm C. rewrite (C161_call_name _ _ _ _ _ _ _ _ _ _ _ _ _ E D H Hm C).
  intros X. apply (f_equal String.length) in X. rewrite !len_app in X. cbn [map] in X.
  destruct (map type_name (args_vals args)) as [|t ts]; [cbn in X; lia|]. 
  change (String.concat "," (type_name (VFun f) :: t :: ts)) with ("function" ++ "," ++ String.concat "," (t :: ts)) in X. rewrite !len_app in X.
  change (String.length "function") with 8%nat in X. lia.
Qed.
Print Assumptions C161_call_name_refuted.
End Props.
(** ** names of entries *)
Definition quote_char : ascii := ascii_of_nat 34.
Lemma free_uint_bracket d : free "]" (DecimalString.NilEmpty.string_of_uint d) = true.
Proof. induction d; cbn; auto. Qed.
Lemma free_dec_bracket z : free "]" (dec z) = true.
Proof.
  unfold dec, DecimalString.NilZero.string_of_int, DecimalString.NilZero.string_of_uint.
  destruct (Z.to_int z) as [d|d]; destruct d; try reflexivity; cbn; apply free_uint_bracket.
Qed.
Lemma dec_inj a b : dec a = dec b -> a = b.
Proof.
  intros E. assert (D : forall z, option_map Z.of_int (DecimalString.NilZero.int_of_string (dec z)) = Some z).
  { intros z. unfold dec. rewrite DecimalString.NilZero.isi; [cbn; now rewrite DecimalZ.of_to|..]; destruct z; cbn; try discriminate.
    all: intros [=]; apply (DecimalPos.Unsigned.to_uint_nonnil _) in H0; auto. }
  pose proof (D a) as Da. rewrite E, D in Da. congruence.
Qed.
Definition step_name (k : string + Z) : string := match k with inl x => ".[" ++ quote ++ x ++ quote ++ "]" | inr n => "[" ++ dec n ++ "]" end.
Lemma path_name_spec l : forall name, path_name name l = name ++ fold_right (fun k t => step_name k ++ t) "" l.
Proof.
  unfold path_name. induction l as [|k l IH]; intros name; cbn [fold_left fold_right]; [now rewrite append_nil|].
  rewrite IH. destruct k as [x|n]; cbn [step_name]; unfold key_name, int_name; rewrite !append_assoc; reflexivity.
Qed.
Lemma free_cancel c a b s t : free c a = true -> free c b = true -> a ++ String c s = b ++ String c t -> a = b /\ s = t.
Proof.
  revert b; induction a as [|x a IH]; intros [|y b] Ha Hb E; cbn in *.
  - injection E. auto.
  - injection E as -> _. rewrite Ascii.eqb_refl in Hb. discriminate.
  - injection E as -> _. rewrite Ascii.eqb_refl in Ha. discriminate.
  - apply andb_prop in Ha, Hb. injection E as -> E. destruct (IH b (proj2 Ha) (proj2 Hb) E). split; congruence.
Qed.
Lemma append_cancel (a s t : string) : a ++ s = a ++ t -> s = t.
Proof. induction a as [|c a IH]; cbn; [auto|]. intros [=]. auto. Qed.
(** the name tells the keys, provided that they contain no quotes *)
Theorem C161_path : forall name l l', (forall x, In (inl x) l -> free quote_char x = true) -> (forall x, In (inl x) l' -> free quote_char x = true) ->
  path_name name l = path_name name l' -> l = l'.
Proof.
  intros name l l' Hl Hl' E. rewrite !path_name_spec in E. apply append_cancel in E. clear name. revert l' Hl' E.
  induction l as [|k l IH]; intros [|k' l'] Hl' E; cbn [fold_right] in E.
  - reflexivity.
  - destruct k'; discriminate.
  - destruct k; discriminate.
  - destruct k as [x|n], k' as [x'|n']; cbn [step_name] in E; try discriminate.
    + rewrite !append_assoc in E. cbn in E. injection E as E. 
      destruct (free_cancel _ _ _ _ _ (Hl x (or_introl eq_refl)) (Hl' x' (or_introl eq_refl)) E) as [-> E2]. injection E2 as E2.
      f_equal. apply IH; [intros y Hy; apply Hl; now right|intros y Hy; apply Hl'; now right|exact E2].
    + rewrite !append_assoc in E. cbn in E. injection E as E. destruct (free_cancel _ _ _ _ _ (free_dec_bracket n) (free_dec_bracket n') E) as [E1 E2].
      apply dec_inj in E1. subst n'. f_equal. apply IH; [intros y Hy; apply Hl; now right|intros y Hy; apply Hl'; now right|exact E2].
Qed.
Print Assumptions C161_path.
(** REFUTED in general *)
Theorem C161_path_refuted : exists l l', l <> l' /\ forall name, path_name name l = path_name name l'.
Proof.
  exists [inl "a"; inl "b"], [inl ("a" ++ quote ++ "].[" ++ quote ++ "b")]. split; [discriminate|]. intros name. rewrite !path_name_spec. reflexivity.
Qed.
Print Assumptions C161_path_refuted.

(** a state with a table, a string and a function that returns one number *)
Definition demo_text : lua unit Z := mk_lua_api unit Z (fun z => z) (fun z => Some z) (fun _ => None) (fun _ => "") (fun _ _ => 0%nat) (fun _ _ _ => VNil)
  (fun _ _ _ => VNil) (fun _ _ => VNil) (fun w _ _ => (w, inl [VInt 5])) (fun w _ => (w, inl [])) 100.
Example C160_ex : dump_stack demo_text dec (mk_st [VStr "abc"; VInt 12; VTab 3; VBool true] 20 [] tt) = (mk_st [VStr "abc"; VInt 12; VTab 3; VBool true] 20 [] tt,
  Ok ("Row : Type   >> Value" ++ line_end ++ "  1 : bool   >> true" ++ line_end ++ "  2 : other  >> table" ++ line_end ++
      "  3 : number >> 12" ++ line_end ++ "  4 : string >> abc" ++ line_end)).
Proof. vm_compute. reflexivity. Qed.
Example C161_ex : path_name "hydro" [inl "mesh"; inr 2%Z] = "hydro.[" ++ quote ++ "mesh" ++ quote ++ "][2]" /\
  exists s r, call_op_named demo_text "f" (mk_res [mk_ref (Some 0%nat) None] 1) [AInt 3; AStr "x"] (mk_st [] 20 [VFun 1] tt) = (s, Ok ("f(function,number,string)", r)).
Proof. split; [reflexivity|]. vm_compute. eexists. eexists. reflexivity. Qed.
