(** Property theorems for insituLog.hpp (C125) and tasks.h (C126). *)
From Coq Require Import Bool String List Arith Lia.
From Verif Require Import Outcome MiscModel MiscProofs LogModel.
Import ListNotations.
Local Open Scope string_scope.

(** C125. What a log object holds: everything put in since the last clear, under any name *)
Fixpoint held (p : list act) (start : string) : string :=
  match p with
  | [] => start
  | AOut s :: r => held r (start ++ s)
  | AClear :: r => held r ""
  | _ :: r => held r start
  end.
Fixpoint named (p : list act) (start : string) : string :=
  match p with [] => start | ASet n :: r => named r n | _ :: r => named r start end.
(** the contents of a file, from the history of the program alone: reading backwards, the appended
    pieces up to the last action that replaced the file *)
Definition replaces (n : string) (before : list act) (l0 : insitu_log) (a : act) : option string :=
  match a with
  | AWrite f s | ANew f s => if String.eqb n (f ++ ".log") then Some s else None
  | ADisk => if String.eqb n (named before (outputFilename l0)) then Some (held before (log l0)) else None
  | _ => None
  end.
Definition appends (n : string) (a : act) : option string :=
  match a with AAppend f s => if String.eqb n (f ++ ".log") then Some s else None | _ => None end.
Inductive content (n : string) (l0 : insitu_log) (fs0 : files) : list act -> option string -> Prop :=
| c_start : content n l0 fs0 [] (fs0 n)
| c_replace p a s : replaces n p l0 a = Some s -> content n l0 fs0 (p ++ [a]) (Some s)
| c_append p a s o : appends n a = Some s -> content n l0 fs0 p o ->
    content n l0 fs0 (p ++ [a]) (Some (match o with Some old => old ++ s | None => s end))
| c_other p a o : replaces n p l0 a = None -> appends n a = None -> content n l0 fs0 p o -> content n l0 fs0 (p ++ [a]) o.
Lemma acts_app ok p a st : acts ok (p ++ [a]) st = do_act ok a (acts ok p st).
Proof. unfold acts. rewrite fold_left_app. reflexivity. Qed.
Lemma held_app p : forall q s, held (p ++ q) s = held q (held p s).
Proof. induction p as [|[] p IH]; intros q s0; cbn; try apply IH; reflexivity. Qed.
Lemma named_app p : forall q s, named (p ++ q) s = named q (named p s).
Proof. induction p as [|[] p IH]; intros q s0; cbn; try apply IH; reflexivity. Qed.
Theorem C125_log : forall ok p l fs,
  outputFilename (fst (acts ok p (l, fs))) = named p (outputFilename l) /\ log (fst (acts ok p (l, fs))) = held p (log l).
Proof.
  intros ok p l fs. induction p as [|a p IH] using rev_ind; [split; reflexivity|].
  rewrite acts_app, held_app, named_app. destruct (acts ok p (l, fs)) as [l' fs']. cbn [fst] in IH.
  destruct IH as [<- <-]. destruct a; split; reflexivity.
Qed.
Print Assumptions C125_log.
Theorem C125_content : forall ok p l fs n, ok n = true ->
  content n l fs p (snd (acts ok p (l, fs)) n).
Proof.
  intros ok p l fs n K. induction p as [|a p IH] using rev_ind; [apply c_start|].
  rewrite acts_app. pose proof (C125_log ok p l fs) as [N H].
  destruct (acts ok p (l, fs)) as [l' fs']. cbn [fst snd] in *.
  assert (PF : forall m c, put_file ok m c fs' n = if String.eqb n m then Some c else fs' n).
  { intros m c. unfold put_file, upd. destruct (String.eqb_spec n m) as [<-|X]; [rewrite K, String.eqb_refl; reflexivity|].
    destruct (ok m); [|reflexivity]. destruct (String.eqb_spec n m); [contradiction|reflexivity]. }
  assert (AF : forall m c, append_file ok m c fs' n = if String.eqb n m then Some (match fs' n with Some old => old ++ c | None => c end) else fs' n).
  { intros m c. unfold append_file, upd. destruct (String.eqb_spec n m) as [<-|X]; [rewrite K, String.eqb_refl; reflexivity|].
    destruct (ok m); [|reflexivity]. destruct (String.eqb_spec n m); [contradiction|reflexivity]. }
  destruct a as [f s|f s|f s|m| |s|]; cbn [do_act snd]; unfold writeLog, writeLogApp, writeLogNew, writeToDisk; rewrite ?PF, ?AF.
  - destruct (String.eqb n (f ++ ".log")) eqn:E; [apply c_replace; cbn; rewrite E; reflexivity|].
    apply c_other; [cbn; rewrite E; reflexivity|reflexivity|exact IH].
  - destruct (String.eqb n (f ++ ".log")) eqn:E; [apply c_append; [cbn; rewrite E; reflexivity|exact IH]|].
    apply c_other; [reflexivity|cbn; rewrite E; reflexivity|exact IH].
  - destruct (String.eqb n (f ++ ".log")) eqn:E; [apply c_replace; cbn; rewrite E; reflexivity|].
    apply c_other; [cbn; rewrite E; reflexivity|reflexivity|exact IH].
  - apply c_other; [reflexivity|reflexivity|exact IH].
  - apply c_other; [reflexivity|reflexivity|exact IH].
  - apply c_other; [reflexivity|reflexivity|exact IH].
  - rewrite N, H. destruct (String.eqb n (named p (outputFilename l))) eqn:E.
    + apply c_replace. cbn. rewrite E. reflexivity.
    + apply c_other; [cbn; rewrite E; reflexivity|reflexivity|exact IH].
Qed.
Print Assumptions C125_content.
(** the history determines the content: the relation above is a function *)
Theorem C125_determined : forall n l fs p o o', content n l fs p o -> content n l fs p o' -> o = o'.
Proof.
  intros n l fs p o o' C. revert o'. induction C as [|p a s R|p a s o A C IH|p a o R A C IH]; intros o' C'.
  - inversion C' as [E|p' a' s' R' E|p' a' s' o1 A' C1 E|p' a' o1 R' A' C1 E]; try reflexivity; destruct p'; discriminate.
  - inversion C' as [E|p' a' s' R' E|p' a' s' o1 A' C1 E|p' a' o1 R' A' C1 E]; subst; try (destruct p; discriminate);
    apply app_inj_tail in E as [-> ->]; try congruence. destruct a; discriminate.
  - inversion C' as [E|p' a' s' R' E|p' a' s' o1 A' C1 E|p' a' o1 R' A' C1 E]; subst; try (destruct p; discriminate);
    apply app_inj_tail in E as [-> ->]; try congruence; [destruct a; discriminate|].
    rewrite (IH _ C1). rewrite A in A'. injection A' as ->. reflexivity.
  - inversion C' as [E|p' a' s' R' E|p' a' s' o1 A' C1 E|p' a' o1 R' A' C1 E]; subst; try (destruct p; discriminate);
    apply app_inj_tail in E as [-> ->]; try congruence. exact (IH _ C1).
Qed.
Print Assumptions C125_determined.
(** REFUTED: that writing takes effect; a file that cannot be opened is skipped without any report *)
Theorem C125_silent_refuted : forall ok f s fs, ok (f ++ ".log") = false ->
  forall n, writeLog ok f s fs n = fs n /\ writeLogApp ok f s fs n = fs n.
Proof. intros ok f s fs H n. unfold writeLog, writeLogApp, put_file, append_file. rewrite H. split; reflexivity. Qed.
Print Assumptions C125_silent_refuted.
(** an append to a file just written is kept, and a log object named "x" is another file than writeLog("x") *)
Example C125_case : let r := acts (fun _ => true) [AWrite "x" "a"; AAppend "x" "b"; AOut "c"; ASet "x"; ADisk; AAppend "x" "d"] (log_default, fun _ => None) in
  snd r "x.log" = Some "abd" /\ snd r "x" = Some "c" /\ snd r "untitled.log" = None.
Proof. repeat split. Qed.

Local Open Scope nat_scope.
(** C126. With two or more containers of equal sizes the function is called exactly once for every
    index, in increasing order, on the elements of that index, whether or not containers overlap *)
Lemma ne_two x x' a y y' b : not_equal_tuples (x :: x' :: a) (y :: y' :: b) = negb (x =? y) && not_equal_tuples (x' :: a) (y' :: b).
Proof. reflexivity. Qed.
Lemma ne_same (args : list (@container)) k m : args <> [] -> (forall c, In c args -> len c = m) ->
  not_equal_tuples (map (fun c => base c + k) args) (map (fun c => base c + len c) args) = negb (k =? m).
Proof.
  intros N E. induction args as [|c args IH]; [contradiction|]. cbn [map].
  assert (X : (base c + k =? base c + len c) = (k =? m)).
  { rewrite (E c (or_introl eq_refl)). destruct (Nat.eqb_spec k m) as [->|D]; [apply Nat.eqb_refl|apply Nat.eqb_neq; lia]. }
  destruct args as [|c' args]; [cbn; rewrite X; reflexivity|]. cbn [map]. rewrite ne_two, X.
  cbn [map] in IH. rewrite IH; [|discriminate|intros c0 H; apply E; right; exact H]. destruct (k =? m); reflexivity.
Qed.
Lemma task_loop_spec (T : Type) (func : list nat -> @memory T -> @memory T) args m :
  args <> [] -> (forall c, In c args -> len c = m) -> forall r k mem fuel, m = k + r -> r < fuel ->
  task_loop fuel func (map (fun c => base c + k) args) (map (fun c => base c + len c) args) mem
  = Some (fold_left (fun mm i => func (map (fun c => base c + i) args) mm) (seq k r) mem).
Proof.
  intros N E. induction r as [|r IH]; intros k mem [|fuel] Em Hf; try lia; cbn [task_loop]; rewrite (ne_same args k m N E).
  - replace (k =? m) with true by (symmetry; apply Nat.eqb_eq; lia). reflexivity.
  - replace (k =? m) with false by (symmetry; apply Nat.eqb_neq; lia). cbn [negb seq fold_left].
    unfold incr_all. rewrite map_map.
    rewrite (map_ext _ (fun c => base c + S k)) by (intros; lia). apply IH; lia.
Qed.
Theorem C126_task : forall (T : Type) dbg (func : list nat -> @memory T -> @memory T) args m mem fuel,
  2 <= length args -> (forall c, In c args -> len c = m) -> m < fuel ->
  simple_task fuel dbg func args mem
  = Some (Ok (fold_left (fun mm i => func (map (fun c => base c + i) args) mm) (seq 0 m) mem)).
Proof.
  intros T dbg func args m mem fuel L E Hf. unfold simple_task.
  assert (Z : zip_check dbg (map len args) = Ok tt).
  { destruct args as [|c0 [|c1 args]]; try (cbn in L; lia). cbn. rewrite (E c1) by (right; left; reflexivity).
    replace (forallb _ _) with true; [destruct dbg; reflexivity|]. symmetry. apply forallb_forall. intros x H.
    apply in_map_iff in H as (c & <- & Hc). apply Nat.eqb_eq. symmetry. apply E. right. right. exact Hc. }
  rewrite Z. rewrite (map_ext base (fun c => base c + 0)) by (intros; lia).
  rewrite (task_loop_spec T func args m) with (r := m); [reflexivity| |exact E|lia|exact Hf].
  destruct args; [cbn in L; lia|discriminate].
Qed.
Print Assumptions C126_task.
(** the usage shown in the header: c = f(a, b) elementwise, c overlapping neither a nor b *)
Theorem C126_elementwise : forall (T : Type) dbg (f : T -> T -> T) a b c m (mem : @memory T) fuel,
  let func := fun args mm => match args with [x; y; z] => fun k => if k =? z then f (mm x) (mm y) else mm k | _ => mm end in
  (forall i j, i < m -> j < m -> a + i <> c + j /\ b + i <> c + j) -> m < fuel ->
  exists mem', simple_task fuel dbg func [mkc a m; mkc b m; mkc c m] mem = Some (Ok mem') /\
  (forall i, i < m -> mem' (c + i) = f (mem (a + i)) (mem (b + i))) /\
  (forall k, (forall i, i < m -> k <> c + i) -> mem' k = mem k).
Proof.
  intros T dbg f a b c m mem fuel func D Hf. eexists. split.
  { apply (C126_task T dbg func [mkc a m; mkc b m; mkc c m] m); [cbn; lia| |exact Hf]. intros x [<-|[<-|[<-|[]]]]; reflexivity. }
  set (sf := fun (mm : @memory T) i => func (map (fun x => base x + i) [mkc a m; mkc b m; mkc c m]) mm).
  assert (G : forall n, n <= m -> let r := fold_left sf (seq 0 n) mem in
    (forall i, i < n -> r (c + i) = f (mem (a + i)) (mem (b + i))) /\ (forall k, (forall i, i < n -> k <> c + i) -> r k = mem k)).
  { induction n as [|n IH]; intros Hn; [split; [intros; lia|reflexivity]|].
    destruct (IH ltac:(lia)) as [I1 I2]. cbv zeta. rewrite seq_S, fold_left_app. cbn [fold_left].
    set (r := fold_left sf (seq 0 n) mem) in *.
    assert (V : forall k, sf r (0 + n) k = if k =? c + n then f (r (a + n)) (r (b + n)) else r k) by reflexivity. split.
    - intros i Hi. rewrite V. destruct (Nat.eqb_spec (c + i) (c + n)) as [E|E].
      + replace i with n by lia. rewrite !I2; [reflexivity| |]; intros j Hj; apply (D n j); lia.
      + apply I1. lia.
    - intros k Hk. rewrite V. destruct (Nat.eqb_spec k (c + n)) as [E|E]; [exfalso; exact (Hk n ltac:(lia) E)|]. apply I2. intros i Hi. apply Hk. lia. }
  exact (G m (le_n m)).
Qed.
Print Assumptions C126_elementwise.
(** REFUTED: a task over a single container is undefined, in every build *)
Theorem C126_single_refuted : forall (T : Type) fuel dbg func c (mem : @memory T), simple_task fuel dbg func [c] mem = Some UB.
Proof. reflexivity. Qed.
Print Assumptions C126_single_refuted.
Example C126_case : option_map (fun o => match o with Ok m => map m [0; 1; 2; 3; 4; 5] | _ => [] end)
  (simple_task 3 true (fun args mm => match args with [x; y; z] => fun k => if k =? z then mm x + mm y else mm k | _ => mm end)
     [mkc 0 2; mkc 2 2; mkc 4 2] (fun k => k)) = Some [0; 1; 2; 3; 2; 4].
Proof. reflexivity. Qed.
