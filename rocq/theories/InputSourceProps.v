(** Property C166: errors, lengths and ownership of input sources (ristra/initialization/input_source.h, input_engine.h). *)
From Coq Require Import List String Bool Arith Lia.
From Verif Require Import Outcome InputSourceModel.
Import ListNotations.
Open Scope string_scope.

(** ** the four ways to look up a key look in the same place *)
Theorem C166_agree (P V : Type) (as_ : result P -> res V) s k :
  match get_lua_result_raw s k with
  | Raise x => get_uptr s k = Raise x /\ get_value as_ s k = Raise (sliced x) /\ get_size s k = Raise (sliced x)
  | Val (false, v) => get_uptr s k = Val None /\ get_value as_ s k = Val None /\ get_size s k = Val (r_size v)
  | Val (true, v) => get_uptr s k = Val (Some v) /\ get_size s k = Val (r_size v)
      /\ get_value as_ s k = match as_ v with Val x => Val (Some x) | Raise x => Raise (sliced x) end
  end.
Proof.
  unfold get_lua_result_raw, get_uptr, get_value, get_size. destruct (at_ (s_table_map s) k) as [from|x]; cbn [rbind catch_throw]; [|auto].
  destruct (at_ (s_tables s) from) as [t|x]; cbn [rbind catch_throw]; [|auto]. destruct (index t (lua_key s k)) as [v|x]; cbn [rbind catch_throw]; [|auto].
  destruct (empty v); cbn [negb rbind catch_throw]; [auto|]. destruct (as_ v); cbn [rbind catch_throw]; auto.
Qed.
Print Assumptions C166_agree.
(** the specification of the key in Lua (an alias if there is one) and of the length of a value *)
Definition key_in_lua {P} (s : source P) (k : key) : key := match s_keys s k with Some alias => alias | None => k end.
Definition length_of {P} (v : value P) : nat := match v with VTable n _ | VOther n _ => n | VNil => 0 end.
Lemma rawlen_length_of {P} (v : value P) : rawlen v = length_of v. Proof. destruct v; reflexivity. Qed.
(** and find a value exactly if the table of the key is loaded, is a table, and its entry is not nil *)
Theorem C166_found (P : Type) (s : source P) k v : get_lua_result_raw s k = Val (true, v) <->
  exists from t n f, s_table_map s k = Some from /\ s_tables s from = Some t /\ r_value t = VTable n f /\ v = mk_result (f (key_in_lua s k)) (length_of (f (key_in_lua s k))) /\ f (key_in_lua s k) <> VNil.
Proof.
  change (@key_in_lua P) with (@lua_key P). unfold get_lua_result_raw, at_. split.
  - destruct (s_table_map s k) as [from|]; [|discriminate]. cbn [rbind]. destruct (s_tables s from) as [t|] eqn:T; [|discriminate]. cbn [rbind]. unfold index. destruct (r_value t) as [|n f|n p] eqn:F; try discriminate.
    cbn [rbind]. unfold empty. cbn [r_value]. destruct (f (lua_key s k)) eqn:E; cbn [negb]; intros H; inversion H; subst; exists from, t, n, f; rewrite <- rawlen_length_of; repeat split; auto; rewrite E; auto; discriminate.
  - intros (from & t & n & f & A & B & C & -> & N). rewrite <- rawlen_length_of. rewrite A. cbn [rbind]. rewrite B. cbn [rbind]. unfold index. rewrite C. cbn [rbind]. unfold empty. cbn [r_value]. destruct (f (lua_key s k)); [contradiction| |]; reflexivity.
Qed.
Print Assumptions C166_found.
Definition sample : source nat := mk_source (fun k => if String.eqb k "CFL" then Some "hydro" else if String.eqb k "dt" then Some "hydro" else if String.eqb k "x" then Some "mesh" else None)
  (fun t => if String.eqb t "hydro" then Some (mk_result (VTable 0 (fun k => if String.eqb k "CFL" then VOther 0 7 else VNil)) 0) else None) (fun _ => None).
Example C166_found_example : get_lua_result_raw sample "CFL" = Val (true, mk_result (VOther 0 7) 0) /\ get_value (fun v => match r_value v with VOther _ p => Val p | _ => Raise (mk_exn Runtime_error "") end) sample "CFL" = Val (Some 7).
Proof. split; reflexivity. Qed.

(** ** errors lose their type and their message: whatever fails, a handler for std::out_of_range or std::runtime_error does not see
    it, and what() is the same *)
Theorem C166_error_refuted :
  (forall (P V : Type) (as_ : result P -> res V) s k x, get_value as_ s k = Raise x -> x = mk_exn Std_exception "std::exception" /\ derives (x_type x) Out_of_range = false /\ derives (x_type x) Runtime_error = false)
  /\ (forall (P : Type) (s : source P) k x, get_size s k = Raise x -> x = mk_exn Std_exception "std::exception")
  /\ (forall (P : Type) (s : source P) k x, get_table s k = Raise x -> x = mk_exn Std_exception "std::exception")
  /\ get_lua_result_raw sample "nope" = Raise (mk_exn Out_of_range "map::at") /\ get_size sample "nope" = Raise (mk_exn Std_exception "std::exception").
Proof.
  assert (C : forall (A : Type) (r : res A) x, catch_throw r = Raise x -> x = mk_exn Std_exception "std::exception") by (intros A r x H; destruct r; [discriminate|]; injection H as <-; reflexivity).
  split; [intros P V as_ s k x H; rewrite (C _ _ _ H); repeat split|]. split; [intros P s k x H; exact (C _ _ _ H)|]. split; [intros P s k x H; exact (C _ _ _ H)|]. split; reflexivity.
Qed.
Print Assumptions C166_error_refuted.
(** the specialisation for functions and the raw access keep them *)
Theorem C166_error_kept (P : Type) (s : source P) k x : get_uptr s k = Raise x ->
  (x = mk_exn Out_of_range "map::at" /\ (s_table_map s k = None \/ exists from, s_table_map s k = Some from /\ s_tables s from = None))
  \/ (x = mk_exn Runtime_error "general runtime error" /\ exists from t, s_table_map s k = Some from /\ s_tables s from = Some t /\ forall n f, r_value t <> VTable n f).
Proof.
  unfold get_uptr, at_. destruct (s_table_map s k) as [from|]; cbn [rbind]; [|intros [= <-]; left; auto]. destruct (s_tables s from) as [t|] eqn:T; cbn [rbind]; [|intros [= <-]; left; split; [reflexivity|]; right; exists from; auto].
  unfold index. destruct (r_value t) as [|n f|n p] eqn:F; cbn [rbind].
  - intros [= <-]. right. split; [reflexivity|]. exists from, t. repeat split; auto. intros n f E. congruence.
  - destruct (empty _); discriminate.
  - intros [= <-]. right. split; [reflexivity|]. exists from, t. repeat split; auto. intros m f E. congruence.
Qed.
Print Assumptions C166_error_kept.
(** ** get_size: the length Lua gives; a key that is not in its table is no error, its size is 0 *)
Theorem C166_size (P : Type) (s : source P) k from t n f : s_table_map s k = Some from -> s_tables s from = Some t -> r_value t = VTable n f -> get_size s k = Val (length_of (f (key_in_lua s k))).
Proof. intros A B C. rewrite <- rawlen_length_of. change (@key_in_lua P) with (@lua_key P). unfold get_size, at_. rewrite A. cbn [rbind]. rewrite B. cbn [rbind]. unfold index. rewrite C. reflexivity. Qed.
Print Assumptions C166_size.
Theorem C166_size_refuted (P : Type) (s : source P) k from t n f : s_table_map s k = Some from -> s_tables s from = Some t -> r_value t = VTable n f -> f (key_in_lua s k) = VNil ->
  get_size s k = Val 0 /\ (forall V (as_ : result P -> res V), get_value as_ s k = Val None).
Proof.
  intros A B C N. split; [rewrite (C166_size P s k from t n f A B C), N; reflexivity|]. intros V as_. unfold get_value, at_. rewrite A. cbn [rbind]. rewrite B. cbn [rbind]. unfold index. rewrite C. cbn [rbind empty r_value]. unfold empty. cbn [r_value]. change (lua_key s k) with (key_in_lua s k). rewrite N. reflexivity.
Qed.
Print Assumptions C166_size_refuted.
Example C166_size_example : get_size sample "dt" = Val 0
  /\ get_size (mk_source (fun _ => Some "hydro") (fun _ => Some (mk_result (VTable 0 (fun k => if String.eqb k "x_max" then VTable 3 (fun _ => VOther 0 7) else VNil)) 0)) (fun k => if String.eqb k "xmax" then Some "x_max" else None)) "xmax" = Val 3.
Proof. split; reflexivity. Qed.
(** ** get_table: the table that was loaded *)
Theorem C166_table (P : Type) (s : source P) k t : get_table s k = Val t <-> s_tables s k = Some t.
Proof. unfold get_table, at_. destruct (s_tables s k); cbn; split; congruence. Qed.
Print Assumptions C166_table.

(** ** ownership *)
(** the pointers handed over by a list of operations *)
Fixpoint handed (l : list op) : list nat := match l with [] => [] | Register _ (Some p) :: l => p :: handed l | _ :: l => handed l end.
(** pointers are handed over after they were allocated; engines are not used after their destruction; sources are asked for
    only when there is one *)
Fixpoint sensible (n : nat) (gone : nat -> bool) (full : nat -> bool) (l : list op) : Prop :=
  match l with
  | [] => True
  | New :: l => sensible (S n) gone full l
  | Register e p :: l => gone e = false /\ (forall q, p = Some q -> q < n) /\ sensible n gone (upd full e (match p with Some _ => true | None => false end)) l
  | Destroy e :: l => gone e = false /\ sensible n (upd gone e true) (upd full e false) l
  | Get e :: l => gone e = false /\ full e = true /\ sensible n gone full l
  end.
Record owned (w : world) (reg : list nat) : Prop := {
  o_slot : forall e p, w_slot w e = Some p -> In p reg /\ w_dead w p = false /\ p < w_next w;
  o_once : forall e e' p, w_slot w e = Some p -> w_slot w e' = Some p -> e = e';
  o_dead : forall p, w_dead w p = true -> In p reg;
  o_all : forall p, In p reg -> p < w_next w /\ (w_dead w p = true \/ exists e, w_slot w e = Some p);
  o_gone : forall e, w_gone w e = true -> w_slot w e = None }.
Lemma upd_same {A} (f : nat -> A) i x : upd f i x i = x. Proof. unfold upd. rewrite Nat.eqb_refl. reflexivity. Qed.
Lemma upd_other {A} (f : nat -> A) i x k : k <> i -> upd f i x k = f k. Proof. intros H. unfold upd. destruct (Nat.eqb_spec k i); [contradiction|reflexivity]. Qed.
(** storing a new pointer (or none) and deleting the old one *)
Lemma replace_owned w reg e p g' : owned w reg -> (forall q, p = Some q -> q < w_next w /\ ~ In q reg) -> (forall e', g' e' = true -> w_gone w e' = true \/ (e' = e /\ p = None)) -> w_gone w e = false ->
  exists w', delete (mk_world (w_next w) (w_dead w) (upd (w_slot w) e p) g') (w_slot w e) = Ok w' /\ owned w' (match p with Some q => q :: reg | None => reg end)
    /\ w_next w' = w_next w /\ w_slot w' = upd (w_slot w) e p /\ w_gone w' = g'.
Proof.
  intros O N G Ge. destruct O as [S1 S2 S3 S4 S5]. unfold delete. destruct (w_slot w e) as [old|] eqn:E.
  - destruct (S1 e old E) as (I & D & L). cbn [w_next w_dead]. destruct (Nat.ltb_spec old (w_next w)); [|lia]. rewrite D. cbn [negb andb]. eexists. split; [reflexivity|]. cbn [w_next w_dead w_slot w_gone]. split; [|auto]. constructor; cbn [w_next w_dead w_slot w_gone].
    + intros e1 q H1. destruct (Nat.eq_dec e1 e) as [->|Ne].
      * rewrite upd_same in H1. subst p. destruct (N q eq_refl) as [Lq Nq]. split; [left; reflexivity|]. split; [|exact Lq]. rewrite upd_other by (intros ->; contradiction). destruct (w_dead w q) eqn:Dq; [exfalso; apply Nq, S3, Dq|reflexivity].
      * rewrite upd_other in H1 by exact Ne. destruct (S1 e1 q H1) as (Iq & Dq & Lq). split; [destruct p; [right|]; exact Iq|]. split; [|exact Lq]. rewrite upd_other; [exact Dq|]. intros ->. apply Ne. exact (S2 e1 e old H1 E).
    + intros e1 e2 q H1 H2. destruct (Nat.eq_dec e1 e) as [->|N1], (Nat.eq_dec e2 e) as [->|N2]; try reflexivity.
      * rewrite upd_same in H1. rewrite upd_other in H2 by exact N2. subst p. exfalso. apply (proj2 (N q eq_refl)). apply (S1 e2 q H2).
      * rewrite upd_same in H2. rewrite upd_other in H1 by exact N1. subst p. exfalso. apply (proj2 (N q eq_refl)). apply (S1 e1 q H1).
      * rewrite upd_other in H1, H2 by assumption. exact (S2 e1 e2 q H1 H2).
    + intros q H1. assert (In q reg) by (destruct (Nat.eq_dec q old) as [->|Nq]; [exact I|rewrite upd_other in H1 by exact Nq; exact (S3 q H1)]). destruct p; [right|]; assumption.
    + intros q H1. assert (C : (exists q0, p = Some q0 /\ q = q0) \/ In q reg) by (destruct p as [q0|]; [destruct H1 as [<-|H1]; [left; exists q0; auto|right; exact H1]|right; exact H1]). destruct C as [(q0 & -> & ->)|Iq].
      * split; [apply N; reflexivity|]. right. exists e. apply upd_same.
      * destruct (S4 q Iq) as [Lq [Dq|(e1 & Sq)]]; (split; [exact Lq|]).
        -- left. destruct (Nat.eq_dec q old) as [->|Nq]; [apply upd_same|rewrite upd_other by exact Nq; exact Dq].
        -- destruct (Nat.eq_dec e1 e) as [->|Ne]; [left; replace q with old by congruence; apply upd_same|right; exists e1; rewrite upd_other by exact Ne; exact Sq].
    + intros e1 H1. destruct (G e1 H1) as [H2|[-> ->]]; [|apply upd_same]. rewrite upd_other by (intros ->; congruence). exact (S5 e1 H2).
  - eexists. split; [reflexivity|]. cbn [w_next w_dead w_slot w_gone]. split; [|auto]. constructor; cbn [w_next w_dead w_slot w_gone].
    + intros e1 q H1. destruct (Nat.eq_dec e1 e) as [->|Ne].
      * rewrite upd_same in H1. subst p. destruct (N q eq_refl) as [Lq Nq]. split; [left; reflexivity|]. split; [|exact Lq]. destruct (w_dead w q) eqn:Dq; [exfalso; apply Nq, S3, Dq|reflexivity].
      * rewrite upd_other in H1 by exact Ne. destruct (S1 e1 q H1) as (Iq & Dq & Lq). split; [destruct p; [right|]; exact Iq|]. auto.
    + intros e1 e2 q H1 H2. destruct (Nat.eq_dec e1 e) as [->|N1], (Nat.eq_dec e2 e) as [->|N2]; try reflexivity.
      * rewrite upd_same in H1. rewrite upd_other in H2 by exact N2. subst p. exfalso. apply (proj2 (N q eq_refl)). apply (S1 e2 q H2).
      * rewrite upd_same in H2. rewrite upd_other in H1 by exact N1. subst p. exfalso. apply (proj2 (N q eq_refl)). apply (S1 e1 q H1).
      * rewrite upd_other in H1, H2 by assumption. exact (S2 e1 e2 q H1 H2).
    + intros q H1. specialize (S3 q H1). destruct p; [right|]; assumption.
    + intros q H1. assert (C : (exists q0, p = Some q0 /\ q = q0) \/ In q reg) by (destruct p as [q0|]; [destruct H1 as [<-|H1]; [left; exists q0; auto|right; exact H1]|right; exact H1]). destruct C as [(q0 & -> & ->)|Iq].
      * split; [apply N; reflexivity|]. right. exists e. apply upd_same.
      * destruct (S4 q Iq) as [Lq [Dq|(e1 & Sq)]]; (split; [exact Lq|]); [left; exact Dq|]. right. exists e1. rewrite upd_other by congruence. exact Sq.
    + intros e1 H1. destruct (G e1 H1) as [H2|[-> ->]]; [|apply upd_same]. rewrite upd_other by (intros ->; congruence). exact (S5 e1 H2).
Qed.
Lemma run_owned dbc l : forall w reg full, owned w reg -> (forall e, full e = match w_slot w e with Some _ => true | None => false end) -> sensible (w_next w) (w_gone w) full l -> NoDup (handed l) -> (forall p, In p (handed l) -> ~ In p reg) ->
  exists w' reg', run dbc l w = Ok w' /\ owned w' reg' /\ (forall p, In p reg' <-> In p reg \/ In p (handed l)).
Proof.
  induction l as [|o l IH]; intros w reg full O F S N D; [exists w, reg; split; [reflexivity|]; split; [exact O|]; intros p; cbn; tauto|]. destruct o as [|e p|e|e]; cbn [run sensible handed] in *.
  - apply (IH _ reg full); [|exact F|exact S|exact N|exact D]. destruct O as [S1 S2 S3 S4 S5]. constructor; cbn [fst w_next w_dead w_slot w_gone]; auto.
    + intros e p H. destruct (S1 e p H) as (? & ? & ?). repeat split; auto.
    + intros p H. destruct (S4 p H) as [? ?]. auto.
  - destruct S as (G & L & S). cbn [step]. rewrite G.
    destruct (replace_owned w reg e p (w_gone w) O) as (w' & E & O' & En & Es & Eg); [intros q ->; split; [apply L; reflexivity|apply D; left; reflexivity]|auto|exact G|]. rewrite E. cbn [bind fst].
    destruct p as [q|].
    + inversion N as [|? ? Nq Nl]; subst. destruct (IH w' (q :: reg) (upd full e true)) as (w2 & reg2 & R & O2 & I2).
      * exact O'.
      * intros e1. rewrite Es. destruct (Nat.eq_dec e1 e) as [->|Ne]; [rewrite !upd_same; reflexivity|rewrite !upd_other by exact Ne; apply F].
      * rewrite En, Eg. exact S.
      * exact Nl.
      * intros p H [<-|H2]; [contradiction|]. apply (D p); [right; exact H|exact H2].
      * exists w2, reg2. split; [exact R|]. split; [exact O2|]. intros p. rewrite I2. cbn [In]. tauto.
    + destruct (IH w' reg (upd full e false)) as (w2 & reg2 & R & O2 & I2).
      * exact O'.
      * intros e1. rewrite Es. destruct (Nat.eq_dec e1 e) as [->|Ne]; [rewrite !upd_same; reflexivity|rewrite !upd_other by exact Ne; apply F].
      * rewrite En, Eg. exact S.
      * exact N.
      * exact D.
      * exists w2, reg2. auto.
  - destruct S as (G & S). cbn [step]. rewrite G.
    destruct (replace_owned w reg e None (upd (w_gone w) e true) O) as (w' & E & O' & En & Es & Eg); [discriminate| |exact G|].
    { intros e1 H. destruct (Nat.eq_dec e1 e) as [->|Ne]; [right; auto|left; rewrite upd_other in H by exact Ne; exact H]. }
    rewrite E. cbn [bind fst]. apply (IH w' reg (upd full e false)); [exact O'| |rewrite En, Eg; exact S|exact N|exact D].
    intros e1. rewrite Es. destruct (Nat.eq_dec e1 e) as [->|Ne]; [rewrite !upd_same; reflexivity|rewrite !upd_other by exact Ne; apply F].
  - destruct S as (G & Fe & S). cbn [step]. rewrite G. rewrite F in Fe. destruct (w_slot w e) as [p|] eqn:E; [|discriminate]. destruct (o_slot w reg O e p E) as (_ & Dp & Lp). destruct (Nat.ltb_spec p (w_next w)); [|lia]. rewrite Dp. cbn [negb andb bind fst].
    apply (IH w reg full); assumption.
Qed.
(** if no pointer is handed over twice nothing is deleted twice or used after its deletion; a source is deleted exactly when it was
    handed over and no engine has it any more *)
Theorem C166_ownership dbc l : sensible 0 (fun _ => false) (fun _ => false) l -> NoDup (handed l) ->
  exists w, run dbc l start = Ok w /\ (forall e p, w_slot w e = Some p -> w_dead w p = false) /\ (forall p, w_dead w p = true <-> In p (handed l) /\ forall e, w_slot w e <> Some p).
Proof.
  intros S N. destruct (run_owned dbc l start [] (fun _ => false)) as (w & reg & R & O & I); [constructor; cbn; try discriminate; try contradiction|reflexivity|exact S|exact N|intros p _ []|].
  exists w. split; [exact R|]. split; [intros e p H; apply (o_slot w reg O e p H)|]. intros p. split.
  - intros H. split; [destruct (proj1 (I p) (o_dead w reg O p H)) as [[]|H2]; exact H2|]. intros e E. destruct (o_slot w reg O e p E) as (_ & D & _). congruence.
  - intros [H E]. destruct (o_all w reg O p (proj2 (I p) (or_intror H))) as [_ [D|(e & D)]]; [exact D|exfalso; exact (E e D)].
Qed.
Print Assumptions C166_ownership.
Example C166_ownership_example : let l := [New; Register 0 (Some 0); New; Get 0; Register 0 (Some 1); Get 0; New; Register 1 (Some 2); Destroy 0] in
  sensible 0 (fun _ => false) (fun _ => false) l /\ NoDup (handed l).
Proof. cbn. split; [repeat split; try congruence; intros q [= <-]; auto|]. repeat constructor; cbn; intuition congruence. Qed.
(** registering a pointer again, with the same engine or another: deleted while it is owned, and deleted twice *)
Theorem C166_ownership_refuted dbc :
  run dbc [New; Register 0 (Some 0); Register 0 (Some 0); Get 0] start = UB
  /\ run dbc [New; Register 0 (Some 0); Register 0 (Some 0); Destroy 0] start = UB
  /\ run dbc [New; Register 0 (Some 0); Register 1 (Some 0); Destroy 0; Destroy 1] start = UB
  /\ (exists w, run dbc [New; Register 0 (Some 0); Register 0 (Some 0)] start = Ok w /\ w_slot w 0 = Some 0 /\ w_dead w 0 = true).
Proof. repeat split; try reflexivity. eexists. repeat split; reflexivity. Qed.
Print Assumptions C166_ownership_refuted.
(** asking for a source that is not there throws only with the assertions switched on *)
Theorem C166_get_refuted : (forall w e, w_gone w e = false -> w_slot w e = None -> step true (Get e) w = Throw /\ step false (Get e) w = UB) /\ w_slot start 0 = None /\ w_gone start 0 = false.
Proof. split; [|split; reflexivity]. intros w e G E. unfold step. rewrite G, E. auto. Qed.
Print Assumptions C166_get_refuted.
