(** Property theorems for several atomic variables, memory orders, data races, mutexes and punned
    types (C116-C119). *)
From Coq Require Import List Arith Bool ZArith Lia Permutation.
From Verif Require Import ListExtra AtomicsModel AtomicsProofs AtomicsRuns AtomicsProgress AtomicsProps
  AtomicsVarsModel AtomicsVarsProofs.
Import ListNotations.

(** every operation on variable v satisfies P *)
Definition every_op_on {T} (progs : list (list (vop T))) (v : nat) (P : op T -> Prop) : Prop :=
  forall p o, In p progs -> In (v, o) p -> P o.
Lemma in_on_var {T} v (o : op T) p : In o (on_var v p) -> In (v, o) p.
Proof.
  induction p as [|[w q] p IH]; cbn; [auto|]. destruct (Nat.eqb_spec w v) as [->|N]; cbn; [|auto].
  intros [->|H]; auto.
Qed.
Lemma every_on {T} (progs : list (list (vop T))) v P : every_op_on progs v P -> every_op (map (on_var v) progs) P.
Proof. intros H p o Hp Ho. apply in_map_iff in Hp. destruct Hp as (q & <- & Hq). apply (H q o Hq). apply in_on_var. exact Ho. Qed.

(** ** an executable scheduler for the examples: [Some z] reads the stale value z *)
Definition vseen (c : vconfig Z Z) (x : option Z) (v : nat) : option Z :=
  match x with
  | None => Some (vcell c v)
  | Some z => if in_dec Z.eq_dec z (vcell c v :: vold c v) then Some z else None
  end.
Definition vmove (mx : nat -> nat) (t : nat) (x : option Z) (c : vconfig Z Z) : option (option (vevent Z) * vconfig Z Z) :=
  match vth c t with
  | mk_vthread p ((v, o) :: r) =>
    let put q c' e := Some (e, goto c' t (mk_vthread q ((v, o) :: r))) in
    match p with
    | PIdle => put PStart c (Some (VInv t v o))
    | PStart => match sch o with
      | Strong | Weak => match vseen c x v with Some z => put (PCas z) c None | None => None end
      | CppBin => put PCppRet (wr c v (fst (fn o (vcell c v)))) None
      | CppUn => put (PRet (snd (fn o (vcell c v)))) (wr c v (fst (fn o (vcell c v)))) None
      | KokkosPost => put (PKRead (vcell c v)) c None
      | Lock => match vmux c (mx v) with None => put PHeld (setm c (mx v) (Some t)) None | Some _ => None end
      | Serial => put (PSRead (vcell c v)) c None
      end
    | PCas old => if Z.eq_dec (vcell c v) old then put (PRet (snd (fn o old))) (wr c v (fst (fn o old))) None
                  else match vseen c x v with
                       | Some z => if Z.eq_dec z old then None else put (PCas z) c None
                       | None => None end
    | PCppRet => put (PRet (vcell c v)) c None
    | PKRead y => put (PRet y) (wr c v (fst (fn o (vcell c v)))) None
    | PHeld => put (PRead (vcell c v)) c None
    | PRead y => put (PWrote (snd (fn o y))) (wr c v (fst (fn o y))) None
    | PWrote y => put (PRet y) (setm c (mx v) None) None
    | PSRead y => put (PRet (snd (fn o y))) (wr c v (fst (fn o y))) None
    | PRet y => Some (Some (VRes t v y), goto c t (mk_vthread PIdle r))
    end
  | _ => None
  end.
Lemma vmove_step mx t x c e c' : vmove mx t x c = Some (e, c') -> vstep idz mx t c e c'.
Proof.
  unfold vmove.
  assert (Hs : forall v z, vseen c x v = Some z -> has_held c v z).
  { intros v z. unfold vseen. destruct x as [y|].
    - destruct (in_dec Z.eq_dec y (vcell c v :: vold c v)) as [[H|H]|H]; intros E; try discriminate; injection E as <-.
      + left. congruence.
      + right. exact H.
    - intros E. injection E as <-. left. reflexivity. }
  destruct (vth c t) as [p [|[v o] r]] eqn:E; [discriminate|]. cbv zeta beta.
  destruct p.
  1: intros H; injection H as <- <-; eapply v_call; exact E.
  1: { destruct (sch o) eqn:So.
    - destruct (vseen c x v) as [z|] eqn:Sv; [|discriminate]. intros H; injection H as <- <-. eapply v_load; [exact E|auto|eapply Hs; exact Sv|reflexivity].
    - destruct (vseen c x v) as [z|] eqn:Sv; [|discriminate]. intros H; injection H as <- <-. eapply v_load; [exact E|auto|eapply Hs; exact Sv|reflexivity].
    - intros H; injection H as <- <-. eapply v_cpp_rmw; [exact E|exact So|reflexivity].
    - intros H; injection H as <- <-. eapply (v_cpp_un idz); [exact E|exact So|reflexivity].
    - intros H; injection H as <- <-. eapply (v_k_read idz); [exact E|exact So].
    - destruct (vmux c (mx v)) eqn:M; [discriminate|]. intros H; injection H as <- <-. eapply v_lock; [exact E|exact So|exact M].
    - intros H; injection H as <- <-. eapply (v_s_read idz); [exact E|exact So]. }
  1: { destruct (Z.eq_dec (vcell c v) old) as [K|K].
    - intros H; injection H as <- <-. eapply (v_cas_ok idz); [exact E|exact K|reflexivity].
    - destruct (vseen c x v) as [z|] eqn:Sv; [|discriminate]. destruct (Z.eq_dec z old) as [Q|Q]; [discriminate|].
      intros H; injection H as <- <-. eapply v_cas_fail; [exact E|apply Hs; exact Sv|left; exact Q]. }
  all: intros H; injection H as <- <-;
    first [ eapply (v_cpp_ret idz); exact E | eapply v_k_rmw; [exact E|reflexivity] | eapply (v_l_read idz); exact E
          | eapply (v_l_write idz); [exact E|reflexivity] | eapply v_unlock; exact E
          | eapply (v_s_write idz); [exact E|reflexivity] | eapply v_return; exact E ].
Qed.
Fixpoint vplay (mx : nat -> nat) (l : list (nat * option Z)) (n : nat) (h : list (vevent Z)) (c : vconfig Z Z) :
  option (nat * list (vevent Z) * vconfig Z Z) :=
  match l with
  | [] => Some (n, h, c)
  | (t, x) :: r => match vmove mx t x c with Some (e, c') => vplay mx r (S n) (vadd h e) c' | None => None end
  end.
Lemma vplay_run mx c0 l : forall n h c n' h' c', vrun idz mx c0 n h c -> vplay mx l n h c = Some (n', h', c') ->
  vrun idz mx c0 n' h' c'.
Proof.
  induction l as [|[t x] l IH]; intros n h c n' h' c' R E; simpl in E.
  - injection E as <- <- <-. exact R.
  - destruct (vmove mx t x c) as [[e d]|] eqn:M; [|discriminate]. eapply IH; [|exact E].
    exact (vrun_snoc _ _ _ _ _ _ _ _ _ R (vmove_step _ _ _ _ _ _ M)).
Qed.
Lemma by_vschedule (P : list (vevent Z) -> vconfig Z Z -> Prop) mx b0 progs l n h c :
  vplay mx l 0 [] (vinit b0 progs) = Some (n, h, c) -> P h c ->
  exists n h c, vrun idz mx (vinit b0 progs) n h c /\ P h c.
Proof. intros E H. exists n, h, c. split; [|exact H]. eapply vplay_run; [apply vrun_nil|exact E]. Qed.
Definition vsched (l : list nat) : list (nat * option Z) := map (fun t => (t, None)) l.

(** C116. Several variables and any memory orders: what happens on a variable that is only touched
    by compare-and-swap operations (with std::atomic's own ++, --, reads) is linearizable, whatever
    the other operations of the same threads on other variables, and however stale the values read *)
Theorem C116_linearizable : forall (T B : Type) (dec : B -> T) (mx : nat -> nat) (b0 : nat -> B) progs n h c v,
  every_op_on progs v cas_like -> vrun dec mx (vinit b0 progs) n h c ->
  linearizable (dec (b0 v)) (hist_on v h) (dec (vcell c v)).
Proof.
  intros T B dec mx b0 progs n h c v H R. destruct (project dec mx b0 progs n h c v R) as (n' & a & Ra & Si).
  rewrite <- (sim_cell _ _ _ _ Si). eapply C30_cas_linearizable; [apply every_on; exact H|exact Ra].
Qed.
Print Assumptions C116_linearizable.
(** the same when only the lock scheme is used, on variables that share mutexes in any way *)
Theorem C116_lock_linearizable : forall (T B : Type) (dec : B -> T) (mx : nat -> nat) (b0 : nat -> B) progs n h c v,
  every_op_on progs v (fun o => sch o = Lock) -> vrun dec mx (vinit b0 progs) n h c ->
  linearizable (dec (b0 v)) (hist_on v h) (dec (vcell c v)).
Proof.
  intros T B dec mx b0 progs n h c v H R. destruct (project dec mx b0 progs n h c v R) as (n' & a & Ra & Si).
  rewrite <- (sim_cell _ _ _ _ Si). eapply C35_lock_linearizable; [apply every_on; exact H|exact Ra].
Qed.
Print Assumptions C116_lock_linearizable.
(** distinct tickets, with any memory orders *)
Definition vfinished {T B} (c : vconfig T B) : Prop := forall t, vtodo (vth c t) = [].
Lemma finished_on {T B} (mx : nat -> nat) v (c : vconfig T B) a : sim mx v c a -> vfinished c -> finished a.
Proof. intros Si Fi t. rewrite (sim_th _ _ _ _ Si). unfold th_on. rewrite Fi. reflexivity. Qed.
Theorem C116_tickets : forall (B : Type) (dec : B -> Z) (mx : nat -> nat) (b0 : nat -> B) (W : Z) progs n h c v,
  (0 <= dec (b0 v) < W)%Z -> (Z.of_nat (length (concat (map (on_var v) progs))) <= W)%Z ->
  every_op_on progs v (fun o => cas_like o /\ fn o = post_op (fun z => ((z + 1) mod W)%Z)) ->
  vrun dec mx (vinit b0 progs) n h c -> vfinished c ->
  NoDup (all_returned (map (on_var v) progs) (hist_on v h)) /\
  dec (vcell c v) = ((dec (b0 v) + Z.of_nat (length (concat (map (on_var v) progs)))) mod W)%Z.
Proof.
  intros B dec mx b0 W progs n h c v Hb HW H R Fi.
  destruct (project dec mx b0 progs n h c v R) as (n' & a & Ra & Si).
  destruct (C32_tickets_distinct _ dec (b0 v) W (map (on_var v) progs) n' (hist_on v h) a Hb HW (every_on _ _ _ H) Ra
    (finished_on _ _ _ _ Si Fi)) as (N & _ & E).
  split; [exact N|]. rewrite <- (sim_cell _ _ _ _ Si). exact E.
Qed.
Print Assumptions C116_tickets.
(** two threads add to variable 0, and thread 1 to variable 3 in between; thread 1 reads the old
    value of variable 0 twice before it succeeds *)
Definition two_vars : list (list (vop Z)) := [[(0, add1 Strong); (0, add1 Strong)]; [(3, add1 Lock); (0, add1 Weak)]].
Example C116_stale : every_op_on two_vars 0 cas_like /\ every_op_on two_vars 3 (fun o => sch o = Lock) /\
  exists n h c, vrun idz (fun _ => 0) (vinit (fun v => Z.of_nat v) two_vars) n h c /\
    hist_on 0 h = [EInv 0 (add1 Strong); ERes 0 1%Z; EInv 0 (add1 Strong); ERes 0 2%Z;
                   EInv 1 (add1 Weak); ERes 1 3%Z] /\
    hist_on 3 h = [EInv 1 (add1 Lock); ERes 1 4%Z] /\ vcell c 0 = 3%Z /\ vcell c 3 = 4%Z.
Proof.
  split; [|split].
  - intros p o [<-|[<-|[]]] Ho; repeat (destruct Ho as [Ho|Ho]; [try discriminate Ho; injection Ho as <-|]); try contradiction;
      first [left; reflexivity|right; left; reflexivity].
  - intros p o [<-|[<-|[]]] Ho; repeat (destruct Ho as [Ho|Ho]; [try discriminate; injection Ho as <-|]);
      try contradiction; try reflexivity.
  - eapply (by_vschedule _ _ _ _ (vsched [1;1;0;0;0;0;0;0;0;0;1;1;1;1;1] ++ [(1, Some 0%Z); (1, Some 1%Z); (1, Some 0%Z); (1, None); (1, None); (1, None)]));
      [vm_compute; reflexivity|]. repeat split; reflexivity.
Qed.

(** C117. No data race if each variable is used consistently: only with the lock scheme, or not with
    lock or serial at all, or by one thread only. *)
Definition used_by {T} (progs : list (list (vop T))) (v t : nat) : Prop := exists o, In (v, o) (nth t progs []).
Definition consistent {T} (progs : list (list (vop T))) (v : nat) : Prop :=
  every_op_on progs v (fun o => sch o = Lock) \/
  every_op_on progs v (fun o => sch o <> Lock /\ sch o <> Serial) \/
  (forall t u, used_by progs v t -> used_by progs v u -> t = u).
Lemma todo_incl {T B} (dec : B -> T) mx b0 progs n h c : vrun dec mx (vinit b0 progs) n h c ->
  forall t x, In x (vtodo (vth c t)) -> In x (nth t progs []).
Proof.
  induction 1 as [|n h c t e c' R IH S]; [auto|]. intros u x Hx. apply IH. revert Hx.
  destruct (Nat.eq_dec u t) as [->|N].
  - inversion S; subst; cbn [vth goto wr setm]; rewrite upd_eq; cbn [vtodo];
      match goal with H : vth c t = _ |- _ => rewrite H; cbn [vtodo]; auto end.
    intros K. right. exact K.
  - inversion S; subst; cbn [vth goto wr setm]; rewrite upd_ne by exact N; auto.
Qed.
Lemma nth_progs {T} (progs : list (list (vop T))) t x : In x (nth t progs []) -> In (nth t progs []) progs.
Proof.
  intros H. destruct (Nat.lt_ge_cases t (length progs)) as [L|G]; [apply nth_In; exact L|].
  rewrite nth_overflow in H by exact G. contradiction.
Qed.
Lemma access_op {T B} (x : vthread T B) a : next_access x = Some a -> exists o r, vtodo x = (a_var a, o) :: r.
Proof.
  unfold next_access. destruct (vtodo x) as [|[v o] r]; [discriminate|]. intros H. exists o, r. f_equal. f_equal.
  destruct (vpc x); try discriminate; try (destruct (sch o); try discriminate); injection H as <-; reflexivity.
Qed.
Theorem C117_race_free : forall (T B : Type) (dec : B -> T) (mx : nat -> nat) (b0 : nat -> B) progs n h c,
  (forall v, consistent progs v) -> vrun dec mx (vinit b0 progs) n h c -> ~ racy c.
Proof.
  intros T B dec mx b0 progs n h c Co R (t & u & a & b & Ntu & Ha & Hb & Ev & Ww & At).
  destruct (access_op _ _ Ha) as (oa & ra & Ea). destruct (access_op _ _ Hb) as (ob & rb & Eb). rewrite <- Ev in Eb.
  pose proof (todo_incl _ _ _ _ _ _ _ R) as Inc.
  assert (Ia : In (a_var a, oa) (nth t progs [])) by (apply Inc; rewrite Ea; left; reflexivity).
  assert (Ib : In (a_var a, ob) (nth u progs [])) by (apply Inc; rewrite Eb; left; reflexivity).
  destruct (reach_vinv dec mx b0 progs n h c R) as [[M1 M2] Fi].
  pose proof (Fi t) as Ft. pose proof (Fi u) as Fu. rewrite Ea in Ft. rewrite Eb in Fu.
  unfold next_access in Ha, Hb. rewrite Ea in Ha. rewrite Eb in Hb.
  destruct (Co (a_var a)) as [L|[L|L]].
  - pose proof (L _ oa (nth_progs _ _ _ Ia) Ia) as Sa. pose proof (L _ ob (nth_progs _ _ _ Ib) Ib) as Sb.
    cbn in Sa, Sb. rewrite Sa in *. rewrite Sb in *.
    assert (Ca : vcrit (vpc (vth c t))) by (destruct (vpc (vth c t)); cbn in *; try discriminate; try (destruct Ft; discriminate); exact I).
    assert (Cb : vcrit (vpc (vth c u))) by (destruct (vpc (vth c u)); cbn in *; try discriminate; try (destruct Fu; discriminate); exact I).
    pose proof (M1 t _ _ _ Ea Ca). pose proof (M1 u _ _ _ Eb Cb). congruence.
  - pose proof (L _ oa (nth_progs _ _ _ Ia) Ia) as [Sa1 Sa2]. pose proof (L _ ob (nth_progs _ _ _ Ib) Ib) as [Sb1 Sb2].
    destruct At as [At|At].
    + destruct (vpc (vth c t)); cbn in Ha, Ft; try discriminate; try congruence;
        try (destruct (sch oa); try discriminate; try congruence); apply (f_equal (option_map a_atomic)) in Ha; cbn in Ha; congruence.
    + destruct (vpc (vth c u)); cbn in Hb, Fu; try discriminate; try congruence;
        try (destruct (sch ob); try discriminate; try congruence); apply (f_equal (option_map a_atomic)) in Hb; cbn in Hb; congruence.
  - apply Ntu. apply L; [exists oa; exact Ia|exists ob; exact Ib].
Qed.
Print Assumptions C117_race_free.
Example C117_case : forall v, consistent two_vars v.
Proof.
  intros v. destruct C116_stale as (H0 & H3 & _).
  destruct v as [|[|[|[|v]]]].
  - right. left. intros p o Hp Ho. destruct (H0 p o Hp Ho) as [E|[E|E]]; rewrite E; split; discriminate.
  - left. intros p o [<-|[<-|[]]] Ho; repeat (destruct Ho as [Ho|Ho]; [discriminate|]); contradiction.
  - left. intros p o [<-|[<-|[]]] Ho; repeat (destruct Ho as [Ho|Ho]; [discriminate|]); contradiction.
  - left. exact H3.
  - left. intros p o [<-|[<-|[]]] Ho; repeat (destruct Ho as [Ho|Ho]; [discriminate|]); contradiction.
Qed.
(** REFUTED for lock in general: reading or printing the variable does not take the mutex; one
    thread adds under the lock scheme while another reads the variable *)
Theorem C117_locked_read_refuted : exists progs,
  every_op_on progs 0 (fun o => sch o = Lock \/ o = read_op) /\
  exists n h c, vrun idz (fun _ => 0) (vinit (fun _ => 5%Z) progs) n h c /\ racy c.
Proof.
  exists [[(0, add1 Lock)]; [(0, read_op)]]. split.
  - intros p o [<-|[<-|[]]] [Ho|[]]; injection Ho as <-; [left; reflexivity|right; reflexivity].
  - eapply (by_vschedule (fun _ c => racy c) _ _ _ (vsched [0;0;0;1])); [vm_compute; reflexivity|].
    exists 0, 1. eexists. eexists. split; [discriminate|]. cbn. split; [reflexivity|]. split; [reflexivity|].
    cbn. auto.
Qed.
Print Assumptions C117_locked_read_refuted.
(** two threads on two variables of one type exclude each other though they share no data *)
Example C117_shared_mutex : exists n h c,
  vrun idz (fun _ => 0) (vinit (fun _ => 5%Z) [[(0, add1 Lock)]; [(1, add1 Lock)]]) n h c /\
  vpc (vth c 1) = PStart /\ forall e c', ~ vstep idz (fun _ => 0) 1 c e c'.
Proof.
  eapply (by_vschedule (fun _ c => vpc (vth c 1) = PStart /\ forall e c', ~ vstep idz (fun _ => 0) 1 c e c') _ _ _ (vsched [0;1;0]));
    [vm_compute; reflexivity|]. split; [reflexivity|].
  intros e c' S. inversion S; cbn in *; try discriminate;
    match goal with H : mk_vthread _ _ = mk_vthread _ _ |- _ => injection H as E1 E2 E3; subst; cbn in * end;
    try discriminate; try (destruct H0; discriminate).
Qed.

(** C118. No deadlock, with any mix of schemes on any variables; and without compare-and-swap loops
    every operation takes at most six steps, so every schedule ends *)
Theorem C118_no_deadlock : forall (T B : Type) (dec : B -> T) (eqB : forall x y : B, {x = y} + {x <> y}) (mx : nat -> nat)
  (b0 : nat -> B) progs n h c, (forall v, exists b, dec b = v) ->
  vrun dec mx (vinit b0 progs) n h c -> vfinished c \/ exists t e c', vstep dec mx t c e c'.
Proof.
  intros T B dec eqB mx b0 progs n h c Sur R.
  destruct (reach_vinv dec mx b0 progs n h c R) as [[M1 M2] Fi].
  assert (D : (exists t, vtodo (vth c t) <> []) \/ vfinished c).
  { assert (G : forall k, (exists t, vtodo (vth c t) <> []) \/ forall t, t < k -> vtodo (vth c t) = []).
    { induction k as [|k IH]; [right; intros; lia|]. destruct IH as [IH|IH]; [left; exact IH|].
      destruct (vtodo (vth c k)) eqn:E.
      - right. intros t Ht. destruct (Nat.eq_dec t k) as [->|]; [exact E|apply IH; lia].
      - left. exists k. rewrite E. discriminate. }
    destruct (G (length progs)) as [G1|G1]; [left; exact G1|right]. intros t.
    destruct (Nat.lt_ge_cases t (length progs)) as [Lt|Ge]; [auto|].
    destruct (vtodo (vth c t)) as [|x r] eqn:E; [reflexivity|]. exfalso.
    pose proof (todo_incl _ _ _ _ _ _ _ R t x) as K. rewrite E, nth_overflow in K by exact Ge. apply K. left. reflexivity. }
  destruct D as [(t & Hn)|D]; [right|left; exact D].
  assert (Cs : forall u v o r, vtodo (vth c u) = (v, o) :: r -> vcrit (vpc (vth c u)) -> exists e c', vstep dec mx u c e c').
  { intros u v o r E Cr. destruct (vth c u) as [p td] eqn:Eu. cbn in E, Cr. subst td. destruct p; try contradiction.
    - eexists _, _. eapply v_l_read; eauto.
    - destruct (Sur (fst (fn o x))) as [neu Hq]. eexists _, _. eapply v_l_write; eauto.
    - eexists _, _. eapply v_unlock; eauto. }
  destruct (vth c t) as [p td] eqn:E. cbn [vtodo] in Hn. destruct td as [|[v o] r]; [congruence|].
  destruct p.
  - exists t. eexists _, _. eapply v_call. exact E.
  - destruct (sch o) eqn:So.
    + exists t. eexists _, _. eapply v_load; eauto. left. reflexivity.
    + exists t. eexists _, _. eapply v_load; eauto. left. reflexivity.
    + destruct (Sur (fst (fn o (dec (vcell c v))))) as [neu Hq]. exists t. eexists _, _. eapply v_cpp_rmw; eauto.
    + destruct (Sur (fst (fn o (dec (vcell c v))))) as [neu Hq]. exists t. eexists _, _. eapply v_cpp_un; eauto.
    + exists t. eexists _, _. eapply v_k_read; eauto.
    + destruct (vmux c (mx v)) as [u|] eqn:Mu.
      * destruct (M2 _ _ Mu) as (w & q & s & K1 & K2 & K3). destruct (Cs u w q s K1 K3) as (e & c' & S). exists u, e, c'. exact S.
      * exists t. eexists _, _. eapply v_lock; eauto.
    + exists t. eexists _, _. eapply v_s_read; eauto.
  - destruct (eqB (vcell c v) old) as [Q|Q].
    + destruct (Sur (fst (fn o (dec old)))) as [neu Hq]. exists t. eexists _, _. eapply v_cas_ok; eauto.
    + exists t. eexists _, _. eapply v_cas_fail; [exact E|left; reflexivity|left; exact Q].
  - exists t. eexists _, _. eapply v_cpp_ret; eauto.
  - destruct (Sur (fst (fn o (dec (vcell c v))))) as [neu Hq]. exists t. eexists _, _. eapply v_k_rmw; eauto.
  - exists t. eexists _, _. eapply v_l_read; eauto.
  - destruct (Sur (fst (fn o x))) as [neu Hq]. exists t. eexists _, _. eapply v_l_write; eauto.
  - exists t. eexists _, _. eapply v_unlock; eauto.
  - destruct (Sur (fst (fn o x))) as [neu Hq]. exists t. eexists _, _. eapply v_s_write; eauto.
  - exists t. eexists _, _. eapply v_return; eauto.
Qed.
Print Assumptions C118_no_deadlock.

Definition left_of {T B} (p : pc T B) : nat :=
  match p with PIdle => 6 | PStart => 5 | PHeld => 4 | PRead _ => 3 | PWrote _ => 2 | PRet _ => 1
             | PCppRet => 2 | PKRead _ => 2 | PSRead _ => 2 | PCas _ => 0 end.
Definition vwork {T B} (x : vthread T B) : nat :=
  match vtodo x with [] => 0 | _ :: r => left_of (vpc x) + 6 * length r end.
Lemma sum_to_concat {A} K (progs : list (list A)) :
  sum_to (fun t => K * length (nth t progs [])) (length progs) = K * length (concat progs).
Proof.
  assert (G : forall l : list (list A), sum_to (fun t => K * length (nth t (rev l) [])) (length (rev l)) = K * length (concat (rev l))).
  { induction l as [|p l IH]; [simpl; lia|]. cbn [rev]. rewrite app_length. simpl.
    rewrite Nat.add_1_r. cbn [sum_to]. rewrite concat_app, app_length, Nat.mul_add_distr_l. f_equal.
    - rewrite <- IH. apply sum_to_ext. intros i Hi. rewrite app_nth1 by exact Hi. reflexivity.
    - rewrite app_nth2, Nat.sub_diag by lia. simpl. rewrite app_nil_r. reflexivity. }
  specialize (G (rev progs)). rewrite rev_involutive in G. exact G.
Qed.
Theorem C118_bounded : forall (T B : Type) (dec : B -> T) (mx : nat -> nat) (b0 : nat -> B) progs n h c,
  (forall v, every_op_on progs v (fun o => sch o <> Strong /\ sch o <> Weak)) ->
  vrun dec mx (vinit b0 progs) n h c -> n <= 6 * length (concat progs).
Proof.
  intros T B dec mx b0 progs n h c H R.
  assert (G : n + sum_to (fun t => vwork (vth c t)) (length progs) <= 6 * length (concat progs)).
  { induction R as [|n h c t e c' R IH S].
    - rewrite <- sum_to_concat. cbn [Nat.add]. apply Nat.eq_le_incl. apply sum_to_ext. intros i _. unfold vwork. cbn.
      destruct (nth i progs []); cbn; lia.
    - pose proof (todo_incl _ _ _ _ _ _ _ R) as Inc.
      assert (Lt : t < length progs).
      { destruct (Nat.lt_ge_cases t (length progs)) as [L|Ge]; [exact L|]. exfalso.
        inversion S; subst; match goal with E : vth c t = mk_vthread _ (?x :: _) |- _ =>
          pose proof (Inc t x) as K; rewrite E, nth_overflow in K by exact Ge; apply K; left; reflexivity end. }
      assert (Sc : forall v o r p, vth c t = mk_vthread p ((v, o) :: r) -> sch o <> Strong /\ sch o <> Weak).
      { intros v o r p E. assert (I1 : In (v, o) (nth t progs [])) by (apply Inc; rewrite E; left; reflexivity).
        apply (H v _ o (nth_progs _ _ _ I1) I1). }
      pose proof (proj2 (reach_vinv dec mx b0 progs n h c R)) as Fi.
      assert (D : vwork (vth c' t) < vwork (vth c t)).
      { pose proof (Fi t) as Ft. unfold vwork.
        inversion S; subst; cbn [vth goto wr setm]; rewrite upd_eq; cbn [vtodo vpc];
          match goal with E : vth c t = _ |- _ => destruct (Sc _ _ _ _ E) as [N1 N2]; rewrite E in *; cbn [vtodo vpc left_of] in * end;
          try lia; try (cbn in Ft; destruct Ft; congruence).
        destruct r; cbn; lia. }
      pose proof (sum_to_same (fun i => vwork (vth c' i)) (fun i => vwork (vth c i)) (length progs) t Lt) as K.
      cbn beta in K. assert (K' : forall i, i < length progs -> i <> t -> vwork (vth c' i) = vwork (vth c i)).
      { intros i _ N. f_equal. inversion S; subst; cbn [vth goto wr setm]; apply upd_ne; exact N. }
      specialize (K K'). lia. }
  lia.
Qed.
Print Assumptions C118_bounded.
Example C118_case : exists n h c,
  vrun idz (fun _ => 0) (vinit (fun _ => 5%Z) [[(0, add1 Lock)]; [(1, add1 Lock); (0, add1 CppBin)]]) n h c /\
  vfinished c /\ vcell c 0 = 7%Z /\ vcell c 1 = 6%Z.
Proof.
  eapply (by_vschedule (fun _ c => vfinished c /\ vcell c 0 = 7%Z /\ vcell c 1 = 6%Z) _ _ _ (vsched [0;1;0;0;0;0;1;1;1;1;1;1;1;1;1;0]));
    [vm_compute; reflexivity|]. split; [intros [|[|[|t]]]; reflexivity|split; reflexivity].
Qed.

(** C119. The punned schemes: on every platform on which the sizes are ordered as C++ requires, at
    most one overload is viable, it has exactly the size of T, and there is one exactly when some
    integer type has that size *)
Definition ordered (z : sizes) : Prop :=
  s_schar z <= s_short z /\ s_short z <= s_int z /\ s_int z <= s_long z /\ s_long z <= s_llong z.
Theorem C119_pun : forall z n, ordered z ->
  pun_overload z n <> Ambiguous /\
  (forall p, pun_overload z n = Picks p -> size_of z p = n) /\
  (pun_overload z n = NoOverload <-> forall p, size_of z p <> n).
Proof.
  intros [a b c d e] n (H1 & H2 & H3 & H4). cbn in H1, H2, H3, H4. unfold pun_overload. cbn [filter enabled s_schar s_short s_int s_long s_llong].
  destruct (Nat.eqb_spec n e), (Nat.eqb_spec n d), (Nat.eqb_spec n c), (Nat.eqb_spec n b), (Nat.eqb_spec n a); cbn; try lia;
    (split; [discriminate|]; split;
     [intros p E; try discriminate E; injection E as <-; cbn; congruence|
      split; [intros E; try discriminate E; intros []; cbn; congruence|
              intros K; first [reflexivity | exfalso;
                first [apply (K PLongLong); cbn; congruence | apply (K PLong); cbn; congruence
               | apply (K PInt); cbn; congruence | apply (K PShort); cbn; congruence | apply (K PSChar); cbn; congruence]]]]).
Qed.
Print Assumptions C119_pun.
(** 64-bit Linux: double is punned to long, float to int, and a 16-byte long double is refused *)
Definition lp64 := mk_sizes 1 2 4 8 8.
Example C119_case : ordered lp64 /\ pun_overload lp64 8 = Picks PLong /\ pun_overload lp64 4 = Picks PInt /\
  pun_overload lp64 1 = Picks PSChar /\ pun_overload lp64 16 = NoOverload.
Proof. repeat split; cbn; lia. Qed.
(** the order of the sizes is needed *)
Example C119_order_needed : pun_overload (mk_sizes 1 2 8 4 8) 8 = Ambiguous.
Proof. reflexivity. Qed.
