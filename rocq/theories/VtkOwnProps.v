(** Ownership of VTK objects (C168). *)
From Coq Require Import List Arith Bool String Lia.
From Verif Require Import Outcome VtkOwnModel VtkOwnProofs.
Import ListNotations.
Local Open Scope string_scope.
Local Open Scope list_scope.

(* a program that follows only pointers that are set: [have] are the members and variables set so far *)
Fixpoint legal (have : list holder) (l : list call) : Prop :=
  match l with [] => True | c :: l' => incl (needs c) have /\ legal (gives c ++ filter (fun h => negb (if in_dec holder_dec h (drops c) then true else false)) have) l' end.
Definition leaking (c : call) : bool := match c with CAdd _ _ _ | CSetData _ _ _ | COutput _ => true | _ => false end.
Definition plain (l : list call) : Prop := forall c, In c l -> ok_call c = true.

Lemma world0_sound : sound world0 [] []. Proof. constructor; cbn; auto; intros; contradiction. Qed.
Lemma gives_outer c h : In h (gives c) -> outer h.
Proof. destruct c; cbn; intros H; repeat (destruct H as [<-|H]; [exact I|]); destruct H. Qed.
Lemma needs_outer c h : In h (needs c) -> outer h.
Proof. destruct c; cbn; intros H; repeat (destruct H as [<-|H]; [try exact I|]); try destruct H. Qed.
Lemma run_sound l : forall have w L, plain l -> legal have l -> sound w [] L -> clean w -> (forall h, In h have -> outer h /\ get h w <> None) ->
  exists w' L', run l w = Ok w' /\ sound w' [] (L' ++ L) /\ List.length L' = List.length (filter leaking l) /\ clean w'.
Proof.
  induction l as [|c l IH]; intros have w L P Lg S C H; [exists w, []; auto|]. destruct Lg as [Hn Lg]. destruct (exec_sound c w L) as (w1 & E & S1 & K & G & Z); [apply P; left; reflexivity|exact S|intros h I; apply H, Hn, I|].
  assert (P' : plain l) by (intros d I; apply P; right; exact I).
  destruct (IH _ w1 (leaks c w ++ L) P' Lg S1 (Z C)) as (w2 & L2 & R & S2 & Len & C2).
  - intros h I. apply in_app_or in I. destruct I as [I|I]; [split; [exact (gives_outer c h I)|exact (G h I)]|]. apply filter_In in I. destruct I as [I N]. destruct (H h I) as [O Gh]. split; [exact O|]. apply K; auto. destruct (in_dec holder_dec h (drops c)); [discriminate|assumption].
  - exists w2, (L2 ++ leaks c w). cbn [run]. rewrite E. cbn [bind]. split; [exact R|]. split; [rewrite <- app_assoc; exact S2|]. split; [|exact C2]. rewrite app_length, Len. destruct c; cbn; lia.
Qed.

(** ** without reset and copies of adaptors nothing is used after its destruction, and every object has as many references as holders and references that were never given up:
    one for each array of addScalarData, addVectorData, addTensorData, setScalarData, setVectorData, setTensorData, and one for each writer of outputVTKUnstructredGrid *)
Theorem C168_balance l : plain l -> legal [] l -> exists w L, run l world0 = Ok w /\ List.length L = List.length (filter leaking l)
  /\ (forall o, cnt w o = count_occ Nat.eq_dec (map snd (held w)) o + count_occ Nat.eq_dec L o) /\ (forall h o, In (h, o) (held w) -> cnt w o <> 0).
Proof.
  intros P Lg. destruct (run_sound l [] world0 [] P Lg world0_sound) as (w & L & R & S & Len & _); [intros t x; reflexivity|intros h []|]. rewrite app_nil_r in S. exists w, L. split; [exact R|]. split; [exact Len|]. split.
  - intros o. rewrite (s_cnt _ _ _ S o). unfold holders, lost. cbn. lia.
  - intros h o. exact (alive_held _ _ _ _ _ S).
Qed.
Print Assumptions C168_balance.
Definition level (t : otype) : nat := match t with TWriter => 3 | TGrid | TProcessor => 2 | _ => 1 end.
Lemma level_slot f p s o : holder_ok f (Slot p s) o -> level (f o) < level (f p).
Proof. destruct s; cbn; intros [-> ->]; cbn; lia. Qed.
Lemma all_gone w : sound w [] [] -> (forall h, rooted h -> get h w = None) -> forall o, cnt w o = 0.
Proof.
  intros S N. assert (B : forall h o, In (h, o) (held w) -> exists p s, h = Slot p s /\ cnt w p <> 0 /\ level (ty w o) < level (ty w p)).
  { intros h o I. assert (X : ~ rooted h). { intros R. specialize (N h R). unfold get in N. destruct (find _ _) eqn:F; [discriminate|]. pose proof (find_none _ _ F _ I) as Y. cbn in Y. replace (is_holder h h) with true in Y by (symmetry; apply is_holder_spec; reflexivity). discriminate. }
    destruct h as [| | |p s]; try (exfalso; apply X; exact Logic.I). exists p, s. split; [reflexivity|]. split; [exact (s_slot _ _ _ S _ _ _ I)|exact (level_slot _ _ _ _ (s_ty _ _ _ S _ _ I))]. }
  assert (A : forall o, cnt w o <> 0 -> exists p, cnt w p <> 0 /\ level (ty w o) < level (ty w p)).
  { intros o C. rewrite (s_cnt _ _ _ S o) in C. assert (I : 0 < holders o (held w)) by (unfold lost in C; cbn in C; lia). apply count_occ_In in I. apply in_map_iff in I. destruct I as ([h x] & E & I). cbn in E. subst x. destruct (B h o I) as (p & s & _ & Cp & Lp). eauto. }
  intros o. destruct (cnt w o) as [|n] eqn:E; [reflexivity|]. exfalso. destruct (A o ltac:(lia)) as (p1 & C1 & L1). destruct (A p1 C1) as (p2 & C2 & L2). destruct (A p2 C2) as (p3 & C3 & L3). assert (level (ty w p3) <= 3) by (destruct (ty w p3); cbn; lia). assert (1 <= level (ty w o)) by (destruct (ty w o); cbn; lia). lia.
Qed.
(** if moreover no call leaks, all objects are destroyed once no member or variable points to any *)
Theorem C168_released l : plain l -> legal [] l -> filter leaking l = [] -> exists w, run l world0 = Ok w /\ ((forall u m, get (Member u m) w = None) -> (forall t x, get (Var t x) w = None) -> forall o, cnt w o = 0).
Proof.
  intros P Lg NL. destruct (run_sound l [] world0 [] P Lg world0_sound) as (w & L & R & S & Len & C); [intros t x; reflexivity|intros h []|]. rewrite NL in Len. destruct L; [|discriminate]. cbn [app] in S. exists w. split; [exact R|]. intros M V. apply (all_gone w S). intros [u m|t x|t x|p s] H; auto. destruct H.
Qed.
Print Assumptions C168_released.
(* a mesh is made, written and given a field *)
Definition session : list call := [CCreateMesh 0 "mesh"; CWriteGrid "mesh" 2; CWritePoints "mesh"; CNew 1; CAddPoint 1; CPushCells 1; CField 1 "time"; CVectorAOS 1 KCell "v"; CVectorAOS 1 KCell "v"; CWrite 1 true; CGetGrid 1 "copy"; CAdaptor 2 3; CAdaptorProcess 2].
Definition goodbye : list call := [CDestroy 1; CDrop TGrid "mesh"; CAdaptorDestroy 2; CDrop TGrid "copy"].
Example C168_example : plain (session ++ goodbye) /\ legal [] (session ++ goodbye) /\ filter leaking (session ++ goodbye) = []
  /\ match run session world0 with Ok w => map (cnt w) (seq 0 (next w)) = [0; 0; 1; 0; 0; 0; 0; 1; 1; 1; 3; 2; 2; 1; 0; 1; 1; 1; 1; 1; 1] | _ => False end
  /\ match run (session ++ goodbye) world0 with Ok w => held w = [] /\ map (cnt w) (seq 0 (next w)) = repeat 0 21 | _ => False end.
Proof.
  split; [intros c H; cbn in H; repeat (destruct H as [<-|H]; [reflexivity|]); destruct H|]. split; [|split; [reflexivity|split; vm_compute; auto]].
  cbn -[in_dec]. repeat match goal with |- context [in_dec ?d ?h ?l] => destruct (in_dec d h l) as [X|X]; [try (exfalso; cbn in X; intuition discriminate)|try (exfalso; apply X; cbn; tauto)]; clear X; cbn -[in_dec] end.
  repeat (split; [intros h H; cbn in *; tauto|]). exact I.
Qed.

(** ** every array of the functions that do not delete it, and every writer of outputVTKUnstructredGrid, is never destroyed, whatever the program does later *)
Theorem C168_leak_refuted l c m : plain (l ++ c :: m) -> legal [] (l ++ c :: m) -> leaking c = true ->
  exists w1 w o, run l world0 = Ok w1 /\ cnt w1 o = 0 /\ run (l ++ c :: m) world0 = Ok w /\ cnt w o <> 0.
Proof.
  intros P Lg Lk.
  assert (Sp : forall l have w L, plain (l ++ c :: m) -> legal have (l ++ c :: m) -> sound w [] L -> clean w -> (forall h, In h have -> outer h /\ get h w <> None) ->
     exists w1 have1 L1, run l w = Ok w1 /\ sound w1 [] L1 /\ clean w1 /\ legal have1 (c :: m) /\ (forall h, In h have1 -> outer h /\ get h w1 <> None)).
  { clear. induction l as [|d l IH]; intros have w L P Lg S C H; [exists w, have, L; auto|]. cbn [app] in *. destruct Lg as [Hn Lg]. destruct (exec_sound d w L) as (w1 & E & S1 & K & G & Z); [apply P; left; reflexivity|exact S|intros h I; apply H, Hn, I|].
    assert (P' : plain (l ++ c :: m)) by (intros c' I; apply P; right; exact I).
    destruct (IH _ w1 (leaks d w ++ L) P' Lg S1 (Z C)) as (w2 & h2 & L2 & R & Rest).
    - intros h I. apply in_app_or in I. destruct I as [I|I]; [split; [exact (gives_outer d h I)|exact (G h I)]|]. apply filter_In in I. destruct I as [I N]. destruct (H h I) as [O Gh]. split; [exact O|]. apply K; auto. destruct (in_dec holder_dec h (drops d)); [discriminate|assumption].
    - exists w2, h2, L2. cbn [run]. rewrite E. auto. }
  destruct (Sp l [] world0 [] P Lg world0_sound) as (w1 & have & L1 & R1 & S1 & C1 & Lg1 & H1); [intros t x; reflexivity|intros h []|].
  destruct Lg1 as [Hn Lg1]. destruct (exec_sound c w1 L1) as (w2 & E2 & S2 & K & G & Z); [apply P; apply in_or_app; right; left; reflexivity|exact S1|intros h I; apply H1, Hn, I|].
  assert (P' : plain m) by (intros c' I; apply P; apply in_or_app; right; right; exact I).
  destruct (run_sound m _ w2 (leaks c w1 ++ L1) P' Lg1 S2 (Z C1)) as (w & L & R & S & _ & _).
  { intros h I. apply in_app_or in I. destruct I as [I|I]; [split; [exact (gives_outer c h I)|exact (G h I)]|]. apply filter_In in I. destruct I as [I N]. destruct (H1 h I) as [O Gh]. split; [exact O|]. apply K; auto. destruct (in_dec holder_dec h (drops c)); [discriminate|assumption]. }
  exists w1, w, (next w1). split; [exact R1|]. split; [exact (s_next _ _ _ S1 _ (le_n _))|]. split.
  - assert (Rapp : forall l m w w1, run l w = Ok w1 -> run (l ++ m) w = run m w1).
    { clear. induction l as [|c l IH]; intros m w w1; cbn; [intros H; injection H as ->; reflexivity|]. destruct (exec c w); cbn; try discriminate. apply IH. }
    rewrite (Rapp _ _ _ _ R1). cbn [run]. rewrite E2. exact R.
  - apply (alive_lost _ _ _ _ S). apply in_or_app. right. apply in_or_app. left. destruct c; try discriminate Lk; left; reflexivity.
Qed.
Print Assumptions C168_leak_refuted.
(* an array survives its grid; writing a grid for debugging keeps the grid, its points and its arrays for ever *)
Example C168_leak_example :
  match run [CNew 0; CAdd 0 KPoint "p"; CDestroy 0] world0 with Ok w => held w = [] /\ map (cnt w) (seq 0 6) = [0; 0; 0; 0; 0; 1] | _ => False end /\
  match run [CCreateMesh 0 "mesh"; COutput "mesh"; CDrop TGrid "mesh"] world0 with Ok w => map (cnt w) (seq 0 6) = [0; 0; 1; 1; 0; 1] /\ held w = [(Slot 5 SInput, 2); (Slot 2 SPoints, 3)] | _ => False end.
Proof. vm_compute. auto. Qed.

(** ** reset gives up references that the members still hold: whatever came before, both objects then have one reference less than holders *)
Lemma delete_leaf w o : cnt w o <> 0 -> (forall s x, ~ In (Slot o s, x) (held w)) -> delete o w = Ok (mk_world (set_cnt (cnt w) o (pred (cnt w o))) (held w) (next w) (ty w)).
Proof.
  intros C N. unfold delete, release. cbn [List.length Nat.add release_n].
  assert (F1 : filter (fun e : holder * nat => negb (is_slot_of o (fst e))) (held w) = held w /\ filter (fun e : holder * nat => is_slot_of o (fst e)) (held w) = []).
  { revert N. induction (held w) as [|[h x] r IH]; intros N; [split; reflexivity|]. cbn. destruct (is_slot_of o h) eqn:E; [apply is_slot_of_spec in E; destruct E as [s ->]; exfalso; apply (N s x); left; reflexivity|]. cbn. destruct IH as [H1 H2]; [intros s y I; apply (N s y); right; exact I|]. rewrite H1, H2. split; reflexivity. }
  destruct F1 as [F1 F2]. destruct (cnt w o) as [|[|n]]; [congruence| |]; cbn [pred].
  - rewrite F1, F2. cbn [map app]. destruct (List.length (held w)); reflexivity.
  - destruct (List.length (held w)); reflexivity.
Qed.
Lemma needs_of l : forall have w L c, plain l -> legal have (l ++ [c]) -> sound w [] L -> clean w -> (forall h, In h have -> outer h /\ get h w <> None) ->
  exists w' L', run l w = Ok w' /\ sound w' [] (L' ++ L) /\ List.length L' = List.length (filter leaking l) /\ (forall h, In h (needs c) -> get h w' <> None).
Proof.
  induction l as [|d l IH]; intros have w L c P Lg S C H; [exists w, []; destruct Lg as [Hn _]; repeat split; auto; try apply S; intros h I; apply H, Hn, I|]. cbn [app] in *. destruct Lg as [Hn Lg].
  destruct (exec_sound d w L) as (w1 & E & S1 & K & G & Z); [apply P; left; reflexivity|exact S|intros h I; apply H, Hn, I|].
  assert (P' : plain l) by (intros c' I; apply P; right; exact I). destruct (IH _ w1 (leaks d w ++ L) c P' Lg S1 (Z C)) as (w2 & L2 & R & S2 & Len & N).
  - intros h I. apply in_app_or in I. destruct I as [I|I]; [split; [exact (gives_outer d h I)|exact (G h I)]|]. apply filter_In in I. destruct I as [I Nn]. destruct (H h I) as [O Gh]. split; [exact O|]. apply K; auto. destruct (in_dec holder_dec h (drops d)); [discriminate|assumption].
  - exists w2, (L2 ++ leaks d w). cbn [run]. rewrite E. cbn [bind]. split; [exact R|]. split; [rewrite <- app_assoc; exact S2|]. split; [|exact N]. rewrite app_length, Len. destruct d; cbn; lia.
Qed.
Theorem C168_reset_refuted u l : plain l -> legal [] (l ++ [CReset u]) -> exists w w' p c L, run l world0 = Ok w /\ exec (CReset u) w = Ok w' /\ p <> c /\ get (Member u MPnts) w' = Some p /\ get (Member u MCells) w' = Some c
  /\ List.length L = List.length (filter leaking l) /\ forall o, S (cnt w' o) = count_occ Nat.eq_dec (map snd (held w')) o + count_occ Nat.eq_dec L o <-> o = p \/ o = c.
Proof.
  intros P Lg. destruct (needs_of l [] world0 [] (CReset u) P Lg world0_sound) as (w & L & R & S & Len & N); [intros t x; reflexivity|intros h []|]. rewrite app_nil_r in S.
  destruct (some_of _ (N (Member u MPnts) ltac:(cbn; auto))) as [p Gp]. destruct (some_of _ (N (Member u MCells) ltac:(cbn; auto))) as [c Gc].
  pose proof (type_of _ _ _ _ S Gp) as Tp. pose proof (type_of _ _ _ _ S Gc) as Tc. cbn in Tp, Tc. assert (Npc : p <> c) by congruence.
  assert (Leaf : forall o, ty w o = TPoints \/ ty w o = TCells -> forall s x, ~ In (Slot o s, x) (held w)). { intros o T s x I. pose proof (s_ty _ _ _ S _ _ I) as Y. destruct s; cbn in Y; destruct T, Y; congruence. }
  pose proof (alive_get _ _ _ _ _ S Gp) as Ap. pose proof (alive_get _ _ _ _ _ S Gc) as Ac.
  pose proof (delete_leaf w p Ap (Leaf p (or_introl Tp))) as D1. set (w1 := mk_world (set_cnt (cnt w) p (pred (cnt w p))) (held w) (next w) (ty w)) in *.
  assert (C1 : cnt w1 c = cnt w c) by (unfold w1; cbn; unfold set_cnt; destruct (Nat.eqb_spec c p); congruence).
  pose proof (delete_leaf w1 c ltac:(congruence) (Leaf c (or_intror Tc))) as D2. set (w2 := mk_world (set_cnt (cnt w1) c (pred (cnt w1 c))) (held w1) (next w1) (ty w1)) in *.
  exists w, w2, p, c, L. split; [exact R|]. split.
  - cbn [exec]. unfold reset. rewrite (with_obj_ok _ w [] L _ _ S Gp), D1. cbn [bind]. unfold with_obj. change (get (Member u MCells) w1) with (get (Member u MCells) w). rewrite Gc. unfold use. rewrite C1. destruct (cnt w c) eqn:E; [congruence|]. exact D2.
  - split; [exact Npc|]. split; [exact Gp|]. split; [exact Gc|]. split; [exact Len|]. intros o. pose proof (s_cnt _ _ _ S o) as Co. change (held w2) with (held w). change (holders o (held w)) with (count_occ Nat.eq_dec (map snd (held w)) o) in Co. unfold lost in Co. cbn [count_occ] in Co. unfold w2 at 1. cbn [cnt]. unfold set_cnt at 1. destruct (Nat.eqb_spec o c) as [->|Nc]; [rewrite C1; split; [auto|lia]|].
    unfold w1. cbn [cnt]. unfold set_cnt. destruct (Nat.eqb_spec o p) as [->|Np]; [split; [auto|lia]|]. split; [lia|tauto].
Qed.
Print Assumptions C168_reset_refuted.
(* the points and the cells are destroyed under the object: everything that follows is a use after destruction, the destructor of the object and of its grid too *)
Example C168_reset_example : legal [] [CNew 0; CReset 0] /\ (forall c, In c [CInsertPoint 0; CInsertCell 0; CAddPoint 0; CPushPoints 0; CPushCells 0; CSetPoints 0; CReset 0; CDestroy 0] -> run [CNew 0; CReset 0; c] world0 = UB)
  /\ run [CNew 0; CAddPoint 0; CPushCells 0; CReset 0; CDestroy 0] world0 = UB /\ run [CNew 0; CPushCells 0; CGetGrid 0 "g"; CReset 0; CDestroy 0; CDrop TGrid "g"] world0 = UB.
Proof.
  split; [cbn -[in_dec]; repeat split; intros h H; cbn in *; tauto|]. split; [|split; vm_compute; reflexivity].
  intros c H. cbn in H. repeat (destruct H as [<-|H]; [vm_compute; reflexivity|]). destruct H.
Qed.
(** ** copies of an adaptor share the processor, which each of them deletes: it has one reference less than holders *)
Theorem C168_copy_refuted u v l : plain l -> legal [] (l ++ [CAdaptorCopy u v]) -> exists w w' p L, run l world0 = Ok w /\ exec (CAdaptorCopy u v) w = Ok w' /\ get (Member v MProcessor) w' = Some p /\ get (Member u MProcessor) w' = Some p
  /\ List.length L = List.length (filter leaking l) /\ forall o, S (cnt w' o) = count_occ Nat.eq_dec (map snd (held w')) o + count_occ Nat.eq_dec L o <-> o = p.
Proof.
  intros P Lg. destruct (needs_of l [] world0 [] (CAdaptorCopy u v) P Lg world0_sound) as (w & L & R & S & Len & N); [intros t x; reflexivity|intros h []|]. rewrite app_nil_r in S.
  destruct (some_of _ (N (Member u MProcessor) ltac:(cbn; auto))) as [p Gp]. exists w, (mk_world (cnt w) ((Member v MProcessor, p) :: held w) (next w) (ty w)), p, L. split; [exact R|]. split; [cbn [exec]; unfold adaptor_copy; rewrite Gp; reflexivity|].
  assert (H : forall h, is_holder h h = true) by (intros h; apply is_holder_spec; reflexivity). split; [unfold get; cbn [held find fst]; rewrite H; reflexivity|]. split.
  - unfold get. cbn [held find fst]. destruct (is_holder (Member u MProcessor) (Member v MProcessor)); [reflexivity|exact Gp].
  - split; [exact Len|]. intros o. pose proof (s_cnt _ _ _ S o) as Co. change (holders o (held w)) with (count_occ Nat.eq_dec (map snd (held w)) o) in Co. unfold lost in Co. cbn [count_occ] in Co. cbn [cnt held map snd count_occ]. destruct (Nat.eq_dec p o) as [->|Np]; [split; [auto|lia]|]. split; [lia|congruence].
Qed.
Print Assumptions C168_copy_refuted.
Example C168_copy_example : legal [] [CAdaptor 0 2; CAdaptorCopy 0 1] /\ run [CAdaptor 0 2; CAdaptorCopy 0 1; CAdaptorDestroy 1; CAdaptorProcess 0] world0 = UB /\ run [CAdaptor 0 2; CAdaptorCopy 0 1; CAdaptorDestroy 1; CAdaptorDestroy 0] world0 = UB.
Proof. split; [cbn -[in_dec]; repeat split; intros h H; cbn in *; tauto|split; vm_compute; reflexivity]. Qed.
(** ** initVTKUnstructuredGrid does not set the variable it is given; a program that relies on it follows a null pointer *)
Theorem C168_init_refuted x l : plain l -> legal [] l -> exists w w', run l world0 = Ok w /\ exec (CInit x) w = Ok w' /\ get (Var TGrid x) w' = get (Var TGrid x) w
  /\ (get (Var TGrid x) w = None -> exec (CWritePoints x) w' = UB).
Proof.
  intros P Lg. destruct (run_sound l [] world0 [] P Lg world0_sound) as (w & L & R & S & Len & C); [intros t y; reflexivity|intros h []|]. rewrite app_nil_r in S.
  assert (X : exists w1, (match get (Var TGrid x) w with None => Ok w | Some g => assign (Local TGrid "grid") g w end) = Ok w1 /\ sound w1 [] L /\ frame w w1 [Local TGrid "grid"]).
  { destruct (get (Var TGrid x) w) as [g|] eqn:Gg; [|exists w; split; [reflexivity|]; split; [exact S|]; intros ? ? ?; reflexivity].
    destruct (assign_root w L (Local TGrid "grid") (Var TGrid x) g S I Gg) as (w1 & E1 & S1 & F1 & G1); [tysolve|]. exists w1. auto. }
  destruct X as (w1 & E1 & S1 & F1). destruct (smart_new_root TGrid (Local TGrid "grid") w1 L S1 I) as (w2 & E2 & S2 & F2 & G2); [tysolve|].
  destruct (clear_root (Local TGrid "grid") w2 L S2) as (w3 & E3 & S3 & F3 & _). assert (G : get (Var TGrid x) w3 = get (Var TGrid x) w) by (via F3; via F2; via F1; reflexivity).
  exists w, w3. split; [exact R|]. split; [cbn [exec]; unfold init_grid; rewrite E1; cbn [bind]; rewrite E2; exact E3|]. split; [exact G|]. intros Nn. rewrite Nn in G. cbn [exec]. unfold write_points, with_obj. rewrite G. reflexivity.
Qed.
Print Assumptions C168_init_refuted.
Example C168_init_example : plain [CDrop TGrid "g"] /\ legal [] [CDrop TGrid "g"] /\ run [CInit "g"; CWritePoints "g"] world0 = UB /\ match run [CVar TGrid "g"; CWritePoints "g"] world0 with Ok w => map (cnt w) (seq 0 2) = [1; 1] | _ => False end.
Proof. split; [intros c [<-|[]]; reflexivity|]. split; [cbn; split; [intros h []|exact I]|]. split; vm_compute; reflexivity. Qed.
