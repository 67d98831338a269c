(** Proofs about the ownership of VTK objects (VtkOwnModel). *)
From Coq Require Import List Arith Bool String Lia.
From Verif Require Import Outcome VtkOwnModel.
Import ListNotations.

(* the number of references of o that holders will give up *)
Definition holders (o : nat) (l : list (holder * nat)) : nat := count_occ Nat.eq_dec (map snd l) o.
Definition lost (o : nat) (L : list nat) : nat := count_occ Nat.eq_dec L o.
(* the type of what a holder points to, given the types of the objects with slots *)
Definition holder_ok (t : nat -> otype) (h : holder) (o : nat) : Prop :=
  match h with
  | Member _ MWriter | Member _ MSerial => t o = TWriter | Member _ MPnts => t o = TPoints | Member _ MCells => t o = TCells
  | Member _ MGrid => t o = TGrid | Member _ MProcessor => t o = TProcessor
  | Var ty _ | Local ty _ => t o = ty
  | Slot p SPoints => t p = TGrid /\ t o = TPoints | Slot p SCells => t p = TGrid /\ t o = TCells | Slot p (SArray _ _) => t p = TGrid /\ t o = TArray
  | Slot p SInput => t p = TWriter /\ t o = TGrid | Slot p SController => t p = TWriter /\ t o = TController | Slot p (SPipeline _) => t p = TProcessor /\ t o = TPipeline
  end.
Record sound (w : world) (work L : list nat) : Prop := {
  s_cnt : forall o, cnt w o = holders o (held w) + lost o work + lost o L;
  s_slot : forall p s o, In (Slot p s, o) (held w) -> cnt w p <> 0;
  s_next : forall o, next w <= o -> cnt w o = 0;
  s_ty : forall h o, In (h, o) (held w) -> holder_ok (ty w) h o }.

Lemma is_slot_of_spec o h : is_slot_of o h = true <-> exists s, h = Slot o s.
Proof. destruct h; cbn; try (split; [discriminate|intros [s H]; discriminate]). rewrite Nat.eqb_eq. split; [intros ->; eauto|intros [s' H]; congruence]. Qed.
Lemma is_holder_spec a h : is_holder a h = true <-> h = a.
Proof. unfold is_holder. destruct (holder_dec a h); split; congruence. Qed.
Lemma holders_filter (f : holder * nat -> bool) o l : holders o l = holders o (filter (fun e => negb (f e)) l) + lost o (map snd (filter f l)).
Proof. unfold holders, lost. induction l as [|[h x] l IH]; [reflexivity|]. cbn [filter map]. destruct (f (h, x)); cbn [negb map snd count_occ]; cbn [map snd count_occ] in *; destruct (Nat.eq_dec x o); lia. Qed.
Lemma filter_lengths (f : holder * nat -> bool) l : List.length (filter (fun e => negb (f e)) l) + List.length (map snd (filter f l)) = List.length l.
Proof. rewrite map_length. induction l as [|e l IH]; [reflexivity|]. cbn. destruct (f e); cbn; lia. Qed.
Lemma lost_app o a b : lost o (a ++ b) = lost o a + lost o b. Proof. apply count_occ_app. Qed.
Lemma lost_cons o x l : lost o (x :: l) = (if Nat.eqb x o then 1 else 0) + lost o l.
Proof. unfold lost. cbn. destruct (Nat.eq_dec x o), (Nat.eqb_spec x o); lia. Qed.
Lemma set_cnt_at c o n x : set_cnt c o n x = if Nat.eqb x o then n else c x. Proof. reflexivity. Qed.
Lemma find_filter {A} (f g : A -> bool) l : (forall e, f e = true -> g e = true) -> find f (filter g l) = find f l.
Proof. intros H. induction l as [|e l IH]; [reflexivity|]. cbn. destruct (f e) eqn:F; [rewrite (H e F); cbn; rewrite F; reflexivity|]. destruct (g e); cbn; rewrite ?F; exact IH. Qed.
Lemma get_in h w o : get h w = Some o -> In (h, o) (held w).
Proof. unfold get. destruct (find _ _) as [[h' x]|] eqn:F; [|discriminate]. intros H. apply find_some in F. destruct F as [I E]. cbn in *. apply is_holder_spec in E. congruence. Qed.
Definition rooted (h : holder) : Prop := match h with Slot _ _ => False | _ => True end.
Lemma alive_held w work L h o : sound w work L -> In (h, o) (held w) -> cnt w o <> 0.
Proof. intros S I. rewrite (s_cnt _ _ _ S). assert (0 < holders o (held w)); [|lia]. apply count_occ_In. apply in_map_iff. exists (h, o). split; [reflexivity|exact I]. Qed.
Lemma alive_get w work L h o : sound w work L -> get h w = Some o -> cnt w o <> 0.
Proof. intros S G. exact (alive_held _ _ _ _ _ S (get_in _ _ _ G)). Qed.
Lemma alive_lost w work L o : sound w work L -> In o L -> cnt w o <> 0.
Proof. intros S I. rewrite (s_cnt _ _ _ S). assert (0 < lost o L); [|lia]. apply count_occ_In. exact I. Qed.

(* what a step keeps: the objects of [L] and those that other variables hold *)
Record keeps (w w' : world) (but : list holder) : Prop := {
  k_get : forall h, rooted h -> ~ In h but -> get h w' = get h w;
  k_next : next w' = next w; k_ty : ty w' = ty w }.
Lemma keeps_refl w b : keeps w w b. Proof. constructor; auto. Qed.
Lemma keeps_trans a b c l m : keeps a b l -> keeps b c m -> keeps a c (l ++ m).
Proof. intros [g1 n1 t1] [g2 n2 t2]. constructor; [|congruence|congruence]. intros h R N. rewrite g2, g1; auto; intros I; apply N; apply in_or_app; auto. Qed.

Lemma release_n_sound : forall fuel work w L, List.length work + List.length (held w) <= fuel -> sound w work L ->
  exists w', release_n fuel work w = Ok w' /\ sound w' [] L /\ keeps w w' [].
Proof.
  induction fuel as [|fuel IH]; intros [|o work] w L F S.
  - exists w. split; [reflexivity|]. split; [exact S|apply keeps_refl].
  - cbn in F. lia.
  - exists w. split; [reflexivity|]. split; [exact S|apply keeps_refl].
  - cbn [release_n]. pose proof (s_cnt _ _ _ S o) as C. rewrite lost_cons, Nat.eqb_refl in C. destruct (cnt w o) as [|[|n]] eqn:E; [lia| |].
    + set (f := fun e : holder * nat => is_slot_of o (fst e)).
      set (w1 := mk_world (set_cnt (cnt w) o 0) (filter (fun e => negb (f e)) (held w)) (next w) (ty w)).
      assert (H0 : holders o (held w) = 0 /\ lost o work = 0 /\ lost o L = 0) by lia. destruct H0 as (H1 & H2 & H3).
      assert (S1 : sound w1 (work ++ map snd (filter f (held w))) L).
      { constructor; unfold w1; cbn [cnt held next ty].
        - intros x. rewrite set_cnt_at, lost_app. pose proof (holders_filter f x (held w)) as Hf. destruct (Nat.eqb_spec x o) as [->|N]; [lia|]. pose proof (s_cnt _ _ _ S x) as Cx. rewrite lost_cons in Cx. destruct (Nat.eqb_spec o x); [congruence|]. lia.
        - intros p s x I. apply filter_In in I. destruct I as [I Nf]. rewrite set_cnt_at. destruct (Nat.eqb_spec p o) as [->|N]; [unfold f in Nf; cbn in Nf; rewrite Nat.eqb_refl in Nf; discriminate|]. exact (s_slot _ _ _ S _ _ _ I).
        - intros x Hx. rewrite set_cnt_at. destruct (Nat.eqb x o); [reflexivity|]. exact (s_next _ _ _ S x Hx).
        - intros h x I. apply filter_In in I. exact (s_ty _ _ _ S h x (proj1 I)). }
      destruct (IH (work ++ map snd (filter f (held w))) w1 L) as (w' & R & S' & K); [|exact S1|].
      { rewrite app_length. unfold w1. cbn [held]. pose proof (filter_lengths f (held w)). cbn in F. lia. }
      exists w'. split; [exact R|]. split; [exact S'|]. destruct K as [g n t]. constructor; [|exact n|exact t]. intros h Rh Nh. rewrite g by auto. unfold get, w1. cbn [held]. rewrite find_filter; [reflexivity|].
      intros [h' x] Hh. cbn in Hh. apply is_holder_spec in Hh. subst h'. unfold f. cbn. destruct h; try reflexivity. destruct Rh.
    + set (w1 := mk_world (set_cnt (cnt w) o (Datatypes.S n)) (held w) (next w) (ty w)). destruct (IH work w1 L) as (w' & R & S' & K).
      { unfold w1. cbn in *. lia. }
      { constructor; unfold w1; cbn [cnt held next ty].
        - intros x. rewrite set_cnt_at. pose proof (s_cnt _ _ _ S x) as Cx. rewrite lost_cons in Cx. destruct (Nat.eqb_spec x o) as [->|N]; [rewrite Nat.eqb_refl in Cx; lia|]. destruct (Nat.eqb_spec o x); [congruence|]. lia.
        - intros p s x I. rewrite set_cnt_at. destruct (Nat.eqb p o); [discriminate|]. exact (s_slot _ _ _ S _ _ _ I).
        - intros x Hx. rewrite set_cnt_at. destruct (Nat.eqb_spec x o) as [->|N]; [rewrite (s_next _ _ _ S o Hx) in E; discriminate|]. exact (s_next _ _ _ S x Hx).
        - exact (s_ty _ _ _ S). }
      exists w'. split; [exact R|]. split; [exact S'|]. destruct K as [g n' t]. constructor; [|exact n'|exact t]. intros h Rh Nh. rewrite g by auto. reflexivity.
Qed.

Lemma delete_sound w o L : sound w [] (o :: L) -> exists w', delete o w = Ok w' /\ sound w' [] L /\ keeps w w' [].
Proof.
  intros S. apply release_n_sound; [reflexivity|]. constructor; try apply S. intros x. rewrite (s_cnt _ _ _ S x). rewrite !lost_cons. cbn. lia.
Qed.
Lemma clear_sound h w L : sound w [] L -> exists w', clear h w = Ok w' /\ sound w' [] L /\ keeps w w' [h] /\ (rooted h -> get h w' = None).
Proof.
  intros S. unfold clear, release. set (f := fun e : holder * nat => is_holder h (fst e)). set (w1 := mk_world (cnt w) (filter (fun e => negb (f e)) (held w)) (next w) (ty w)).
  destruct (release_n_sound (List.length (map snd (filter f (held w))) + List.length (held w1)) (map snd (filter f (held w))) w1 L) as (w' & R & S' & K); [lia| |].
  { constructor; unfold w1; cbn [cnt held next ty].
    - intros x. rewrite (s_cnt _ _ _ S x). rewrite (holders_filter f x (held w)). cbn. lia.
    - intros p s x I. apply filter_In in I. exact (s_slot _ _ _ S _ _ _ (proj1 I)).
    - exact (s_next _ _ _ S).
    - intros h' x I. apply filter_In in I. exact (s_ty _ _ _ S _ _ (proj1 I)). }
  exists w'. split; [exact R|]. split; [exact S'|]. destruct K as [g n t]. split; [|intros Rh; rewrite g by auto; unfold get, w1; cbn [held]; destruct (find _ _) as [[h' x]|] eqn:Fd; [|reflexivity]; apply find_some in Fd; destruct Fd as [Fi Fe]; apply filter_In in Fi; destruct Fi as [_ Fn]; unfold f in Fn; cbn [fst] in *; rewrite Fe in Fn; discriminate].
  constructor; [|exact n|exact t]. intros h' Rh Nh. rewrite g by auto. unfold get, w1. cbn [held]. rewrite find_filter; [reflexivity|].
  intros [h2 x] Hh. cbn in Hh. apply is_holder_spec in Hh. subst h2. unfold f. cbn. destruct (is_holder h h') eqn:E; [|reflexivity]. exfalso. apply Nh. left. apply is_holder_spec in E. congruence.
Qed.
(* a slot's object is safe: a variable holds it or its reference is among the lost ones *)
Definition safe (w : world) (L : list nat) (h : holder) : Prop :=
  match h with Slot p _ => In p L \/ exists r, rooted r /\ get r w = Some p | _ => True end.
Lemma take_sound h o w L : sound w [] (o :: L) -> holder_ok (ty w) h o -> safe w L h ->
  exists w', take h o w = Ok w' /\ sound w' [] L /\ keeps w w' [h] /\ get h w' = Some o.
Proof.
  intros S T Sf. destruct (clear_sound h w (o :: L) S) as (w1 & R & S1 & K & _). unfold take. rewrite R. cbn [bind]. eexists. split; [reflexivity|]. destruct K as [g n t]. split; [|split].
  - constructor; cbn [cnt held next ty].
    + intros x. rewrite (s_cnt _ _ _ S1 x). unfold holders. cbn [map snd count_occ]. rewrite lost_cons. cbn. destruct (Nat.eq_dec o x), (Nat.eqb_spec o x); lia.
    + intros p s x [E|I]; [|exact (s_slot _ _ _ S1 _ _ _ I)]. injection E as -> ->. cbn in Sf. destruct Sf as [I|(r & Rr & Gr)].
      * apply (alive_lost _ _ _ p S1). right. exact I.
      * apply (alive_get w1 [] (x :: L) r p S1). rewrite g; auto. intros [<-|[]]. destruct Rr.
    + exact (s_next _ _ _ S1).
    + intros h' x [E|I]; [injection E as <- <-; rewrite t; exact T|exact (s_ty _ _ _ S1 _ _ I)].
  - constructor; [|exact n|exact t]. intros h' Rh Nh. rewrite <- g by auto. unfold get. cbn [held find fst]. destruct (is_holder h' h) eqn:E; [exfalso; apply Nh; left; apply is_holder_spec in E; congruence|reflexivity].
  - unfold get. cbn [held find fst]. replace (is_holder h h) with true by (symmetry; apply is_holder_spec; reflexivity). reflexivity.
Qed.
Lemma assign_sound h o w L : sound w [] L -> cnt w o <> 0 -> holder_ok (ty w) h o -> safe w L h ->
  exists w', assign h o w = Ok w' /\ sound w' [] L /\ keeps w w' [h] /\ get h w' = Some o.
Proof.
  intros S A T Sf. unfold assign, use. destruct (cnt w o) as [|n] eqn:E; [congruence|]. cbn [bind]. set (w1 := mk_world _ _ _ _). destruct (take_sound h o w1 L) as (w' & R & S' & K & G); [|exact T|exact Sf|].
  - constructor; unfold w1; cbn [cnt held next ty]; try apply S.
    + intros x. rewrite set_cnt_at, lost_cons. pose proof (s_cnt _ _ _ S x) as C. destruct (Nat.eqb_spec x o) as [->|N]; [rewrite Nat.eqb_refl; lia|]. destruct (Nat.eqb_spec o x); [congruence|lia].
    + intros p s x I. rewrite set_cnt_at. destruct (Nat.eqb p o); [discriminate|]. exact (s_slot _ _ _ S _ _ _ I).
    + intros x Hx. rewrite set_cnt_at. destruct (Nat.eqb_spec x o) as [->|N]; [rewrite (s_next _ _ _ S o Hx) in E; discriminate|]. exact (s_next _ _ _ S x Hx).
  - exists w'. split; [rewrite <- E in *; exact R|]. split; [exact S'|]. split; [|exact G]. destruct K as [g n' t]. constructor; auto.
Qed.
(* a new object *)
Record made (t : otype) (w w' : world) (but : list holder) : Prop := {
  m_get : forall h, rooted h -> ~ In h but -> get h w' = get h w;
  m_next : next w' = S (next w); m_ty : forall o, ty w' o = if Nat.eqb o (next w) then t else ty w o }.
Lemma raw_new_sound t w L : sound w [] L -> sound (snd (raw_new t w)) [] (next w :: L) /\ made t w (snd (raw_new t w)) [] /\ fst (raw_new t w) = next w.
Proof.
  intros S. assert (B : forall h o, In (h, o) (held w) -> o < next w) by (intros h o I; destruct (Nat.lt_ge_cases o (next w)) as [H|H]; [exact H|]; exfalso; exact (alive_held _ _ _ _ _ S I (s_next _ _ _ S o H))).
  assert (B2 : forall p s o, In (Slot p s, o) (held w) -> p < next w) by (intros p s o I; destruct (Nat.lt_ge_cases p (next w)) as [H|H]; [exact H|]; exfalso; exact (s_slot _ _ _ S _ _ _ I (s_next _ _ _ S p H))).
  split; [|split; [constructor; reflexivity|reflexivity]]. constructor; cbn [raw_new snd cnt held next ty].
  - intros x. rewrite set_cnt_at, lost_cons. pose proof (s_cnt _ _ _ S x) as C. destruct (Nat.eqb_spec x (next w)) as [->|N]; [rewrite Nat.eqb_refl; pose proof (s_next _ _ _ S (next w) (le_n _)); lia|]. destruct (Nat.eqb_spec (next w) x); [congruence|lia].
  - intros p s x I. rewrite set_cnt_at. destruct (Nat.eqb p (next w)); [discriminate|]. exact (s_slot _ _ _ S _ _ _ I).
  - intros x Hx. rewrite set_cnt_at. destruct (Nat.eqb_spec x (next w)); [lia|]. apply (s_next _ _ _ S). lia.
  - intros h x I. pose proof (s_ty _ _ _ S h x I) as T. pose proof (B _ _ I). assert (X : forall y, y < next w -> (if Nat.eqb y (next w) then t else ty w y) = ty w y) by (intros y Hy; destruct (Nat.eqb_spec y (next w)); [lia|reflexivity]).
    destruct h as [u m|t' y|t' y|p s]; cbn in *; try (rewrite X by lia; exact T). pose proof (B2 _ _ _ I). destruct s; rewrite !X by lia; exact T.
Qed.
Lemma smart_new_sound t h w L : sound w [] L -> rooted h -> (forall f o, f o = t -> holder_ok f h o) ->
  exists w', smart_new t h w = Ok w' /\ sound w' [] L /\ made t w w' [h] /\ get h w' = Some (next w).
Proof.
  intros S R T. destruct (raw_new_sound t w L S) as (S1 & M & E). unfold smart_new. destruct (raw_new t w) as [o w1]. cbn [fst snd] in *. subst o.
  destruct (take_sound h (next w) w1 L S1) as (w' & R' & S' & K & G); [apply T; rewrite (m_ty _ _ _ _ M), Nat.eqb_refl; reflexivity|destruct h; try exact I; destruct R|].
  exists w'. split; [exact R'|]. split; [exact S'|]. split; [|exact G]. destruct K as [g n t']. destruct M as [mg mn mt]. constructor; [|congruence|intros o; rewrite t'; apply mt]. intros h' Rh Nh. rewrite g, mg; auto.
Qed.

(** ** the functions *)
Definition frame (w w' : world) (b : list holder) : Prop := forall h, rooted h -> ~ In h b -> get h w' = get h w.
Lemma frame_trans a b c l m : frame a b l -> frame b c m -> frame a c (l ++ m).
Proof. intros F G h R N. rewrite G, F; auto; intros I; apply N; apply in_or_app; auto. Qed.
Lemma with_obj_ok {A} h w work L o (k : nat -> outcome A) : sound w work L -> get h w = Some o -> with_obj h w k = k o.
Proof. intros S G. unfold with_obj. rewrite G. pose proof (alive_get _ _ _ _ _ S G) as N. unfold use. destruct (cnt w o); [congruence|reflexivity]. Qed.
Lemma type_of w L h o : sound w [] L -> get h w = Some o -> holder_ok (ty w) h o.
Proof. intros S G. exact (s_ty _ _ _ S _ _ (get_in _ _ _ G)). Qed.
Lemma assign_slot w L r p q o s : sound w [] L -> rooted r -> get r w = Some p -> get q w = Some o -> (holder_ok (ty w) r p -> holder_ok (ty w) q o -> holder_ok (ty w) (Slot p s) o) ->
  exists w', assign (Slot p s) o w = Ok w' /\ sound w' [] L /\ frame w w' [].
Proof.
  intros S R Gp Go T. destruct (assign_sound (Slot p s) o w L S) as (w' & E & S' & K & _); [exact (alive_get _ _ _ _ _ S Go)|apply T; apply (type_of w L); auto|right; eauto|].
  exists w'. split; [exact E|]. split; [exact S'|]. intros h Rh _. apply (k_get _ _ _ K); [exact Rh|]. intros [<-|[]]. destruct Rh.
Qed.
Lemma assign_root w L h q o : sound w [] L -> rooted h -> get q w = Some o -> (holder_ok (ty w) q o -> holder_ok (ty w) h o) ->
  exists w', assign h o w = Ok w' /\ sound w' [] L /\ frame w w' [h] /\ get h w' = Some o.
Proof.
  intros S R Go T. destruct (assign_sound h o w L S) as (w' & E & S' & K & G); [exact (alive_get _ _ _ _ _ S Go)|apply T; exact (type_of _ _ _ _ S Go)|destruct h; try exact I; destruct R|].
  exists w'. split; [exact E|]. split; [exact S'|]. split; [exact (k_get _ _ _ K)|exact G].
Qed.
Lemma smart_new_root t h w L : sound w [] L -> rooted h -> (forall f o, f o = t -> holder_ok f h o) ->
  exists w', smart_new t h w = Ok w' /\ sound w' [] L /\ frame w w' [h] /\ get h w' = Some (next w).
Proof. intros S R T. destruct (smart_new_sound t h w L S R T) as (w' & E & S' & K & G). exists w'. split; [exact E|]. split; [exact S'|]. split; [exact (m_get _ _ _ _ K)|exact G]. Qed.
Lemma clear_root h w L : sound w [] L -> exists w', clear h w = Ok w' /\ sound w' [] L /\ frame w w' [h] /\ (rooted h -> get h w' = None).
Proof. intros S. destruct (clear_sound h w L S) as (w' & E & S' & K & Z). exists w'. split; [exact E|]. split; [exact S'|]. split; [exact (k_get _ _ _ K)|exact Z]. Qed.
Lemma clear_all_sound l : forall w L, sound w [] L -> exists w', clear_all l w = Ok w' /\ sound w' [] L /\ frame w w' l /\ (forall h, In h l -> rooted h -> get h w' = None).
Proof.
  induction l as [|h l IH]; intros w L S; [exists w; split; [reflexivity|]; split; [exact S|]; split; [intros ? ? ?; reflexivity|intros h []]|].
  destruct (clear_root h w L S) as (w1 & E1 & S1 & F1 & Z1). destruct (IH w1 L S1) as (w2 & E2 & S2 & F2 & Z2). exists w2. cbn [clear_all]. rewrite E1. cbn [bind]. split; [exact E2|]. split; [exact S2|]. split; [exact (frame_trans _ _ _ [h] l F1 F2)|].
  intros k Hk Rk. destruct (in_dec holder_dec k l) as [I|I]; [auto|]. destruct Hk as [<-|Hk]; [|contradiction]. rewrite F2 by auto. auto.
Qed.
(* a new array with its reference kept by nobody, put into a grid *)
Lemma array_slot w L r p k n : sound w [] L -> rooted r -> get r w = Some p -> (holder_ok (ty w) r p -> ty w p = TGrid) ->
  forall o w1, raw_new TArray w = (o, w1) -> get r w1 = Some p /\ sound w1 [] (o :: L) /\ o = next w /\
  exists w', assign (Slot p (SArray k n)) o w1 = Ok w' /\ sound w' [] (o :: L) /\ frame w w' [].
Proof.
  intros S R Gp Tp o w1 E. destruct (raw_new_sound TArray w L S) as (S1 & M & Eo). rewrite E in *. cbn [fst snd] in *. subst o.
  assert (G1 : get r w1 = Some p) by (rewrite (m_get _ _ _ _ M); auto). split; [exact G1|]. split; [exact S1|]. split; [reflexivity|].
  assert (Lt : p < next w) by (destruct (Nat.lt_ge_cases p (next w)) as [H|H]; [exact H|]; exfalso; exact (alive_get _ _ _ _ _ S Gp (s_next _ _ _ S p H))).
  destruct (assign_sound (Slot p (SArray k n)) (next w) w1 (next w :: L) S1) as (w' & E' & S' & K & _).
  - apply (alive_lost _ _ _ _ S1). left. reflexivity.
  - cbn. rewrite !(m_ty _ _ _ _ M), Nat.eqb_refl. destruct (Nat.eqb_spec p (next w)); [lia|]. split; [apply Tp; exact (type_of _ _ _ _ S Gp)|reflexivity].
  - right. exists r. auto.
  - exists w'. split; [exact E'|]. split; [exact S'|]. intros h Rh Nh. rewrite (k_get _ _ _ K), (m_get _ _ _ _ M); auto. intros [<-|[]]. destruct Rh.
Qed.

Definition grid_members (u : nat) : list holder := [Member u MGrid; Member u MCells; Member u MPnts; Member u MSerial; Member u MWriter].
(* the pointers that a call follows, those it leaves set and those it gives up *)
Definition needs (c : call) : list holder :=
  match c with
  | CGetGrid u _ | CField u _ | CVectorAOS u _ _ | CAdd u _ _ => [Member u MGrid]
  | CInsertPoint u => [Member u MPnts] | CInsertCell u => [Member u MCells] | CAddPoint u => [Member u MPnts; Member u MCells]
  | CPushPoints u => [Member u MGrid; Member u MPnts] | CPushCells u | CSetPoints u => [Member u MGrid; Member u MPnts; Member u MCells]
  | CSetPointsCells u x y => [Member u MGrid; Var TPoints x; Var TCells y] | CReset u => [Member u MPnts; Member u MCells]
  | CWrite u p => [Member u MGrid; Member u (if p then MWriter else MSerial)]
  | CSetData x _ _ | CWriteGrid x _ | CWritePoints x | COutput x => [Var TGrid x]
  | CAdaptorProcess u | CAdaptorCopy u _ => [Member u MProcessor]
  | _ => []
  end.
Definition gives (c : call) : list holder :=
  match c with
  | CNew u => grid_members u | CGetGrid _ x | CCreateMesh _ x => [Var TGrid x] | CVar t x => [Var t x]
  | CAdaptor u _ => [Member u MProcessor] | CInitAdaptor x _ => [Var TProcessor x]
  | _ => []
  end.
Definition drops (c : call) : list holder :=
  match c with CDestroy u | CCreateMesh u _ => grid_members u | CDrop t x => [Var t x] | CAdaptorDestroy u => [Member u MProcessor] | _ => [] end.
(* the objects whose reference nobody gives up *)
Definition leaks (c : call) (w : world) : list nat := match c with CAdd _ _ _ | CSetData _ _ _ | COutput _ => [next w] | _ => [] end.
Definition outer (h : holder) : Prop := match h with Member _ _ | Var _ _ => True | _ => False end.
Lemma outer_rooted h : outer h -> rooted h. Proof. destruct h; cbn; auto. Qed.
Definition ok_call (c : call) : bool := match c with CReset _ | CAdaptorCopy _ _ => false | _ => true end.
(* locals of returned functions *)
Definition clean (w : world) : Prop := forall t x, get (Local t x) w = None.
Definition good (c : call) (w w' : world) (L : list nat) : Prop :=
  exec c w = Ok w' /\ sound w' [] (leaks c w ++ L) /\ (forall h, outer h -> ~ In h (drops c) -> get h w <> None -> get h w' <> None) /\ (forall h, In h (gives c) -> get h w' <> None) /\ (clean w -> clean w').

Lemma some_of {A} (x : option A) : x <> None -> exists y, x = Some y. Proof. destruct x; [eauto|congruence]. Qed.
Lemma good_frame c w w' L b : exec c w = Ok w' -> sound w' [] (leaks c w ++ L) -> frame w w' b -> (forall h, outer h -> In h b -> ~ In h (drops c) -> get h w' <> None) -> (forall h, In h (gives c) -> get h w' <> None) -> (forall t x, In (Local t x) b -> get (Local t x) w = None -> get (Local t x) w' = None) -> good c w w' L.
Proof.
  intros E S F B G Z. split; [exact E|]. split; [exact S|]. split; [|split; [exact G|intros C t x; destruct (in_dec holder_dec (Local t x) b) as [I|I]; [auto|]; rewrite F by (exact Logic.I || exact I); apply C]]. intros h O N H. destruct (in_dec holder_dec h b) as [I|I]; [auto|]. rewrite F by (auto using outer_rooted). exact H.
Qed.
Ltac nope := let H := fresh in intros H; cbn in H; repeat (destruct H as [H|H]; [try discriminate H|]); try contradiction H.
Ltac have N h o := let E := fresh "G" o in destruct (some_of _ (N h ltac:(cbn; auto))) as [o E].
Ltac via F := rewrite F by (solve [exact I|nope]).
Ltac zlast := match goal with
  | Z : rooted _ -> get ?h ?w = None |- get ?h ?w = None => exact (Z I)
  | Z : forall h, In h _ -> rooted h -> get h ?w = None |- get _ ?w = None => solve [apply Z; [cbn; tauto|exact I]]
  | Z : get ?h ?w1 = None -> get ?h ?w = None, F : frame _ ?w1 _ |- get ?h ?w = None => apply Z; rewrite F by (solve [exact I|nope]); assumption
  end.
Ltac zz := let H := fresh in intros ? ? H; cbn in H; intros; repeat (destruct H as [H|H]; [try discriminate H; injection H as <- <-; zlast|]); destruct H.
Ltac gf B := apply (good_frame _ _ _ _ B); [| | | | |solve [zz]].
Ltac tysolve := intros; cbn in *; intuition congruence.
Lemma construct_sound u w L : sound w [] L -> exists w', construct u w = Ok w' /\ sound w' [] L /\ frame w w' (grid_members u) /\ (forall h, In h (grid_members u) -> get h w' <> None).
Proof.
  intros S. unfold construct.
  destruct (smart_new_root TWriter (Member u MWriter) w L S I) as (w1 & E1 & S1 & F1 & G1); [tysolve|]. rewrite E1. cbn [bind].
  destruct (smart_new_root TWriter (Member u MSerial) w1 L S1 I) as (w2 & E2 & S2 & F2 & G2); [tysolve|]. rewrite E2. cbn [bind].
  destruct (smart_new_root TGrid (Member u MGrid) w2 L S2 I) as (w3 & E3 & S3 & F3 & G3); [tysolve|]. rewrite E3. cbn [bind].
  destruct (smart_new_root TPoints (Member u MPnts) w3 L S3 I) as (w4 & E4 & S4 & F4 & G4); [tysolve|]. rewrite E4. cbn [bind].
  destruct (smart_new_root TCells (Member u MCells) w4 L S4 I) as (w5 & E5 & S5 & F5 & G5); [tysolve|]. rewrite E5.
  exists w5. split; [reflexivity|]. split; [exact S5|]. split.
  - intros h R N. cbn in N. rewrite F5, F4, F3, F2, F1; auto; cbn; tauto.
  - intros h H. cbn in H. destruct H as [<-|[<-|[<-|[<-|[<-|[]]]]]].
    + via F5. via F4. congruence.
    + congruence.
    + via F5. congruence.
    + via F5. via F4. via F3. congruence.
    + via F5. via F4. via F3. via F2. congruence.
Qed.
Lemma push_points_sound u w L g p : sound w [] L -> get (Member u MGrid) w = Some g -> get (Member u MPnts) w = Some p ->
  exists w', push_points u w = Ok w' /\ sound w' [] L /\ frame w w' [].
Proof.
  intros S Gg Gp. unfold push_points. rewrite (with_obj_ok _ w [] L g _ S Gg), (with_obj_ok _ w [] L p _ S Gp).
  apply (assign_slot w L (Member u MGrid) g (Member u MPnts) p SPoints S I Gg Gp). tysolve.
Qed.
Lemma push_cells_sound u w L g p c : sound w [] L -> get (Member u MGrid) w = Some g -> get (Member u MPnts) w = Some p -> get (Member u MCells) w = Some c ->
  exists w', push_cells u w = Ok w' /\ sound w' [] L /\ frame w w' [].
Proof.
  intros S Gg Gp Gc. unfold push_cells. rewrite (with_obj_ok _ w [] L g _ S Gg), (with_obj_ok _ w [] L p _ S Gp).
  destruct (assign_slot w L (Member u MGrid) g (Member u MPnts) p SPoints S I Gg Gp) as (w1 & E1 & S1 & F1); [tysolve|]. rewrite E1. cbn [bind].
  assert (Gg1 : get (Member u MGrid) w1 = Some g) by (via F1; exact Gg). assert (Gc1 : get (Member u MCells) w1 = Some c) by (via F1; exact Gc).
  rewrite (with_obj_ok _ w1 [] L c _ S1 Gc1).
  destruct (assign_slot w1 L (Member u MGrid) g (Member u MCells) c SCells S1 I Gg1 Gc1) as (w2 & E2 & S2 & F2); [tysolve|].
  exists w2. split; [exact E2|]. split; [exact S2|exact (frame_trans _ _ _ [] [] F1 F2)].
Qed.
Lemma get_grid_sound u x w L g : sound w [] L -> get (Member u MGrid) w = Some g -> exists w', get_grid u x w = Ok w' /\ sound w' [] L /\ frame w w' [Var TGrid x] /\ get (Var TGrid x) w' = Some g.
Proof. intros S G. unfold get_grid. rewrite G. apply (assign_root w L (Var TGrid x) (Member u MGrid) g S I G). tysolve. Qed.
Lemma pipelines_sound h l : rooted h -> h <> Local TPipeline "pipeline" -> (forall f o, holder_ok f h o -> f o = TProcessor) -> forall w L, sound w [] L -> get h w <> None ->
  exists w', add_pipelines h l w = Ok w' /\ sound w' [] L /\ frame w w' [Local TPipeline "pipeline"] /\ (get (Local TPipeline "pipeline") w = None -> get (Local TPipeline "pipeline") w' = None).
Proof.
  intros R Nh T. induction l as [|n l IH]; intros w L S N; [exists w; split; [reflexivity|]; split; [exact S|]; split; [intros ? ? ?; reflexivity|auto]|]. cbn [add_pipelines].
  destruct (some_of _ N) as [pr Gr].
  destruct (smart_new_root TPipeline (Local TPipeline "pipeline") w L S I) as (w1 & E1 & S1 & F1 & G1); [tysolve|]. rewrite E1. cbn [bind].
  assert (Gr1 : get h w1 = Some pr) by (rewrite F1; auto; intros [H|[]]; congruence).
  rewrite (with_obj_ok _ w1 [] L _ _ S1 G1), (with_obj_ok _ w1 [] L _ _ S1 Gr1).
  destruct (assign_slot w1 L h pr (Local TPipeline "pipeline") (next w) (SPipeline n) S1 R Gr1 G1) as (w2 & E2 & S2 & F2); [intros H1 H2; split; [apply T; exact H1|exact H2]|]. rewrite E2. cbn [bind].
  destruct (clear_root (Local TPipeline "pipeline") w2 L S2) as (w3 & E3 & S3 & F3 & Z3). rewrite E3. cbn [bind].
  destruct (IH w3 L S3) as (w4 & E4 & S4 & F4 & Z4).
  { rewrite F3 by (auto; intros [H|[]]; congruence). rewrite F2 by auto. congruence. }
  exists w4. split; [exact E4|]. split; [exact S4|]. split; [intros k Rk Nk; rewrite F4, F3, F2, F1; auto|]. intros _. apply Z4, Z3. exact I.
Qed.

Theorem exec_sound c w L : ok_call c = true -> sound w [] L -> (forall h, In h (needs c) -> get h w <> None) -> exists w', good c w w' L.
Proof.
  intros OK S N. destruct c; try discriminate OK; cbn [needs] in N.
  - destruct (construct_sound u w L S) as (w' & E & S' & F & G). exists w'. gf (grid_members u); auto.
  - destruct (clear_all_sound (grid_members u) w L S) as (w' & E & S' & F & Z). exists w'. gf (grid_members u); auto; intros h [].
  - have N (Member u MGrid) g. destruct (get_grid_sound u x w L g S Gg) as (w' & E & S' & F & G). exists w'. gf [Var TGrid x]; auto; intros h; [intros _ [<-|[]] _|intros [<-|[]]]; congruence.
  - destruct (smart_new_root t (Var t x) w L S I) as (w' & E & S' & F & G); [tysolve|]. exists w'. gf [Var t x]; auto; intros h; [intros _ [<-|[]] _|intros [<-|[]]]; congruence.
  - destruct (clear_root (Var t x) w L S) as (w' & E & S' & F & Z). exists w'. gf [Var t x]; auto; intros h [].
  - have N (Member u MPnts) p. exists w. gf (@nil holder); [exact (with_obj_ok _ w [] L p _ S Gp)|exact S|intros ? ? ?; reflexivity|intros h _ []|intros h []].
  - have N (Member u MCells) p. exists w. gf (@nil holder); [exact (with_obj_ok _ w [] L p _ S Gp)|exact S|intros ? ? ?; reflexivity|intros h _ []|intros h []].
  - have N (Member u MPnts) p. have N (Member u MCells) c. exists w. gf (@nil holder); [|exact S|intros ? ? ?; reflexivity|intros h _ []|intros h []]. cbn [exec]. unfold add_point. rewrite (with_obj_ok _ w [] L p _ S Gp). exact (with_obj_ok _ w [] L c _ S Gc).
  - have N (Member u MGrid) g. have N (Member u MPnts) p. have N (Member u MCells) c. destruct (push_cells_sound u w L g p c S Gg Gp Gc) as (w' & E & S' & F). exists w'. gf (@nil holder); auto; intros h [].
  - have N (Member u MGrid) g. have N (Member u MPnts) p. destruct (push_points_sound u w L g p S Gg Gp) as (w' & E & S' & F). exists w'. gf (@nil holder); auto; intros h [].
  - have N (Member u MGrid) g. have N (Member u MPnts) p. have N (Member u MCells) c. destruct (push_cells_sound u w L g p c S Gg Gp Gc) as (w' & E & S' & F). exists w'. gf (@nil holder); auto; try (intros h []).
    cbn [exec]. unfold set_points, add_point. rewrite (with_obj_ok _ w [] L p _ S Gp), (with_obj_ok _ w [] L c _ S Gc). exact E.
  - have N (Member u MGrid) g. have N (Var TPoints x) p. have N (Var TCells y) c. cbn [exec]. 
    destruct (assign_root w L (Local TPoints "_pnts") (Var TPoints x) p S I Gp) as (w1 & E1 & S1 & F1 & G1); [tysolve|].
    assert (Gc1 : get (Var TCells y) w1 = Some c) by (via F1; exact Gc). assert (Gg1 : get (Member u MGrid) w1 = Some g) by (via F1; exact Gg).
    destruct (assign_root w1 L (Local TCells "_cells") (Var TCells y) c S1 I Gc1) as (w2 & E2 & S2 & F2 & G2); [tysolve|].
    assert (Gg2 : get (Member u MGrid) w2 = Some g) by (via F2; exact Gg1). assert (Gp2 : get (Local TPoints "_pnts") w2 = Some p) by (via F2; exact G1).
    destruct (assign_slot w2 L (Member u MGrid) g (Local TPoints "_pnts") p SPoints S2 I Gg2 Gp2) as (w3 & E3 & S3 & F3); [tysolve|].
    assert (Gg3 : get (Member u MGrid) w3 = Some g) by (via F3; exact Gg2). assert (Gc3 : get (Local TCells "_cells") w3 = Some c) by (via F3; exact G2).
    destruct (assign_slot w3 L (Member u MGrid) g (Local TCells "_cells") c SCells S3 I Gg3 Gc3) as (w4 & E4 & S4 & F4); [tysolve|].
    destruct (clear_all_sound [Local TPoints "_pnts"; Local TCells "_cells"] w4 L S4) as (w5 & E5 & S5 & F5 & Z5).
    exists w5. gf [Local TPoints "_pnts"; Local TCells "_cells"]; [|exact S5| |intros h O [<-|[<-|[]]]; destruct O|intros h []].
    + cbn [exec]. unfold set_points_cells. rewrite (with_obj_ok _ w [] L p _ S Gp), (with_obj_ok _ w [] L c _ S Gc), E1. cbn [bind]. rewrite E2. cbn [bind]. rewrite (with_obj_ok _ w2 [] L g _ S2 Gg2), E3. cbn [bind]. rewrite E4. exact E5.
    + intros h Rh Nh. cbn in Nh. rewrite F5, F4, F3, F2, F1; auto; cbn; tauto.
  - have N (Member u MGrid) g. destruct (raw_new TArray w) as [o w1] eqn:E1. destruct (array_slot w L (Member u MGrid) g KField name S I Gg ltac:(tysolve) o w1 E1) as (Gg1 & S1 & -> & w2 & E2 & S2 & F2). 
    destruct (delete_sound w2 (next w) L S2) as (w3 & E3 & S3 & K3). exists w3. gf (@nil holder); [|exact S3| |intros h _ []|intros h []].
    + cbn [exec]. unfold add_deleting. rewrite E1, (with_obj_ok _ w1 [] _ g _ S1 Gg1), E2. exact E3.
    + exact (frame_trans _ _ _ [] [] F2 (k_get _ _ _ K3)).
  - have N (Member u MGrid) g. destruct (raw_new TArray w) as [o w1] eqn:E1. destruct (array_slot w L (Member u MGrid) g k name S I Gg ltac:(tysolve) o w1 E1) as (Gg1 & S1 & -> & w2 & E2 & S2 & F2). 
    destruct (delete_sound w2 (next w) L S2) as (w3 & E3 & S3 & K3). exists w3. gf (@nil holder); [|exact S3| |intros h _ []|intros h []].
    + cbn [exec]. unfold add_deleting. rewrite E1, (with_obj_ok _ w1 [] _ g _ S1 Gg1), E2. exact E3.
    + exact (frame_trans _ _ _ [] [] F2 (k_get _ _ _ K3)).
  - have N (Member u MGrid) g. destruct (raw_new TArray w) as [o w1] eqn:E1. destruct (array_slot w L (Member u MGrid) g k name S I Gg ltac:(tysolve) o w1 E1) as (Gg1 & S1 & -> & w2 & E2 & S2 & F2). 
    exists w2. gf (@nil holder); [|exact S2|exact F2|intros h _ []|intros h []]. cbn [exec]. unfold add_keeping. rewrite E1, (with_obj_ok _ w1 [] _ g _ S1 Gg1). exact E2.
  - have N (Member u MGrid) g. destruct parallel.
    + have N (Member u MWriter) wr. destruct (smart_new_root TController (Local TController "contr") w L S I) as (w1 & E1 & S1 & F1 & G1); [tysolve|].
      assert (Gw1 : get (Member u MWriter) w1 = Some wr) by (via F1; exact Gwr).
      destruct (assign_slot w1 L (Member u MWriter) wr (Local TController "contr") (next w) SController S1 I Gw1 G1) as (w2 & E2 & S2 & F2); [tysolve|].
      assert (Gw2 : get (Member u MWriter) w2 = Some wr) by (via F2; exact Gw1). assert (Gg2 : get (Member u MGrid) w2 = Some g) by (via F2; via F1; exact Gg).
      destruct (assign_slot w2 L (Member u MWriter) wr (Member u MGrid) g SInput S2 I Gw2 Gg2) as (w3 & E3 & S3 & F3); [tysolve|].
      destruct (clear_root (Local TController "contr") w3 L S3) as (w4 & E4 & S4 & F4 & Z4).
      exists w4. gf [Local TController "contr"]; [|exact S4| |intros h O [<-|[]]; destruct O|intros h []].
      * cbn [exec]. unfold write. rewrite E1. cbn [bind]. rewrite (with_obj_ok _ w1 [] L _ _ S1 G1), (with_obj_ok _ w1 [] L _ _ S1 Gw1), E2. cbn [bind]. rewrite (with_obj_ok _ w2 [] L _ _ S2 Gg2), E3. exact E4.
      * intros h Rh Nh. cbn in Nh. rewrite F4, F3, F2, F1; auto.
    + have N (Member u MSerial) wr. destruct (assign_slot w L (Member u MSerial) wr (Member u MGrid) g SInput S I Gwr Gg) as (w1 & E1 & S1 & F1); [tysolve|].
      exists w1. gf (@nil holder); [|exact S1|exact F1|intros h _ []|intros h []]. cbn [exec]. unfold write. rewrite (with_obj_ok _ w [] L _ _ S Gwr), (with_obj_ok _ w [] L _ _ S Gg). exact E1.
  - have N (Var TGrid x) g. destruct (raw_new TArray w) as [o w1] eqn:E1. destruct (array_slot w L (Var TGrid x) g k name S I Gg ltac:(tysolve) o w1 E1) as (Gg1 & S1 & -> & w2 & E2 & S2 & F2). 
    exists w2. gf (@nil holder); [|exact S2|exact F2|intros h _ []|intros h []]. cbn [exec]. unfold set_data. rewrite E1, (with_obj_ok _ w1 [] _ g _ S1 Gg1). exact E2.
  - have N (Var TGrid x) g. 
    destruct (assign_root w L (Local TGrid "uGrid") (Var TGrid x) g S I Gg) as (w1 & E1 & S1 & F1 & G1); [tysolve|].
    destruct (smart_new_root TWriter (Local TWriter "writer") w1 L S1 I) as (w2 & E2 & S2 & F2 & G2); [tysolve|].
    assert (Gg2 : get (Local TGrid "uGrid") w2 = Some g) by (via F2; exact G1). set (wr := next w1) in *.
    assert (X : exists w3, (if 1 <? pieces then bind (smart_new TController (Local TController "contr") w2) (fun w => with_obj (Local TController "contr") w (fun contr => assign (Slot wr SController) contr w)) else Ok w2) = Ok w3
              /\ sound w3 [] L /\ frame w2 w3 [Local TController "contr"]).
    { destruct (1 <? pieces); [|exists w2; split; [reflexivity|]; split; [exact S2|]; intros ? ? ?; reflexivity].
      destruct (smart_new_root TController (Local TController "contr") w2 L S2 I) as (w3 & E3 & S3 & F3 & G3); [tysolve|].
      assert (Gw3 : get (Local TWriter "writer") w3 = Some wr) by (via F3; exact G2).
      destruct (assign_slot w3 L (Local TWriter "writer") wr (Local TController "contr") (next w2) SController S3 I Gw3 G3) as (w4 & E4 & S4 & F4); [tysolve|].
      exists w4. rewrite E3. cbn [bind]. rewrite (with_obj_ok _ w3 [] L _ _ S3 G3). split; [exact E4|]. split; [exact S4|]. intros h Rh Nh. rewrite F4, F3; auto. }
    destruct X as (w3 & E3 & S3 & F3).
    assert (Gw3 : get (Local TWriter "writer") w3 = Some wr) by (via F3; exact G2). assert (Gg3 : get (Local TGrid "uGrid") w3 = Some g) by (via F3; exact Gg2).
    destruct (assign_slot w3 L (Local TWriter "writer") wr (Local TGrid "uGrid") g SInput S3 I Gw3 Gg3) as (w4 & E4 & S4 & F4); [tysolve|].
    destruct (clear_all_sound [Local TController "contr"; Local TWriter "writer"; Local TGrid "uGrid"] w4 L S4) as (w5 & E5 & S5 & F5 & Z5).
    exists w5. gf [Local TController "contr"; Local TWriter "writer"; Local TGrid "uGrid"]; [|exact S5| |intros h O [<-|[<-|[<-|[]]]]; destruct O|intros h []].
    + cbn [exec]. unfold write_grid. rewrite (with_obj_ok _ w [] L _ _ S Gg), E1. cbn [bind]. rewrite E2. cbn [bind]. rewrite (with_obj_ok _ w2 [] L _ _ S2 G2), E3. cbn [bind]. rewrite E4. exact E5.
    + intros h Rh Nh. cbn in Nh. rewrite F5, F4, F3, F2, F1; auto; cbn; tauto.
  - assert (X : exists w1, (match get (Var TGrid x) w with None => Ok w | Some g => assign (Local TGrid "grid") g w end) = Ok w1 /\ sound w1 [] L /\ frame w w1 [Local TGrid "grid"]).
    { destruct (get (Var TGrid x) w) as [g|] eqn:Gg; [|exists w; split; [reflexivity|]; split; [exact S|]; intros ? ? ?; reflexivity].
      destruct (assign_root w L (Local TGrid "grid") (Var TGrid x) g S I Gg) as (w1 & E1 & S1 & F1 & G1); [tysolve|]. exists w1. auto. }
    destruct X as (w1 & E1 & S1 & F1). destruct (smart_new_root TGrid (Local TGrid "grid") w1 L S1 I) as (w2 & E2 & S2 & F2 & G2); [tysolve|].
    destruct (clear_root (Local TGrid "grid") w2 L S2) as (w3 & E3 & S3 & F3 & Z3). exists w3. gf [Local TGrid "grid"]; [|exact S3| |intros h O [<-|[]]; destruct O|intros h []].
    + cbn [exec]. unfold init_grid. rewrite E1. cbn [bind]. rewrite E2. exact E3.
    + intros h Rh Nh. rewrite F3, F2, F1; auto.
  - have N (Var TGrid x) g. destruct (assign_root w L (Local TGrid "grid") (Var TGrid x) g S I Gg) as (w1 & E1 & S1 & F1 & G1); [tysolve|].
    destruct (raw_new_sound TPoints w1 L S1) as (S2 & M2 & En). destruct (raw_new TPoints w1) as [o w2] eqn:E2. cbn [fst snd] in *. subst o.
    assert (Gg2 : get (Local TGrid "grid") w2 = Some g) by (rewrite (m_get _ _ _ _ M2); [exact G1|exact I|intros []]).
    assert (Lt : g < next w1) by (destruct (Nat.lt_ge_cases g (next w1)) as [H|H]; [exact H|]; exfalso; exact (alive_get _ _ _ _ _ S1 G1 (s_next _ _ _ S1 g H))).
    destruct (assign_sound (Slot g SPoints) (next w1) w2 (next w1 :: L) S2) as (w3 & E3 & S3 & K3 & _).
    { apply (alive_lost _ _ _ _ S2). left. reflexivity. }
    { split; [exact (type_of _ _ _ _ S2 Gg2)|]. rewrite (m_ty _ _ _ _ M2), Nat.eqb_refl. reflexivity. }
    { right. exists (Local TGrid "grid"). split; [exact I|exact Gg2]. }
    destruct (delete_sound w3 (next w1) L S3) as (w4 & E4 & S4 & K4). destruct (clear_root (Local TGrid "grid") w4 L S4) as (w5 & E5 & S5 & F5 & Z5).
    exists w5. gf [Local TGrid "grid"]; [|exact S5| |intros h O [<-|[]]; destruct O|intros h []].
    + cbn [exec]. unfold write_points. rewrite (with_obj_ok _ w [] L _ _ S Gg), E1. cbn [bind]. rewrite E2, E3. cbn [bind]. rewrite E4. exact E5.
    + intros h Rh Nh. rewrite F5, (k_get _ _ _ K4), (k_get _ _ _ K3), (m_get _ _ _ _ M2), F1; auto. intros [<-|[]]. destruct Rh.
  - have N (Var TGrid x) g. destruct (assign_sound (Local TGrid "grid") g w L S (alive_get _ _ _ _ _ S Gg) (type_of w L (Var TGrid x) g S Gg) I) as (w1 & E1 & S1 & K1 & G1).
    destruct (raw_new_sound TWriter w1 L S1) as (S2 & M2 & En). destruct (raw_new TWriter w1) as [o w2] eqn:E2. cbn [fst snd] in *. subst o. pose proof (k_next _ _ _ K1) as Nx.
    assert (Gg2 : get (Local TGrid "grid") w2 = Some g) by (rewrite (m_get _ _ _ _ M2); [exact G1|exact I|intros []]).
    destruct (assign_sound (Slot (next w1) SInput) g w2 (next w1 :: L) S2) as (w3 & E3 & S3 & K3 & _).
    { exact (alive_get _ _ _ _ _ S2 Gg2). }
    { split; [rewrite (m_ty _ _ _ _ M2), Nat.eqb_refl; reflexivity|exact (type_of _ _ _ _ S2 Gg2)]. }
    { left. left. reflexivity. }
    destruct (clear_root (Local TGrid "grid") w3 _ S3) as (w4 & E4 & S4 & F4 & Z4).
    exists w4. gf [Local TGrid "grid"]; [|cbn [leaks app]; rewrite <- Nx; exact S4| |intros h O [<-|[]]; destruct O|intros h []].
    + cbn [exec]. unfold output_grid. rewrite (with_obj_ok _ w [] L _ _ S Gg), E1. cbn [bind]. rewrite E2, E3. exact E4.
    + intros h Rh Nh. rewrite F4, (k_get _ _ _ K3), (m_get _ _ _ _ M2), (k_get _ _ _ K1); auto. intros [<-|[]]. destruct Rh.
  - destruct (construct_sound u w L S) as (w1 & E1 & S1 & F1 & G1). have G1 (Member u MGrid) g. have G1 (Member u MPnts) p.
    destruct (push_points_sound u w1 L g p S1 Gg Gp) as (w2 & E2 & S2 & F2). assert (Gg2 : get (Member u MGrid) w2 = Some g) by (via F2; exact Gg).
    destruct (get_grid_sound u x w2 L g S2 Gg2) as (w3 & E3 & S3 & F3 & G3). destruct (clear_all_sound (grid_members u) w3 L S3) as (w4 & E4 & S4 & F4 & Z4).
    assert (Gx : get (Var TGrid x) w4 <> None) by (rewrite F4; [congruence|exact I|nope]).
    exists w4. gf (grid_members u ++ [Var TGrid x]); [|exact S4| | |intros h [<-|[]]; exact Gx].
    + cbn [exec]. unfold create_mesh. rewrite E1. cbn [bind]. unfold insert_next_point. rewrite (with_obj_ok _ w1 [] L _ _ S1 Gp). cbn [bind]. rewrite E2. cbn [bind]. rewrite E3. exact E4.
    + intros h Rh Nh. rewrite in_app_iff in Nh. rewrite F4, F3, F2, F1; auto.
    + intros h O I ND. rewrite in_app_iff in I. destruct I as [I|[<-|[]]]; [contradiction|exact Gx].
  - destruct (smart_new_root TProcessor (Member u MProcessor) w L S I) as (w1 & E1 & S1 & F1 & G1); [tysolve|].
    destruct (pipelines_sound (Member u MProcessor) (seq 0 scripts) I ltac:(discriminate) ltac:(tysolve) w1 L S1 ltac:(congruence)) as (w2 & E2 & S2 & F2 & Z2).
    assert (Gx : get (Member u MProcessor) w2 <> None) by (rewrite F2; [congruence|exact I|nope]).
    exists w2. gf [Member u MProcessor; Local TPipeline "pipeline"]; [|exact S2| | |intros h [<-|[]]; exact Gx].
    + cbn [exec]. unfold adaptor. rewrite E1. exact E2.
    + intros h Rh Nh. cbn in Nh. rewrite F2, F1; auto; cbn; tauto.
    + intros h O [<-|[<-|[]]] ND; [exact Gx|destruct O].
  - have N (Member u MProcessor) p. exists w. gf (@nil holder); [exact (with_obj_ok _ w [] L p _ S Gp)|exact S|intros ? ? ?; reflexivity|intros h _ []|intros h []].
  - destruct (clear_root (Member u MProcessor) w L S) as (w' & E & S' & F & Z). exists w'. gf [Member u MProcessor]; auto; intros h [].
  - destruct (smart_new_root TProcessor (Var TProcessor x) w L S I) as (w1 & E1 & S1 & F1 & G1); [tysolve|].
    destruct (pipelines_sound (Var TProcessor x) (seq 0 scripts) I ltac:(discriminate) ltac:(tysolve) w1 L S1 ltac:(congruence)) as (w2 & E2 & S2 & F2 & Z2).
    assert (Gx : get (Var TProcessor x) w2 <> None) by (rewrite F2; [congruence|exact I|nope]).
    exists w2. gf [Var TProcessor x; Local TPipeline "pipeline"]; [|exact S2| | |intros h [<-|[]]; exact Gx].
    + cbn [exec]. unfold init_adaptor. rewrite E1. exact E2.
    + intros h Rh Nh. cbn in Nh. rewrite F2, F1; auto; cbn; tauto.
    + intros h O [<-|[<-|[]]] ND; [exact Gx|destruct O].
Qed.
