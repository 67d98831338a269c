(** Proofs about [ElementsFixedMemModel]. *)
From Coq Require Import Reals List ZArith Arith Lia Bool.
From Verif Require Import Outcome VectorModel VectorProofs ElementsModel JacobianModel LagrangeModel ElementsMemModel ElementsMemProofs ElementsFixedMemModel.
Import ListNotations.
Local Open Scope R_scope.

(** ** expressions *)
Fixpoint val (ref : nat -> vec) (xi : vec) (i : nat) (e : el) : R :=
  match e with
  | Cst r => r
  | X d => xi d
  | F d => ref i d
  | Add a b => val ref xi i a + val ref xi i b
  | Sub a b => val ref xi i a - val ref xi i b
  | Mul a b => val ref xi i a * val ref xi i b
  | Div a b => val ref xi i a / val ref xi i b
  end.
Fixpoint xneed (e : el) : nat :=
  match e with
  | Cst _ | F _ => 0
  | X d => S d
  | Add a b | Sub a b | Mul a b | Div a b => Nat.max (xneed a) (xneed b)
  end.
Fixpoint fneed (e : el) : nat :=
  match e with
  | Cst _ | X _ => 0
  | F d => S d
  | Add a b | Sub a b | Mul a b | Div a b => Nat.max (fneed a) (fneed b)
  end.
Definition at1 (v : list R) : vec := fun i => nth i v 0.
Lemma ev_ok ref xi i e : (xneed e <= length xi)%nat -> (fneed e <= length (row ref i))%nat ->
  ev ref xi i e = Ok (val (at2 ref) (at1 xi) i e).
Proof.
  induction e as [r|d|d|a IHa b IHb|a IHa b IHb|a IHa b IHb|a IHa b IHb]; cbn [xneed fneed ev val]; intros Hx Hf;
    try (cbv zeta; rewrite IHa, IHb by lia; reflexivity).
  - reflexivity.
  - apply rd_ok. lia.
  - apply rd2_ok. lia.
Qed.
Lemma ev_inv ref xi i e r : ev ref xi i e = Ok r -> (xneed e <= length xi)%nat.
Proof.
  revert r. induction e as [c|d|d|a IHa b IHb|a IHa b IHb|a IHa b IHb|a IHa b IHb]; cbn [xneed ev]; cbv zeta; intros r E;
    try (inv_binds; apply IHa in E0; apply IHb in E1; lia).
  - lia.
  - apply (rd_inv _ _ _ 0) in E. lia.
  - lia.
Qed.
Lemma clean_ev ref xi i e : clean (ev ref xi i e).
Proof.
  induction e as [c|d|d|a IHa b IHb|a IHa b IHb|a IHa b IHb|a IHa b IHb]; cbn [ev]; cbv zeta;
    try (apply clean_bind; [exact IHa|intros; apply clean_bind; [exact IHb|intros; apply clean_ok]]).
  - apply clean_ok.
  - apply clean_rd.
  - apply clean_rd2.
Qed.

(** ** routines *)
Definition writes (segs : list seg) : list (nat * el) := flat_map (fun s => map (fun i => (i, what s)) (upto s)) segs.
Definition w_step (ref : vv) (xi : list R) (out : outcome (list R)) (w : nat * el) : outcome (list R) :=
  s_step ref xi (snd w) out (fst w).
Lemma fold_map {A B C} (f : A -> C -> A) (g : B -> C) (l : list B) : forall a, fold_left f (map g l) a = fold_left (fun a b => f a (g b)) l a.
Proof. induction l as [|b l IH]; intros a; cbn; [reflexivity | apply IH]. Qed.
Lemma run_writes segs ref xi out : s_run segs ref xi out = fold_left (w_step ref xi) (writes segs) (Ok out).
Proof.
  unfold s_run. generalize (@Ok (list R) out). induction segs as [|s segs IH]; intros o; [reflexivity|].
  cbn [fold_left writes flat_map]. rewrite fold_left_app. rewrite IH. f_equal. unfold s_for. rewrite fold_map. reflexivity.
Qed.
Definition set_step (ref : nat -> vec) (xi : vec) (a : vec) (w : nat * el) : vec := set a (fst w) (val ref xi (fst w) (snd w)).
Definition stored (ref : nat -> vec) (xi : vec) (segs : list seg) (a : vec) : vec := fold_left (set_step ref xi) (writes segs) a.
Lemma writes_ok ref xi W : forall out f, repr out f ->
  (forall w, In w W -> (fst w < length out)%nat /\ (xneed (snd w) <= length xi)%nat /\ (fneed (snd w) <= length (row ref (fst w)))%nat) ->
  exists out', fold_left (w_step ref xi) W (Ok out) = Ok out' /\ length out' = length out /\
    repr out' (fold_left (set_step (at2 ref) (at1 xi)) W f).
Proof.
  induction W as [|[i e] W IH]; intros out f Hf H; cbn [fold_left]; [exists out; auto|].
  destruct (H (i, e) (or_introl eq_refl)) as [L [Hx Hr]]. cbn [fst snd] in *.
  unfold w_step at 2, s_step. cbn [bind fst snd]. rewrite ev_ok by assumption. cbn [bind]. rewrite wr_ok by exact L.
  destruct (IH (upd out i (val (at2 ref) (at1 xi) i e)) (set_step (at2 ref) (at1 xi) f (i, e))) as [out' [E [Ln Rn]]].
  - apply repr_upd; assumption.
  - intros w Hw. rewrite length_upd. apply H. right. exact Hw.
  - exists out'. rewrite length_upd in Ln. auto.
Qed.
Lemma fold_bad ref xi W : forall o, (forall a, o <> Ok a) -> forall a, fold_left (w_step ref xi) W o <> Ok a.
Proof.
  induction W as [|[i e] W IH]; intros o H a; cbn [fold_left]; [apply H|]. apply IH. intros b.
  unfold w_step, s_step. destruct o; cbn [bind]; try discriminate. exfalso. eapply H. reflexivity.
Qed.
Lemma writes_inv ref xi W : forall out out', fold_left (w_step ref xi) W (Ok out) = Ok out' ->
  length out' = length out /\ forall w, In w W -> (fst w < length out)%nat /\ (xneed (snd w) <= length xi)%nat.
Proof.
  induction W as [|[i e] W IH]; intros out out' E; cbn [fold_left] in E; [injection E as <-; split; [reflexivity | intros w []]|].
  unfold w_step at 2, s_step in E. cbn [bind fst snd] in E.
  destruct (bind (ev ref xi i e) (fun v => wr out i v)) as [o| | |] eqn:B;
    try (exfalso; revert E; apply fold_bad; discriminate).
  apply bind_inv in B. destruct B as [v [Ev B]]. apply wr_inv in B. destruct B as [L ->]. apply ev_inv in Ev.
  apply IH in E. rewrite length_upd in E. destruct E as [Ln All]. split; [exact Ln|].
  intros w [<-|Hw]; [auto | apply All; exact Hw].
Qed.
Lemma clean_writes ref xi W : forall o, clean o -> clean (fold_left (w_step ref xi) W o).
Proof.
  induction W as [|w W IH]; intros o H; cbn [fold_left]; [exact H|]. apply IH. unfold w_step, s_step.
  apply clean_bind; [exact H|]. intros a. apply clean_bind; [apply clean_ev|]. intros v. apply clean_wr.
Qed.
(** K = 1 + the last entry written, N = 1 + the last entry of the point read, no more than D columns of ref_vert *)
Definition sizes (segs : list seg) (K N D : nat) : bool :=
  let W := writes segs in
  (forallb (fun w => (fst w <? K) && (xneed (snd w) <=? N) && (fneed (snd w) <=? D))%nat W
   && existsb (fun w => S (fst w) =? K)%nat W && existsb (fun w => xneed (snd w) =? N)%nat W)%bool.
Lemma stored_out ref xi K W : (forall w, In w W -> (fst w < K)%nat) -> forall (a : vec) i, (K <= i)%nat ->
  fold_left (set_step ref xi) W a i = a i.
Proof.
  induction W as [|w W IH]; intros H a i L; cbn [fold_left]; [reflexivity|].
  rewrite IH; [|intros u Hu; apply H; right; exact Hu | exact L]. unfold set_step, set.
  pose proof (H w (or_introl eq_refl)). destruct (Nat.eqb_spec i (fst w)); [lia | reflexivity].
Qed.
Lemma run_ok segs ref K N D xi out : sizes segs K N D = true -> wide ref K D -> (N <= length xi)%nat -> (K <= length out)%nat ->
  exists out', s_run segs ref xi out = Ok out' /\ length out' = length out /\
    (forall i, (i < length out)%nat -> nth i out' 0 = stored (at2 ref) (at1 xi) segs (at1 out) i) /\
    (forall i, (K <= i)%nat -> nth i out' 0 = nth i out 0).
Proof.
  intros Hs Hw Hx Ho. unfold sizes in Hs. apply andb_prop in Hs. destruct Hs as [Hs _]. apply andb_prop in Hs. destruct Hs as [Hs _].
  rewrite forallb_forall in Hs.
  assert (All : forall w, In w (writes segs) -> (fst w < K)%nat /\ (xneed (snd w) <= N)%nat /\ (fneed (snd w) <= D)%nat).
  { intros w Iw. specialize (Hs w Iw). apply andb_prop in Hs. destruct Hs as [Hs C]. apply andb_prop in Hs. destruct Hs as [A B].
    apply Nat.ltb_lt in A. apply Nat.leb_le in B, C. auto. }
  rewrite run_writes. destruct (writes_ok ref xi (writes segs) out (at1 out) (repr_at out)) as [out' [E [Ln Rn]]].
  - intros w Iw. destruct (All w Iw) as [A [B C]]. pose proof (Hw _ A). lia.
  - exists out'. split; [exact E|]. split; [exact Ln|].
    assert (G : forall i, (i < length out)%nat -> nth i out' 0 = stored (at2 ref) (at1 xi) segs (at1 out) i).
    { intros i L. apply Rn. rewrite Ln. exact L. }
    split; [exact G|]. intros i L. destruct (Nat.lt_ge_cases i (length out)) as [L1|L1].
    + rewrite G by exact L1. unfold stored. rewrite (stored_out _ _ K); [reflexivity | intros w Iw; apply All; exact Iw | exact L].
    + rewrite !nth_overflow by lia. reflexivity.
Qed.
Lemma run_need segs ref K N D xi out out' : sizes segs K N D = true -> s_run segs ref xi out = Ok out' ->
  (N <= length xi)%nat /\ (K <= length out)%nat.
Proof.
  intros Hs E. rewrite run_writes in E. apply writes_inv in E. destruct E as [_ All].
  unfold sizes in Hs. apply andb_prop in Hs. destruct Hs as [Hs Hn]. apply andb_prop in Hs. destruct Hs as [_ Hk].
  apply existsb_exists in Hn, Hk. destruct Hn as [w [Iw Hn]]. destruct Hk as [u [Iu Hk]].
  apply Nat.eqb_eq in Hn, Hk. apply All in Iw, Iu. lia.
Qed.
Lemma clean_run segs ref xi out : clean (s_run segs ref xi out).
Proof. rewrite run_writes. apply clean_writes. apply clean_ok. Qed.

(** ** physical_position *)
Lemma zero_ok D x : (D <= length x)%nat -> exists x', s_zero D x = Ok x' /\ length x' = length x /\
  forall i, nth i x' 0 = if (i <? D)%nat then 0 else nth i x 0.
Proof.
  intros L. unfold s_zero. apply (mloop_ok (fun d y => length y = length x /\ forall i, nth i y 0 = if (i <? d)%nat then 0 else nth i x 0)).
  - auto.
  - intros d y Ld [Ly Ey]. rewrite wr_ok by lia. eexists. split; [reflexivity|]. split; [rewrite length_upd; exact Ly|].
    intros i. rewrite nth_upd by lia. rewrite Ey.
    destruct (Nat.eqb_spec i d) as [Eq|Ne]; destruct (Nat.ltb_spec i d), (Nat.ltb_spec i (S d)); try lia; reflexivity.
Qed.
Lemma zero_need D x x' : s_zero D x = Ok x' -> (D <= length x)%nat /\ length x' = length x.
Proof.
  unfold s_zero. intros E. apply (mloop_inv (fun y => length y = length x)) in E; [|reflexivity|].
  - destruct E as [L All]. split; [|exact L]. destruct D as [|D]; [lia|]. destruct (All D ltac:(lia)) as [t [t' [Lt Et]]].
    apply wr_inv in Et. lia.
  - intros i t t' _ Lt Et. apply wr_inv in Et. destruct Et as [_ ->]. rewrite length_upd. exact Lt.
Qed.
(* the state after the first v vertices *)
Definition upto_v (vertices : vv) (shape x : list R) (D v : nat) (y : list R) : Prop :=
  length y = length x /\ (forall d, (d < D)%nat -> nth d y 0 = sum v (fun p => nth d (row vertices p) 0 * nth p shape 0)) /\
  (forall i, (D <= i)%nat -> nth i y 0 = nth i x 0).
Lemma position_sum n D vertices shape x x0 : wide vertices n D -> (n <= length shape)%nat -> (D <= length x)%nat ->
  upto_v vertices shape x D 0 x0 -> exists x', m_position n D vertices shape x0 = Ok x' /\ upto_v vertices shape x D n x'.
Proof.
  intros W Ls Lx H0. unfold m_position. apply (mloop_ok (upto_v vertices shape x D)); [exact H0|].
  intros v y Lv [Ly [Ey Uy]]. pose proof (W v Lv) as Wv.
  destruct (mloop_ok (fun d z => length z = length x /\
      (forall e, (e < D)%nat -> nth e z 0 = if (e <? d)%nat then sum (S v) (fun p => nth e (row vertices p) 0 * nth p shape 0) else nth e y 0) /\
      (forall i, (D <= i)%nat -> nth i z 0 = nth i x 0)) D
    (fun dim x => bind (rd x dim) (fun a => bind (rd2 vertices v dim) (fun n => bind (rd shape v) (fun b => wr x dim (a + n * b))))) y)
    as [z [E [Lz [Ez Uz]]]].
  - auto.
  - intros d z Ld [Lz [Ez Uz]]. rewrite (rd_ok z d 0) by lia. cbn [bind]. rewrite rd2_ok by lia. cbn [bind].
    rewrite (rd_ok shape v 0) by lia. cbn [bind]. rewrite wr_ok by lia. eexists. split; [reflexivity|].
    split; [rewrite length_upd; exact Lz|]. split.
    + intros e Le. rewrite nth_upd by lia. destruct (Nat.eqb_spec e d) as [->|].
      * destruct (Nat.ltb_spec d (S d)); [|lia]. rewrite Ez by exact Ld. destruct (Nat.ltb_spec d d); [lia|].
        cbn [sum]. rewrite Ey by exact Ld. reflexivity.
      * rewrite Ez by exact Le. destruct (Nat.ltb_spec e d), (Nat.ltb_spec e (S d)); try lia; reflexivity.
    + intros i Li. rewrite nth_upd by lia. destruct (Nat.eqb_spec i d); [lia|]. apply Uz. exact Li.
  - exists z. split; [exact E|]. split; [exact Lz|]. split; [|exact Uz]. intros d Ld. rewrite Ez by exact Ld.
    destruct (Nat.ltb_spec d D); [reflexivity | lia].
Qed.
Definition dim_loop (n D : nat) (vertices : vv) (shape x : list R) : outcome (list R) :=
  mloop D (fun dim x => mloop n (fun v x =>
      bind (rd x dim) (fun a => bind (rd2 vertices v dim) (fun p => bind (rd shape v) (fun b => wr x dim (a + p * b))))) x) x.
Lemma position_dim_sum n D vertices shape x x0 : wide vertices n D -> (n <= length shape)%nat -> (D <= length x)%nat ->
  upto_v vertices shape x D 0 x0 -> exists x', dim_loop n D vertices shape x0 = Ok x' /\ upto_v vertices shape x D n x'.
Proof.
  intros W Ls Lx [L0 [E0 U0]]. unfold dim_loop.
  destruct (mloop_ok (fun d z => length z = length x /\
      (forall e, (e < D)%nat -> nth e z 0 = if (e <? d)%nat then sum n (fun p => nth e (row vertices p) 0 * nth p shape 0) else 0) /\
      (forall i, (D <= i)%nat -> nth i z 0 = nth i x 0)) D
    (fun dim x => mloop n (fun v x =>
      bind (rd x dim) (fun a => bind (rd2 vertices v dim) (fun p => bind (rd shape v) (fun b => wr x dim (a + p * b))))) x) x0)
    as [z [E [Lz [Ez Uz]]]].
  - split; [exact L0|]. split; [exact E0 | exact U0].
  - intros d y Ld [Ly [Ey Uy]].
    destruct (mloop_ok (fun v z => length z = length x /\
        (forall e, (e < D)%nat -> nth e z 0 = if (e =? d)%nat then sum v (fun p => nth e (row vertices p) 0 * nth p shape 0) else nth e y 0) /\
        (forall i, (D <= i)%nat -> nth i z 0 = nth i x 0)) n
      (fun v x => bind (rd x d) (fun a => bind (rd2 vertices v d) (fun p => bind (rd shape v) (fun b => wr x d (a + p * b))))) y)
      as [z [E [Lz [Ez Uz]]]].
    + split; [exact Ly|]. split; [|exact Uy]. intros e Le. destruct (Nat.eqb_spec e d) as [->|]; [|reflexivity].
      rewrite Ey by exact Ld. destruct (Nat.ltb_spec d d); [lia|]. reflexivity.
    + intros v z Lv [Lz [Ez Uz]]. pose proof (W v Lv) as Wv. rewrite (rd_ok z d 0) by lia. cbn [bind]. rewrite rd2_ok by lia. cbn [bind].
      rewrite (rd_ok shape v 0) by lia. cbn [bind]. rewrite wr_ok by lia. eexists. split; [reflexivity|].
      split; [rewrite length_upd; exact Lz|]. split.
      * intros e Le. rewrite nth_upd by lia. destruct (Nat.eqb_spec e d) as [->|Ne].
        -- rewrite Ez by exact Ld. rewrite Nat.eqb_refl. reflexivity.
        -- rewrite Ez by exact Le. destruct (Nat.eqb_spec e d); [contradiction|reflexivity].
      * intros i Li. rewrite nth_upd by lia. destruct (Nat.eqb_spec i d); [lia|]. apply Uz. exact Li.
    + exists z. split; [exact E|]. split; [exact Lz|]. split; [|exact Uz]. intros e Le. rewrite Ez by exact Le.
      destruct (Nat.eqb_spec e d) as [->|].
      * destruct (Nat.ltb_spec d (S d)); [reflexivity | lia].
      * rewrite Ey by exact Le. destruct (Nat.ltb_spec e d), (Nat.ltb_spec e (S d)); try lia; reflexivity.
  - exists z. split; [exact E|]. split; [exact Lz|]. split; [|exact Uz]. intros d Ld. rewrite Ez by exact Ld.
    destruct (Nat.ltb_spec d D); [reflexivity | lia].
Qed.
Lemma dim_need n D vertices shape x x' : (0 < n)%nat -> dim_loop n D vertices shape x = Ok x' -> wide vertices n D.
Proof.
  intros Ln H. unfold dim_loop in H.
  apply (mloop_inv (fun _ => True)) in H; [|exact I | intros; exact I].
  destruct H as [_ All]. intros v Lv. destruct D as [|D]; [lia|].
  destruct (All D ltac:(lia)) as [t [t' [_ E]]]. apply (mloop_inv (fun _ => True)) in E; [|exact I | intros; exact I].
  destruct E as [_ B]. destruct (B v Lv) as [u [u' [_ E]]]. inv_binds. apply rd2_inv in E1. lia.
Qed.
Lemma clean_position segs ref n D x xi vertices shape : clean (s_position segs ref n D x xi vertices shape).
Proof. unfold s_position. apply clean_bind; [apply clean_run|]. intros. unfold s_zero, m_position. cleaning. Qed.
Lemma clean_position_dim segs ref n D x xi vertices shape : clean (s_position_dim segs ref n D x xi vertices shape).
Proof. unfold s_position_dim. apply clean_bind; [apply clean_run|]. intros. unfold s_zero. cleaning. Qed.
Lemma sum_eq n f g : (forall i, (i < n)%nat -> f i = g i) -> sum n f = sum n g.
Proof. induction n as [|n IH]; intros H; cbn; [reflexivity|]. rewrite IH, H by (try intros; try apply H; lia). reflexivity. Qed.
Definition placed (n D : nat) (vertices : vv) (h : vec) (x x' : list R) : Prop :=
  length x' = length x /\ (forall d, (d < D)%nat -> nth d x' 0 = sum n (fun p => nth d (row vertices p) 0 * h p)) /\
  (forall i, (D <= i)%nat -> nth i x' 0 = nth i x 0).
Lemma s_position_ok segs ref n N D x xi vertices shape : sizes segs n N D = true -> wide ref n D -> (n <= length shape)%nat ->
  (N <= length xi)%nat -> (D <= length x)%nat -> wide vertices n D ->
  (exists x', s_position segs ref n D x xi vertices shape = Ok x' /\
    placed n D vertices (stored (at2 ref) (at1 xi) segs (at1 shape)) x x') /\
  (exists x', s_position_dim segs ref n D x xi vertices shape = Ok x' /\
    placed n D vertices (stored (at2 ref) (at1 xi) segs (at1 shape)) x x').
Proof.
  intros Hs Hw Ls Lx Lp Wv. unfold s_position, s_position_dim.
  destruct (run_ok segs ref n N D xi shape Hs Hw Lx Ls) as [sh [E [Lsh [Esh _]]]]. rewrite E. cbn [bind].
  destruct (zero_ok D x Lp) as [x0 [E0 [L0 H0]]]. rewrite E0. cbn [bind].
  assert (St : upto_v vertices sh x D 0 x0).
  { split; [exact L0|]. split; intros d Ld; rewrite H0; destruct (Nat.ltb_spec d D); try lia; reflexivity. }
  assert (Go : forall y, upto_v vertices sh x D n y -> placed n D vertices (stored (at2 ref) (at1 xi) segs (at1 shape)) x y).
  { intros y [Ly [Ey Uy]]. split; [exact Ly|]. split; [|exact Uy]. intros d Ld. rewrite Ey by exact Ld. apply sum_eq.
    intros i Li. rewrite Esh by lia. reflexivity. }
  split.
  - destruct (position_sum n D vertices sh x x0) as [x' [Ex Hx]]; try assumption; [lia|]. exists x'. auto.
  - destruct (position_dim_sum n D vertices sh x x0) as [x' [Ex Hx]]; try assumption; [lia|]. exists x'. auto.
Qed.
Lemma s_position_need segs ref n N D x xi vertices shape x' : sizes segs n N D = true -> (0 < n)%nat -> (0 < D)%nat ->
  s_position segs ref n D x xi vertices shape = Ok x' \/ s_position_dim segs ref n D x xi vertices shape = Ok x' ->
  (N <= length xi)%nat /\ (D <= length x)%nat /\ wide vertices n D.
Proof.
  intros Hs Ln LD [E|E]; unfold s_position, s_position_dim in E; apply bind_inv in E; destruct E as [sh [E1 E]];
    apply bind_inv in E; destruct E as [x0 [E2 E]]; apply (run_need _ _ _ _ _ _ _ _ Hs) in E1; apply zero_need in E2.
  - apply position_need in E; [|assumption|assumption]. split; [apply E1|]. split; [apply E2 | apply E].
  - apply (dim_need n D vertices sh x0 x' Ln) in E. split; [apply E1|]. split; [apply E2 | exact E].
Qed.

(** ** the entries are those of [ElementsModel] *)
Lemma stored_quad4_shape (x junk : vec) : stored (at2 s_quad4_ref) x s_quad4_shape junk = quad4_shape x junk. Proof. reflexivity. Qed.
Lemma stored_quad4_basis (x junk : vec) : stored (at2 s_quad4_ref) x s_quad4_basis junk = quad4_basis x junk. Proof. reflexivity. Qed.
Lemma stored_quad4_partial_xi (x junk : vec) : stored (at2 s_quad4_ref) x s_quad4_partial_xi junk = quad4_partial_xi x junk. Proof. reflexivity. Qed.
Lemma stored_quad4_partial_eta (x junk : vec) : stored (at2 s_quad4_ref) x s_quad4_partial_eta junk = quad4_partial_eta x junk. Proof. reflexivity. Qed.
Lemma stored_quad8_shape (x junk : vec) : stored (at2 s_quad8_ref) x s_quad8_shape junk = quad8_shape x junk. Proof. reflexivity. Qed.
Lemma stored_quad8_basis (x junk : vec) : stored (at2 s_quad8_ref) x s_quad8_basis junk = quad8_basis x junk. Proof. reflexivity. Qed.
Lemma stored_quad8_partial_xi (x junk : vec) : stored (at2 s_quad8_ref) x s_quad8_partial_xi junk = quad8_partial_xi x junk. Proof. reflexivity. Qed.
Lemma stored_quad8_partial_eta (x junk : vec) : stored (at2 s_quad8_ref) x s_quad8_partial_eta junk = quad8_partial_eta x junk. Proof. reflexivity. Qed.
Lemma stored_quad12_shape (x junk : vec) : stored (at2 s_quad12_ref) x s_quad12_shape junk = quad12_shape x junk. Proof. reflexivity. Qed.
Lemma stored_quad12_basis (x junk : vec) : stored (at2 s_quad12_ref) x s_quad12_basis junk = quad12_basis x junk. Proof. reflexivity. Qed.
Lemma stored_quad12_partial_xi (x junk : vec) : stored (at2 s_quad12_ref) x s_quad12_partial_xi junk = quad12_partial_xi x junk. Proof. reflexivity. Qed.
Lemma stored_quad12_partial_eta (x junk : vec) : stored (at2 s_quad12_ref) x s_quad12_partial_eta junk = quad12_partial_eta x junk. Proof. reflexivity. Qed.
Lemma stored_hex8_shape (x junk : vec) : stored (at2 s_hex8_ref) x s_hex8_shape junk = hex8_shape x junk. Proof. reflexivity. Qed.
Lemma stored_hex8_basis (x junk : vec) : stored (at2 s_hex8_ref) x s_hex8_basis junk = hex8_basis x junk. Proof. reflexivity. Qed.
Lemma stored_hex8_partial_xi (x junk : vec) : stored (at2 s_hex8_ref) x s_hex8_partial_xi junk = hex8_partial_xi x junk. Proof. reflexivity. Qed.
Lemma stored_hex8_partial_eta (x junk : vec) : stored (at2 s_hex8_ref) x s_hex8_partial_eta junk = hex8_partial_eta x junk. Proof. reflexivity. Qed.
Lemma stored_hex8_partial_mu (x junk : vec) : stored (at2 s_hex8_ref) x s_hex8_partial_mu junk = hex8_partial_mu x junk. Proof. reflexivity. Qed.
Lemma stored_hex20_shape (x junk : vec) : stored (at2 s_hex20_ref) x s_hex20_shape junk = hex20_shape x junk. Proof. reflexivity. Qed.
Lemma stored_hex20_basis (x junk : vec) : stored (at2 s_hex20_ref) x s_hex20_basis junk = hex20_basis x junk. Proof. reflexivity. Qed.
Lemma stored_hex20_partial_xi (x junk : vec) : stored (at2 s_hex20_ref) x s_hex20_partial_xi junk = hex20_partial_xi x junk. Proof. reflexivity. Qed.
Lemma stored_hex20_partial_eta (x junk : vec) : stored (at2 s_hex20_ref) x s_hex20_partial_eta junk = hex20_partial_eta x junk. Proof. reflexivity. Qed.
Lemma stored_hex20_partial_mu (x junk : vec) : stored (at2 s_hex20_ref) x s_hex20_partial_mu junk = hex20_partial_mu x junk. Proof. reflexivity. Qed.
Lemma stored_hex32_shape (x junk : vec) : stored (at2 s_hex32_ref) x s_hex32_shape junk = hex32_shape x junk. Proof. reflexivity. Qed.
Lemma stored_hex32_basis (x junk : vec) : stored (at2 s_hex32_ref) x s_hex32_basis junk = hex32_basis x junk. Proof. reflexivity. Qed.
Lemma stored_hex32_partial_xi (x junk : vec) : stored (at2 s_hex32_ref) x s_hex32_partial_xi junk = hex32_partial_xi x junk. Proof. reflexivity. Qed.
Lemma stored_hex32_partial_eta (x junk : vec) : stored (at2 s_hex32_ref) x s_hex32_partial_eta junk = hex32_partial_eta x junk. Proof. reflexivity. Qed.
Lemma stored_hex32_partial_mu (x junk : vec) : stored (at2 s_hex32_ref) x s_hex32_partial_mu junk = hex32_partial_mu x junk. Proof. reflexivity. Qed.
Lemma stored_tess16_shape (rv : nat -> vec) (x junk : vec) : stored rv x s_tess16_shape junk = tess16_shape rv x junk. Proof. reflexivity. Qed.
Lemma stored_tess16_partial_xi (rv : nat -> vec) (x junk : vec) : stored rv x s_tess16_partial_xi junk = tess16_partial_xi rv x junk. Proof. reflexivity. Qed.
Lemma stored_tess16_partial_eta (rv : nat -> vec) (x junk : vec) : stored rv x s_tess16_partial_eta junk = tess16_partial_eta rv x junk. Proof. reflexivity. Qed.
Lemma stored_tess16_partial_mu (rv : nat -> vec) (x junk : vec) : stored rv x s_tess16_partial_mu junk = tess16_partial_mu rv x junk. Proof. reflexivity. Qed.
Lemma stored_tess16_partial_tau (rv : nat -> vec) (x junk : vec) : stored rv x s_tess16_partial_tau junk = tess16_partial_tau rv x junk. Proof. reflexivity. Qed.
