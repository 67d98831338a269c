(** Stack effects of the commands of LuaModel.v *)
From Coq Require Import String Ascii List Bool Arith ZArith Lia.
From Verif Require Import Outcome LuaModel.
Import ListNotations.

Definition is_ok {A} (o : outcome A) : Prop := exists a, o = Ok a.
Section Proofs.
Context {W F : Type} (L : lua W F).
Notation val := (val F).
Notation st := (st W F).
Notation M := (M W F).
Notation lref := (lref (F := F)).

Lemma depth_top (v : val) l cp rf (w : W) : depth (mk_st (v :: l) cp rf w) (-1) = Some 0.
Proof.
  unfold depth. cbn [stk]. destruct (Z.ltb_spec 0 (-1)); [lia|]. destruct (Z.ltb_spec (-1) 0); [|lia].
  destruct (Z.leb_spec (- (-1)) (Z.of_nat (length (v :: l)))) as [_|H1]; [reflexivity|cbn [length] in H1; lia].
Qed.
Lemma at_top (v : val) l cp rf (w : W) : at_ (-1) (mk_st (v :: l) cp rf w) = (mk_st (v :: l) cp rf w, Ok v).
Proof. unfold at_. rewrite depth_top. reflexivity. Qed.
Lemma at_empty cp rf (w : W) : at_ (F := F) (-1) (mk_st [] cp rf w) = (mk_st [] cp rf w, UB).
Proof. reflexivity. Qed.
Lemma at_second (v u : val) l cp rf (w : W) : at_ (-2) (mk_st (v :: u :: l) cp rf w) = (mk_st (v :: u :: l) cp rf w, Ok u).
Proof.
  unfold at_, depth. cbn [stk]. destruct (Z.ltb_spec 0 (-2)); [lia|]. destruct (Z.ltb_spec (-2) 0); [|lia].
  destruct (Z.leb_spec (- (-2)) (Z.of_nat (length (v :: u :: l)))) as [_|H1]; [reflexivity|cbn [length] in H1; lia].
Qed.
Lemma remove_top (v : val) l cp rf (w : W) : remove (-1) (mk_st (v :: l) cp rf w) = (mk_st l cp rf w, Ok tt).
Proof. unfold remove. rewrite depth_top. reflexivity. Qed.
Lemma push_ok (v : val) l cp rf (w : W) : length l < cp -> push v (mk_st l cp rf w) = (mk_st (v :: l) cp rf w, Ok tt).
Proof. intros H. unfold push. cbn [stk cap]. rewrite (proj2 (Nat.ltb_lt _ _) H). reflexivity. Qed.
Lemma push_full (v : val) l cp rf (w : W) : cp <= length l -> push v (mk_st l cp rf w) = (mk_st l cp rf w, UB).
Proof. intros H. unfold push. cbn [stk cap]. rewrite (proj2 (Nat.ltb_ge _ _) H). reflexivity. Qed.
Lemma rawgeti_top t n l cp rf (w : W) : length (VTab t :: l) < cp ->
  rawgeti L (-1) n (mk_st (VTab t :: l) cp rf w) = (mk_st (t_geti L w t n :: VTab t :: l) cp rf w, Ok tt).
Proof. intros H. unfold rawgeti, bnd. rewrite at_top. apply push_ok. exact H. Qed.
Lemma check_stack_ok n l cp rf (w : W) : length l + n <= max_stack L ->
  check_stack L n (mk_st l cp rf w) = (mk_st l (Nat.max cp (length l + n)) rf w, Ok tt).
Proof. intros H. unfold check_stack, bnd, checkstack. cbn [stk cap refs world]. rewrite (proj2 (Nat.leb_le _ _) H). reflexivity. Qed.

(** ** reading a value: [reads k g c] says that, with k free slots, g converts the top value by c and pops it; when c fails g leaves
    the value and possibly more on the stack *)
Definition reads {A} (k : nat) (g : M A) (c : W -> val -> outcome A) : Prop :=
  forall v l cp rf w, length (v :: l) + k <= cp -> exists rest,
    g (mk_st (v :: l) cp rf w) = (mk_st rest cp rf w, c w v)
    /\ (is_ok (c w v) -> rest = l) /\ (~ is_ok (c w v) -> exists junk, rest = junk ++ v :: l).
Lemma reads_pops {A} k (g : M A) c v l cp rf w a : reads k g c -> length (v :: l) + k <= cp -> c w v = Ok a ->
  g (mk_st (v :: l) cp rf w) = (mk_st l cp rf w, Ok a).
Proof. intros R H E. destruct (R v l cp rf w H) as (rest & G & Y & _). rewrite G, Y, E by (eexists; exact E). reflexivity. Qed.
Lemma reads_mono {A} k k' (g : M A) c : k <= k' -> reads k g c -> reads k' g c.
Proof. intros K R v l cp rf w H. apply R. lia. Qed.
(* a conversion that inspects only the value and removes it *)
Lemma reads_scalar {A} (test : val -> bool) (f : val -> A) :
  reads 0 (bnd (at_ (-1)) (fun v => if test v then bnd (remove (-1)) (fun _ => ret (f v)) else fail Throw))
    (fun _ v => if test v then Ok (f v) else Throw).
Proof.
  intros v l cp rf w _. unfold bnd. rewrite at_top. destruct (test v).
  - rewrite remove_top. exists l. split; [reflexivity|]. split; [reflexivity|]. intros H. exfalso. apply H. eexists. reflexivity.
  - exists (v :: l). split; [reflexivity|]. split; [intros [a H]; discriminate|]. intros _. exists []. reflexivity.
Qed.
Definition conv_int (wrap : Z -> Z) (w : W) (v : val) : outcome Z := if is_number L v then Ok (wrap (to_integer L v)) else Throw.
Definition conv_flt {A} (narrow : F -> A) (w : W) (v : val) : outcome A := if is_number L v then Ok (narrow (to_number L v)) else Throw.
Definition conv_bool (w : W) (v : val) : outcome bool := match v with VBool b => Ok b | _ => Throw end.
Definition conv_string (w : W) (v : val) : outcome string := if is_string v then Ok (cstr (to_lstring L v)) else Throw.
Lemma reads_int wrap : reads 0 (get_int L wrap (-1)) (conv_int wrap).
Proof. exact (reads_scalar (is_number L) (fun v => wrap (to_integer L v))). Qed.
Lemma reads_flt {A} (narrow : F -> A) : reads 0 (get_flt L narrow (-1)) (conv_flt narrow).
Proof. exact (reads_scalar (is_number L) (fun v => narrow (to_number L v))). Qed.
Lemma reads_string : reads 0 (get_string L (-1)) conv_string.
Proof. exact (reads_scalar is_string (fun v => cstr (to_lstring L v))). Qed.
Lemma reads_bool : reads 0 (get_bool (-1)) conv_bool.
Proof.
  intros v l cp rf w _. unfold get_bool, bnd. rewrite at_top.
  destruct v as [|b|z|x|x|t|f]; try (exists (v :: l)); try (eexists; split; [reflexivity|]; split; [intros [a H]; discriminate|intros _; exists []; reflexivity]).
  rewrite remove_top. exists l. split; [reflexivity|]. split; [reflexivity|]. intros H. exfalso. apply H. eexists. reflexivity.
Qed.

(** elements i+1 .. i+n of table t *)
Fixpoint conv_elems {A} (c : W -> val -> outcome A) (w : W) (t : nat) (i : Z) (n : nat) : outcome (list A) :=
  match n with
  | O => Ok []
  | S m => bind (c w (t_geti L w t (i + 1))) (fun a => bind (conv_elems c w t (i + 1) m) (fun l => Ok (a :: l)))
  end.
Lemma bnd_ok {A B} (m : M A) (k : A -> M B) s s' a : m s = (s', Ok a) -> bnd m k s = k a s'.
Proof. intros E. unfold bnd. rewrite E. reflexivity. Qed.
Lemma bnd_fail {A B} (m : M A) (k : A -> M B) s s' o : m s = (s', o) -> ~ is_ok o -> bnd m k s = (s', bind o (fun _ => UB)).
Proof. intros E H. unfold bnd. rewrite E. destruct o as [a| | |]; try reflexivity. exfalso. apply H. eexists. reflexivity. Qed.
Lemma bind_fail {A B} (o : outcome A) (k : A -> outcome B) : ~ is_ok o -> bind o k = bind o (fun _ => UB).
Proof. intros H. destruct o; try reflexivity. exfalso. apply H. eexists. reflexivity. Qed.
Lemma ok_dec {A} (o : outcome A) : is_ok o \/ ~ is_ok o.
Proof. destruct o; [left; eexists; reflexivity| | |]; right; intros [a H]; discriminate. Qed.
Lemma bind_not_ok {A B} (o : outcome A) (k : A -> outcome B) : ~ is_ok o -> ~ is_ok (bind o k).
Proof. intros H [b E]. destruct o; try discriminate. apply H. eexists. reflexivity. Qed.
Lemma elems_spec {A} k (g : M A) c t l cp rf w : reads k g c -> length (VTab t :: l) + S k <= cp -> forall n i,
  exists junk, get_elems L g i n (mk_st (VTab t :: l) cp rf w) = (mk_st (junk ++ VTab t :: l) cp rf w, conv_elems c w t i n)
    /\ (is_ok (conv_elems c w t i n) -> junk = []).
Proof.
  intros R H n. induction n as [|n IH]; intros i.
  - exists []. split; reflexivity.
  - cbn [get_elems conv_elems]. rewrite (bnd_ok _ _ _ _ _ (rawgeti_top t (i + 1) l cp rf w ltac:(cbn [length] in *; lia))).
    set (v := t_geti L w t (i + 1)). destruct (R v (VTab t :: l) cp rf w ltac:(cbn [length] in *; lia)) as (rest & G & Y & N).
    destruct (ok_dec (c w v)) as [[a E]|E].
    + rewrite E in G. rewrite (bnd_ok _ _ _ _ _ G), Y by (eexists; exact E). rewrite E. cbn [bind].
      destruct (IH (i + 1)%Z) as (junk & E2 & J). destruct (ok_dec (conv_elems c w t (i + 1) n)) as [[xs X]|X].
      * rewrite X in E2. rewrite (bnd_ok _ _ _ _ _ E2), X. exists junk. split; [reflexivity|]. intros _. apply J. eexists. exact X.
      * rewrite (bnd_fail _ _ _ _ _ E2 X). exists junk. split; [f_equal; symmetry; apply bind_fail; exact X|].
        intros Z. exfalso. exact (bind_not_ok _ _ X Z).
    + destruct (N E) as [junk ->]. rewrite (bnd_fail _ _ _ _ _ G E). exists (junk ++ [v]).
      rewrite <- app_assoc. split; [f_equal; symmetry; apply bind_fail; exact E|]. intros Z. exfalso. exact (bind_not_ok _ _ E Z).
Qed.
Definition conv_vector {A} (c : W -> val -> outcome A) (w : W) (v : val) : outcome (list A) :=
  match v with VTab t => conv_elems c w t 0 (t_len L w t) | _ => Throw end.
Definition conv_array {A} (N : nat) (c : W -> val -> outcome A) (w : W) (v : val) : outcome (list A) :=
  match v with VTab t => if t_len L w t =? N then conv_elems c w t 0 N else Throw | _ => Throw end.
Lemma throw_stays {A} (v : val) l cp rf (w : W) : exists rest, (mk_st (v :: l) cp rf w, @Throw A) = (mk_st rest cp rf w, Throw)
  /\ (is_ok (@Throw A) -> rest = l) /\ (~ is_ok (@Throw A) -> exists junk, rest = junk ++ v :: l).
Proof. exists (v :: l). split; [reflexivity|]. split; [intros [a H]; discriminate|]. intros _. exists []. reflexivity. Qed.
Lemma reads_tail {A} k (g : M A) c t l cp rf w n : reads k g c -> length (VTab t :: l) + S k <= cp -> exists rest,
  bnd (get_elems L g 0 n) (fun l => bnd (remove (-1)) (fun _ => ret l)) (mk_st (VTab t :: l) cp rf w) = (mk_st rest cp rf w, conv_elems c w t 0 n)
  /\ (is_ok (conv_elems c w t 0 n) -> rest = l) /\ (~ is_ok (conv_elems c w t 0 n) -> exists junk, rest = junk ++ VTab t :: l).
Proof.
  intros R H. destruct (elems_spec k g c t l cp rf w R H n 0%Z) as (junk & E & J).
  destruct (ok_dec (conv_elems c w t 0 n)) as [[xs X]|X].
  - rewrite X in *. rewrite J in E by (eexists; reflexivity). rewrite (bnd_ok _ _ _ _ _ E). cbn [app].
    rewrite (bnd_ok _ _ _ _ _ (remove_top _ _ _ _ _)). exists l. split; [reflexivity|]. split; [reflexivity|]. intros Z. exfalso. apply Z. eexists. reflexivity.
  - rewrite (bnd_fail _ _ _ _ _ E X). exists (junk ++ VTab t :: l). split; [|split; [contradiction|intros _; eexists; reflexivity]].
    f_equal. destruct (conv_elems c w t 0 n); try reflexivity. exfalso. apply X. eexists. reflexivity.
Qed.
Lemma reads_vector {A} k (g : M A) c : reads k g c -> reads (S k) (get_vector L g (-1)) (conv_vector c).
Proof.
  intros R v l cp rf w H. unfold get_vector. rewrite (bnd_ok _ _ _ _ _ (at_top v l cp rf w)).
  destruct v as [|b|z|x|x|t|f]; try exact (throw_stays _ l cp rf w).
  rewrite (bnd_ok _ _ _ _ _ (at_top _ l cp rf w)). cbn [rawlen bnd].
  exact (reads_tail k g c t l cp rf w (t_len L w t) R H).
Qed.
Lemma reads_array {A} N k (g : M A) c : reads k g c -> reads (S k) (get_array L N g (-1)) (conv_array N c).
Proof.
  intros R v l cp rf w H. unfold get_array. rewrite (bnd_ok _ _ _ _ _ (at_top v l cp rf w)).
  destruct v as [|b|z|x|x|t|f]; try exact (throw_stays _ l cp rf w).
  rewrite (bnd_ok _ _ _ _ _ (at_top _ l cp rf w)). unfold rawlen at 1. unfold bnd at 1. cbn [world conv_array].
  destruct (Nat.eqb_spec (t_len L w t) N) as [<-|]; [|exact (throw_stays _ l cp rf w)].
  exact (reads_tail k g c t l cp rf w (t_len L w t) R H).
Qed.
Definition conv_row {A} (N : nat) (c : W -> val -> outcome A) (w : W) (v : val) : outcome (list A) :=
  match v with VTab t => conv_elems c w t 0 N | _ => if N =? 0 then Ok [] else UB end.
Definition conv_matrix {A} (Mm N : nat) (c : W -> val -> outcome A) (w : W) (v : val) : outcome (list (list A)) :=
  match v with VTab t => if t_len L w t =? Mm then conv_elems (conv_row N c) w t 0 Mm else Throw | _ => Throw end.
Lemma reads_row {A} N k (g : M A) c : reads k g c ->
  reads (S k) (bnd (get_elems L g 0 N) (fun a => bnd (remove (-1)) (fun _ => ret a))) (conv_row N c).
Proof.
  intros R v l cp rf w H. destruct v as [|b|z|x|x|t|f];
    try (destruct N; cbn [conv_row Nat.eqb get_elems];
     [rewrite (bnd_ok _ _ _ _ _ (eq_refl : ret [] _ = (_, Ok []))); rewrite (bnd_ok _ _ _ _ _ (remove_top _ _ _ _ _));
      exists l; split; [reflexivity|]; split; [reflexivity|]; intros Z; exfalso; apply Z; eexists; reflexivity
     |eexists; split; [unfold bnd, rawgeti; unfold bnd; rewrite at_top; reflexivity|]; split; [intros [a Z]; discriminate|];
      intros _; exists []; reflexivity]).
  exact (reads_tail k g c t l cp rf w N R H).
Qed.
Lemma bnd_assoc {A B C} (m : M A) (k : A -> M B) (h : B -> M C) s : bnd (bnd m k) h s = bnd m (fun a => bnd (k a) h) s.
Proof. unfold bnd. destruct (m s) as [s' [a| | |]]; reflexivity. Qed.
Lemma bnd_ext {A B} (m : M A) (k k' : A -> M B) s : (forall a s, k a s = k' a s) -> bnd m k s = bnd m k' s.
Proof. intros H. unfold bnd. destruct (m s) as [s' [a| | |]]; try reflexivity. apply H. Qed.
Lemma get_rows_elems {A} N (g : M A) n : forall i s, get_rows L N g i n s =
  get_elems L (bnd (get_elems L g 0 N) (fun a => bnd (remove (-1)) (fun _ => ret a))) i n s.
Proof.
  induction n as [|n IH]; intros i s; cbn [get_rows get_elems]; [reflexivity|].
  apply bnd_ext. intros _ s1. rewrite bnd_assoc. apply bnd_ext. intros a s2. rewrite bnd_assoc. apply bnd_ext. intros _ s3.
  unfold bnd at 2. cbn [ret]. unfold bnd. rewrite IH. reflexivity.
Qed.
Lemma reads_matrix {A} Mm N k (g : M A) c : reads k g c -> reads (S (S k)) (get_matrix L Mm N g (-1)) (conv_matrix Mm N c).
Proof.
  intros R v l cp rf w H. unfold get_matrix. rewrite (bnd_ok _ _ _ _ _ (at_top v l cp rf w)).
  destruct v as [|b|z|x|x|t|f]; try exact (throw_stays _ l cp rf w).
  rewrite (bnd_ok _ _ _ _ _ (at_top _ l cp rf w)). unfold rawlen at 1. unfold bnd at 1. cbn [world conv_matrix].
  destruct (Nat.eqb_spec (t_len L w t) Mm) as [_|]; [|exact (throw_stays _ l cp rf w)].
  pose proof (reads_tail (S k) _ _ t l cp rf w Mm (reads_row N k g c R) H) as S1.
  unfold bnd at 1 in S1. unfold bnd at 1. rewrite get_rows_elems. exact S1.
Qed.
(** conv_elems, pointwise *)
Lemma conv_elems_ok {A} (c : W -> val -> outcome A) w t n : forall i xs,
  conv_elems c w t i n = Ok xs <-> length xs = n /\ forall j a, nth_error xs j = Some a -> c w (t_geti L w t (i + 1 + Z.of_nat j)) = Ok a.
Proof.
  induction n as [|n IH]; intros i xs; cbn [conv_elems].
  - split; [intros E; injection E as <-; split; [reflexivity|]; intros j a; destruct j; discriminate|].
    intros [H _]. destruct xs; [reflexivity|discriminate].
  - split.
    + intros H. destruct (c w (t_geti L w t (i + 1))) as [a| | |] eqn:E; try discriminate. cbn [bind] in H.
      destruct (conv_elems c w t (i + 1) n) as [l| | |] eqn:E2; try discriminate. cbn [bind] in H. injection H as <-.
      apply IH in E2. destruct E2 as [H1 H2]. split; [cbn [length]; lia|]. intros [|j] b Hb; cbn in Hb.
      * injection Hb as <-. rewrite Z.add_0_r. exact E.
      * specialize (H2 j b Hb). rewrite <- H2. do 2 f_equal. lia.
    + intros [H1 H2]. destruct xs as [|a xs]; [discriminate|]. pose proof (H2 0 a eq_refl) as E. rewrite Z.add_0_r in E. rewrite E.
      cbn [bind]. rewrite (proj2 (IH (i + 1)%Z xs)); [reflexivity|]. split; [cbn [length] in H1; lia|].
      intros j b Hb. rewrite <- (H2 (S j) b Hb). do 2 f_equal. lia.
Qed.

(** ** references *)
(* the value a reference stands for *)
Definition deref (rf : list val) (r : lref) : val := match r_key r with None => VNil | Some k => nth k rf VNil end.
Definition live (rf : list val) (r : lref) : Prop := match r_key r with None => True | Some k => k < length rf end.
Lemma deref_app rf rf' r : live rf r -> deref (rf ++ rf') r = deref rf r.
Proof. unfold live, deref. destruct (r_key r); [|reflexivity]. intros H. apply app_nth1. exact H. Qed.
Lemma push_ref_ok r l cp rf (w : W) : length l < cp -> push_ref r (mk_st l cp rf w) = (mk_st (deref rf r :: l) cp rf w, Ok tt).
Proof. intros H. unfold push_ref. apply push_ok. exact H. Qed.
Lemma make_ref_spec v l cp rf (w : W) : exists rf' r, make_ref (mk_st (v :: l) cp rf w) = (mk_st l cp (rf ++ rf') w, Ok r)
  /\ deref (rf ++ rf') r = v /\ live (rf ++ rf') r /\ (ref_empty r = true <-> v = VNil) /\ r_type r = match l with [] => None | u :: _ => Some u end.
Proof.
  assert (A : forall below, deref (rf ++ [v]) (mk_ref (Some (length rf)) below) = v /\ live (rf ++ [v]) (mk_ref (Some (length rf)) below)).
  { intros below. split; [unfold deref; cbn; rewrite app_nth2, Nat.sub_diag by lia; reflexivity|]. unfold live. cbn. rewrite app_length. cbn. lia. }
  unfold make_ref. cbn [stk cap refs world with_stk].
  destruct v; [exists [], (mk_ref None (match l with [] => None | w :: _ => Some w end)); rewrite app_nil_r; split; [reflexivity|]; split; [reflexivity|]; split; [exact I|];
     split; [split; reflexivity|reflexivity]|..];
  (eexists; eexists; split; [reflexivity|]; split; [apply A|]; split; [apply A|]; split; [split; discriminate|reflexivity]).
Qed.
Lemma make_refs_spec : forall xs l cp rf (w : W), exists rf' rs, make_refs (length xs) (mk_st (xs ++ l) cp rf w) = (mk_st l cp (rf ++ rf') w, Ok rs)
  /\ map (deref (rf ++ rf')) rs = xs /\ Forall (live (rf ++ rf')) rs.
Proof.
  induction xs as [|x xs IH]; intros l cp rf w.
  - exists [], []. rewrite app_nil_r. repeat split. constructor.
  - cbn [length make_refs app]. destruct (make_ref_spec x (xs ++ l) cp rf w) as (r1 & r & E & D & Lv & _).
    rewrite (bnd_ok _ _ _ _ _ E). destruct (IH l cp (rf ++ r1) w) as (r2 & rs & E2 & D2 & L2). rewrite (bnd_ok _ _ _ _ _ E2).
    exists (r1 ++ r2), (r :: rs). rewrite <- app_assoc in *. split; [reflexivity|]. cbn [map]. rewrite D2. split.
    + f_equal. rewrite app_assoc, deref_app by exact Lv. exact D.
    + constructor; [|exact L2]. revert Lv. unfold live. destruct (r_key r); [|trivial]. rewrite !app_length. lia.
Qed.
Lemma push_refs_ok : forall rs l cp rf (w : W), length l + length rs <= cp ->
  push_refs rs (mk_st l cp rf w) = (mk_st (rev (map (deref rf) rs) ++ l) cp rf w, Ok tt).
Proof.
  induction rs as [|r rs IH]; intros l cp rf w H; cbn [push_refs map rev]; [reflexivity|]. cbn [length] in H.
  rewrite (bnd_ok _ _ _ _ _ (push_ref_ok r l cp rf w ltac:(lia))). rewrite IH by (cbn [length]; lia). rewrite <- app_assoc. reflexivity.
Qed.
Lemma push_last_ok r x rest l cp rf (w : W) : rev (res_refs r) = x :: rest -> length l + 1 <= max_stack L ->
  push_last L r (mk_st l cp rf w) = (mk_st (deref rf x :: l) (Nat.max cp (length l + 1)) rf w, Ok tt).
Proof.
  intros E H. unfold push_last. rewrite (bnd_ok _ _ _ _ _ (check_stack_ok 1 l cp rf w H)). rewrite E. apply push_ref_ok. lia.
Qed.
(** ** arguments *)
Definition arg_vals (a : arg (F := F)) : list val :=
  match a with
  | AInt z => [VInt (wrap64 z)] | ANum x => [VFlt x] | ABool b => [VBool b] | ACstr x => [VStr (cstr x)] | AStr x => [VStr x]
  | AArr l => map VFlt l
  end.
Lemma push_each_ok : forall (xs l : list val) cp rf (w : W), length l + length xs <= cp ->
  push_each xs (mk_st l cp rf w) = (mk_st (rev xs ++ l) cp rf w, Ok tt).
Proof.
  induction xs as [|x xs IH]; intros l cp rf w H; cbn [push_each rev]; [reflexivity|]. cbn [length] in H.
  rewrite (bnd_ok _ _ _ _ _ (push_ok x l cp rf w ltac:(lia))), IH by (cbn [length]; lia). rewrite <- app_assoc. reflexivity.
Qed.
(* with one slot more than the code asks for *)
Lemma lua_push_ok a l cp rf (w : W) : length l + length (arg_vals a) <= cp -> cp <= max_stack L ->
  lua_push L a (mk_st l cp rf w) = (mk_st (rev (arg_vals a) ++ l) cp rf w, Ok (length (arg_vals a))).
Proof.
  intros H Hm. destruct a as [z|x|b|x|x|xs]; cbn [lua_push arg_vals length] in *;
    try (rewrite (bnd_ok _ _ _ _ _ (push_ok _ l cp rf w ltac:(lia))); reflexivity).
  rewrite map_length in H. unfold bnd at 1. unfold checkstack. cbn [stk cap refs world].
  rewrite (proj2 (Nat.leb_le _ _)) by lia. replace (Nat.max cp (length l + (length xs - 1))) with cp by lia.
  rewrite (bnd_ok _ _ _ _ _ (push_each_ok (map VFlt xs) l cp rf w ltac:(rewrite map_length; lia))). rewrite map_length. reflexivity.
Qed.
Definition args_vals (l : list (arg (F := F))) : list val := flat_map arg_vals l.
Lemma push_args_ok : forall args l cp rf (w : W), length l + length (args_vals args) + 1 <= cp -> cp <= max_stack L ->
  push_args L args (mk_st l cp rf w) = (mk_st (rev (args_vals args) ++ l) cp rf w, Ok (length (args_vals args))).
Proof.
  induction args as [|a args IH]; intros l cp rf w H Hm; cbn [push_args args_vals flat_map rev]; [reflexivity|].
  cbn [args_vals flat_map] in H. rewrite app_length in H. fold (args_vals args) in *.
  rewrite (bnd_ok _ _ _ _ _ (check_stack_ok 1 l cp rf w ltac:(lia))). replace (Nat.max cp (length l + 1)) with cp by lia.
  rewrite (bnd_ok _ _ _ _ _ (lua_push_ok a l cp rf w ltac:(lia) Hm)).
  rewrite (bnd_ok _ _ _ _ _ (IH (rev (arg_vals a) ++ l) cp rf w ltac:(rewrite app_length, rev_length; lia) Hm)).
  rewrite rev_app_distr, <- app_assoc, app_length. reflexivity.
Qed.
End Proofs.
