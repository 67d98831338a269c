(** Property theorems for the interface of ristra/atomics (C120). *)
From Coq Require Import List Arith Bool ZArith String Lia Zquot.
From Verif Require Import Outcome AtomicsApiModel.
Import ListNotations.
Open Scope string_scope.

(** what the C++ operators mean on a plain variable with value v and right-hand side x: (new, returned) *)
Inductive means : string -> Z -> Z -> outcome (Z * Z) -> Prop :=
| m_add x v : means "+=" x v (Ok (v + x, v + x)%Z)
| m_sub x v : means "-=" x v (Ok (v - x, v - x)%Z)
| m_mul x v : means "*=" x v (Ok (v * x, v * x)%Z)
| m_div x v q r : x <> 0%Z -> v = (x * q + r)%Z -> (Z.abs r < Z.abs x)%Z -> (0 <= r * v)%Z -> means "/=" x v (Ok (q, q))
| m_mod x v q r : x <> 0%Z -> v = (x * q + r)%Z -> (Z.abs r < Z.abs x)%Z -> (0 <= r * v)%Z -> means "%=" x v (Ok (r, r))
| m_div0 v : means "/=" 0 v UB
| m_mod0 v : means "%=" 0 v UB
| m_shl x v : (0 <= x)%Z -> means "<<=" x v (Ok (v * 2 ^ x, v * 2 ^ x)%Z)
| m_shr x v : (0 <= x)%Z -> means ">>=" x v (Ok (v / 2 ^ x, v / 2 ^ x)%Z)
| m_shlneg x v : (x < 0)%Z -> means "<<=" x v UB
| m_shrneg x v : (x < 0)%Z -> means ">>=" x v UB
| m_and x v r : (forall i, (0 <= i)%Z -> Z.testbit r i = Z.testbit v i && Z.testbit x i) -> means "&=" x v (Ok (r, r))
| m_or x v r : (forall i, (0 <= i)%Z -> Z.testbit r i = Z.testbit v i || Z.testbit x i) -> means "|=" x v (Ok (r, r))
| m_xor x v r : (forall i, (0 <= i)%Z -> Z.testbit r i = xorb (Z.testbit v i) (Z.testbit x i)) -> means "^=" x v (Ok (r, r))
| m_preinc x v : means "++x" x v (Ok (v + 1, v + 1)%Z)
| m_postinc x v : means "x++" x v (Ok (v + 1, v)%Z)
| m_predec x v : means "--x" x v (Ok (v - 1, v - 1)%Z)
| m_postdec x v : means "x--" x v (Ok (v - 1, v)%Z).
Definition operators : list string :=
  ["+="; "-="; "*="; "/="; "%="; "<<="; ">>="; "&="; "|="; "^="; "++x"; "x++"; "--x"; "x--"].

(** C120. Every operator does to the atomic what it does to a plain variable *)
Theorem C120_operators : forall o x v, In o operators ->
  exists c, operator_class o = Some c /\ means o x v (cls_apply c x v).
Proof.
  intros o x v H. cbn in H.
  repeat (destruct H as [<-|H]; [eexists; (split; [reflexivity|]); cbn [cls_apply]|]); try contradiction; try constructor.
  - destruct (Z.eqb_spec x 0) as [->|N]; [constructor|].
    apply (m_div x v (Z.quot v x) (Z.rem v x)); [exact N|apply Z.quot_rem'| |].
    + apply Z.rem_bound_abs. exact N.
    + apply Z.rem_sign_mul. exact N.
  - destruct (Z.eqb_spec x 0) as [->|N]; [constructor|].
    apply (m_mod x v (Z.quot v x) (Z.rem v x)); [exact N|apply Z.quot_rem'| |].
    + apply Z.rem_bound_abs. exact N.
    + apply Z.rem_sign_mul. exact N.
  - destruct (Z.ltb_spec x 0) as [L|L]; [constructor; exact L|]. rewrite Z.shiftl_mul_pow2 by exact L. constructor. exact L.
  - destruct (Z.ltb_spec x 0) as [L|L]; [constructor; exact L|]. rewrite Z.shiftr_div_pow2 by exact L. constructor. exact L.
  - intros i _. apply Z.land_spec.
  - intros i _. apply Z.lor_spec.
  - intros i _. apply Z.lxor_spec.
Qed.
Print Assumptions C120_operators.
(** the meaning determines the result: [means] pins each operator *)
Lemma trunc_unique x v q r q' r' : x <> 0%Z -> v = (x * q + r)%Z -> (Z.abs r < Z.abs x)%Z -> (0 <= r * v)%Z ->
  v = (x * q' + r')%Z -> (Z.abs r' < Z.abs x)%Z -> (0 <= r' * v)%Z -> q = q' /\ r = r'.
Proof.
  intros N E1 A1 S1 E2 A2 S2.
  destruct (Zquot_mod_unique_full v x q r) as [Q1 R1]; [apply Remainder_equiv; split; assumption|exact E1|].
  destruct (Zquot_mod_unique_full v x q' r') as [Q2 R2]; [apply Remainder_equiv; split; assumption|exact E2|].
  split; congruence.
Qed.
Theorem C120_determined : forall o x v a b, means o x v a -> means o x v b -> a = b.
Proof.
  intros o x v a b Ha Hb. inversion Ha; subst; inversion Hb; subst; try reflexivity; try lia; try congruence.
  - destruct (trunc_unique x (x * q + r) q r q0 r0) as [-> _]; auto.
  - destruct (trunc_unique x (x * q + r) q r q0 r0) as [_ ->]; auto.
  - assert (r = r0) as -> by (apply Z.bits_inj'; intros i Hi; match goal with A : forall i, _ -> Z.testbit r i = _, B : forall i, _ -> Z.testbit r0 i = _ |- _ => rewrite A, B by exact Hi; reflexivity end). reflexivity.
  - assert (r = r0) as -> by (apply Z.bits_inj'; intros i Hi; match goal with A : forall i, _ -> Z.testbit r i = _, B : forall i, _ -> Z.testbit r0 i = _ |- _ => rewrite A, B by exact Hi; reflexivity end). reflexivity.
  - assert (r = r0) as -> by (apply Z.bits_inj'; intros i Hi; match goal with A : forall i, _ -> Z.testbit r i = _, B : forall i, _ -> Z.testbit r0 i = _ |- _ => rewrite A, B by exact Hi; reflexivity end). reflexivity.
Qed.
Print Assumptions C120_determined.
Example C120_case : means "%=" 3 (-7) (Ok (-1, -1)%Z) /\ operator_class "%=" = Some Cmodequal /\
  cls_apply Cmodequal 3 (-7) = Ok (-1, -1)%Z.
Proof. split; [|split; reflexivity]. apply (m_mod 3 (-7) (-2) (-1)); lia. Qed.

(** min and max have no operator; the functions of that name leave the smaller, larger value *)
Theorem C120_min_max : forall x v,
  exists c d, member_class "min" = Some c /\ member_class "max" = Some d /\
    cls_apply c x v = Ok (Z.min v x, Z.min v x) /\ cls_apply d x v = Ok (Z.max v x, Z.max v x).
Proof.
  intros x v. exists Cminequal, Cmaxequal. split; [reflexivity|]. split; [reflexivity|]. cbn.
  split; f_equal; f_equal; destruct (Z.ltb_spec x v), (Z.ltb_spec v x); lia.
Qed.
Print Assumptions C120_min_max.
(** every member function has a free function of that name and they do the same; inc and dec are
    the prefix forms *)
Theorem C120_members : (forall m, In m members <-> find m function_class <> None) /\
  (forall m, In m members -> member_class m = find m function_class) /\
  member_class "inc" = operator_class "++x" /\ member_class "dec" = operator_class "--x".
Proof.
  split; [|split; [|split; reflexivity]].
  - intros m. split.
    + intros H. cbn in H. repeat (destruct H as [<-|H]; [discriminate|]). contradiction.
    + assert (G : forall (l : list (string * cls)), find m l <> None -> In m (map fst l)).
      { induction l as [|[k c] l IH]; cbn [find map fst]; [congruence|].
        destruct (String.eqb_spec k m) as [->|N]; [left; reflexivity|right; auto]. }
      exact (G function_class).
  - intros m H. cbn in H. repeat (destruct H as [<-|H]; [reflexivity|]). contradiction.
Qed.
Print Assumptions C120_members.
(** the scheme used is the variable's own unless the caller names another *)
Theorem C120_scheme : forall var s,
  get_scheme var None = var /\ member_scheme var None = var /\ operator_scheme var = var /\
  get_scheme var (Some s) = s /\ member_scheme var (Some s) = s.
Proof. intros var s. repeat split. Qed.
Print Assumptions C120_scheme.
(** without memory orders every operation exists under every scheme but cpp, which lacks exactly
    the seven that std::atomic does not have *)
Theorem C120_available : forall s c,
  available s c 0 = false <-> s = Tcpp /\ In c [Cmulequal; Cdivequal; Cmodequal; Clshiftequal; Crshiftequal; Cminequal; Cmaxequal].
Proof. intros s c. destruct s, c; cbn; split; try discriminate; intuition (try discriminate; try congruence). Qed.
Print Assumptions C120_available.
(** memory orders: one is accepted by the compare-and-swap schemes always and by cpp for the fetch
    operations only, two by the compare-and-swap schemes only *)
Theorem C120_orders_accepted : forall s c,
  (available s c 1 = true <-> In s [Tstrong; Tstrong_pun; Tweak; Tweak_pun] \/ (s = Tcpp /\ In c [Caddequal; Csubequal; Candequal; Corequal; Cxorequal])) /\
  (available s c 2 = true <-> In s [Tstrong; Tstrong_pun; Tweak; Tweak_pun]).
Proof. intros s c. destruct s, c; cbn; split; split; intuition (try discriminate; try congruence). Qed.
Print Assumptions C120_orders_accepted.
(** with no order or one order the compare-exchange is always well formed *)
Theorem C120_orders_ok : forall m, cas_call [] = Ok tt /\ cas_call [m] = Ok tt.
Proof. intros []; split; reflexivity. Qed.
Print Assumptions C120_orders_ok.
(** with two it is so exactly if the caller's orders satisfy the standard's precondition; nothing
    checks that: REFUTED for, say, (acq_rel, release) *)
Theorem C120_two_orders : forall s f, cas_call [s; f] = Ok tt <-> f <> Release /\ f <> AcqRel /\ (rank f <= rank s)%nat.
Proof. intros [] []; cbn; split; intuition (try discriminate; try congruence; try lia). Qed.
Print Assumptions C120_two_orders.
Theorem C120_two_orders_refuted : exists s f, cas_call [s; f] = UB.
Proof. exists AcqRel, Release. reflexivity. Qed.
Print Assumptions C120_two_orders_refuted.
