(** C54, C108-C110: reference nodes, traces on faces and polynomial completeness of the fixed-order elements
    (ristra/elements/elements.cc). *)
From Coq Require Import Reals List Arith Lia Lra Permutation.
From Verif Require Import Outcome VectorModel VectorProofs ElementsModel ElementsProofs.
Import ListNotations.
Open Scope R_scope.

(** ** C110 polynomials up to the order of the element are reproduced *)
Definition complete (n k cmax : nat) (ref : nat -> vec) (sh : vec -> vec -> vec) : Prop :=
  forall x junk a b c, (a + b + c <= k)%nat -> (c <= cmax)%nat ->
    sum n (fun i => ref i 0%nat ^ a * ref i 1%nat ^ b * ref i 2%nat ^ c * sh x junk i)
    = x 0%nat ^ a * x 1%nat ^ b * x 2%nat ^ c.
Ltac small a k tac := lazymatch k with
  | O => destruct a as [|a]; [tac | exfalso; lia]
  | S ?k' => destruct a as [|a]; [tac | small a k' tac] end.
Ltac prove_complete k :=
  intros x junk a b c H Hc; small a k ltac:(idtac; small b k ltac:(idtac; small c k ltac:(try (exfalso; lia); clear; elem; cbn [pow]; field))).
Lemma quad4_complete : complete 4 1 0 quad4_ref quad4_shape. Proof. prove_complete 1%nat. Qed.
Lemma quad8_complete : complete 8 2 0 quad8_ref quad8_shape. Proof. prove_complete 2%nat. Qed.
Lemma quad12_complete : complete 12 3 0 quad12_ref quad12_shape. Proof. prove_complete 3%nat. Qed.
Lemma hex8_complete : complete 8 1 1 hex8_ref hex8_shape. Proof. prove_complete 1%nat. Qed.
Lemma hex20_complete : complete 20 2 2 hex20_ref hex20_shape. Proof. prove_complete 2%nat. Qed.
Lemma hex32_complete : complete 32 3 3 hex32_ref hex32_shape. Proof. prove_complete 3%nat. Qed.
(** the linear elements also reproduce products of distinct coordinates *)
Definition multilinear (n D : nat) (ref : nat -> vec) (sh : vec -> vec -> vec) : Prop :=
  forall x junk a b c e, (a <= 1)%nat -> (b <= 1)%nat -> (c <= 1)%nat -> (e <= 1)%nat ->
    ((D <= 2)%nat -> c = 0%nat) -> ((D <= 3)%nat -> e = 0%nat) ->
    sum n (fun i => ref i 0%nat ^ a * ref i 1%nat ^ b * ref i 2%nat ^ c * ref i 3%nat ^ e * sh x junk i)
    = x 0%nat ^ a * x 1%nat ^ b * x 2%nat ^ c * x 3%nat ^ e.
Ltac prove_multilinear :=
  intros x junk a b c e Ha Hb Hc He HD HD';
  small a 1%nat ltac:(idtac; small b 1%nat ltac:(idtac; small c 1%nat ltac:(idtac; small e 1%nat ltac:(
    try (exfalso; lia); clear; elem; cbn [pow]; field)))).
Lemma quad4_multilinear : multilinear 4 2 quad4_ref quad4_shape. Proof. prove_multilinear. Qed.
Lemma hex8_multilinear : multilinear 8 3 hex8_ref hex8_shape. Proof. prove_multilinear. Qed.
Lemma tess16_multilinear : multilinear 16 4 tess16_ref (tess16_shape tess16_ref). Proof. prove_multilinear. Qed.

(** ** C109 on a face only the nodes of that face matter *)
Definition face_local (n D : nat) (ref : nat -> vec) (sh : vec -> vec -> vec) : Prop :=
  forall x junk i d, (i < n)%nat -> (d < D)%nat -> (x d = 1 \/ x d = -1) -> ref i d <> x d -> sh x junk i = 0.
Ltac prove_face :=
  intros x junk i d Hi Hd Hx N;
  cases_lt d Hd ltac:(idtac; cases_lt i Hi ltac:(
    destruct Hx as [E|E]; rewrite E in N; revert N; elem; intro N;
    first [rewrite E; field | exfalso; apply N; lra])).
Lemma quad4_face : face_local 4 2 quad4_ref quad4_shape. Proof. prove_face. Qed.
Lemma quad8_face : face_local 8 2 quad8_ref quad8_shape. Proof. prove_face. Qed.
Lemma quad12_face : face_local 12 2 quad12_ref quad12_shape. Proof. prove_face. Qed.
Lemma hex8_face : face_local 8 3 hex8_ref hex8_shape. Proof. prove_face. Qed.
Lemma hex20_face : face_local 20 3 hex20_ref hex20_shape. Proof. prove_face. Qed.
Lemma hex32_face : face_local 32 3 hex32_ref hex32_shape. Proof. prove_face. Qed.
Lemma tess16_face : face_local 16 4 tess16_ref (tess16_shape tess16_ref). Proof. prove_face. Qed.

(** ** mirror images: [mirror d i] is the node at the position of node i with coordinate d negated *)
Definition quad4_mirror (d i : nat) : nat := nth i (nth d [[1%nat; 0%nat; 3%nat; 2%nat]; [3%nat; 2%nat; 1%nat; 0%nat]] []) 0%nat.
Definition quad8_mirror (d i : nat) : nat := nth i (nth d [[1%nat; 0%nat; 3%nat; 2%nat; 4%nat; 7%nat; 6%nat; 5%nat]; [3%nat; 2%nat; 1%nat; 0%nat; 6%nat; 5%nat; 4%nat; 7%nat]] []) 0%nat.
Definition quad12_mirror (d i : nat) : nat := nth i (nth d [[1%nat; 0%nat; 3%nat; 2%nat; 5%nat; 4%nat; 7%nat; 6%nat; 9%nat; 8%nat; 11%nat; 10%nat]; [3%nat; 2%nat; 1%nat; 0%nat; 7%nat; 6%nat; 5%nat; 4%nat; 11%nat; 10%nat; 9%nat; 8%nat]] []) 0%nat.
Definition hex8_mirror (d i : nat) : nat := nth i (nth d [[1%nat; 0%nat; 3%nat; 2%nat; 5%nat; 4%nat; 7%nat; 6%nat]; [4%nat; 5%nat; 6%nat; 7%nat; 0%nat; 1%nat; 2%nat; 3%nat]; [3%nat; 2%nat; 1%nat; 0%nat; 7%nat; 6%nat; 5%nat; 4%nat]] []) 0%nat.
Definition hex20_mirror (d i : nat) : nat := nth i (nth d [[1%nat; 0%nat; 3%nat; 2%nat; 5%nat; 4%nat; 7%nat; 6%nat; 8%nat; 11%nat; 10%nat; 9%nat; 12%nat; 15%nat; 14%nat; 13%nat; 17%nat; 16%nat; 19%nat; 18%nat]; [4%nat; 5%nat; 6%nat; 7%nat; 0%nat; 1%nat; 2%nat; 3%nat; 12%nat; 13%nat; 14%nat; 15%nat; 8%nat; 9%nat; 10%nat; 11%nat; 16%nat; 17%nat; 18%nat; 19%nat]; [3%nat; 2%nat; 1%nat; 0%nat; 7%nat; 6%nat; 5%nat; 4%nat; 10%nat; 9%nat; 8%nat; 11%nat; 14%nat; 13%nat; 12%nat; 15%nat; 19%nat; 18%nat; 17%nat; 16%nat]] []) 0%nat.
Definition hex32_mirror (d i : nat) : nat := nth i (nth d [[1%nat; 0%nat; 3%nat; 2%nat; 5%nat; 4%nat; 7%nat; 6%nat; 9%nat; 8%nat; 11%nat; 10%nat; 13%nat; 12%nat; 15%nat; 14%nat; 17%nat; 16%nat; 19%nat; 18%nat; 21%nat; 20%nat; 23%nat; 22%nat; 25%nat; 24%nat; 27%nat; 26%nat; 29%nat; 28%nat; 31%nat; 30%nat]; [4%nat; 5%nat; 6%nat; 7%nat; 0%nat; 1%nat; 2%nat; 3%nat; 12%nat; 13%nat; 14%nat; 15%nat; 8%nat; 9%nat; 10%nat; 11%nat; 20%nat; 21%nat; 22%nat; 23%nat; 16%nat; 17%nat; 18%nat; 19%nat; 28%nat; 29%nat; 30%nat; 31%nat; 24%nat; 25%nat; 26%nat; 27%nat]; [3%nat; 2%nat; 1%nat; 0%nat; 7%nat; 6%nat; 5%nat; 4%nat; 11%nat; 10%nat; 9%nat; 8%nat; 15%nat; 14%nat; 13%nat; 12%nat; 19%nat; 18%nat; 17%nat; 16%nat; 23%nat; 22%nat; 21%nat; 20%nat; 27%nat; 26%nat; 25%nat; 24%nat; 31%nat; 30%nat; 29%nat; 28%nat]] []) 0%nat.
Definition tess16_mirror (d i : nat) : nat := nth i (nth d [[1%nat; 0%nat; 3%nat; 2%nat; 5%nat; 4%nat; 7%nat; 6%nat; 9%nat; 8%nat; 11%nat; 10%nat; 13%nat; 12%nat; 15%nat; 14%nat]; [4%nat; 5%nat; 6%nat; 7%nat; 0%nat; 1%nat; 2%nat; 3%nat; 12%nat; 13%nat; 14%nat; 15%nat; 8%nat; 9%nat; 10%nat; 11%nat]; [3%nat; 2%nat; 1%nat; 0%nat; 7%nat; 6%nat; 5%nat; 4%nat; 11%nat; 10%nat; 9%nat; 8%nat; 15%nat; 14%nat; 13%nat; 12%nat]; [8%nat; 9%nat; 10%nat; 11%nat; 12%nat; 13%nat; 14%nat; 15%nat; 0%nat; 1%nat; 2%nat; 3%nat; 4%nat; 5%nat; 6%nat; 7%nat]] []) 0%nat.

Definition mirrored (n D : nat) (ref : nat -> vec) (sh : vec -> vec -> vec) (mirror : nat -> nat -> nat) : Prop :=
  forall x junk d i, (d < D)%nat -> (i < n)%nat ->
    (mirror d i < n)%nat /\ mirror d (mirror d i) = i /\
    (forall e, (e < D)%nat -> ref (mirror d i) e = if Nat.eqb e d then - ref i e else ref i e) /\
    sh (set x d (- x d)) junk (mirror d i) = sh x junk i.
Ltac elem_m := cbv [nth quad4_mirror quad8_mirror quad12_mirror hex8_mirror hex20_mirror hex32_mirror tess16_mirror].
Ltac prove_mirrored :=
  intros x junk d i Hd Hi;
  cases_lt d Hd ltac:(idtac; cases_lt i Hi ltac:(idtac; elem_m; split; [lia|split; [reflexivity|split;
    [let e := fresh in let He := fresh in intros e He; cases_lt e He ltac:(elem; field) | elem; field]]])).
Lemma quad4_mirrored : mirrored 4 2 quad4_ref quad4_shape quad4_mirror. Proof. prove_mirrored. Qed.
Lemma quad8_mirrored : mirrored 8 2 quad8_ref quad8_shape quad8_mirror. Proof. prove_mirrored. Qed.
Lemma quad12_mirrored : mirrored 12 2 quad12_ref quad12_shape quad12_mirror. Proof. prove_mirrored. Qed.
Lemma hex8_mirrored : mirrored 8 3 hex8_ref hex8_shape hex8_mirror. Proof. prove_mirrored. Qed.
Lemma hex20_mirrored : mirrored 20 3 hex20_ref hex20_shape hex20_mirror. Proof. prove_mirrored. Qed.
Lemma hex32_mirrored : mirrored 32 3 hex32_ref hex32_shape hex32_mirror. Proof. prove_mirrored. Qed.
Lemma tess16_mirrored : mirrored 16 4 tess16_ref (tess16_shape tess16_ref) tess16_mirror. Proof. prove_mirrored. Qed.

(** sums over all nodes do not depend on the order of the nodes *)

Lemma sum_list n f : sum n f = fold_right Rplus 0 (map f (seq 0 n)).
Proof.
  assert (A : forall l r, fold_right Rplus r l = fold_right Rplus 0 l + r) by (induction l; cbn; intro r; [|rewrite IHl]; ring).
  induction n; [reflexivity|]. rewrite seq_S, map_app, fold_right_app, A. cbn [map fold_right]. rewrite <- IHn.
  cbn [sum Nat.add]. ring.
Qed.
Lemma fold_perm l l' : Permutation l l' -> fold_right Rplus 0 l = fold_right Rplus 0 l'.
Proof. induction 1; cbn; [reflexivity|congruence|ring|congruence]. Qed.
Lemma sum_involution n f s : (forall i, (i < n)%nat -> (s i < n)%nat /\ s (s i) = i) -> sum n f = sum n (fun i => f (s i)).
Proof.
  intro H. rewrite !sum_list, <- (map_map s f). apply fold_perm, Permutation_map, NoDup_Permutation_bis.
  - apply seq_NoDup.
  - rewrite map_length. reflexivity.
  - intros i Hi. apply in_seq in Hi. destruct (H i) as [a b]; [lia|]. apply in_map_iff. exists (s i). split; [exact b|].
    apply in_seq. lia.
Qed.
(** two elements that meet in a face: coordinate d is 1 in one and -1 in the other, the nodes of the face are
    shared; both map the points of the face to the same place *)
Section Join.
  Variables (n D : nat) (ref : nat -> vec) (sh : vec -> vec -> vec) (mirror : nat -> nat -> nat)
    (pos : vec -> vec -> (nat -> vec) -> vec -> vec).
  Hypothesis P : forall xp x vertices junk d, (d < D)%nat ->
    pos xp x vertices junk d = sum n (fun v => vertices v d * sh x junk v).
  Hypothesis L : face_local n D ref sh.
  Hypothesis M : mirrored n D ref sh mirror.
  Hypothesis J : forall x junk junk' i, (i < n)%nat -> sh x junk i = sh x junk' i.
  Lemma trace_gen xp xp' x (V V' : nat -> vec) junk junk' d k : (d < D)%nat -> (k < D)%nat -> (x d = 1 \/ x d = -1) ->
    (forall i, (i < n)%nat -> ref i d = x d -> V i k = V' i k) -> pos xp x V junk k = pos xp' x V' junk' k.
  Proof using P L J.
    intros Hd Hk Hx A. rewrite !P by assumption. apply sum_ext. intros i Hi.
    destruct (Req_dec (ref i d) (x d)) as [E|E].
    - rewrite (A i Hi E), (J x junk junk') by assumption. reflexivity.
    - rewrite !(L x _ i d) by assumption. ring.
  Qed.
  Lemma join_gen xp xp' x (V V' : nat -> vec) junk junk' d k : (d < D)%nat -> (k < D)%nat -> x d = 1 ->
    (forall i j, (i < n)%nat -> (j < n)%nat -> ref i d = 1 -> ref j d = -1 ->
       (forall e, (e < D)%nat -> e <> d -> ref i e = ref j e) -> V i k = V' j k) ->
    pos xp x V junk k = pos xp' (set x d (-1)) V' junk' k.
  Proof using P L M J.
    intros Hd Hk Hx A. rewrite !P by assumption.
    rewrite (sum_involution n (fun v => V' v k * sh (set x d (-1)) junk' v) (mirror d))
      by (intros i Hi; destruct (M x junk d i Hd Hi) as (a & b & _); split; assumption).
    apply sum_ext. intros i Hi. destruct (M x junk d i Hd Hi) as (a & b & c & e). cbv beta.
    replace (sh (set x d (-1)) junk' (mirror d i)) with (sh x junk i).
    2: { rewrite <- e, Hx. apply J, a. }
    destruct (Req_dec (ref i d) 1) as [E|E].
    - rewrite (A i (mirror d i)); [reflexivity|assumption|assumption|assumption| |].
      + rewrite c by assumption. rewrite Nat.eqb_refl, E. reflexivity.
      + intros f Hf N. rewrite c by assumption. destruct (Nat.eqb_spec f d); [contradiction|reflexivity].
    - rewrite (L x junk i d); [ring|assumption|assumption|left; assumption|congruence].
  Qed.
End Join.
