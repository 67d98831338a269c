(** General lemmas on lists used by several files. *)
From Coq Require Import List Arith Lia.
Import ListNotations.

Lemma firstn_len_app {A} (u v : list A) : firstn (length u) (u ++ v) = u.
Proof. rewrite firstn_app, Nat.sub_diag, firstn_O, app_nil_r. apply firstn_all. Qed.
Lemma skipn_len_app {A} (u v : list A) : skipn (length u) (u ++ v) = v.
Proof. rewrite skipn_app, Nat.sub_diag, skipn_O, skipn_all. reflexivity. Qed.
Lemma skipn_plus_app {A} (u v : list A) k : skipn (length u + k) (u ++ v) = skipn k v.
Proof.
  rewrite skipn_app, skipn_all2 by lia.
  replace (length u + k - length u) with k by lia. reflexivity.
Qed.
Lemma firstn_plus_app {A} (u v : list A) k : firstn (length u + k) (u ++ v) = u ++ firstn k v.
Proof.
  rewrite firstn_app, firstn_all2 by lia.
  replace (length u + k - length u) with k by lia. reflexivity.
Qed.
Lemma skipn_skipn {A} (a b : nat) (l : list A) : skipn a (skipn b l) = skipn (a + b) l.
Proof.
  revert l; induction b as [|b IH]; intros l.
  - rewrite Nat.add_0_r. reflexivity.
  - destruct l as [|x l]; [rewrite !skipn_nil; reflexivity|].
    rewrite Nat.add_succ_r. simpl. apply IH.
Qed.
Lemma split_at {A} (q : list A) p : p <= length q ->
  exists q1 q2, q = q1 ++ q2 /\ length q1 = p /\ firstn p q = q1 /\ skipn p q = q2.
Proof.
  intros H. exists (firstn p q), (skipn p q).
  rewrite firstn_skipn, firstn_length. repeat split. lia.
Qed.
Lemma nth_skipn {A} (l : list A) k i d : nth i (skipn k l) d = nth (k + i) l d.
Proof.
  revert l; induction k as [|k IH]; intros l; [reflexivity|].
  destruct l as [|x l]; simpl; [destruct i; reflexivity|apply IH].
Qed.
Lemma nth_firstn {A} (l : list A) k i d : i < k -> nth i (firstn k l) d = nth i l d.
Proof.
  revert l i; induction k as [|k IH]; intros l i H; [lia|].
  destruct l as [|x l]; [reflexivity|]. destruct i; simpl; [reflexivity|]. apply IH. lia.
Qed.
Lemma list_eq_nth {A} (l1 l2 : list A) d :
  length l1 = length l2 -> (forall i, i < length l1 -> nth i l1 d = nth i l2 d) -> l1 = l2.
Proof.
  revert l2; induction l1 as [|x l1 IH]; intros [|y l2] H Hn; try discriminate; [reflexivity|].
  f_equal.
  - apply (Hn 0). simpl; lia.
  - apply IH; [simpl in H; lia|]. intros i Hi. apply (Hn (S i)). simpl; lia.
Qed.
