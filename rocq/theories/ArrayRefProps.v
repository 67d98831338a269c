(** Property theorems for ristra/utils/array_ref.h (C07). *)
From Coq Require Import List ZArith Bool Lia.
From Verif Require Import Outcome ListExtra ArrayRefModel ArrayRefProofs.
Import ListNotations.
Open Scope Z_scope.

(** C07. After any history from the full array the reference is the window computed on plain
    sequences; refused operations fail the assertion. *)
Theorem C07_window_history : forall (T : Type) (base : list T) (os : list aop),
  zlen base < size_mod -> Forall args_ok os ->
  match seq_run base os with
  | Some l => exists r, arun true (aref_full base) os = Ok r /\ window base r l
  | None => arun true (aref_full base) os = AssertFail
  end.
Proof.
  exact (fun T base os Hs HF => arun_sim base os (aref_full base) base (full_window base) Hs HF).
Qed.
Print Assumptions C07_window_history.

Example C07_case :
  Forall args_ok [APrefix 1; ASubstr 1 100; APopBack]
  /\ seq_run [1; 2; 3; 4; 5] [APrefix 1; ASubstr 1 100; APopBack] = Some [3; 4]
  /\ seq_run [1; 2] [APopBack; ASuffix 2] = None.
Proof.
  split; [|split].
  - repeat (apply Forall_cons; [simpl; unfold size_mod; lia|]). apply Forall_nil.
  - vm_compute. reflexivity.
  - vm_compute. reflexivity.
Qed.

(** at is exactly bounds-checked on the window. *)
Theorem C07_at : forall (T : Type) (base : list T) r l i,
  window base r l -> 0 <= i ->
  aat base r i = match nth_error l (Z.to_nat i) with Some v => Ok v | None => Throw end.
Proof. exact (fun T => @aat_window T). Qed.
Print Assumptions C07_at.

(** Conversion to a vector copies exactly the window. *)
Theorem C07_vec : forall (T : Type) (base : list T) r l, window base r l -> avec base r = Ok l.
Proof. exact (fun T => @avec_window T). Qed.
Print Assumptions C07_vec.

(** operator[], front() and back() read the window's elements. *)
Theorem C07_access : forall (T : Type) (base : list T) r l,
  window base r l -> zlen l < size_mod ->
  (forall i v, nth_error l i = Some v -> aindex base r (Z.of_nat i) = Ok v) /\
  (forall v t, l = v :: t -> afront base r = Ok v) /\
  (forall v t, l = t ++ [v] -> aback base r = Ok v).
Proof.
  intros T base r l W Hs.
  assert (IX : forall i v, nth_error l i = Some v -> aindex base r (Z.of_nat i) = Ok v).
  { intros i v E. pose proof (C07_at T base r l (Z.of_nat i) W (Nat2Z.is_nonneg i)) as A.
    rewrite Nat2Z.id, E in A. unfold aat in A. destruct (alen r <=? Z.of_nat i); [discriminate|exact A]. }
  split; [exact IX|]. split; [intros v t ->; apply (IX 0%nat); reflexivity|].
  intros v t ->. destruct W as [Ha _]. unfold aback. rewrite Ha. unfold zlen in *. rewrite app_length in *.
  cbn [length] in *. rewrite Z.mod_small by lia.
  replace (Z.of_nat (length t + 1) - 1) with (Z.of_nat (length t)) by lia. apply IX.
  rewrite nth_error_app2, Nat.sub_diag by lia. reflexivity.
Qed.
Print Assumptions C07_access.

Example C07_case_window : window [1; 2; 3] (mkref (Some 1) 2) [2; 3].
Proof. split; [reflexivity|]. right. exists [1], []. auto. Qed.

(** Without assertions remove_suffix(n) with n > size() makes a reference reaching outside the
    array: at() no longer throws. (Why the history theorem is about debug builds.) *)
Theorem C07_release_refuted : exists (base : list Z) r,
  arun false (aref_full base) [ASuffix 2] = Ok r /\ zlen base < alen r /\ aat base r 7 = UB.
Proof.
  exists [5], (mkref (Some 0) (size_mod - 1)). repeat split; vm_compute; reflexivity.
Qed.
Print Assumptions C07_release_refuted.
