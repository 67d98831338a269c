(** Outcomes of a C++ call, shared by all models.
    [Ok]         normal return;
    [Throw]      a C++ exception leaves the call;
    [AssertFail] an [assert] fired (debug builds only);
    [UB]         undefined behaviour. *)
From Coq Require Import List.
Import ListNotations.

Inductive outcome (A : Type) : Type :=
| Ok (a : A)
| Throw
| AssertFail
| UB.
Arguments Ok {A} a.
Arguments Throw {A}.
Arguments AssertFail {A}.
Arguments UB {A}.

Definition bind {A B : Type} (x : outcome A) (k : A -> outcome B) : outcome B :=
  match x with
  | Ok a => k a
  | Throw => Throw
  | AssertFail => AssertFail
  | UB => UB
  end.

(** [assert(c); k]: [dbg] tells whether asserts are compiled in. *)
Definition assert_then {A : Type} (dbg : bool) (c : bool) (k : outcome A) : outcome A :=
  if andb dbg (negb c) then AssertFail else k.

Definition ok_value {A : Type} (x : outcome A) : option A :=
  match x with Ok a => Some a | _ => None end.

Lemma bind_ok {A B : Type} (a : A) (k : A -> outcome B) : bind (Ok a) k = k a.
Proof. reflexivity. Qed.
