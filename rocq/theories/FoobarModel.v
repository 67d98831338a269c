(** atomics/example/foobar.h 19-101: the user-defined classes foo (four unsigned chars) and bar (an int) that the examples
    all-operators.cc, all-member-functions.cc and all-global-functions.cc put into an atomic<foo,...>, and mineq and maxeq
    (atomics.h 997-1012) for them.  Stream output (108-119) is left out. *)
From Coq Require Import List ZArith Bool.
From Verif Require Import Outcome AtomicsModel AtomicsTypesModel AtomicsTestModel.
Import ListNotations.
Local Open Scope Z_scope.

Definition uchar : ity := mk_ity false W8.
(* 20-27 *)
Record foo := mk_foo { fa : Z; fb : Z; fc : Z; fd : Z }.
Definition foo_of (val : Z) : foo := mk_foo (wrap uchar val) (wrap uchar val) (wrap uchar val) (wrap uchar val).
(* the four members one after the other *)
Definition each (g : Z -> outcome Z) (f : foo) : outcome foo :=
  bind (g (fa f)) (fun a => bind (g (fb f)) (fun b => bind (g (fc f)) (fun c => bind (g (fd f)) (fun d => Ok (mk_foo a b c d))))).
(* 91-100: the operands are promoted to int *)
Definition total (f : foo) : Z := fa f + fb f + fc f + fd f.
Definition foo_less_bar (f : foo) (b : Z) : bool := total f <? b.
Definition bar_less_foo (b : Z) (f : foo) : bool := b <? total f.
(* 48-67, and mineq, maxeq with the conversion 36-39 *)
Definition foo_op (o : aop) (b : Z) (f : foo) : outcome foo :=
  match o with
  | Amin => Ok (if bar_less_foo b f then foo_of b else f)
  | Amax => Ok (if foo_less_bar f b then foo_of b else f)
  | _ => each (fun x => language uchar tint o x b) f
  end.
(* 76-79: all four return f itself, after the change; d is 1 or -1 *)
Definition foo_pre (d : Z) (f : foo) : outcome foo * outcome foo := let r := each (language_step uchar d) f in (r, r).
Definition foo_post (d : Z) (f : foo) : outcome foo * outcome foo := let r := each (language_step uchar d) f in (r, r).

(** as operations on an atomic variable; [outcome]: undefined once an operation was *)
Definition lift (f : foo -> outcome foo * outcome foo) (v : outcome foo) : outcome foo * outcome foo :=
  (bind v (fun x => fst (f x)), bind v (fun x => snd (f x))).
Definition atom_foo (s : scheme) (o : aop) (b : Z) : op (outcome foo) := mk_op s (lift (fun f => (foo_op o b f, foo_op o b f))).
Definition atom_foo_pre (s : scheme) (d : Z) : op (outcome foo) := mk_op s (lift (foo_pre d)).
Definition atom_foo_post (s : scheme) (d : Z) : op (outcome foo) := mk_op s (lift (foo_post d)).

(** the schemes strong::pun and weak::pun see the four bytes as one 32-bit integer (little endian) *)
Definition pun (f : foo) : Z := fa f + 2 ^ 8 * fb f + 2 ^ 16 * fc f + 2 ^ 24 * fd f.
