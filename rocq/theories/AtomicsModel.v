(** Model of ristra/atomics/src/atomics.h, atomics-macro-class.h and
    atomics-macro-class-prepost.h: one atomic<T,SCHEME> variable shared by any number of threads.
    Interleaving (sequentially consistent) semantics; every access to the shared cell, every
    compare-exchange and every mutex operation is one step.
    Not modelled: weaker memory orders, diagnostic printing, which operations a scheme offers. *)
From Coq Require Import List Arith Bool ZArith.
Import ListNotations.

(** [T] is the value type, [B] the object representation held in the cell. A copy of a T keeps the
    value [dec] but not necessarily the representation (padding); compare-exchange compares
    representations. *)
Section Atomics.
Context {T B : Type}.
Variable dec : B -> T.

(** atomicity schemes. [Strong]: apply(strong) 545-602 and apply_pun(strong::pun) 621-681;
    [Weak]: apply(weak) 765-807 and apply_pun(weak::pun); [CppBin]: operator()(atom,cpp) of
    atomics-macro-class.h 22-39, and its kokkos version 50-73 and pre-increment of
    atomics-macro-class-prepost.h 49-75; [CppUn]: ++/-- of std::atomic, prepost 18-35;
    [KokkosPost]: kokkos post-increment, prepost 49-75; [Lock]: 948-957; [Serial]: 973-981. *)
Inductive scheme := Strong | Weak | CppBin | CppUn | KokkosPost | Lock | Serial.
(** [fn v] = (new value, returned value) of the function object's operator()(T&):
    atomics-macro-class.h 84-108, prepost 84-100 *)
Record op := mk_op { sch : scheme; fn : T -> T * T }.

Inductive pc :=
| PIdle                 (* between operations *)
| PStart                (* called, nothing shared touched yet *)
| PCas (old : B)        (* about to call compare_exchange(old, operation(old)) *)
| PCppRet               (* update done, about to read the value to return *)
| PKRead (x : T)        (* kokkos post: value read, about to update *)
| PHeld                 (* mutex acquired *)
| PRead (x : T)         (* mutex held, value read, about to write *)
| PWrote (r : T)        (* mutex held, value written *)
| PSRead (x : T)        (* serial: value read, about to write *)
| PRet (r : T).         (* about to return r *)
Record thread := mk_thread { tpc : pc; todo : list op }. (* the head of todo is the current op *)
Record config := mk_config { cell : B; mux : option nat; th : nat -> thread }.

Definition setth (f : nat -> thread) (t : nat) (x : thread) : nat -> thread :=
  fun u => if u =? t then x else f u.

Inductive event := EInv (t : nat) (o : op) | ERes (t : nat) (r : T).

(** one step of thread t, with the event it emits *)
Inductive step (t : nat) : config -> option event -> config -> Prop :=
| s_call c o r : th c t = mk_thread PIdle (o :: r) ->
    step t c (Some (EInv t o)) (mk_config (cell c) (mux c) (setth (th c) t (mk_thread PStart (o :: r))))
(* T old = T(atom) *)
| s_load c o r old : th c t = mk_thread PStart (o :: r) -> sch o = Strong \/ sch o = Weak ->
    dec old = dec (cell c) ->
    step t c None (mk_config (cell c) (mux c) (setth (th c) t (mk_thread (PCas old) (o :: r))))
(* neu = old; ret = operation(neu); compare_exchange succeeds *)
| s_cas_ok c o r old neu : th c t = mk_thread (PCas old) (o :: r) -> cell c = old ->
    dec neu = fst (fn o (dec old)) ->
    step t c None (mk_config neu (mux c) (setth (th c) t (mk_thread (PRet (snd (fn o (dec old)))) (o :: r))))
(* it fails: old <- atom; the weak form may fail spuriously *)
| s_cas_fail c o r old : th c t = mk_thread (PCas old) (o :: r) -> cell c <> old \/ sch o = Weak ->
    step t c None (mk_config (cell c) (mux c) (setth (th c) t (mk_thread (PCas (cell c)) (o :: r))))
(* atom.fetch_xxx(val) *)
| s_cpp_rmw c o r neu : th c t = mk_thread PStart (o :: r) -> sch o = CppBin ->
    dec neu = fst (fn o (dec (cell c))) ->
    step t c None (mk_config neu (mux c) (setth (th c) t (mk_thread PCppRet (o :: r))))
(* return T(atom) *)
| s_cpp_ret c o r : th c t = mk_thread PCppRet (o :: r) ->
    step t c None (mk_config (cell c) (mux c) (setth (th c) t (mk_thread (PRet (dec (cell c))) (o :: r))))
(* return ++atom, atom++, ... of std::atomic *)
| s_cpp_un c o r neu : th c t = mk_thread PStart (o :: r) -> sch o = CppUn ->
    dec neu = fst (fn o (dec (cell c))) ->
    step t c None (mk_config neu (mux c) (setth (th c) t (mk_thread (PRet (snd (fn o (dec (cell c))))) (o :: r))))
(* const T val = T(atom); Kokkos::atomic_increment(&atom.ref()); return val *)
| s_k_read c o r : th c t = mk_thread PStart (o :: r) -> sch o = KokkosPost ->
    step t c None (mk_config (cell c) (mux c) (setth (th c) t (mk_thread (PKRead (dec (cell c))) (o :: r))))
| s_k_rmw c o r x neu : th c t = mk_thread (PKRead x) (o :: r) ->
    dec neu = fst (fn o (dec (cell c))) ->
    step t c None (mk_config neu (mux c) (setth (th c) t (mk_thread (PRet x) (o :: r))))
(* lock_guard; operation(atom.ref()): read and write; unlock on return *)
| s_lock c o r : th c t = mk_thread PStart (o :: r) -> sch o = Lock -> mux c = None ->
    step t c None (mk_config (cell c) (Some t) (setth (th c) t (mk_thread PHeld (o :: r))))
| s_l_read c o r : th c t = mk_thread PHeld (o :: r) ->
    step t c None (mk_config (cell c) (mux c) (setth (th c) t (mk_thread (PRead (dec (cell c))) (o :: r))))
| s_l_write c o r x neu : th c t = mk_thread (PRead x) (o :: r) -> dec neu = fst (fn o x) ->
    step t c None (mk_config neu (mux c) (setth (th c) t (mk_thread (PWrote (snd (fn o x))) (o :: r))))
| s_unlock c o r v : th c t = mk_thread (PWrote v) (o :: r) ->
    step t c None (mk_config (cell c) None (setth (th c) t (mk_thread (PRet v) (o :: r))))
(* serial: operation(atom.ref()) *)
| s_s_read c o r : th c t = mk_thread PStart (o :: r) -> sch o = Serial ->
    step t c None (mk_config (cell c) (mux c) (setth (th c) t (mk_thread (PSRead (dec (cell c))) (o :: r))))
| s_s_write c o r x neu : th c t = mk_thread (PSRead x) (o :: r) -> dec neu = fst (fn o x) ->
    step t c None (mk_config neu (mux c) (setth (th c) t (mk_thread (PRet (snd (fn o x))) (o :: r))))
| s_return c o r v : th c t = mk_thread (PRet v) (o :: r) ->
    step t c (Some (ERes t v)) (mk_config (cell c) (mux c) (setth (th c) t (mk_thread PIdle r))).

(** [progs]: the operations of thread 0, 1, ... *)
Definition init (b0 : B) (progs : list (list op)) : config :=
  mk_config b0 None (fun t => mk_thread PIdle (nth t progs [])).
Definition add_event (h : list event) (e : option event) : list event :=
  match e with Some x => h ++ [x] | None => h end.
(** [run n c h c']: from c, n steps by any threads in any order lead to c', emitting history h *)
Inductive run (c0 : config) : nat -> list event -> config -> Prop :=
| run_nil : run c0 0 [] c0
| run_snoc n h c t e c' : run c0 n h c -> step t c e c' -> run c0 (S n) (add_event h e) c'.
End Atomics.
Arguments op : clear implicits.
Arguments event : clear implicits.
Arguments pc : clear implicits.
Arguments thread : clear implicits.
Arguments config : clear implicits.

(** * operations as function objects. [postinc] etc. for a type with successor [inc]. *)
Definition op_assign {T} (f : T -> T -> T) (x : T) : T -> T * T := fun v => (f v x, f v x).
Definition pre_op {T} (inc : T -> T) : T -> T * T := fun v => (inc v, inc v).
Definition post_op {T} (inc : T -> T) : T -> T * T := fun v => (inc v, v).
(** mineq 1001-1005, maxeq 1010-1014: if (b < a) a = b; return a *)
Definition mineq (a b : Z) : Z := if Z.ltb b a then b else a.
Definition maxeq (a b : Z) : Z := if Z.ltb a b then b else a.
