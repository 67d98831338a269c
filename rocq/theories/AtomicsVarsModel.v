(** Model of ristra/atomics/src/atomics.h with any number of atomic variables, mutexes shared
    between variables of one type, and memory orders weaker than seq_cst.
    The steps of one operation are those of AtomicsModel, with three differences:
    - an operation names its variable; a thread works through operations on any variables;
    - the mutex of a variable is the singleton of its type atomic<T,SCHEME,NMUX> (1483-1497):
      [mx v] numbers the type of variable v, variables with the same number share the mutex;
    - the compare-and-swap loops of apply(strong), apply(weak) and their punned forms (545-681,
      765-886) take memory orders as arguments; with a weak order the initial read and the value a
      failed compare-exchange hands back need not be the latest ones: they are any value the
      variable has ever held. A successful compare-exchange always acts on the latest value of the
      modification order (C++ requires it of read-modify-write operations).
    Steps on one variable happen in its modification order. With weak orders there need be no single
    order of the steps on all variables; statements are therefore about one variable at a time.
    Not modelled: variables of different value types (take a sum), out-of-thin-air values. *)
From Coq Require Import List Arith Bool ZArith.
From Verif Require Import AtomicsModel.
Import ListNotations.

Section Vars.
Context {T B : Type}.
Variable dec : B -> T.
Variable mx : nat -> nat.

(** an operation on a variable *)
Definition vop := (nat * op T)%type.
Record vthread := mk_vthread { vpc : pc T B; vtodo : list vop }.
Record vconfig := mk_vconfig {
  vcell : nat -> B;              (* the latest value of each variable *)
  vold : nat -> list B;          (* the values it held before *)
  vmux : nat -> option nat;      (* who holds the mutex of each type *)
  vth : nat -> vthread }.
Inductive vevent := VInv (t v : nat) (o : op T) | VRes (t v : nat) (r : T).

Definition upd {A} (f : nat -> A) (k : nat) (x : A) : nat -> A := fun j => if j =? k then x else f j.
Definition goto (c : vconfig) (t : nat) (x : vthread) : vconfig :=
  mk_vconfig (vcell c) (vold c) (vmux c) (upd (vth c) t x).
Definition wr (c : vconfig) (v : nat) (b : B) : vconfig :=
  mk_vconfig (upd (vcell c) v b) (upd (vold c) v (vcell c v :: vold c v)) (vmux c) (vth c).
Definition setm (c : vconfig) (m : nat) (x : option nat) : vconfig :=
  mk_vconfig (vcell c) (vold c) (upd (vmux c) m x) (vth c).
(** a value the variable holds or has held *)
Definition has_held (c : vconfig) (v : nat) (b : B) : Prop := b = vcell c v \/ In b (vold c v).

(** one step of thread t; cf. AtomicsModel.step for the places in the source *)
Inductive vstep (t : nat) (c : vconfig) : option vevent -> vconfig -> Prop :=
| v_call v o r : vth c t = mk_vthread PIdle ((v, o) :: r) ->
    vstep t c (Some (VInv t v o)) (goto c t (mk_vthread PStart ((v, o) :: r)))
(* T old = T(atom), possibly a stale value *)
| v_load v o r x old : vth c t = mk_vthread PStart ((v, o) :: r) -> sch o = Strong \/ sch o = Weak ->
    has_held c v x -> dec old = dec x ->
    vstep t c None (goto c t (mk_vthread (PCas old) ((v, o) :: r)))
| v_cas_ok v o r old neu : vth c t = mk_vthread (PCas old) ((v, o) :: r) -> vcell c v = old ->
    dec neu = fst (fn o (dec old)) ->
    vstep t c None (goto (wr c v neu) t (mk_vthread (PRet (snd (fn o (dec old)))) ((v, o) :: r)))
(* the strong form fails only if the value it read differs; either way that value may be stale *)
| v_cas_fail v o r old x : vth c t = mk_vthread (PCas old) ((v, o) :: r) -> has_held c v x ->
    x <> old \/ sch o = Weak ->
    vstep t c None (goto c t (mk_vthread (PCas x) ((v, o) :: r)))
| v_cpp_rmw v o r neu : vth c t = mk_vthread PStart ((v, o) :: r) -> sch o = CppBin ->
    dec neu = fst (fn o (dec (vcell c v))) ->
    vstep t c None (goto (wr c v neu) t (mk_vthread PCppRet ((v, o) :: r)))
| v_cpp_ret v o r : vth c t = mk_vthread PCppRet ((v, o) :: r) ->
    vstep t c None (goto c t (mk_vthread (PRet (dec (vcell c v))) ((v, o) :: r)))
| v_cpp_un v o r neu : vth c t = mk_vthread PStart ((v, o) :: r) -> sch o = CppUn ->
    dec neu = fst (fn o (dec (vcell c v))) ->
    vstep t c None (goto (wr c v neu) t (mk_vthread (PRet (snd (fn o (dec (vcell c v))))) ((v, o) :: r)))
| v_k_read v o r : vth c t = mk_vthread PStart ((v, o) :: r) -> sch o = KokkosPost ->
    vstep t c None (goto c t (mk_vthread (PKRead (dec (vcell c v))) ((v, o) :: r)))
| v_k_rmw v o r x neu : vth c t = mk_vthread (PKRead x) ((v, o) :: r) ->
    dec neu = fst (fn o (dec (vcell c v))) ->
    vstep t c None (goto (wr c v neu) t (mk_vthread (PRet x) ((v, o) :: r)))
(* lock_guard<mutex> lock(ATOMIC::singleton_mutex::instance()) 948-957 *)
| v_lock v o r : vth c t = mk_vthread PStart ((v, o) :: r) -> sch o = Lock -> vmux c (mx v) = None ->
    vstep t c None (goto (setm c (mx v) (Some t)) t (mk_vthread PHeld ((v, o) :: r)))
| v_l_read v o r : vth c t = mk_vthread PHeld ((v, o) :: r) ->
    vstep t c None (goto c t (mk_vthread (PRead (dec (vcell c v))) ((v, o) :: r)))
| v_l_write v o r x neu : vth c t = mk_vthread (PRead x) ((v, o) :: r) -> dec neu = fst (fn o x) ->
    vstep t c None (goto (wr c v neu) t (mk_vthread (PWrote (snd (fn o x))) ((v, o) :: r)))
| v_unlock v o r y : vth c t = mk_vthread (PWrote y) ((v, o) :: r) ->
    vstep t c None (goto (setm c (mx v) None) t (mk_vthread (PRet y) ((v, o) :: r)))
| v_s_read v o r : vth c t = mk_vthread PStart ((v, o) :: r) -> sch o = Serial ->
    vstep t c None (goto c t (mk_vthread (PSRead (dec (vcell c v))) ((v, o) :: r)))
| v_s_write v o r x neu : vth c t = mk_vthread (PSRead x) ((v, o) :: r) -> dec neu = fst (fn o x) ->
    vstep t c None (goto (wr c v neu) t (mk_vthread (PRet (snd (fn o x))) ((v, o) :: r)))
| v_return v o r y : vth c t = mk_vthread (PRet y) ((v, o) :: r) ->
    vstep t c (Some (VRes t v y)) (goto c t (mk_vthread PIdle r)).

Definition vinit (b0 : nat -> B) (progs : list (list vop)) : vconfig :=
  mk_vconfig b0 (fun _ => []) (fun _ => None) (fun t => mk_vthread PIdle (nth t progs [])).
Definition vadd (h : list vevent) (e : option vevent) : list vevent :=
  match e with Some x => h ++ [x] | None => h end.
Inductive vrun (c0 : vconfig) : nat -> list vevent -> vconfig -> Prop :=
| vrun_nil : vrun c0 0 [] c0
| vrun_snoc n h c t e c' : vrun c0 n h c -> vstep t c e c' -> vrun c0 (S n) (vadd h e) c'.

(** the shared access a thread performs next: variable, whether through std::atomic (or Kokkos),
    whether it writes. The lock and serial schemes go through ref() (1543-1556), a plain reference. *)
Record access := mk_access { a_var : nat; a_atomic : bool; a_write : bool }.
Definition next_access (x : vthread) : option access :=
  match vtodo x with
  | [] => None
  | (v, o) :: _ =>
    match vpc x with
    | PStart => match sch o with
                | Strong | Weak | KokkosPost => Some (mk_access v true false)
                | CppBin | CppUn => Some (mk_access v true true)
                | Serial => Some (mk_access v false false)
                | Lock => None
                end
    | PCas _ | PKRead _ => Some (mk_access v true true)
    | PCppRet => Some (mk_access v true false)
    | PHeld => Some (mk_access v false false)
    | PRead _ | PSRead _ => Some (mk_access v false true)
    | _ => None
    end
  end.
(** two threads are about to access one variable, at least one of them writing and at least one of
    them not atomically: a data race, undefined behaviour *)
Definition racy (c : vconfig) : Prop :=
  exists t u a b, t <> u /\ next_access (vth c t) = Some a /\ next_access (vth c u) = Some b /\
    a_var a = a_var b /\ (a_write a = true \/ a_write b = true) /\ (a_atomic a = false \/ a_atomic b = false).
End Vars.
Arguments vop : clear implicits.
Arguments vthread : clear implicits.
Arguments vconfig : clear implicits.
Arguments vevent : clear implicits.

(** reading the variable, [T(x)] (1537-1538) or [os << x] (1770-1776): one atomic access which
    returns the value and leaves it *)
Definition read_op {T} : op T := mk_op CppUn (fun v => (v, v)).

(** * which integer type the punned schemes use: the five overloads of apply made by
    atomics_make_apply (688-713), enabled by the conditions of 723-750 (strong) and 894-921 (weak) *)
Record sizes := mk_sizes { s_schar : nat; s_short : nat; s_int : nat; s_long : nat; s_llong : nat }.
Inductive pun_type := PLongLong | PLong | PInt | PShort | PSChar.
Definition size_of (z : sizes) (p : pun_type) : nat :=
  match p with PLongLong => s_llong z | PLong => s_long z | PInt => s_int z | PShort => s_short z
             | PSChar => s_schar z end.
Definition enabled (z : sizes) (n : nat) (p : pun_type) : bool :=
  match p with
  | PLongLong => (n =? s_llong z) && negb (n =? s_long z)
  | PLong => (n =? s_long z) && negb (n =? s_int z)
  | PInt => (n =? s_int z) && negb (n =? s_short z)
  | PShort => (n =? s_short z) && negb (n =? s_schar z)
  | PSChar => n =? s_schar z
  end.
(** what the compiler does with a call: no viable overload, the one viable, or ambiguity *)
Inductive resolution := NoOverload | Picks (p : pun_type) | Ambiguous.
Definition pun_overload (z : sizes) (n : nat) : resolution :=
  match filter (enabled z n) [PLongLong; PLong; PInt; PShort; PSChar] with
  | [] => NoOverload
  | [p] => Picks p
  | _ => Ambiguous
  end.
