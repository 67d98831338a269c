(** Input sources again, with what InputModel.v leaves out: which exception leaves a function, the length of an item, direct
    access to tables, and who owns a source.  ristra/initialization/input_source.h 241-268, 271-303, 305-315, 318-334, 378-400;
    ristra/initialization/input_engine.h 186-231; ristra/embedded/embed_lua.h 633-651 and 847-867.
    - an exception is its dynamic type and what().  [throw x] with x of static type std::exception copies the base class: the
      new object is a std::exception whose what() is implementation defined; libstdc++ and libc++ give "std::exception".
    - a lua_result_t is the value it refers to and the length taken when it was made; its name is not modelled.  lua_rawlen is the length of a
      string or table (or userdata) and 0 for everything else; it is part of the value here.
    - RISTRA_ENABLE_EXCEPTIONS is on, as by default (CMakeLists.txt 35); without it the runtime errors are std::abort.
    - the Lua stack (LuaModel.v) and printing are not modelled. *)
From Coq Require Import List String Bool Arith.
From Verif Require Import Outcome.
Import ListNotations.
Open Scope string_scope.

(** ** exceptions *)
Inductive etype := Std_exception | Out_of_range | Runtime_error | Bad_alloc.
Record exn := mk_exn { x_type : etype; x_what : string }.
Inductive res (A : Type) := Val (a : A) | Raise (x : exn).
Arguments Val {A}.
Arguments Raise {A}.
Definition rbind {A B} (r : res A) (k : A -> res B) : res B := match r with Val a => k a | Raise x => Raise x end.
(* catch (std::exception & x) { ...; throw x; } : all four types derive from std::exception *)
Definition sliced (x : exn) : exn := mk_exn Std_exception "std::exception".
Definition catch_throw {A} (r : res A) : res A := match r with Val a => Val a | Raise x => Raise (sliced x) end.
(* catch (base & x), x unused by the thrower: does a handler for the type catch it *)
Definition derives (t base : etype) : bool :=
  match t, base with
  | _, Std_exception => true
  | Out_of_range, Out_of_range | Runtime_error, Runtime_error | Bad_alloc, Bad_alloc => true
  | _, _ => false
  end.

Definition key := string.
Definition kmap (A : Type) := key -> option A.
(* std::map::at *)
Definition at_ {A} (m : kmap A) (k : key) : res A := match m k with Some a => Val a | None => Raise (mk_exn Out_of_range "map::at") end.

(** ** Lua values *)
Inductive value (P : Type) := VNil | VTable (len : nat) (f : key -> value P) | VOther (len : nat) (p : P).
Arguments VNil {P}.
Arguments VTable {P}.
Arguments VOther {P}.
Definition rawlen {P} (v : value P) : nat := match v with VNil => 0 | VTable n _ => n | VOther n _ => n end.
Record result (P : Type) := mk_result { r_value : value P; r_size : nat }.
Arguments mk_result {P}.
Arguments r_value {P}.
Arguments r_size {P}.
(* embed_lua.h 724-729 *)
Definition empty {P} (r : result P) : bool := match r_value r with VNil => true | _ => false end.
(* 633-651 check_nil, check_table; 847-867 operator[].  assertions/errors.h 25-40: the message goes to std::cerr, the exception
   is an ExceptionRunTime (exceptions.h 25-29), derived from std::runtime_error *)
Definition index {P} (r : result P) (k : key) : res (result P) :=
  match r_value r with
  | VTable _ f => Val (mk_result (f k) (rawlen (f k)))
  | _ => Raise (mk_exn Runtime_error "general runtime error")
  end.

(** ** lua_source_t *)
Record source (P : Type) := mk_source { s_table_map : kmap key; s_tables : kmap (result P); s_keys : kmap key }.
Arguments mk_source {P}.
Arguments s_table_map {P}.
Arguments s_tables {P}.
Arguments s_keys {P}.
(* 243, 276, 321, 386: l_key *)
Definition lua_key {P} (s : source P) (k : key) : key := match s_keys s k with Some q => q | None => k end.
(* 241-268 get_size *)
Definition get_size {P} (s : source P) (k : key) : res nat :=
  catch_throw (rbind (at_ (s_table_map s) k) (fun from =>
    catch_throw (rbind (at_ (s_tables s) from) (fun t => rbind (index t (lua_key s k)) (fun v => Val (r_size v)))))).
(* 271-303 value_getter::get_value, with the conversion [as] of the type; None is "return false" *)
Definition get_value {P V} (as_ : result P -> res V) (s : source P) (k : key) : res (option V) :=
  catch_throw (rbind (at_ (s_table_map s) k) (fun from =>
    catch_throw (rbind (at_ (s_tables s) from) (fun t => rbind (index t (lua_key s k)) (fun v =>
      if empty v then Val None else rbind (as_ v) (fun x => Val (Some x))))))).
(* 378-400 the specialisation for lua_result_uptr_t: no handlers, a copy of the result *)
Definition get_uptr {P} (s : source P) (k : key) : res (option (result P)) :=
  rbind (at_ (s_table_map s) k) (fun from => rbind (at_ (s_tables s) from) (fun t => rbind (index t (lua_key s k)) (fun v =>
    if empty v then Val None else Val (Some v)))).
(* 305-315 get_table *)
Definition get_table {P} (s : source P) (name : key) : res (result P) := catch_throw (at_ (s_tables s) name).
(* 318-334 get_lua_result_raw *)
Definition get_lua_result_raw {P} (s : source P) (k : key) : res (bool * result P) :=
  rbind (at_ (s_table_map s) k) (fun from => rbind (at_ (s_tables s) from) (fun t => rbind (index t (lua_key s k)) (fun v => Val (negb (empty v), v)))).

(** ** who owns a source: input_engine.h 186-231.  One kind of source; the two kinds do not interact.
    An engine is a number; its member is a unique_ptr.  Pointers are numbers of allocated sources, None is null. *)
Record world := mk_world { w_next : nat; w_dead : nat -> bool; w_slot : nat -> option nat; w_gone : nat -> bool }.
Definition upd {A} (f : nat -> A) (i : nat) (x : A) : nat -> A := fun k => if Nat.eqb k i then x else f k.
Definition delete (w : world) (p : option nat) : outcome world :=
  match p with
  | None => Ok w
  | Some p => if Nat.ltb p (w_next w) && negb (w_dead w p) then Ok (mk_world (w_next w) (upd (w_dead w) p true) (w_slot w) (w_gone w)) else UB
  end.
Inductive op := New | Register (e : nat) (p : option nat) | Destroy (e : nat) | Get (e : nat).
Definition start : world := mk_world 0 (fun _ => false) (fun _ => None) (fun _ => false).
Definition step (require_on : bool) (o : op) (w : world) : outcome (world * option nat) :=
  match o with
  (* mk_lua(...).release(), new lua_source_t(...) *)
  | New => Ok (mk_world (S (w_next w)) (w_dead w) (w_slot w) (w_gone w), Some (w_next w))
  (* 191-204: unique_ptr::reset(p) stores p, then deletes the old pointer *)
  | Register e p => if w_gone w e then UB else
      bind (delete (mk_world (w_next w) (w_dead w) (upd (w_slot w) e p) (w_gone w)) (w_slot w e)) (fun w => Ok (w, None))
  (* 145: the destructor destroys the member *)
  | Destroy e => if w_gone w e then UB else
      bind (delete (mk_world (w_next w) (w_dead w) (upd (w_slot w) e None) (upd (w_gone w) e true)) (w_slot w e)) (fun w => Ok (w, None))
  (* 218-231 get_lua_source, get_hard_coded_source: Require, then *m_source; using the reference needs a live object *)
  | Get e => if w_gone w e then UB else
      match w_slot w e with
      | None => if require_on then Throw else UB
      | Some p => if Nat.ltb p (w_next w) && negb (w_dead w p) then Ok (w, Some p) else UB
      end
  end.
Fixpoint run (require_on : bool) (l : list op) (w : world) : outcome world :=
  match l with [] => Ok w | o :: l => bind (step require_on o w) (fun r => run require_on l (fst r)) end.
