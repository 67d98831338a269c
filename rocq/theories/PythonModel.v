(** Embedded Python: ristra/embedded/embed_python.h.
    - The interpreter is described by the contracts of its C interface in the CPython documentation: which functions return
      a new reference, which a borrowed one, which take over ("steal") one, and which set the error indicator.  What a
      module, attribute or call yields, and which allocations fail, is an arbitrary environment [env].
    - References are counted from the point of view of the C++ program: [held w i] is the number of references to object
      i that it has obtained minus those it has given up.  References inside the interpreter are not counted, nor is the
      destruction of objects modelled.  A negative number means that a reference of the interpreter has been released.
    - Python code runs without changing the objects that are passed; only the fact of the call is recorded.
    - the type of floating-point numbers is a parameter; C's long has 64 bits. *)
From Coq Require Import String List ZArith Bool Arith Lia.
Import ListNotations.
Open Scope Z_scope.

(** how a function ends *)
Inductive result (A : Type) := Ok (a : A) | Throw (message : string) | UB.
Arguments Ok {A} a. Arguments Throw {A} message. Arguments UB {A}.

Section Python.
Variable Flt : Type.
Inductive pyval :=
| VLong (z : Z) | VFloat (f : Flt) | VStr (s : string)
| VTuple (items : list (option nat)) | VList (items : list nat) | VOther (tag : nat).
Record world := mk_world {
  objs : list pyval;                           (* the objects, by number *)
  held : nat -> Z;                             (* see above *)
  private : nat -> bool;                       (* tuples nobody else knows *)
  err : bool;                                  (* PyErr_Occurred *)
  printed : nat;                               (* calls of PyErr_Print *)
  tick : nat;                                  (* allocations so far *)
  calls : list (nat * list (option pyval))     (* Python functions called and their arguments, newest first *)
}.
Record env := {
  e_alloc : nat -> bool;                       (* the n-th allocation succeeds *)
  e_decode : string -> bool;                   (* PyUnicode_DecodeFSDefault *)
  e_import : world -> string -> option (nat + pyval);     (* an existing or a new object *)
  e_attr : world -> nat -> string -> option (nat + pyval);
  e_callable : nat -> bool;
  e_call : world -> nat -> list (option pyval) -> option (nat + pyval);
  e_syspath : option nat;                      (* the list sys.path *)
  e_as_long : pyval -> option Z;               (* conversion of what is not an int; depends on the version *)
  e_as_double : pyval -> option Flt;           (* conversion of what is not a float *)
  e_run : string -> bool                       (* the script ends without an exception *)
}.
Variable e : env.
Variable minus_one : Flt.

(** computations of the C++ program: a new world even if an exception is thrown *)
Definition M (A : Type) := world -> world * result A.
Definition ret {A} (a : A) : M A := fun w => (w, Ok a).
Definition mbind {A B} (m : M A) (k : A -> M B) : M B := fun w =>
  let (w1, r) := m w in
  match r with Ok a => k a w1 | Throw s => (w1, Throw s) | UB => (w1, UB) end.
Definition throw {A} (s : string) : M A := fun w => (w, Throw s).

Definition bump (h : nat -> Z) (i : nat) (d : Z) : nat -> Z := fun j => if Nat.eqb j i then h j + d else h j.
Definition with_held w h := mk_world (objs w) h (private w) (err w) (printed w) (tick w) (calls w).
Definition set_err w b := mk_world (objs w) (held w) (private w) b (printed w) (tick w) (calls w).
Definition set_objs w o := mk_world o (held w) (private w) (err w) (printed w) (tick w) (calls w).
Definition hide w i b := mk_world (objs w) (held w) (fun j => if Nat.eqb j i then b else private w j) (err w) (printed w) (tick w) (calls w).
Definition obj (w : world) (i : nat) : option pyval := nth_error (objs w) i.
Fixpoint update {A} (l : list A) (i : nat) (a : A) : list A :=
  match l, i with [], _ => [] | _ :: r, O => a :: r | x :: r, S k => x :: update r k a end.

(** ** the C interface of Python *)
(* Py_DECREF *)
Definition decref (i : nat) : M unit := fun w => (with_held w (bump (held w) i (-1)), Ok tt).
(* a new object and a reference to it, or NULL and an error *)
Definition alloc (v : pyval) : M (option nat) := fun w =>
  let w := mk_world (objs w) (held w) (private w) (err w) (printed w) (S (tick w)) (calls w) in
  if e_alloc e (tick w) then
    let i := List.length (objs w) in (with_held (set_objs w (objs w ++ [v])) (bump (held w) i 1), Ok (Some i))
  else (set_err w true, Ok None).
(* an API function whose result is a new reference, or NULL and an error *)
Definition new_ref (r : option (nat + pyval)) : M (option nat) := fun w =>
  match r with
  | None => (set_err w true, Ok None)
  | Some (inl i) => (with_held w (bump (held w) i 1), Ok (Some i))
  | Some (inr v) => let i := List.length (objs w) in
      (with_held (set_objs w (objs w ++ [v])) (bump (held w) i 1), Ok (Some i))
  end.
(* PyUnicode_DecodeFSDefault *)
Definition decode (s : string) : M (option nat) :=
  if e_decode e s then alloc (VStr s) else fun w => (set_err w true, Ok None).
(* PyList_Insert(list, 0, item): the list takes a reference of its own; 0 or -1 and an error *)
Definition list_insert0 (l item : nat) : M bool := fun w =>
  let w1 := mk_world (objs w) (held w) (private w) (err w) (printed w) (S (tick w)) (calls w) in
  match obj w l with
  | Some (VList items) => if e_alloc e (tick w1) then (set_objs w1 (update (objs w1) l (VList (item :: items))), Ok true)
                          else (set_err w1 true, Ok false)
  | _ => (set_err w true, Ok false)
  end.
(* PySys_SetObject: the interpreter takes a reference of its own and drops the one it had *)
Definition sys_set_object (l : nat) : M bool := fun w =>
  let w := mk_world (objs w) (held w) (private w) (err w) (printed w) (S (tick w)) (calls w) in
  if e_alloc e (tick w) then (w, Ok true) else (set_err w true, Ok false).
(* PyTuple_New: all items NULL *)
Definition tuple_new (n : nat) : M (option nat) :=
  mbind (alloc (VTuple (repeat None n))) (fun r => match r with None => ret None
    | Some i => fun w => (hide w i true, Ok (Some i)) end).
(* PyTuple_GET_SIZE, a macro without a check *)
Definition tuple_size (t : nat) : M nat := fun w =>
  match obj w t with Some (VTuple items) => (w, Ok (List.length items)) | _ => (w, UB) end.
(* PyTuple_GetItem, with the index in range: borrowed, NULL if not set *)
Definition tuple_get (t i : nat) : M (option nat) := fun w =>
  match obj w t with Some (VTuple items) => (w, Ok (nth i items None)) | _ => (set_err w true, Ok None) end.
(* PyTuple_SetItem: takes over the reference to v in any case; fails if the tuple is shared *)
Definition tuple_set (t i v : nat) : M bool := fun w =>
  let w := with_held w (bump (held w) v (-1)) in
  match obj w t with
  | Some (VTuple items) =>
      if private w t && (held w t =? 1) && (i <? List.length items)%nat
      then (set_objs w (update (objs w) t (VTuple (update items i (Some v)))), Ok true)
      else (set_err w true, Ok false)
  | _ => (set_err w true, Ok false)
  end.
(* PyObject_CallObject *)
Definition args_of (w : world) (t : nat) : list (option pyval) :=
  match obj w t with
  | Some (VTuple items) => map (fun r => match r with Some i => obj w i | None => None end) items
  | _ => []
  end.
Definition call_object (f t : nat) : M (option nat) := fun w =>
  let a := args_of w t in
  let w := hide (mk_world (objs w) (held w) (private w) (err w) (printed w) (tick w) ((f, a) :: calls w)) t false in
  new_ref (e_call e w f a) w.

(** ** embed_python.h *)
(* 62-65 *)
Definition python_free (i : nat) : M unit := decref i.
(* 67-70 *)
Definition python_check : M unit := fun w =>
  (if err w then mk_world (objs w) (held w) (private w) false (S (printed w)) (tick w) (calls w) else w, Ok tt).
Definition fail {A} (s : string) : M A := mbind python_check (fun _ => throw s).
(* 102-105 PyRun_SimpleString prints and clears an exception and returns -1, which is ignored *)
Definition python_run_string (s : string) : M unit := fun w =>
  (if e_run e s then w else mk_world (objs w) (held w) (private w) (err w) (S (printed w)) (tick w) (calls w), Ok tt).
(* 107-125 *)
Definition python_import (name : string) : M nat :=
  mbind (decode name) (fun r => match r with
  | None => fail "Cannot decode module name"
  | Some pname => mbind (fun w => new_ref (e_import e w name) w) (fun r => match r with
    | None => fail "Cannot import module"
    | Some pmodule => mbind (decref pname) (fun _ => ret pmodule)
    end)
  end).
(* 127-154; PySys_GetObject returns a borrowed reference, or NULL without an error *)
Definition python_add_to_path (path : string) : M nat :=
  match e_syspath e with
  | None => fail "Cannot get system path."
  | Some syspath => mbind (decode path) (fun r => match r with
    | None => fail "Cannot decode path"
    | Some pname => mbind (list_insert0 syspath pname) (fun ok =>
        if negb ok then fail "Cannot insert path" else
        mbind (sys_set_object syspath) (fun ok =>
        if negb ok then fail "Cannot set new path." else
        mbind (decref pname) (fun _ => ret syspath)))
    end)
  end.
(* 156-164 *)
Definition python_get_attribute (m : nat) (a : string) : M nat :=
  mbind (fun w => new_ref (e_attr e w m a) w) (fun r => match r with None => fail "Cannot get attribute" | Some i => ret i end).
(* 166-169 PyLong_AsLong: -1 and an error if it fails *)
Definition in_long (z : Z) : bool := (- 2 ^ 63 <=? z) && (z <? 2 ^ 63).
Definition python_as_long (i : nat) : M Z := fun w =>
  match obj w i with
  | Some v => match (match v with VLong z => Some z | _ => e_as_long e v end) with
              | Some z => if in_long z then (w, Ok z) else (set_err w true, Ok (-1))
              | None => (set_err w true, Ok (-1)) end
  | None => (w, UB)
  end.
(* 171-174 PyFloat_AsDouble *)
Definition python_as_double (i : nat) : M Flt := fun w =>
  match obj w i with
  | Some v => match (match v with VFloat f => Some f | _ => e_as_double e v end) with
              | Some f => (w, Ok f) | None => (set_err w true, Ok minus_one) end
  | None => (w, UB)
  end.
(* 176-199; an int is converted to long first *)
Inductive arg := ALong (z : Z) | AInt (z : Z) | ADouble (f : Flt).
Definition value_of (a : arg) : pyval := match a with ALong z => VLong z | AInt z => VLong z | ADouble f => VFloat f end.
Definition python_get_value (a : arg) : M nat :=
  mbind (alloc (value_of a)) (fun r => match r with None => fail "Cannot set argument." | Some i => ret i end).
(* 201-214 *)
Definition python_get_tuple_element (t i : nat) : M nat :=
  mbind (tuple_size t) (fun n => if (n <=? i)%nat then fail "Index out of range" else
  mbind (tuple_get t i) (fun r => match r with None => fail "Problem getting item." | Some x => ret x end)).
(* 217-232 *)
Definition python_set_tuple_element (t i : nat) (a : arg) : M unit :=
  mbind (tuple_size t) (fun n => if (n <=? i)%nat then fail "Index out of range" else
  mbind (python_get_value a) (fun v =>
  mbind (tuple_set t i v) (fun ok => if negb ok then fail "Problem setting item." else ret tt))).
(* 237-255 detail::python_build_args *)
Fixpoint build_from (t i : nat) (a : arg) (rest : list arg) : M unit :=
  mbind (python_set_tuple_element t i a) (fun _ => match rest with [] => ret tt | b :: rest' => build_from t (S i) b rest' end).
(* 259-269; without arguments it does not compile, so there is a first one *)
Definition python_build_args (a : arg) (rest : list arg) : M nat :=
  mbind (tuple_new (S (List.length rest))) (fun r => match r with
  | None => fail "Cannot initialize arguments."
  | Some t => mbind (build_from t 0 a rest) (fun _ => ret t)
  end).
(* 271-289; the second test for a null pointer is never true *)
Definition python_call_function (f : nat) (a : arg) (rest : list arg) : M nat :=
  fun w => (if negb (e_callable e f) then fail "Function is not callable." else
  mbind (python_build_args a rest) (fun t =>
  mbind (call_object f t) (fun r => match r with
  | None => fail "Problem calling function."
  | Some v => mbind (decref t) (fun _ => ret v)
  end))) w.
End Python.

(** ** python_set_program_name 72-86
    Before Python 3.8 Py_SetProgramName keeps the pointer it is given; since then it makes a copy ([copies]).  In every
    branch of the preprocessor the string is gone when the function returns: either a local string object or explicitly
    freed. *)
Inductive storage := Live (s : string) | Gone | Default.
Definition python_set_program_name (copies decodable : bool) (name : string) (old : storage) : storage * result unit :=
  if negb decodable then (old, Throw "Cannot decode program") else (if copies then Live name else Gone, Ok tt).
Definition get_program_name (s : storage) : result string :=
  match s with Live n => Ok n | Default => Ok "python"%string | Gone => UB end.
