(** Model of the lifetimes of Lua states and references, and of function wrappers: embedded/embed_lua.h.
    C++ objects are numbered in the order of their construction; a destroyed object is [None].
    - An object that is a lua_base_t only (lua_t, the base of a lua_result_t) is [Base], a lua_ref_t is [Ref b] where b is
      the control block of its shared pointer; a moved-from object has null pointers.
    - luaL_ref is any choice of a key that is not in use; the reference to nil is the key None.
    - Threads are not modelled. *)
From Coq Require Import List Arith Bool.
From Verif Require Import Outcome.
Import ListNotations.

Fixpoint set_nth {A} (n : nat) (x : A) (l : list A) : list A :=
  match l, n with [], _ => [] | _ :: l', O => x :: l' | y :: l', S m => y :: set_nth m x l' end.

(** * References *)
Section Refs.
Context {V : Type}.                                     (* Lua values other than nil *)
Variable fresh : list (nat * V) -> nat.
Inductive obj := Base | Ref (b : nat) | Moved.
Record block := mk_block { b_key : option nat; b_uses : nat }.
Record world := mk_world {
  w_objs : list (option obj);
  w_blocks : list block;                                (* of the shared pointers to int *)
  w_uses : nat;                                         (* of the shared pointer to the state *)
  w_open : bool;
  w_reg : list (nat * V) }.
Fixpoint lookup (k : nat) (l : list (nat * V)) : option V :=
  match l with [] => None | (i, v) :: l' => if i =? k then Some v else lookup k l' end.
Definition delete_key (k : nat) (l : list (nat * V)) := filter (fun p => negb (fst p =? k)) l.
Definition with_objs (w : world) (l : list (option obj)) := mk_world l (w_blocks w) (w_uses w) (w_open w) (w_reg w).
Definition with_block (w : world) (b : nat) (x : block) := mk_world (w_objs w) (set_nth b x (w_blocks w)) (w_uses w) (w_open w) (w_reg w).
Definition with_reg (w : world) (l : list (nat * V)) := mk_world (w_objs w) (w_blocks w) (w_uses w) (w_open w) l.
(* 407-409: the state is closed with its last user *)
Definition retain_state (w : world) := mk_world (w_objs w) (w_blocks w) (S (w_uses w)) (w_open w) (w_reg w).
Definition release_state (w : world) : outcome world :=
  match w_uses w with
  | O => UB
  | S n => Ok (mk_world (w_objs w) (w_blocks w) n (if n =? 0 then false else w_open w) (w_reg w))
  end.
(* luaL_unref; nothing is done for the reference to nil *)
Definition unref (w : world) (k : option nat) : outcome world :=
  if negb (w_open w) then UB else
  match k with
  | None => Ok w
  | Some i => match lookup i (w_reg w) with Some _ => Ok (with_reg w (delete_key i (w_reg w))) | None => UB end
  end.
(* 513-520: the last user of a reference calls luaL_unref; the deleter has its own share of the state *)
Definition release_block (w : world) (b : nat) : outcome world :=
  match nth_error (w_blocks w) b with
  | Some x => match b_uses x with
      | O => UB
      | S O => bind (unref (with_block w b (mk_block (b_key x) 0)) (b_key x)) release_state
      | S n => Ok (with_block w b (mk_block (b_key x) n))
      end
  | None => UB
  end.
(* members are destroyed before the base *)
Definition release (w : world) (x : obj) : outcome world :=
  match x with Base => release_state w | Ref b => bind (release_block w b) release_state | Moved => Ok w end.
Definition retain (w : world) (x : obj) : outcome world :=
  match x with
  | Base => Ok (retain_state w)
  | Ref b => match nth_error (w_blocks w) b with
      | Some y => Ok (retain_state (with_block w b (mk_block (b_key y) (S (b_uses y))))) | None => UB end
  | Moved => Ok w
  end.
Inductive op := Copy (o : nat) | Move (o : nat) | Destroy (o : nat) | MakeRef (o : nat) (v : option V).
(* 507-527 and 546-550: make_lua_ref with the state of object o and v (or nil) on the stack *)
Definition make_ref (w : world) (v : option V) : outcome world :=
  if negb (w_open w) then UB else
  let k := match v with None => None | Some _ => Some (fresh (w_reg w)) end in
  let r := match v with None => w_reg w | Some x => (fresh (w_reg w), x) :: w_reg w end in
  Ok (mk_world (w_objs w ++ [Some (Ref (length (w_blocks w)))]) (w_blocks w ++ [mk_block k 1]) (S (S (w_uses w))) (w_open w) r).
Definition step (w : world) (p : op) : outcome world :=
  match p with
  | Copy o => match nth_error (w_objs w) o with
      | Some (Some x) => bind (retain w x) (fun w' => Ok (with_objs w' (w_objs w' ++ [Some x])))
      | _ => UB end
  | Move o => match nth_error (w_objs w) o with
      | Some (Some x) => Ok (with_objs w (set_nth o (Some Moved) (w_objs w) ++ [Some x]))
      | _ => UB end
  | Destroy o => match nth_error (w_objs w) o with
      | Some (Some x) => bind (release w x) (fun w' => Ok (with_objs w' (set_nth o None (w_objs w'))))
      | _ => UB end
  | MakeRef o v => match nth_error (w_objs w) o with
      | Some (Some Base) | Some (Some (Ref _)) => make_ref w v
      | _ => UB end
  end.
Definition run (w : world) (l : list op) : outcome world := fold_left (fun w p => bind w (fun w => step w p)) l (Ok w).
(* 405-409: one lua_t *)
Definition start : world := mk_world [Some Base] [] 1 true [].
(* 529-533 push; the result is the value pushed *)
Definition push (w : world) (o : nat) : outcome (option V) :=
  match nth_error (w_objs w) o with
  | Some (Some (Ref b)) => if negb (w_open w) then UB else
      match nth_error (w_blocks w) b with
      | Some x => Ok (match b_key x with None => None | Some k => lookup k (w_reg w) end)
      | None => UB end
  | _ => UB
  end.
(* 535-539 empty *)
Definition is_empty (w : world) (o : nat) : outcome bool :=
  match nth_error (w_objs w) o with
  | Some (Some (Ref b)) => match nth_error (w_blocks w) b with
      | Some x => Ok (match b_key x with None => true | Some _ => false end)
      | None => UB end
  | _ => UB
  end.
End Refs.

(** * Function wrappers, 929-951. Objects of type lua_result_t hold a function R. *)
Section Wrappers.
Context {R : Type}.
Record owner := mk_owner { o_res : nat; o_uses : nat }.          (* a shared pointer to a lua_result_t *)
Record wrapper := mk_wrapper { plua_func : nat; lua_func : nat }.   (* its control block; the object referred to *)
Record wworld := mk_ww { ww_res : list (option R); ww_owners : list owner; ww_wraps : list (option wrapper) }.
Inductive wop :=
| New (r : R)                   (* a lua_result_t object *)
| Kill (i : nat)                (* its destruction *)
| Assign (i : nat) (r : R)      (* assignment to it *)
| WrapUnique (i : nat)          (* wrapper from a unique_ptr to it *)
| WrapRef (i : nat)             (* wrapper from a reference to it *)
| CopyW (j : nat) | KillW (j : nat).
Definition alive (w : wworld) (i : nat) : option R := match nth_error (ww_res w) i with Some (Some r) => Some r | _ => None end.
Definition wstep (w : wworld) (p : wop) : outcome wworld :=
  match p with
  | New r => Ok (mk_ww (ww_res w ++ [Some r]) (ww_owners w) (ww_wraps w))
  | Kill i => match alive w i with Some _ => Ok (mk_ww (set_nth i None (ww_res w)) (ww_owners w) (ww_wraps w)) | None => UB end
  | Assign i r => match alive w i with Some _ => Ok (mk_ww (set_nth i (Some r) (ww_res w)) (ww_owners w) (ww_wraps w)) | None => UB end
  (* 938-941 *)
  | WrapUnique i => match alive w i with
      | Some _ => Ok (mk_ww (ww_res w) (ww_owners w ++ [mk_owner i 1]) (ww_wraps w ++ [Some (mk_wrapper (length (ww_owners w)) i)]))
      | None => UB end
  (* 944-947: a copy is made, but the reference is to the argument *)
  | WrapRef i => match alive w i with
      | Some r => Ok (mk_ww (ww_res w ++ [Some r]) (ww_owners w ++ [mk_owner (length (ww_res w)) 1])
                            (ww_wraps w ++ [Some (mk_wrapper (length (ww_owners w)) i)]))
      | None => UB end
  (* the copy constructor copies both members *)
  | CopyW j => match nth_error (ww_wraps w) j with
      | Some (Some x) => match nth_error (ww_owners w) (plua_func x) with
          | Some y => Ok (mk_ww (ww_res w) (set_nth (plua_func x) (mk_owner (o_res y) (S (o_uses y))) (ww_owners w)) (ww_wraps w ++ [Some x]))
          | None => UB end
      | _ => UB end
  | KillW j => match nth_error (ww_wraps w) j with
      | Some (Some x) => match nth_error (ww_owners w) (plua_func x) with
          | Some (mk_owner i (S O)) => match alive w i with
              | Some _ => Ok (mk_ww (set_nth i None (ww_res w)) (set_nth (plua_func x) (mk_owner i 0) (ww_owners w)) (set_nth j None (ww_wraps w)))
              | None => UB end
          | Some (mk_owner i (S n)) => Ok (mk_ww (ww_res w) (set_nth (plua_func x) (mk_owner i n) (ww_owners w)) (set_nth j None (ww_wraps w)))
          | _ => UB end
      | _ => UB end
  end.
Definition wrun (l : list wop) : outcome wworld := fold_left (fun w p => bind w (fun w => wstep w p)) l (Ok (mk_ww [] [] [])).
(* 931-935: the function that is called *)
Definition called (w : wworld) (j : nat) : outcome R :=
  match nth_error (ww_wraps w) j with
  | Some (Some x) => match alive w (lua_func x) with Some r => Ok r | None => UB end
  | _ => UB
  end.
End Wrappers.
