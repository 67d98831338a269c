(** Lua interface: ristra/embedded/embed_lua.h, on a model of the Lua 5.3 C API.
    - The Lua stack of the current C frame is a list of values, top first, together with the number of slots the frame may
      use (20 in a new state, raised by lua_checkstack).  Pushing beyond that, using an index that is not on the stack
      and raw access to something that is no table are API misuse: outcome UB.
    - luaL_ref stores the value under a fresh key of the registry.  References are released only when the last C++
      object using them dies, so a live reference never changes; releasing is modelled in LuaRefModel.v.
    - Tables, globals and the effect of running Lua code are an arbitrary interpretation [lua W F] of a world W; F is
      lua_Number.  Lua code called from C++ runs in its own frame and does not touch the caller's stack.
    - Texts and names are modelled in LuaTextModel.v; memory errors are not modelled.  A C++ exception leaves the stack
      as it is at the throw.  THROW_RUNTIME_ERROR throws (see DbcModel.v for the build without exceptions). *)
From Coq Require Import String Ascii List Bool Arith ZArith.
From Verif Require Import Outcome.
Import ListNotations.

Inductive val (F : Type) : Type :=
| VNil | VBool (b : bool) | VInt (z : Z) | VFlt (x : F) | VStr (s : string) | VTab (t : nat) | VFun (f : nat).
Arguments VNil {F}.
Arguments VBool {F}.
Arguments VInt {F}.
Arguments VFlt {F}.
Arguments VStr {F}.
Arguments VTab {F}.
Arguments VFun {F}.
(* what the Lua library provides *)
Record lua (W F : Type) := mk_lua_api {
  int_to_f : Z -> F;
  f_to_int : F -> option Z;                         (* exact integers in range only *)
  str_num : string -> option (Z + F);               (* strings convertible to numbers *)
  num_str : Z + F -> string;
  t_len : W -> nat -> nat;                          (* lua_rawlen of a table *)
  t_geti : W -> nat -> Z -> val F;
  t_gets : W -> nat -> string -> val F;
  global : W -> string -> val F;
  call : W -> nat -> list (val F) -> W * (list (val F) + val F);      (* results, or the error value *)
  chunk : W -> string -> W * (list (val F) + val F);                  (* compile and run source text *)
  max_stack : nat }.
Arguments int_to_f {W F}.
Arguments f_to_int {W F}.
Arguments str_num {W F}.
Arguments num_str {W F}.
Arguments t_len {W F}.
Arguments t_geti {W F}.
Arguments t_gets {W F}.
Arguments global {W F}.
Arguments call {W F}.
Arguments chunk {W F}.
Arguments max_stack {W F}.
Record st (W F : Type) := mk_st { stk : list (val F); cap : nat; refs : list (val F); world : W }.
Arguments mk_st {W F}.
Arguments stk {W F}.
Arguments cap {W F}.
Arguments refs {W F}.
Arguments world {W F}.

(** ** commands *)
Definition M (W F A : Type) := st W F -> st W F * outcome A.
Definition ret {W F A} (a : A) : M W F A := fun s => (s, Ok a).
Definition fail {W F A} (o : outcome A) : M W F A := fun s => (s, o).
Definition bnd {W F A B} (m : M W F A) (k : A -> M W F B) : M W F B := fun s =>
  match m s with (s', Ok a) => k a s' | (s', Throw) => (s', Throw) | (s', AssertFail) => (s', AssertFail) | (s', UB) => (s', UB) end.
Declare Scope lua_scope.
Delimit Scope lua_scope with lua.
Notation "'do' x <- m ; k" := (bnd m (fun x => k)) (at level 200, x name, m at level 100, k at level 200) : lua_scope.
Notation "m ;; k" := (bnd m (fun _ => k)) (at level 100, right associativity) : lua_scope.
Open Scope lua_scope.

Section Api.
Context {W F : Type} (L : lua W F).
Notation val := (val F).
Notation M := (M W F).
Definition with_stk (s : st W F) (l : list val) : st W F := mk_st l (cap s) (refs s) (world s).
(** *** the C API *)
Definition push (v : val) : M unit := fun s =>
  if length (stk s) <? cap s then (with_stk s (v :: stk s), Ok tt) else (s, UB).
Definition gettop : M nat := fun s => (s, Ok (length (stk s))).
Definition checkstack (n : nat) : M bool := fun s =>
  if length (stk s) + n <=? max_stack L then (mk_st (stk s) (Nat.max (cap s) (length (stk s) + n)) (refs s) (world s), Ok true)
  else (s, Ok false).
(* acceptable indices: positive from the bottom, negative from the top; the depth is counted from the top *)
Definition depth (s : st W F) (i : Z) : option nat :=
  let n := Z.of_nat (length (stk s)) in
  if (0 <? i)%Z then (if (i <=? n)%Z then Some (Z.to_nat (n - i)) else None)
  else if (i <? 0)%Z then (if (- i <=? n)%Z then Some (Z.to_nat (- i - 1)) else None) else None.
Definition at_ (i : Z) : M val := fun s =>
  match depth s i with Some d => match nth_error (stk s) d with Some v => (s, Ok v) | None => (s, UB) end | None => (s, UB) end.
Definition remove (i : Z) : M unit := fun s =>
  match depth s i with Some d => (with_stk s (firstn d (stk s) ++ skipn (S d) (stk s)), Ok tt) | None => (s, UB) end.
(* settop(n) for n not above the top *)
Definition settop (n : nat) : M unit := fun s => (with_stk s (skipn (length (stk s) - n) (stk s)), Ok tt).
(* lua_pop(L,n) is lua_settop(L,-(n)-1): for n = -1 that is lua_settop(L,0) *)
Definition pop_minus_one : M unit := settop 0.
Definition rawlen (v : val) : M nat := fun s =>
  (s, Ok (match v with VTab t => t_len L (world s) t | VStr x => String.length x | _ => 0 end)).
Definition rawgeti (i n : Z) : M unit :=
  do t <- at_ i; match t with VTab a => (fun s => push (t_geti L (world s) a n) s) | _ => fail UB end.
(* lua_rawget(s,-2) with a string key on top: replaces the key *)
Definition rawget_string (key : string) : M unit :=
  do t <- at_ (-2); match t with VTab a => remove (-1) ;; (fun s => push (t_gets L (world s) a key) s) | _ => fail UB end.
Definition is_number (v : val) : bool :=
  match v with VInt _ | VFlt _ => true | VStr x => match str_num L x with Some _ => true | None => false end | _ => false end.
Definition num_of (v : val) : option (Z + F) :=
  match v with VInt z => Some (inl z) | VFlt x => Some (inr x) | VStr x => str_num L x | _ => None end.
(* lua_tointeger: 0 when the number is no integer; lua_tonumber *)
Definition to_integer (v : val) : Z :=
  match num_of v with Some (inl z) => z | Some (inr x) => match f_to_int L x with Some z => z | None => 0 end | None => 0 end%Z.
Definition to_number (v : val) : F :=
  match num_of v with Some (inl z) => int_to_f L z | Some (inr x) => x | None => int_to_f L 0 end.
Definition is_string (v : val) : bool := match v with VStr _ | VInt _ | VFlt _ => true | _ => false end.
Definition to_lstring (v : val) : string :=
  match v with VStr x => x | VInt z => num_str L (inl z) | VFlt x => num_str L (inr x) | _ => EmptyString end.
(* a std::string made from a const char pointer ends at the first NUL *)
Fixpoint cstr (x : string) : string :=
  match x with EmptyString => EmptyString | String c x' => if Ascii.eqb c zero then EmptyString else String c (cstr x') end.

(** *** 70-285 lua_value<T>::get(s, index) *)
(* 77-97 integral types; [wrap] is the conversion of a lua_Integer to T *)
Definition get_int (wrap : Z -> Z) (i : Z) : M Z :=
  do v <- at_ i; if is_number v then remove i ;; ret (wrap (to_integer v)) else fail Throw.
(* 99-119 floating point; [narrow] converts a lua_Number to T *)
Definition get_flt {A} (narrow : F -> A) (i : Z) : M A :=
  do v <- at_ i; if is_number v then remove i ;; ret (narrow (to_number v)) else fail Throw.
(* 121-140 *)
Definition get_bool (i : Z) : M bool :=
  do v <- at_ i; match v with VBool b => remove i ;; ret b | _ => fail Throw end.
(* 142-161 *)
Definition get_string (i : Z) : M string :=
  do v <- at_ i; if is_string v then remove i ;; ret (cstr (to_lstring v)) else fail Throw.
(* the loop of 187-190 and 226-229: elements i+1 .. i+n of the table on top *)
Fixpoint get_elems {A} (g : M A) (i : Z) (n : nat) : M (list A) :=
  match n with
  | O => ret []
  | S m => rawgeti (-1) (i + 1) ;; do a <- g; do l <- get_elems g (i + 1) m; ret (a :: l)
  end.
(* 163-197 vectors; the length is taken of the value on top, whatever the index *)
Definition get_vector {A} (g : M A) (i : Z) : M (list A) :=
  do v <- at_ i; match v with VTab _ =>
    do w <- at_ (-1); do n <- rawlen w; do l <- get_elems g 0 n; remove i ;; ret l
  | _ => fail Throw end.
(* 199-237 arrays of N elements *)
Definition get_array {A} (N : nat) (g : M A) (i : Z) : M (list A) :=
  do v <- at_ i; match v with VTab _ =>
    do w <- at_ (-1); do n <- rawlen w; if n =? N then do l <- get_elems g 0 n; remove i ;; ret l else fail Throw
  | _ => fail Throw end.
(* 241-285 matrices: a row is fetched, its first N entries are read, the row is removed *)
Fixpoint get_rows {A} (N : nat) (g : M A) (i : Z) (n : nat) : M (list (list A)) :=
  match n with
  | O => ret []
  | S m => rawgeti (-1) (i + 1) ;; do a <- get_elems g 0 N; remove (-1) ;; do l <- get_rows N g (i + 1) m; ret (a :: l)
  end.
Definition get_matrix {A} (Mm N : nat) (g : M A) (i : Z) : M (list (list A)) :=
  do v <- at_ i; match v with VTab _ =>
    do w <- at_ (-1); do n <- rawlen w; if n =? Mm then do l <- get_rows N g 0 Mm; remove i ;; ret l else fail Throw
  | _ => fail Throw end.

(** *** 287-388 lua_push *)
Inductive arg :=
| AInt (z : Z)            (* int, size_t, long long: lua_pushinteger converts to a 64-bit integer *)
| ANum (x : F)            (* float (after widening) and double *)
| ABool (b : bool)
| ACstr (x : string)      (* const char pointer: up to the first NUL *)
| AStr (x : string)       (* std::string *)
| AArr (l : list F).      (* Array<double,N> *)
Definition wrap64 (z : Z) : Z := ((z + 2 ^ 63) mod 2 ^ 64 - 2 ^ 63)%Z.
Fixpoint push_each (l : list val) : M unit := match l with [] => ret tt | v :: l' => push v ;; push_each l' end.
Definition lua_push (a : arg) : M nat :=
  match a with
  | AInt z => push (VInt (wrap64 z)) ;; ret 1
  | ANum x => push (VFlt x) ;; ret 1
  | ABool b => push (VBool b) ;; ret 1
  | ACstr x => push (VStr (cstr x)) ;; ret 1
  | AStr x => push (VStr x) ;; ret 1
  | AArr l => do ok <- checkstack (length l - 1); if ok then push_each (map VFlt l) ;; ret (length l) else fail Throw
  end.

(** *** 467-530 lua_ref_t, make_lua_ref: the reference and the recorded type (that of the value below, if any) *)
Record lref := mk_ref { r_key : option nat; r_type : option val }.
Definition make_ref : M lref := fun s =>
  match stk s with
  | [] => (s, UB)
  | v :: l => let below := match l with [] => None | w :: _ => Some w end in
      match v with
      | VNil => (with_stk s l, Ok (mk_ref None below))                                   (* LUA_REFNIL *)
      | _ => (mk_st l (cap s) (refs s ++ [v]) (world s), Ok (mk_ref (Some (length (refs s))) below))
      end
  end.
Definition push_ref (r : lref) : M unit := fun s =>
  push (match r_key r with None => VNil | Some k => nth k (refs s) VNil end) s.
Definition ref_empty (r : lref) : bool := match r_key r with None => true | Some _ => false end.

(** *** 544-891 lua_result_t *)
Record result := mk_res { res_refs : list lref; res_size : nat }.
(* 620-631 *)
Definition check_stack (n : nat) : M unit := do ok <- checkstack n; if ok then ret tt else fail Throw.
(* 635-672 check_nil, check_table, check_result, check_function *)
Definition check_nil : M unit := do v <- at_ (-1); match v with VNil => fail Throw | _ => ret tt end.
Definition check_table : M unit := check_nil ;; do v <- at_ (-1); match v with VTab _ => ret tt | _ => fail Throw end.
Definition check_result : M unit := do v <- at_ (-1); match v with VNil => fail Throw | _ => ret tt end.
Definition check_function : M unit := check_nil ;; do v <- at_ (-1); match v with VFun _ => ret tt | _ => fail Throw end.
(* 674-690 push_last, push_all *)
Definition push_last (r : result) : M unit :=
  check_stack 1 ;; match rev (res_refs r) with [] => fail UB | x :: _ => push_ref x end.
Fixpoint push_refs (l : list lref) : M unit := match l with [] => ret tt | x :: l' => push_ref x ;; push_refs l' end.
Definition push_all (r : result) : M unit := check_stack (length (res_refs r)) ;; push_refs (res_refs r).
(* 724-729 empty *)
Definition res_empty (r : result) : bool := forallb ref_empty (res_refs r).
(* 746-753 operator T; g is lua_value<T>::get at -1 *)
Definition as_one {A} (g : M A) (r : result) : M A :=
  if negb (length (res_refs r) =? 1) then fail Throw else push_last r ;; g.
(* 560-579 get_results; 758-769 operator tuple *)
Fixpoint get_results {A} (gs : list (M A)) : M (list A) :=
  match gs with [] => ret [] | g :: gs' => do a <- g; do l <- get_results gs'; ret (a :: l) end.
Definition as_tuple {A} (gs : list (M A)) (r : result) : M (list A) :=
  if negb (length (res_refs r) =? length gs) then fail Throw else push_all r ;; get_results gs.
(* 779-783 as with a default *)
Definition as_default {A} (g : M A) (d : A) (r : result) : M A := if res_empty r then ret d else as_one g r.
(* 586-606 push_args *)
Fixpoint push_args (l : list arg) : M nat :=
  match l with
  | [] => ret 0
  | a :: l' => check_stack 1 ;; do n <- lua_push a; do m <- push_args l'; ret (n + m)
  end.
(* lua_pcall(s, n, LUA_MULTRET, 0): function and arguments are replaced by the results or by the error value *)
Definition pcall (n : nat) : M bool := fun s =>
  match skipn n (stk s) with
  | VFun f :: l =>
      match call L (world s) f (rev (firstn n (stk s))) with
      | (w, inl rs) => (mk_st (rev rs ++ l) (Nat.max (cap s) (length rs + length l)) (refs s) w, Ok true)
      | (w, inr e) => (mk_st (e :: l) (cap s) (refs s) w, Ok false)
      end
  | v :: l => (mk_st (v :: l) (cap s) (refs s) (world s), Ok false)      (* attempt to call a non-function: some error value *)
  | [] => (s, UB)
  end.
Fixpoint make_refs (n : nat) : M (list lref) :=
  match n with O => ret [] | S m => do r <- make_ref; do l <- make_refs m; ret (r :: l) end.
(* 799-841 operator() *)
Definition call_op (r : result) (args : list arg) : M result :=
  do pos0 <- gettop; check_stack 1 ;; push_last r ;; check_function ;;
  do n <- push_args args; do ok <- pcall n;
  if ok then check_result ;; do pos1 <- gettop; do l <- make_refs (pos1 - pos0); ret (mk_res l (length l))
  else fail Throw.
(* 847-867 operator[](key) *)
Definition index_key (r : result) (key : string) : M result :=
  push_last r ;; check_table ;; check_stack 1 ;; push (VStr key) ;; rawget_string key ;;
  do v <- at_ (-1); do len <- rawlen v; do x <- make_ref; pop_minus_one ;; ret (mk_res [x] len).
(* 873-890 operator[](int) *)
Definition index_int (r : result) (n : Z) : M result :=
  push_last r ;; check_table ;; rawgeti (-1) n ;;
  do v <- at_ (-1); do len <- rawlen v; do x <- make_ref; pop_minus_one ;; ret (mk_res [x] len).

(** *** 1001-1011 lua_t::operator[]; 977-996 run_string, loadfile (all results of the chunk stay on the stack) *)
Definition get_global (key : string) : M result :=
  (fun s => push (global L (world s) (cstr key)) s) ;;
  do v <- at_ (-1); do len <- rawlen v; do x <- make_ref; ret (mk_res [x] len).
Definition run_string (src : string) : M unit := fun s =>
  match chunk L (world s) (cstr src) with
  | (w, inl rs) => (mk_st (rev rs ++ stk s) (Nat.max (cap s) (length rs + length (stk s))) (refs s) w, Ok tt)
  | (w, inr e) => (mk_st (e :: stk s) (cap s) (refs s) w, Throw)
  end.
(** *** 920-945 Lua_Func_Wrapper *)
Definition func_wrapper {A} (g : M A) (r : result) (args : list arg) : M A := do x <- call_op r args; as_one g x.
End Api.
