(** Input engine: ristra/initialization/input_engine.h, input_source.h, inputs_impl.h, init_value.h, input.h.
    - std::map is a partial function of the key, std::set<std::string> of targets a strictly increasing list (its iteration
      order); the failure set is a characteristic function.
    - The registries are singletons per C++ type T.  One [registry] record is one type; [ty] holds what the template
      parameter decides.  [t_moved v] is what std::move leaves behind in the hard-coded registry (v itself for trivially
      copyable types, the empty value for strings, vectors and std::function in the usual libraries).
    - Functions that may throw return the state they leave behind together with the outcome.
    - A lua_result_t is the Lua value it refers to; the Lua stack is the subject of LuaModel.v.  Metatables are not modelled.
    - Printing is not modelled. *)
From Coq Require Import List String Ascii Bool Arith NArith ZArith.
From Verif Require Import Outcome.
Import ListNotations.
Open Scope string_scope.

Definition key := string.
Definition kmap (A : Type) := key -> option A.
Definition kput {A} (m : kmap A) (k : key) (v : A) : kmap A := fun q => if String.eqb q k then Some v else m q.
(* std::map::emplace, insert: no effect when the key is present *)
Definition kemplace {A} (m : kmap A) (k : key) (v : A) : kmap A := match m k with Some _ => m | None => kput m k v end.
Definition kempty {A} : kmap A := fun _ => None.
(* std::set<std::string>::insert *)
Fixpoint sinsert (k : key) (l : list key) : list key :=
  match l with
  | [] => [k]
  | q :: l' => match String.compare k q with Lt => k :: l | Eq => l | Gt => q :: sinsert k l' end
  end.

(** ** Lua values, as far as the input sources look at them *)
Inductive lv (P : Type) : Type :=
| LNil
| LTable (f : key -> lv P)
| LVal (p : P).
Arguments LNil {P}.
Arguments LTable {P} f.
Arguments LVal {P} p.
(* embed_lua.h 724-729 empty; 847-867 operator[](key): check_table throws on nil and on non-tables *)
Definition lv_empty {P} (v : lv P) : bool := match v with LNil => true | _ => false end.
Definition lv_index {P} (v : lv P) (k : key) : outcome (lv P) := match v with LTable f => Ok (f k) | _ => Throw end.
(* embed_lua.h 51-57 lua_try_access *)
Definition try_access {P} (r : outcome (lv P)) : outcome (lv P) := bind r (fun v => if lv_empty v then Throw else Ok v).

(** ** input_source.h 160-372 lua_source_t *)
Record lua_source (P : Type) := mk_lua {
  l_globals : key -> lv P;           (* m_lua_state: lua_t::operator[] reads a global *)
  l_table_map : kmap key;            (* m_table_map *)
  l_tables : kmap (lv P);            (* m_tables *)
  l_key : kmap key }.                (* m_lua_key *)
Arguments mk_lua {P}.
Arguments l_globals {P}.
Arguments l_table_map {P}.
Arguments l_tables {P}.
Arguments l_key {P}.
(* 344-356 load_table; m_table_map[load_name] inserts "" when absent *)
Definition load_table {P} (s : lua_source P) (name : key) : lua_source P * outcome unit :=
  let from := match l_table_map s name with Some f => f | None => "" end in
  let s := mk_lua (l_globals s) (kemplace (l_table_map s) name "") (l_tables s) (l_key s) in
  let r := if String.eqb "base_state" from then try_access (Ok (l_globals s name))
           else match l_tables s from with
                | None => Throw                                  (* m_tables.at *)
                | Some t => try_access (lv_index t name)
                end in
  match r with
  | Ok v => (mk_lua (l_globals s) (l_table_map s) (kemplace (l_tables s) name v) (l_key s), Ok tt)
  | Throw => (s, Throw) | AssertFail => (s, AssertFail) | UB => (s, UB)
  end.
(* 210-223 register_value *)
Definition register_value {P} (s : lua_source P) (k t_name lkey : key) : lua_source P * bool :=
  let will_replace := match l_table_map s k with Some _ => true | None => false end in
  let tm := kput (l_table_map s) k t_name in
  let lk := if String.eqb lkey "" then l_key s else kput (l_key s) k lkey in
  (mk_lua (l_globals s) tm (l_tables s) lk, will_replace).
(* 233-239 register_table *)
Definition register_table {P} (s : lua_source P) (t_name p_name lkey : key) : lua_source P * outcome bool :=
  let '(s, will_replace) := register_value s t_name p_name lkey in
  let '(s, r) := load_table s t_name in (s, bind r (fun _ => Ok will_replace)).
(* 170-200 constructor; the map updates after the two load_table calls *)
Definition lua_ctor_maps {P} (s : lua_source P) : lua_source P :=
  let put m kv := kput m (fst kv) (snd kv) in
  mk_lua (l_globals s)
    (fold_left put [("prefix", "hydro"); ("suffix", "hydro"); ("output_freq", "hydro"); ("CFL", "hydro"); ("final_time", "hydro");
       ("max_steps", "hydro"); ("mesh_type", "mesh"); ("dimensions", "mesh"); ("xmin", "mesh"); ("xmax", "mesh");
       ("file", "mesh"); ("ics_func", "hydro")] (l_table_map s))
    (l_tables s)
    (fold_left put [("suffix", "postfix"); ("mesh_type", "type"); ("ics_func", "ics")] (l_key s)).
Definition lua_ctor {P} (globals : key -> lv P) : outcome (lua_source P) :=
  let s := mk_lua globals (kput (kput kempty "hydro" "base_state") "mesh" "hydro") kempty kempty in
  let '(s, r) := load_table s "hydro" in
  bind r (fun _ => let '(s, r) := load_table s "mesh" in bind r (fun _ => Ok (lua_ctor_maps s))).

(** ** what the C++ type decides *)
Record ty (P V : Type) := mk_ty {
  t_as : lv P -> outcome V;      (* lua_result_t::as<T>, or wrapping the result for std::function *)
  t_fun : bool;                  (* T is a std::function: hard-coded values are inserted, not assigned *)
  t_moved : V -> V }.
Arguments mk_ty {P V}.
Arguments t_as {P V}.
Arguments t_fun {P V}.
Arguments t_moved {P V}.
(* input_source.h 271-303 value_getter::get_value and 380-400 its specialisation: None is "return false".
   Both catch handlers only print and rethrow. *)
Definition lua_get {P V} (T : ty P V) (s : lua_source P) (k : key) : outcome (option V) :=
  let lkey := match l_key s k with Some q => q | None => k end in
  match l_table_map s k with
  | None => Throw                                            (* m_table_map.at(k) *)
  | Some from => match l_tables s from with
    | None => Throw                                          (* m_tables.at(from_name) *)
    | Some tab => bind (lv_index tab lkey) (fun v =>
        if lv_empty v then Ok None else bind (t_as T v) (fun x => Ok (Some x)))
    end
  end.
(* input_source.h 364-372: without Lua, get_value returns false.  [env] is the engine's pair of sources *)
Record env (P : Type) := mk_env { e_lua_built : bool; e_lua : option (lua_source P); e_hard : bool }.
Arguments mk_env {P}.
Arguments e_lua_built {P}.
Arguments e_lua {P}.
Arguments e_hard {P}.
Definition lua_lookup {P V} (T : ty P V) (e : env P) (k : key) : outcome (option V) :=
  match e_lua e with
  | None => Ok None
  | Some s => if e_lua_built e then lua_get T s k else Ok None
  end.

(** ** input_engine.h 94-140 input_registry, with the hard-coded registry of the same type (input_source.h 47-61) *)
Record registry (V : Type) := mk_reg {
  r_reg : kmap V;            (* m_reg *)
  r_targets : list key;      (* m_targets *)
  r_failed : key -> bool;    (* m_failures *)
  r_called : bool;           (* m_resolve_called *)
  r_all : bool;              (* m_all_resolved *)
  r_hard : kmap V }.         (* hard_coded_source_t's data_registry<T> *)
Arguments mk_reg {V}.
Arguments r_reg {V}.
Arguments r_targets {V}.
Arguments r_failed {V}.
Arguments r_called {V}.
Arguments r_all {V}.
Arguments r_hard {V}.
Definition reg_init {V} : registry V := mk_reg kempty [] (fun _ => false) false false kempty.
(* 111-116 clear: the two flags keep their values *)
Definition reg_clear {V} (r : registry V) : registry V :=
  mk_reg kempty [] (fun _ => false) (r_called r) (r_all r) (r_hard r).
(* 237-249 register_target *)
Definition register_target {V} (r : registry V) (k : key) : registry V :=
  mk_reg (r_reg r) (sinsert k (r_targets r)) (r_failed r) (r_called r) (r_all r) (r_hard r).
(* input_source.h 114-121 set_registry, one entry *)
Definition set_hard {V} (r : registry V) (k : key) (v : V) : registry V :=
  mk_reg (r_reg r) (r_targets r) (r_failed r) (r_called r) (r_all r) (kput (r_hard r) k v).
(* input_source.h 101-112 hard_coded_source_t::get_value: moves the value out *)
Definition hard_get {P V} (T : ty P V) (r : registry V) (k : key) : registry V * option V :=
  match r_hard r k with
  | None => (r, None)
  | Some v => (mk_reg (r_reg r) (r_targets r) (r_failed r) (r_called r) (r_all r) (kput (r_hard r) k (t_moved T v)), Some v)
  end.
Definition put_reg {V} (r : registry V) (m : kmap V) : registry V :=
  mk_reg m (r_targets r) (r_failed r) (r_called r) (r_all r) (r_hard r).

(* 533-558 resolve_input_ and 575-602 its specialisation; also the body of the loops in 433-452 and 488-516 without the
   failure set *)
Definition resolve_input {P V} (T : ty P V) (e : env P) (r : registry V) (k : key) : registry V * outcome bool :=
  match lua_lookup T e k with
  | Ok (Some v) => (put_reg r (kput (r_reg r) k v), Ok true)
  | Ok None =>
      if e_hard e then
        let '(r, f) := hard_get T r k in
        match f with
        | Some v => (put_reg r (if t_fun T then kemplace (r_reg r) k v else kput (r_reg r) k v), Ok true)
        | None => (r, Ok false)
        end
      else (r, Ok false)
  | Throw => (r, Throw) | AssertFail => (r, AssertFail) | UB => (r, UB)
  end.
Definition fail_insert {V} (r : registry V) (k : key) : registry V :=
  mk_reg (r_reg r) (r_targets r) (fun q => if String.eqb q k then true else r_failed r q) (r_called r) (r_all r) (r_hard r).
(* 433-452 / 488-516: for (auto target : targets) *)
Fixpoint resolve_loop {P V} (T : ty P V) (e : env P) (ks : list key) (r : registry V) (missed : bool) : registry V * outcome bool :=
  match ks with
  | [] => (r, Ok missed)
  | k :: ks' =>
      match resolve_input T e r k with
      | (r', Ok true) => resolve_loop T e ks' r' missed
      | (r', Ok false) => resolve_loop T e ks' (fail_insert r' k) true
      | (r', Throw) => (r', Throw) | (r', AssertFail) => (r', AssertFail) | (r', UB) => (r', UB)
      end
  end.
(* 423-462 and 477-526 resolve_inputs_ for one type *)
Definition resolve_inputs1 {P V} (T : ty P V) (e : env P) (r : registry V) : registry V * outcome bool :=
  match resolve_loop T e (r_targets r) r false with
  | (r, Ok missed) =>
      (mk_reg (r_reg r) (r_targets r) (r_failed r) true (if missed then r_all r else true) (r_hard r), Ok (negb missed))
  | (r, o) => (r, o)
  end.
(* 174-184 resolve_inputs with inputs_impl.h 122-146: every type in order, then the conjunction *)
Fixpoint resolve_by_tuple {P V} (e : env P) (l : list (ty P V * registry V)) : list (registry V) * outcome (list bool) :=
  match l with
  | [] => ([], Ok [])
  | (T, r) :: l' =>
      match resolve_inputs1 T e r with
      | (r', Ok b) => let '(rs, o) := resolve_by_tuple e l' in (r' :: rs, bind o (fun bs => Ok (b :: bs)))
      | (r', Throw) => (r' :: map snd l', Throw)
      | (r', AssertFail) => (r' :: map snd l', AssertFail)
      | (r', UB) => (r' :: map snd l', UB)
      end
  end.
Definition resolve_inputs {P V} (e : env P) (l : list (ty P V * registry V)) : list (registry V) * outcome bool :=
  let '(rs, o) := resolve_by_tuple e l in (rs, bind o (fun bs => Ok (fold_left andb bs true))).
(* 268-275 get_value with 383-416 value_getter *)
Definition get_value {V} (r : registry V) (k : key) : outcome V :=
  match r_reg r k with Some v => Ok v | None => Throw end.
(* 278-290 resolved *)
Definition resolved {V} (r : registry V) (k : key) : bool :=
  r_called r && match r_reg r k with Some _ => true | None => false end.
(* dbc.h Insist: [ins] tells whether the configured action throws (dbc.h 78-88); otherwise execution continues *)
Definition insist {A} (ins : bool) (c : bool) (k : outcome A) : outcome A := if c then k else if ins then Throw else k.
(* 306-319 get_instant_value *)
Definition get_instant_value {P V} (ins : bool) (T : ty P V) (e : env P) (r : registry V) (k : key) : registry V * outcome V :=
  match resolve_input T e r k with
  | (r', Ok b) => (r', insist ins b (get_value r' k))
  | (r', Throw) => (r', Throw) | (r', AssertFail) => (r', AssertFail) | (r', UB) => (r', UB)
  end.

(** ** init_value.h *)
Inductive status := unregistered | registered | resolve_failed | initialized | invalid | valid_.
Record init_value (V : Type) := mk_iv { iv_name : key; iv_ns : key; iv_valid : V -> bool; iv_status : status }.
Arguments mk_iv {V}.
Arguments iv_name {V}.
Arguments iv_ns {V}.
Arguments iv_valid {V}.
Arguments iv_status {V}.
Definition with_status {V} (i : init_value V) (s : status) := mk_iv (iv_name i) (iv_ns i) (iv_valid i) s.
(* 148-154 *)
Definition full_name (ns name : key) : key := if String.eqb ns "" then name else ns ++ ":" ++ name.
Definition iv_key {V} (i : init_value V) := full_name (iv_ns i) (iv_name i).
(* 128-146 constructor: registers the target *)
Definition iv_ctor {V} (r : registry V) (name : key) (val : V -> bool) (ns : key) : registry V * init_value V :=
  (register_target r (full_name ns name), mk_iv name ns val registered).
(* 58-83 get *)
Definition iv_get {V} (ins : bool) (r : registry V) (i : init_value V) : init_value V * outcome V :=
  let finish i :=
    match get_value r (iv_key i) with
    | Ok t => if iv_valid i t then (with_status i valid_, Ok t) else (with_status i invalid, Throw)
    | Throw => (i, Throw) | AssertFail => (i, AssertFail) | UB => (i, UB)
    end in
  match iv_status i with
  | registered =>
      if resolved r (iv_key i) then finish (with_status i initialized)
      else let i := with_status i resolve_failed in if ins then (i, Throw) else finish i
  | _ => finish i
  end.
(* 89-98 resolved; Require is on and throwing ([req]) or not *)
Definition iv_resolved {V} (req : bool) (r : registry V) (i : init_value V) : init_value V * outcome bool :=
  if req && match iv_status i with unregistered => true | _ => false end then (i, Throw)
  else if resolved r (iv_key i) then (with_status i initialized, Ok true) else (i, Ok false).
(* 101-118 valid *)
Definition iv_is_valid {V} (req : bool) (r : registry V) (i : init_value V) : init_value V * outcome bool :=
  match iv_status i with
  | valid_ => (i, Ok true)
  | invalid => (i, Ok false)
  | _ =>
      match iv_resolved req r i with
      | (i, Ok false) => (i, Ok false)
      | (i, Ok true) =>
          match get_value r (iv_key i) with
          | Ok t => if iv_valid i t then (with_status i valid_, Ok true) else (with_status i invalid, Ok false)
          | Throw => (i, Throw) | AssertFail => (i, AssertFail) | UB => (i, UB)
          end
      | (i, o) => (i, o)
      end
  end.
(* 163-190 init_val_status_name *)
Definition status_name (s : status) : string :=
  match s with
  | unregistered => "unregistered" | registered => "registered" | resolve_failed => "resolve_failed"
  | initialized => "initialized" | invalid => "invalid" | valid_ => "valid"
  end.

(** ** input.h 128-185: parameters.  A default value is its C++ type and value; floats are their bit patterns. *)
Inductive param := PString (s : string) | PSize (n : N) | PFloat (bits : N) | PDouble (bits : N) | POther.
Inductive types_t := TSize | TFloat | TDouble | TString.
(* memcpy of an n-byte integer, little endian *)
Fixpoint bytes_le (n : nat) (x : N) : list N := match n with O => [] | S m => (x mod 256)%N :: bytes_le m (x / 256)%N end.
Fixpoint bytes_of_string (s : string) : list N := match s with EmptyString => [] | String a s' => N_of_ascii a :: bytes_of_string s' end.
Definition encode (p : param) : outcome (list N * types_t) :=
  match p with
  | PString s => Ok (bytes_of_string s, TString)
  | PSize n => Ok (bytes_le 8 n, TSize)
  | PFloat b => Ok (bytes_le 4 b, TFloat)
  | PDouble b => Ok (bytes_le 8 b, TDouble)
  | POther => UB                             (* 151, 179-181: the uninitialised [type] is copied *)
  end.
Definition param_entry := (string * list N * types_t)%type.
Definition param_key (k v : key) : key := k ++ "?" ++ v.
(* 139-185 register_parameter *)
Definition register_parameter (m : kmap param_entry) (k v msg : key) (d : param) : outcome (kmap param_entry * bool) :=
  bind (encode d) (fun bt => Ok (kemplace m (param_key k v) (msg, fst bt, snd bt), true)).
(* 128-134 register_group *)
Definition register_group (m : kmap string) (k title : key) : kmap string * bool := (kemplace m k title, true).
