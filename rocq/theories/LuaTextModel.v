(** Model of the texts of the Lua interface: embedded/embed_lua.h, rows and dumps of the stack and names of results.
    The types without a constructor in LuaModel.v (userdata, threads) are not modelled; [show] is the text that an output
    stream gives a lua_Number. *)
From Coq Require Import String Ascii List Bool Arith ZArith.
From Coq Require DecimalString.
From Verif Require Import Outcome LuaModel.
Import ListNotations.
Open Scope lua_scope.
Open Scope string_scope.

Definition line_end : string := String (ascii_of_nat 10) EmptyString.
Definition dec (z : Z) : string := DecimalString.NilZero.string_of_int (Z.to_int z).
Fixpoint blanks (n : nat) : string := match n with O => EmptyString | S m => String " " (blanks m) end.
(* std::setw(3) *)
Definition setw3 (x : string) : string := blanks (3 - String.length x) ++ x.

Section Text.
Context {W F : Type} (L : lua W F) (show : F -> string).
Notation val := (val F).
Notation M := (M W F).
(* lua_typename *)
Definition type_name (v : val) : string :=
  match v with
  | VNil => "nil" | VBool _ => "boolean" | VInt _ | VFlt _ => "number" | VStr _ => "string" | VTab _ => "table" | VFun _ => "function"
  end.
(** ** 425-445 get_row *)
Definition row_text (v : val) : string :=
  match v with
  | VStr x => "string >> " ++ cstr x
  | VBool b => "bool   >> " ++ (if b then "true" else "false")
  | VInt _ | VFlt _ => "number >> " ++ show (to_number L v)
  | _ => "other  >> " ++ type_name v
  end.
Definition get_row (i : Z) : M string := do v <- at_ i; ret (row_text v).
(** ** 450-466 dump_stack: the rows i, i+1, .. of n rows *)
Fixpoint dump_rows (i n : nat) : M string :=
  match n with
  | O => ret ""
  | S m => do r <- get_row (Z.of_nat i); do t <- dump_rows (S i) m; ret (setw3 (dec (Z.of_nat i)) ++ " : " ++ r ++ line_end ++ t)
  end.
Definition dump_stack : M string :=
  do top <- gettop;
  if Nat.eqb top 0 then ret ("(stack empty)" ++ line_end)
  else do t <- dump_rows 1 top; ret ("Row : Type   >> Value" ++ line_end ++ t).
(** ** 469-476 print_last_row *)
Definition print_last_row : M string :=
  do top <- gettop; do r <- get_row (-1);
  ret ("Row : Type   >> Value" ++ line_end ++ setw3 (dec (Z.of_nat top)) ++ " : " ++ r ++ line_end).

(** ** 813-821: the types of n rows from p on *)
Fixpoint arg_types (p n : nat) : M string :=
  match n with
  | O => ret ""
  | S m => do v <- at_ (Z.of_nat p); do r <- arg_types (S p) m; ret (type_name v ++ (if Nat.eqb m 0 then "" else ",") ++ r)
  end.
(** ** 799-841 operator() with the name of the result (840) *)
Definition call_op_named (name : string) (r : result) (args : list arg) : M (string * result) :=
  do pos0 <- gettop; check_stack L 1 ;; push_last L r ;; check_function ;;
  do n <- push_args L args;
  do pos1 <- gettop; do ts <- arg_types (S pos0) (pos1 - pos0);
  do ok <- pcall L n;
  if ok then check_result ;; do pos1 <- gettop; do l <- make_refs (pos1 - pos0); ret (name ++ "(" ++ ts ++ ")", mk_res l (List.length l))
  else fail Throw.
End Text.
(** ** 850 and 876: names of entries; a lua_t uses the key itself (1013) *)
Definition quote : string := String (ascii_of_nat 34) EmptyString.
Definition key_name (name key : string) : string := name ++ ".[" ++ quote ++ key ++ quote ++ "]".
Definition int_name (name : string) (n : Z) : string := name ++ "[" ++ dec n ++ "]".
(* a chain of lookups *)
Definition path_name (name : string) (l : list (string + Z)) : string :=
  fold_left (fun s k => match k with inl x => key_name s x | inr n => int_name s n end) l name.
