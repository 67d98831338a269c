(** utils/functional.h 24-53: plus, minus, multiplies and divides of two numbers of different types; utils/tuple_to_array.h
    17-42: the array made from a tuple.  Both for integer types (those of AtomicsTypesModel.v); bool, enumerations, floating
    point and class types are left out, and so is that tuple_to_array.h names [tuple] and [get] without including them: the
    file must come after <tuple> and a using-declaration.  The I... of an index sequence are 0, 1, ..., sizeof...(U). *)
From Coq Require Import List ZArith Bool.
From Verif Require Import Outcome AtomicsTypesModel.
Import ListNotations.
Local Open Scope Z_scope.

Inductive fop := Fplus | Fminus | Fmultiplies | Fdivides.
(* functional.h 27-53: the result has the common type of the operands, which the return type auto keeps *)
Definition result_type (t u : ity) : ity := common t u.
Definition functional (t u : ity) (o : fop) (lhs rhs : Z) : outcome Z :=
  let c := result_type t u in let a := wrap c lhs in let b := wrap c rhs in
  match o with
  | Fplus => arith c (a + b)
  | Fminus => arith c (a - b)
  | Fmultiplies => arith c (a * b)
  | Fdivides => if b =? 0 then UB else arith c (Z.quot a b)
  end.

(* tuple_to_array.h 19: std::array<T, 1+sizeof...(U)>; 27: in braces, a conversion that could lose a value of the source type does
   not compile *)
Definition narrows (t u : ity) : bool := (lo u <? lo t) || (hi t <? hi u).
(* a tuple: the types and values of its elements; [None]: does not compile (the empty tuple fits no overload) *)
Definition to_array (x : list (ity * Z)) : option (ity * list Z) :=
  match x with
  | [] => None
  | (t, _) :: _ => if existsb (fun e => narrows t (fst e)) x then None
                   else Some (t, map (fun i => wrap t (snd (nth i x (t, 0)))) (seq 0 (length x)))
  end.
