(** Model of ristra/utils/array_ref.h (array_ref<T>). The referenced array is a list; the view is a
    pointer (offset into the array, or null) and a [size_t] length kept modulo 2^64. *)
From Coq Require Import List ZArith Bool Lia.
From Verif Require Import Outcome.
Import ListNotations.
Open Scope Z_scope.

Definition size_mod : Z := 2 ^ 64.

(** private members ptr_, length_, lines 226-227 *)
Record aref : Type := mkref { ptr : option Z; alen : Z }.

(** array_ref(), line 71 *)
Definition aref_null : aref := mkref None 0.
(** array_ref(const T*, size_type) and the container constructors, lines 75-96 *)
Definition aref_full {T} (base : list T) : aref := mkref (Some 0) (Z.of_nat (length base)).

Definition ptr_add (p : option Z) (n : Z) : outcome (option Z) :=
  match p with
  | Some o => Ok (Some (o + n))
  | None => if n =? 0 then Ok None else UB      (* arithmetic on the null pointer *)
  end.

(** substr, lines 101-107: the recursion of the source, with fuel; running out of fuel is UB so
    that the theorems exclude it. *)
Fixpoint substr_fuel (fuel : nat) (r : aref) (pos n : Z) : outcome aref :=
  match fuel with
  | O => UB
  | S f =>
      if alen r <? pos then substr_fuel f r (alen r) n
      else if alen r - pos <? n then substr_fuel f r pos (alen r - pos)
      else bind (ptr_add (ptr r) pos) (fun p => Ok (mkref p n))
  end.
Definition substr (r : aref) (pos n : Z) : outcome aref := substr_fuel 3 r pos n.

Section Ops.
Variable dbg : bool.
(** remove_prefix, lines 199-203 *)
Definition remove_prefix (r : aref) (n : Z) : outcome aref :=
  assert_then dbg (n <=? alen r)
    (bind (ptr_add (ptr r) n) (fun p => Ok (mkref p ((alen r - n) mod size_mod)))).
(** remove_suffix, lines 208-211 *)
Definition remove_suffix (r : aref) (n : Z) : outcome aref :=
  assert_then dbg (n <=? alen r) (Ok (mkref (ptr r) ((alen r - n) mod size_mod))).

Inductive aop : Type :=
| ASubstr (pos n : Z) | APrefix (n : Z) | ASuffix (n : Z) | APopFront | APopBack | AClear.

(** pop_back 214-216, pop_front 219-221, clear 194 *)
Definition astep (r : aref) (o : aop) : outcome aref :=
  match o with
  | ASubstr p n => substr r p n
  | APrefix n => remove_prefix r n
  | ASuffix n => remove_suffix r n
  | APopFront => remove_prefix r 1
  | APopBack => remove_suffix r 1
  | AClear => Ok aref_null
  end.
Fixpoint arun (r : aref) (os : list aop) : outcome aref :=
  match os with [] => Ok r | o :: t => bind (astep r o) (fun r' => arun r' t) end.
End Ops.

Section Access.
Context {T : Type}.
(** reading *(ptr_ + i) in the referenced array *)
Definition aload (base : list T) (r : aref) (i : Z) : outcome T :=
  match ptr r with
  | None => UB
  | Some o => if (0 <=? o + i) then
                match nth_error base (Z.to_nat (o + i)) with Some v => Ok v | None => UB end
              else UB
  end.
(** operator[] 138, at 139-144, front/back 146-147 *)
Definition aindex := aload.
Definition aat (base : list T) (r : aref) (i : Z) : outcome T :=
  if alen r <=? i then Throw else aload base r i.
Definition afront (base : list T) (r : aref) : outcome T := aload base r 0.
Definition aback (base : list T) (r : aref) : outcome T :=
  aload base r ((alen r - 1) mod size_mod).
(** conversion to vector/string (copying begin() to end()), lines 169-188 *)
Fixpoint load_n (base : list T) (r : aref) (i : Z) (n : nat) : outcome (list T) :=
  match n with
  | O => Ok []
  | S n' => bind (aload base r i) (fun v => bind (load_n base r (i + 1) n') (fun vs => Ok (v :: vs)))
  end.
Definition avec (base : list T) (r : aref) : outcome (list T) := load_n base r 0 (Z.to_nat (alen r)).
End Access.
