(** What one atomic operation leaves in a variable of integer type T when the right-hand side has another type X:
    ristra/atomics/src/atomics.h 984-1012 (mineq, maxeq), 1180-1303 (function objects) and atomics-macro-class.h,
    atomics-macro-class-prepost.h, under the three ways of computing: the operator of the language (schemes strong, weak, their
    punned forms, lock and serial), std::atomic (scheme cpp) and Kokkos (scheme kokkos).
    Integer types have 8, 16, 32 or 64 bits in two's complement; int has 32.  Conversion to a type that cannot hold the value
    wraps, and >> of a negative number shifts in its sign, as every compiler in use does.  bool and enumerations are left out.
    The Kokkos functions are assumed to do what the language does on two operands of type T, except that their add, sub, and, or,
    xor, ++ and -- wrap like those of std::atomic.
    The concurrent behaviour is in AtomicsModel.v; here one operation is looked at. *)
From Coq Require Import ZArith Bool SpecFloat.
From Verif Require Import Outcome FloatModel.
Local Open Scope Z_scope.

Inductive width := W8 | W16 | W32 | W64.
Record ity := mk_ity { signed : bool; wid : width }.
Definition bits (w : width) : Z := match w with W8 => 8 | W16 => 16 | W32 => 32 | W64 => 64 end.
Definition lo (t : ity) : Z := if signed t then - 2 ^ (bits (wid t) - 1) else 0.
Definition hi (t : ity) : Z := if signed t then 2 ^ (bits (wid t) - 1) - 1 else 2 ^ bits (wid t) - 1.
Definition holds (t : ity) (v : Z) : bool := (lo t <=? v) && (v <=? hi t).
(* T(v) *)
Definition wrap (t : ity) (v : Z) : Z := (v - lo t) mod 2 ^ bits (wid t) + lo t.
(* integral promotion *)
Definition promote (t : ity) : ity := match wid t with W8 | W16 => mk_ity true W32 | _ => t end.
(* usual arithmetic conversions *)
Definition common (t x : ity) : ity :=
  let a := promote t in let b := promote x in
  if Bool.eqb (signed a) (signed b) then (if bits (wid a) <? bits (wid b) then b else a)
  else let s := if signed a then a else b in let u := if signed a then b else a in
       if bits (wid u) <? bits (wid s) then s else u.

Inductive aop := Aadd | Asub | Amul | Adiv | Amod | Ashl | Ashr | Aand | Aor | Axor | Amin | Amax.
(* arithmetic in type c: an unsigned result wraps, a signed one that does not fit is undefined *)
Definition arith (c : ity) (r : Z) : outcome Z := if signed c then if holds c r then Ok r else UB else Ok (wrap c r).
(* lhs op= val for T = t, X = x; atomics-macro-class.h 84-94; mineq and maxeq: atomics.h 997-1012 *)
Definition language (t x : ity) (o : aop) (lhs val : Z) : outcome Z :=
  let c := common t x in let a := wrap c lhs in let b := wrap c val in
  match o with
  | Aadd => bind (arith c (a + b)) (fun r => Ok (wrap t r))
  | Asub => bind (arith c (a - b)) (fun r => Ok (wrap t r))
  | Amul => bind (arith c (a * b)) (fun r => Ok (wrap t r))
  | Adiv => if b =? 0 then UB else bind (arith c (Z.quot a b)) (fun r => Ok (wrap t r))
  | Amod => if b =? 0 then UB else bind (arith c (Z.quot a b)) (fun _ => Ok (wrap t (Z.rem a b)))
  (* shifts promote each operand by itself; << of a negative number, or past the unsigned range, is undefined *)
  | Ashl => let p := promote t in
            if (val <? 0) || (bits (wid p) <=? val) then UB
            else if signed p then if (lhs <? 0) || (2 ^ bits (wid p) <=? lhs * 2 ^ val) then UB else Ok (wrap t (lhs * 2 ^ val))
            else Ok (wrap t (lhs * 2 ^ val))
  | Ashr => let p := promote t in
            if (val <? 0) || (bits (wid p) <=? val) then UB else Ok (wrap t (Z.shiftr lhs val))
  | Aand => Ok (wrap t (Z.land a b))
  | Aor => Ok (wrap t (Z.lor a b))
  | Axor => Ok (wrap t (Z.lxor a b))
  | Amin => Ok (if b <? a then wrap t val else lhs)
  | Amax => Ok (if a <? b then wrap t val else lhs)
  end.
(* atom.fetch_add(val): the parameter has type T; std::atomic arithmetic wraps and is never undefined;
   atomics-macro-class.h 20-39; no atomics_cpp for the other operations *)
Definition std_atomic (t : ity) (o : aop) (lhs val : Z) : option Z :=
  let b := wrap t val in
  match o with
  | Aadd => Some (wrap t (lhs + b))
  | Asub => Some (wrap t (lhs - b))
  | Aand => Some (wrap t (Z.land lhs b))
  | Aor => Some (wrap t (Z.lor lhs b))
  | Axor => Some (wrap t (Z.lxor lhs b))
  | _ => None
  end.
(* Kokkos::atomic_fetch_xxx(&atom.ref(), T(val)); the shifts take unsigned; atomics-macro-class.h 50-73 *)
Definition kokkos (t : ity) (o : aop) (lhs val : Z) : outcome Z :=
  match std_atomic t o lhs val with
  | Some r => Ok r
  | None => match o with
            | Ashl | Ashr => language t (mk_ity false W32) o lhs (wrap (mk_ity false W32) val)
            | _ => language t t o lhs (wrap t val)
            end
  end.
(* ++lhs and --lhs are lhs += 1 and lhs -= 1 with an int on the right; std::atomic and Kokkos wrap *)
Definition language_step (t : ity) (d : Z) (lhs : Z) : outcome Z := language t (mk_ity true W32) Aadd lhs d.
Definition std_atomic_step (t : ity) (d : Z) (lhs : Z) : Z := wrap t (lhs + d).

(** X = double: the left side is converted to double, the result truncated to T, which is undefined when it does not fit *)
Definition trunc (z : spec_float) : option Z :=
  match z with
  | S754_zero _ => Some 0
  | S754_finite s m e => let q := match e with Zneg k => Z.pos m / 2 ^ Zpos k | _ => Z.pos m * 2 ^ e end in Some (if s then - q else q)
  | _ => None
  end.
Definition to_int (t : ity) (z : spec_float) : outcome Z :=
  match trunc z with Some v => if holds t v then Ok v else UB | None => UB end.
Definition language_double (t : ity) (o : aop) (lhs : Z) (val : spec_float) : option (outcome Z) :=
  let a := of_int 53 1024 lhs in
  match o with
  | Aadd => Some (to_int t (SFadd 53 1024 a val))
  | Asub => Some (to_int t (SFsub 53 1024 a val))
  | Amul => Some (to_int t (SFmul 53 1024 a val))
  | Adiv => Some (to_int t (SFdiv 53 1024 a val))
  | _ => None
  end.
(* fetch_add(T(val)) and fetch_sub(T(val)) *)
Definition std_atomic_double (t : ity) (o : aop) (lhs : Z) (val : spec_float) : option (outcome Z) :=
  match o with
  | Aadd | Asub => Some (bind (to_int t val) (fun v => match std_atomic t o lhs v with Some r => Ok r | None => UB end))
  | _ => None
  end.
