(** Arbitrary-order Lagrange elements with rounding: ristra/elements/elements.cc 2180-2224, 2443-2487, 2292-2391 and
    2574-2693 as texts that can be read with any arithmetic.
    - [T] with add, sub, mul, div, zero and one is the arithmetic.  Reading the texts with SFadd, SFsub, SFmul, SFdiv gives
      what the code computes with real_t a binary floating point type (round to nearest, ties to even, in the order of the
      text; no contraction to fma, no excess precision, no reassociation).
    - as in LagrangeModel.v, whose reading over exact reals is recovered in FloatLagrangeProps.v (C163_text): vectors are
      functions of the index and large enough, orderN is a natural number, the reference parameters are distinct vectors,
      and the text of lagrange_1D is the same in both classes. *)
From Coq Require Import Arith List Bool ZArith SpecFloat Reals.
From Verif Require Import Outcome VectorModel LagrangeModel FloatModel FloatExpr.
Import ListNotations.
Local Open Scope nat_scope.

Section Text.
Context {T : Type} (add sub mul div : T -> T -> T) (zero one : T).
Definition lvec := nat -> T.
Definition lset (v : lvec) (i : nat) (x : T) : lvec := fun k => if Nat.eqb k i then x else v k.
(* elements.cc 2191-2217: n, d, c, p, q *)
Record lagT := { l_n : T; l_d : T; l_c : T; l_p : T; l_q : T }.
(* 2203-2210: s, over N != j, N != i *)
Definition lag_sT (order : nat) (x : T) (xi : lvec) (i j : nat) : T :=
  loop (order + 1) (fun N s => if (negb (N =? j) && negb (N =? i))%bool then mul s (sub x (xi N)) else s) one.
(* 2199-2217: body of the loop over j *)
Definition lag_bodyT (order : nat) (x : T) (xi : lvec) (i j : nat) (s : lagT) : lagT :=
  let '(n, d, p) := if negb (j =? i)
    then (mul (l_n s) (sub x (xi j)), mul (l_d s) (sub (xi i) (xi j)), add (l_p s) (lag_sT order x xi i j))
    else (l_n s, l_d s, l_p s) in
  {| l_n := n; l_d := d; l_c := div n d; l_p := p; l_q := div p d |}.
(* 2191-2223: loop over i; q is declared outside of it *)
Definition lagrange_1DT (order : nat) (x : T) (xi : lvec) (interp Dinterp : lvec) : lvec * lvec :=
  fst (loop (order + 1) (fun i st => let '((interp, Dinterp), q) := st in
    let s := loop (order + 1) (lag_bodyT order x xi i) {| l_n := one; l_d := one; l_c := one; l_p := zero; l_q := q |} in
    ((lset interp i (l_c s), lset Dinterp i (l_q s)), l_q s)) ((interp, Dinterp), zero)).

(** ** basis_partials *)
Record tensorT := { f_nodes : nat -> lvec; f_val1 : lvec; f_dval1 : lvec; f_val : nat -> lvec; f_dval : nat -> lvec;
  f_basis : lvec; f_partial : nat -> lvec }.
Definition lset2 (a : nat -> lvec) (m d : nat) (x : T) : nat -> lvec := fun k => if Nat.eqb k m then lset (a m) d x else a k.
(* 2358-2366: one direction d of node m, with the 1-based 1-D index i: lagrange_1D, copy, reset *)
Definition directionT (order : nat) (nodes1 : lvec) (xi : lvec) (m d i : nat) (t : tensorT) : tensorT :=
  let '(v, dv) := lagrange_1DT order (xi d) nodes1 (f_val1 t) (f_dval1 t) in
  let val := lset2 (f_val t) m d (v (i - 1)) in
  let dval := lset2 (f_dval t) m d (dv (i - 1)) in
  let v := loop (order + 1) (fun i v => lset v i zero) v in
  let dv := loop (order + 1) (fun i v => lset v i zero) dv in
  {| f_nodes := f_nodes t; f_val1 := v; f_dval1 := dv; f_val := val; f_dval := dval; f_basis := f_basis t;
     f_partial := f_partial t |}.
Definition with_nodesT (t : tensorT) (n : nat -> lvec) : tensorT :=
  {| f_nodes := n; f_val1 := f_val1 t; f_dval1 := f_dval1 t; f_val := f_val t; f_dval := f_dval t; f_basis := f_basis t;
     f_partial := f_partial t |}.
Definition with_resultT (t : tensorT) (b : lvec) (p : nat -> lvec) : tensorT :=
  {| f_nodes := f_nodes t; f_val1 := f_val1 t; f_dval1 := f_dval1 t; f_val := f_val t; f_dval := f_dval t; f_basis := b;
     f_partial := p |}.
(* 2292-2391 QuadN::basis_partials, body of the loop over m; the index arithmetic is quadn_idx of LagrangeModel.v *)
Definition quadn_bodyT (order : nat) (nodes1 xi : lvec) (m : nat) (t : tensorT) : tensorT :=
  let '(i, j) := quadn_idx (order + 1) m in
  let t := with_nodesT t (lset2 (lset2 (f_nodes t) m 0 (nodes1 (i - 1))) m 1 (nodes1 (j - 1))) in
  let t := directionT order nodes1 xi m 0 i t in
  let t := directionT order nodes1 xi m 1 j t in
  let basis := lset (f_basis t) m (mul (f_val t m 0) (f_val t m 1)) in
  let par := lset2 (f_partial t) m 0 (mul (f_dval t m 0) (f_val t m 1)) in
  let par := lset2 par m 1 (mul (f_val t m 0) (f_dval t m 1)) in
  with_resultT t basis par.
Definition quadn_basis_partialsT (order : nat) (nodes1 xi : lvec) (t : tensorT) : tensorT :=
  loop ((order + 1) * (order + 1)) (quadn_bodyT order nodes1 xi) t.
(* 2574-2693 HexN::basis_partials *)
Definition hexn_bodyT (order : nat) (nodes1 xi : lvec) (m : nat) (t : tensorT) : tensorT :=
  let '(i, j, k) := hexn_idx (order + 1) m in
  let t := with_nodesT t (lset2 (lset2 (lset2 (f_nodes t) m 0 (nodes1 (i - 1))) m 1 (nodes1 (j - 1))) m 2 (nodes1 (k - 1))) in
  let t := directionT order nodes1 xi m 0 i t in
  let t := directionT order nodes1 xi m 1 j t in
  let t := directionT order nodes1 xi m 2 k t in
  let basis := lset (f_basis t) m (mul (mul (f_val t m 0) (f_val t m 1)) (f_val t m 2)) in
  let par := lset2 (f_partial t) m 0 (mul (mul (f_dval t m 0) (f_val t m 1)) (f_val t m 2)) in
  let par := lset2 par m 1 (mul (mul (f_val t m 0) (f_dval t m 1)) (f_val t m 2)) in
  let par := lset2 par m 2 (mul (mul (f_val t m 0) (f_val t m 1)) (f_dval t m 2)) in
  with_resultT t basis par.
Definition hexn_basis_partialsT (order : nat) (nodes1 xi : lvec) (t : tensorT) : tensorT :=
  loop ((order + 1) * ((order + 1) * (order + 1))) (hexn_bodyT order nodes1 xi) t.
End Text.

(** ** the readings *)
Section Floating.
Variables prec emax : Z.
Definition flagrange_1D := lagrange_1DT (SFadd prec emax) (SFsub prec emax) (SFmul prec emax) (SFdiv prec emax) f0 (of_int prec emax 1).
Definition fquadn := quadn_basis_partialsT (SFadd prec emax) (SFsub prec emax) (SFmul prec emax) (SFdiv prec emax) f0 (of_int prec emax 1).
Definition fhexn := hexn_basis_partialsT (SFadd prec emax) (SFsub prec emax) (SFmul prec emax) (SFdiv prec emax) f0 (of_int prec emax 1).
End Floating.
Definition rlagrange_1D := lagrange_1DT Rplus Rminus Rmult Rdiv 0%R 1%R.
Definition rquadn := quadn_basis_partialsT Rplus Rminus Rmult Rdiv 0%R 1%R.
Definition rhexn := hexn_basis_partialsT Rplus Rminus Rmult Rdiv 0%R 1%R.
