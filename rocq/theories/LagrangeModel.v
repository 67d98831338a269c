(** Arbitrary-order Lagrange elements QuadN and HexN: ristra/elements/elements.cc 2162-2693, over exact reals.
    - real_t is R; vectors are functions of the index and large enough (their sizes are not modelled);
      orderN is a natural number.
    - the reference parameters of basis_partials are distinct vectors (no aliasing), held in one record.
    - the text of chebyshev_nodes_1D and lagrange_1D is the same in both classes, so there is one model for both.
    - the printing in corners() is not modelled. *)
From Coq Require Import Reals List ZArith Arith Lia.
From Verif Require Import Outcome VectorModel.
Import ListNotations.
Open Scope R_scope.

(* elements.cc 2162-2176 and 2425-2439 chebyshev_nodes_1D; [pi] is the local constant, see [pi_literal] *)
Definition chebyshev_nodes_1D (pi : R) (order : nat) (v : vec) : vec :=
  (* for (i = 1; i < order + 1; i++), with i = i0 + 1 *)
  let v := loop order (fun i0 v => let i := S i0 in
    set v (i - 1) (- cos (pi * (2 * INR i - 1) / (2 * (INR order + 1))))) v in
  let v := set v 0 (-1) in
  set v order 1.
(* 2166: the literal, as a real number *)
Definition pi_literal : R := 314159265358979323846 / 10 ^ 20.
(* ... and as the double nearest to it *)
Definition pi_double : R := 884279719003555 / 2 ^ 48.

(* elements.cc 2180-2224 and 2443-2487 lagrange_1D.  State of the inner loop: n, d, c, p, q *)
Record lag := { lag_n : R; lag_d : R; lag_c : R; lag_p : R; lag_q : R }.
(* 2203-2210: s, over N != j, N != i *)
Definition lag_s (order : nat) (x : R) (xi : vec) (i j : nat) : R :=
  loop (order + 1) (fun N s => if (negb (N =? j) && negb (N =? i))%bool then s * (x - xi N) else s) 1.
(* 2199-2217: body of the loop over j *)
Definition lag_body (order : nat) (x : R) (xi : vec) (i j : nat) (s : lag) : lag :=
  let '(n, d, p) := if negb (j =? i)
    then (lag_n s * (x - xi j), lag_d s * (xi i - xi j), lag_p s + lag_s order x xi i j)
    else (lag_n s, lag_d s, lag_p s) in
  {| lag_n := n; lag_d := d; lag_c := n / d; lag_p := p; lag_q := p / d |}.
(* 2191-2223: loop over i; q is declared outside of it *)
Definition lagrange_1D (order : nat) (x : R) (xi : vec) (interp Dinterp : vec) : vec * vec :=
  fst (loop (order + 1) (fun i st => let '((interp, Dinterp), q) := st in
    let s := loop (order + 1) (lag_body order x xi i) {| lag_n := 1; lag_d := 1; lag_c := 1; lag_p := 0; lag_q := q |} in
    ((set interp i (lag_c s), set Dinterp i (lag_q s)), lag_q s)) ((interp, Dinterp), 0)).

(** ** basis_partials *)
Record tensor := { t_nodes : nat -> vec; t_val1 : vec; t_dval1 : vec; t_val : nat -> vec; t_dval : nat -> vec;
  t_basis : vec; t_partial : nat -> vec }.
Definition set2 (a : nat -> vec) (m d : nat) (x : R) : nat -> vec := fun k => if Nat.eqb k m then set (a m) d x else a k.
(* 2358-2366: one direction d of node m, with the 1-based 1-D index i: lagrange_1D, copy, reset *)
Definition direction (order : nat) (nodes1 : vec) (xi : vec) (m d i : nat) (t : tensor) : tensor :=
  let '(v, dv) := lagrange_1D order (xi d) nodes1 (t_val1 t) (t_dval1 t) in
  let val := set2 (t_val t) m d (v (i - 1)%nat) in
  let dval := set2 (t_dval t) m d (dv (i - 1)%nat) in
  let v := loop (order + 1) (fun i v => set v i 0) v in
  let dv := loop (order + 1) (fun i v => set v i 0) dv in
  {| t_nodes := t_nodes t; t_val1 := v; t_dval1 := dv; t_val := val; t_dval := dval; t_basis := t_basis t;
     t_partial := t_partial t |}.
Definition with_nodes (t : tensor) (n : nat -> vec) : tensor :=
  {| t_nodes := n; t_val1 := t_val1 t; t_dval1 := t_dval1 t; t_val := t_val t; t_dval := t_dval t; t_basis := t_basis t;
     t_partial := t_partial t |}.
Definition with_result (t : tensor) (b : vec) (p : nat -> vec) : tensor :=
  {| t_nodes := t_nodes t; t_val1 := t_val1 t; t_dval1 := t_dval1 t; t_val := t_val t; t_dval := t_dval t; t_basis := b;
     t_partial := p |}.
(* elements.cc 2344-2345: j = floor(m/N)+1; i = (m+1) - N*(j-1), all int, m >= 0 *)
Definition quadn_idx (N m : nat) : nat * nat :=
  let j := (m / N + 1)%nat in
  let i := ((m + 1) - N * (j - 1))%nat in (i, j).
(* 2292-2391 QuadN::basis_partials, body of the loop over m *)
Definition quadn_body (order : nat) (nodes1 xi : vec) (m : nat) (t : tensor) : tensor :=
  let '(i, j) := quadn_idx (order + 1) m in
  let t := with_nodes t (set2 (set2 (t_nodes t) m 0 (nodes1 (i - 1)%nat)) m 1 (nodes1 (j - 1)%nat)) in
  let t := direction order nodes1 xi m 0 i t in
  let t := direction order nodes1 xi m 1 j t in
  let basis := set (t_basis t) m (t_val t m 0%nat * t_val t m 1%nat) in
  let par := set2 (t_partial t) m 0 (t_dval t m 0%nat * t_val t m 1%nat) in
  let par := set2 par m 1 (t_val t m 0%nat * t_dval t m 1%nat) in
  with_result t basis par.
Definition quadn_basis_partials (order : nat) (nodes1 xi : vec) (t : tensor) : tensor :=
  loop ((order + 1) * (order + 1)) (quadn_body order nodes1 xi) t.
(* elements.cc 2625-2632 *)
Definition hexn_idx (N m : nat) : nat * nat * nat :=
  let p12 := (N * N)%nat in
  let k := (m / p12 + 1)%nat in
  let jj := ((m + 1) - p12 * (k - 1))%nat in
  let j := ((jj - 1) / N + 1)%nat in
  let i := (jj - N * (j - 1))%nat in (i, j, k).
(* 2574-2693 HexN::basis_partials *)
Definition hexn_body (order : nat) (nodes1 xi : vec) (m : nat) (t : tensor) : tensor :=
  let '(i, j, k) := hexn_idx (order + 1) m in
  let t := with_nodes t (set2 (set2 (set2 (t_nodes t) m 0 (nodes1 (i - 1)%nat)) m 1 (nodes1 (j - 1)%nat))
    m 2 (nodes1 (k - 1)%nat)) in
  let t := direction order nodes1 xi m 0 i t in
  let t := direction order nodes1 xi m 1 j t in
  let t := direction order nodes1 xi m 2 k t in
  let basis := set (t_basis t) m (t_val t m 0%nat * t_val t m 1%nat * t_val t m 2%nat) in
  let par := set2 (t_partial t) m 0 (t_dval t m 0%nat * t_val t m 1%nat * t_val t m 2%nat) in
  let par := set2 par m 1 (t_val t m 0%nat * t_dval t m 1%nat * t_val t m 2%nat) in
  let par := set2 par m 2 (t_val t m 0%nat * t_val t m 1%nat * t_dval t m 2%nat) in
  with_result t basis par.
Definition hexn_basis_partials (order : nat) (nodes1 xi : vec) (t : tensor) : tensor :=
  loop ((order + 1) * ((order + 1) * (order + 1))) (hexn_body order nodes1 xi) t.

(** ** corners, 2251-2270 and 2518-2552 (N - 1.0 etc. are exact) *)
Definition quadn_corner_index (order c : nat) : nat :=
  let N := (order + 1)%nat in
  match c with
  | 0 => 0
  | 1 => N - 1
  | 2 => N * N - N
  | _ => N * N - 1
  end%nat.
Definition quadn_corners (order : nat) (nodes corner : nat -> vec) : nat -> vec :=
  fun c => if (c <? 4)%nat then nodes (quadn_corner_index order c) else corner c.
Definition hexn_corner_index (order c : nat) : nat :=
  let N := (order + 1)%nat in
  match c with
  | 0 => 0
  | 1 => N - 1
  | 2 => N * N - N
  | 3 => N * N - 1
  | 4 => N * N * N - N * N
  | 5 => N * N * N - N * N + N - 1
  | 6 => N * N * N - N
  | _ => N * N * N - 1
  end%nat.
Definition hexn_corners (order : nat) (nodes corner : nat -> vec) : nat -> vec :=
  fun c => if (c <? 8)%nat then nodes (hexn_corner_index order c) else corner c.

(** ** physical_position: 2275-2290 (dim < 1) and 2557-2572 (dim < 2); x_point is not reset *)
Definition lag_position (numnodes dims : nat) (nodes : nat -> vec) (basis : vec) (x_point : vec) : vec :=
  loop numnodes (fun v x => loop dims (fun dim x => set x dim (x dim + nodes v dim * basis v)) x) x_point.
Definition quadn_position (order : nat) := lag_position ((order + 1) * (order + 1)) 1.
Definition hexn_position (order : nat) := lag_position ((order + 1) * (order + 1) * (order + 1)) 2.
