(** Which vector entries the routines of ristra/elements/elements.cc 222-838 and 2162-2693 read and write.
    The other element models ([QuadratureModel], [JacobianModel], [LagrangeModel]) take vectors as functions that are
    defined everywhere.  Here a std::vector is a list, operator[] outside of it is undefined, and the routines are loops
    over these lists.
    - real_t is R; int is nat (no overflow); the reference parameters are distinct objects.
    - the texts of QuadN and HexN are the same for chebyshev_nodes_1D and lagrange_1D, so there is one model for both.
    - num and denom of lagrange_1D, sumi, sumj and sumk are never read and left out.
    - the printing in corners() is modelled by the entries it reads.
    Tess16, the serendipity elements and line rules are not repeated here. *)
From Coq Require Import Reals List ZArith Arith Lia.
From Verif Require Import Outcome VectorModel QuadratureModel JacobianModel LagrangeModel.
Import ListNotations.
Local Open Scope R_scope.

(** ** std::vector *)
(* v[i], as a value *)
Definition rd {T} (v : list T) (i : nat) : outcome T := match nth_error v i with Some x => Ok x | None => UB end.
Fixpoint upd {T} (v : list T) (i : nat) (x : T) : list T :=
  match v, i with
  | [], _ => []
  | _ :: v, O => x :: v
  | y :: v, S i => y :: upd v i x
  end.
(* v[i] = x *)
Definition wr {T} (v : list T) (i : nat) (x : T) : outcome (list T) := if (i <? length v)%nat then Ok (upd v i x) else UB.
Definition vv := list (list R).
(* v[i][j] *)
Definition rd2 (v : vv) (i j : nat) : outcome R := bind (rd v i) (fun r => rd r j).
(* v[i][j] = x *)
Definition wr2 (v : vv) (i j : nat) (x : R) : outcome vv := bind (rd v i) (fun r => bind (wr r j x) (fun r => wr v i r)).
(* for (i = 0; i < n; i++) body *)
Fixpoint mloop {S : Type} (n : nat) (body : nat -> S -> outcome S) (s : S) : outcome S :=
  match n with O => Ok s | Datatypes.S k => bind (mloop k body s) (body k) end.

(** ** quadrature rules; [line] is LineGaussRuleInfo or LineLobattoRuleInfo *)
(* one direction, e.g. elements.cc 245-248: line rule, these_g_pts[m][d] = x, these_weights[m][d] *= w *)
Definition m_axis (line : Z -> Z -> outcome (R * R)) (n : nat) (m d : nat) (i : Z) (s : vv * vv) : outcome (vv * vv) :=
  bind (line i (Z.of_nat n)) (fun xw =>
  bind (wr2 (fst s) m d (fst xw)) (fun pts =>
  bind (rd2 (snd s) m d) (fun w =>
  bind (wr2 (snd s) m d (w * snd xw)) (fun wts => Ok (pts, wts))))).
(* 230-252 and 392-415: the loop of Gauss2D and of Lobatto2D *)
Definition m_tensor2 (line : Z -> Z -> outcome (R * R)) (n : nat) (s : vv * vv) : outcome (vv * vv) :=
  mloop (n * n) (fun m s => let '(i, j) := idx2 (Z.of_nat n) (Z.of_nat m) in
    bind (wr (snd s) m [1; 1]) (fun wts =>
    bind (m_axis line n m 0 i (fst s, wts)) (m_axis line n m 1 j))) s.
(* 274-306 and 427-463: Gauss3D, Lobatto3D *)
Definition m_tensor3 (line : Z -> Z -> outcome (R * R)) (n : nat) (s : vv * vv) : outcome (vv * vv) :=
  mloop (n * n * n) (fun m s => let '(i, j, k) := idx3 (Z.of_nat n) (Z.of_nat m) in
    bind (wr (snd s) m [1; 1; 1]) (fun wts =>
    bind (m_axis line n m 0 i (fst s, wts)) (fun s =>
    bind (m_axis line n m 1 j s) (m_axis line n m 2 k)))) s.
(* 331-381 and 476-523: Gauss4D, Lobatto4D *)
Definition m_tensor4 (line : Z -> Z -> outcome (R * R)) (n : nat) (dim : Z) (s : vv * vv) : outcome (vv * vv) :=
  mloop (n * n * n * n) (fun m s => let '(i, j, k, l) := idx4 (Z.of_nat n) dim (Z.of_nat m) in
    bind (wr (snd s) m [1; 1; 1; 1]) (fun wts =>
    bind (m_axis line n m 0 i (fst s, wts)) (fun s =>
    bind (m_axis line n m 1 j s) (fun s =>
    bind (m_axis line n m 2 k s) (m_axis line n m 3 l))))) s.
(* 254-258 *)
Definition m_tot2 (n : nat) (wts : vv) (tot : list R) : outcome (list R) :=
  mloop (n * n) (fun v tot => bind (rd2 wts v 0) (fun a => bind (rd2 wts v 1) (fun b => wr tot v (a * b)))) tot.
(* 309-314 *)
Definition m_tot3 (n : nat) (wts : vv) (tot : list R) : outcome (list R) :=
  mloop (n * n * n) (fun v tot => bind (rd2 wts v 0) (fun a => bind (rd2 wts v 1) (fun b => bind (rd2 wts v 2) (fun c =>
    wr tot v (a * b * c))))) tot.
(* 222-262 Gauss2D: these_g_pts, these_weights, tot_g_weight *)
Definition m_Gauss2D (n : nat) (pts wts : vv) (tot : list R) : outcome (vv * vv * list R) :=
  bind (m_tensor2 line_gauss n (pts, wts)) (fun s => bind (m_tot2 n (snd s) tot) (fun tot => Ok (s, tot))).
(* 265-319 Gauss3D *)
Definition m_Gauss3D (n : nat) (pts wts : vv) (tot : list R) : outcome (vv * vv * list R) :=
  bind (m_tensor3 line_gauss n (pts, wts)) (fun s => bind (m_tot3 n (snd s) tot) (fun tot => Ok (s, tot))).
(* 322-382 Gauss4D, 385-417 Lobatto2D, 420-464 Lobatto3D, 467-524 Lobatto4D *)
Definition m_Gauss4D (n : nat) (dim : Z) (pts wts : vv) := m_tensor4 line_gauss n dim (pts, wts).
Definition m_Lobatto2D (n : nat) (pts wts : vv) := m_tensor2 line_lobatto n (pts, wts).
Definition m_Lobatto3D (n : nat) (pts wts : vv) := m_tensor3 line_lobatto n (pts, wts).
Definition m_Lobatto4D (n : nat) (dim : Z) (pts wts : vv) := m_tensor4 line_lobatto n dim (pts, wts).

(** ** Jacobians *)
(* 537-541 and 574-578 *)
Definition m_jac_zero (dim : nat) (J : vv) : outcome vv :=
  mloop dim (fun j J => mloop dim (fun k J => wr2 J j k 0) J) J.
(* 544-552 and 581-589: +=, so the entry is read, too *)
Definition m_jac_fill (n dim : nat) (vertices partial : vv) (J : vv) : outcome vv :=
  mloop dim (fun j J => mloop dim (fun k J => mloop n (fun v J =>
    bind (rd2 J j k) (fun a => bind (rd2 vertices v k) (fun x => bind (rd2 partial v j) (fun p =>
      wr2 J j k (a + x * p))))) J) J) J.
(* the determinants and inverses read every entry of the r x r block: 3 (556-561), 4 (591-614), 2 (623-629),
   3 (637-671), 4 (684-697) *)
Fixpoint rd_row (J : vv) (i c : nat) : outcome (list R) :=
  match c with O => Ok [] | S c => bind (rd_row J i c) (fun l => bind (rd2 J i c) (fun x => Ok (l ++ [x]))) end.
Fixpoint rd_block (J : vv) (r c : nat) : outcome vv :=
  match r with O => Ok [] | S r => bind (rd_block J r c) (fun l => bind (rd_row J r c) (fun x => Ok (l ++ [x]))) end.
(* 527-562 jacobian: J_matrix and det_J *)
Definition m_jacobian (J vertices partial : vv) (n dim : nat) : outcome (vv * R) :=
  bind (m_jac_zero dim J) (fun J => bind (m_jac_fill n dim vertices partial J) (fun J => bind (rd_block J 3 3) (fun B =>
    Ok (J, jac_det23 (mat_of B) (IZR (Z.abs (Z.of_nat dim - 3))) (IZR (Z.abs (Z.of_nat dim - 2))))))).
(* 565-616 jacobian4D *)
Definition m_jacobian4D (J vertices partial : vv) (n dim : nat) : outcome (vv * R) :=
  bind (m_jac_zero dim J) (fun J => bind (m_jac_fill n dim vertices partial J) (fun J => bind (rd_block J 4 4) (fun B =>
    Ok (J, jac_det4 (mat_of B))))).
(* 619-630 jacobian_inverse_2d assigns a new 2 x 2 value to J_inverse, whatever its size was *)
Definition m_inverse_2d (J : vv) : outcome vv :=
  bind (rd_block J 2 2) (fun B => let I := jacobian_inverse_2d (mat_of B) in
    Ok [[I 0%nat 0%nat; I 0%nat 1%nat]; [I 1%nat 0%nat; I 1%nat 1%nat]]).
(* 633-673 jacobian_inverse_3d, likewise *)
Definition m_inverse_3d (J : vv) : outcome vv :=
  bind (rd_block J 3 3) (fun B => let I := jacobian_inverse_3d (mat_of B) in
    Ok [[I 0%nat 0%nat; I 0%nat 1%nat; I 0%nat 2%nat]; [I 1%nat 0%nat; I 1%nat 1%nat; I 1%nat 2%nat];
        [I 2%nat 0%nat; I 2%nat 1%nat; I 2%nat 2%nat]]).
(* 819-836: the 16 entries, row by row *)
Definition m_put4 (I : nat -> R) (Jinv : vv) : outcome vv :=
  mloop 4 (fun i Jinv => mloop 4 (fun j Jinv => wr2 Jinv i j (I (4 * i + j)%nat)) Jinv) Jinv.
(* 676-838 jacobian_inverse_4d writes into the existing rows of J_inverse_matrix *)
Definition m_inverse_4d (Jinv J : vv) (det_J : R) : outcome vv :=
  bind (rd_block J 4 4) (fun B => m_put4 (fun a => inv16 (flat4 (mat_of B)) a * (1 / det_J)) Jinv).

(** ** QuadN and HexN *)
(* 2162-2176 and 2425-2439 *)
Definition m_chebyshev (pi : R) (order : nat) (v : list R) : outcome (list R) :=
  bind (mloop order (fun i0 v => let i := S i0 in
    wr v (i - 1) (- cos (pi * (2 * INR i - 1) / (2 * (INR order + 1))))) v) (fun v =>
  bind (wr v 0 (-1)) (fun v => wr v order 1)).
(* 2202-2210 and 2465-2473 *)
Definition m_lag_s (order : nat) (x : R) (xi : list R) (i j : nat) : outcome R :=
  mloop (order + 1) (fun N s =>
    if (negb (N =? j) && negb (N =? i))%bool then bind (rd xi N) (fun y => Ok (s * (x - y))) else Ok s) 1.
(* 2197-2217 and 2460-2480 *)
Definition m_lag_body (order : nat) (x : R) (xi : list R) (i j : nat) (s : lag) : outcome lag :=
  let last n d p := Ok {| lag_n := n; lag_d := d; lag_c := n / d; lag_p := p; lag_q := p / d |} in
  if negb (j =? i)
  then bind (rd xi j) (fun xj => bind (rd xi i) (fun xi_i => bind (m_lag_s order x xi i j) (fun t =>
    last (lag_n s * (x - xj)) (lag_d s * (xi_i - xj)) (lag_p s + t))))
  else last (lag_n s) (lag_d s) (lag_p s).
(* 2180-2224 and 2443-2487 lagrange_1D: interp and Dinterp, and q *)
Definition m_lag_node (order : nat) (x : R) (xi : list R) (i : nat) (st : list R * list R * R) : outcome (list R * list R * R) :=
  let '((interp, Dinterp), q) := st in
  bind (mloop (order + 1) (m_lag_body order x xi i) {| lag_n := 1; lag_d := 1; lag_c := 1; lag_p := 0; lag_q := q |}) (fun s =>
  bind (wr interp i (lag_c s)) (fun interp => bind (wr Dinterp i (lag_q s)) (fun Dinterp =>
    Ok ((interp, Dinterp), lag_q s)))).
Definition m_lagrange_1D (order : nat) (x : R) (xi interp Dinterp : list R) : outcome (list R * list R) :=
  bind (mloop (order + 1) (m_lag_node order x xi) ((interp, Dinterp), 0)) (fun st => Ok (fst st)).

(* the vectors that basis_partials writes *)
Record mtensor := { mt_nodes : vv; mt_val1 : list R; mt_dval1 : list R; mt_val : vv; mt_dval : vv; mt_basis : list R;
  mt_partial : vv }.
(* 2358-2366: lagrange_1D at xi_point[d], copy the entry of the 1-based 1-D index i, reset the 1-D vectors *)
Definition m_direction (order : nat) (nodes1 xi : list R) (m d i : nat) (t : mtensor) : outcome mtensor :=
  bind (rd xi d) (fun x =>
  bind (m_lagrange_1D order x nodes1 (mt_val1 t) (mt_dval1 t)) (fun vd =>
  bind (rd (fst vd) (i - 1)) (fun a => bind (wr2 (mt_val t) m d a) (fun val =>
  bind (rd (snd vd) (i - 1)) (fun b => bind (wr2 (mt_dval t) m d b) (fun dval =>
  bind (mloop (order + 1) (fun i vd => bind (wr (fst vd) i 0) (fun v => bind (wr (snd vd) i 0) (fun dv => Ok (v, dv)))) vd) (fun vd =>
    Ok {| mt_nodes := mt_nodes t; mt_val1 := fst vd; mt_dval1 := snd vd; mt_val := val; mt_dval := dval;
          mt_basis := mt_basis t; mt_partial := mt_partial t |}))))))).
(* lag_nodes[m][d] = nodes_1d[i-1] *)
Definition m_node (nodes1 : list R) (m d i : nat) (t : mtensor) : outcome mtensor :=
  bind (rd nodes1 (i - 1)) (fun x => bind (wr2 (mt_nodes t) m d x) (fun nodes =>
    Ok {| mt_nodes := nodes; mt_val1 := mt_val1 t; mt_dval1 := mt_dval1 t; mt_val := mt_val t; mt_dval := mt_dval t;
          mt_basis := mt_basis t; mt_partial := mt_partial t |})).
(* lag_basis[m] = x *)
Definition m_basis (m : nat) (x : R) (t : mtensor) : outcome mtensor :=
  bind (wr (mt_basis t) m x) (fun b =>
    Ok {| mt_nodes := mt_nodes t; mt_val1 := mt_val1 t; mt_dval1 := mt_dval1 t; mt_val := mt_val t; mt_dval := mt_dval t;
          mt_basis := b; mt_partial := mt_partial t |}).
(* lag_partial[m][d] = x *)
Definition m_partial (m d : nat) (x : R) (t : mtensor) : outcome mtensor :=
  bind (wr2 (mt_partial t) m d x) (fun p =>
    Ok {| mt_nodes := mt_nodes t; mt_val1 := mt_val1 t; mt_dval1 := mt_dval1 t; mt_val := mt_val t; mt_dval := mt_dval t;
          mt_basis := mt_basis t; mt_partial := p |}).
(* 2334-2390 QuadN::basis_partials *)
Definition m_quadn_body (order : nat) (nodes1 xi : list R) (m : nat) (t : mtensor) : outcome mtensor :=
  let '(i, j) := quadn_idx (order + 1) m in
  bind (m_node nodes1 m 0 i t) (fun t => bind (m_node nodes1 m 1 j t) (fun t =>
  bind (m_direction order nodes1 xi m 0 i t) (fun t => bind (m_direction order nodes1 xi m 1 j t) (fun t =>
  bind (rd2 (mt_val t) m 0) (fun v0 => bind (rd2 (mt_val t) m 1) (fun v1 =>
  bind (rd2 (mt_dval t) m 0) (fun d0 => bind (rd2 (mt_dval t) m 1) (fun d1 =>
  bind (m_basis m (v0 * v1) t) (fun t => bind (m_partial m 0 (d0 * v1) t) (m_partial m 1 (v0 * d1))))))))))).
Definition m_quadn (order : nat) (nodes1 xi : list R) (t : mtensor) : outcome mtensor :=
  mloop ((order + 1) * (order + 1)) (m_quadn_body order nodes1 xi) t.
(* 2616-2692 HexN::basis_partials *)
Definition m_hexn_body (order : nat) (nodes1 xi : list R) (m : nat) (t : mtensor) : outcome mtensor :=
  let '(i, j, k) := hexn_idx (order + 1) m in
  bind (m_node nodes1 m 0 i t) (fun t => bind (m_node nodes1 m 1 j t) (fun t => bind (m_node nodes1 m 2 k t) (fun t =>
  bind (m_direction order nodes1 xi m 0 i t) (fun t => bind (m_direction order nodes1 xi m 1 j t) (fun t =>
  bind (m_direction order nodes1 xi m 2 k t) (fun t =>
  bind (rd2 (mt_val t) m 0) (fun v0 => bind (rd2 (mt_val t) m 1) (fun v1 => bind (rd2 (mt_val t) m 2) (fun v2 =>
  bind (rd2 (mt_dval t) m 0) (fun d0 => bind (rd2 (mt_dval t) m 1) (fun d1 => bind (rd2 (mt_dval t) m 2) (fun d2 =>
  bind (m_basis m (v0 * v1 * v2) t) (fun t => bind (m_partial m 0 (d0 * v1 * v2) t) (fun t =>
  bind (m_partial m 1 (v0 * d1 * v2) t) (m_partial m 2 (v0 * v1 * d2)))))))))))))))).
Definition m_hexn (order : nat) (nodes1 xi : list R) (t : mtensor) : outcome mtensor :=
  mloop ((order + 1) * ((order + 1) * (order + 1))) (m_hexn_body order nodes1 xi) t.

(* 2251-2270 and 2518-2552: lag_corner[c] = lag_nodes[index c], then entries 0 .. D-1 of it are printed *)
Definition m_corner (nodes : vv) (D c index : nat) (corner : vv) : outcome vv :=
  bind (rd nodes index) (fun r => bind (wr corner c r) (fun corner =>
    bind (mloop D (fun d _ => bind (rd2 corner c d) (fun _ => Ok tt)) tt) (fun _ => Ok corner))).
Definition m_quadn_corners (order : nat) (nodes corner : vv) : outcome vv :=
  mloop 4 (fun c => m_corner nodes 2 c (quadn_corner_index order c)) corner.
Definition m_hexn_corners (order : nat) (nodes corner : vv) : outcome vv :=
  mloop 8 (fun c => m_corner nodes 3 c (hexn_corner_index order c)) corner.
(* 2283-2289 and 2565-2571 physical_position *)
Definition m_position (numnodes dims : nat) (nodes : vv) (basis x_point : list R) : outcome (list R) :=
  mloop numnodes (fun v x => mloop dims (fun dim x =>
    bind (rd x dim) (fun a => bind (rd2 nodes v dim) (fun n => bind (rd basis v) (fun b => wr x dim (a + n * b))))) x) x_point.
Definition m_quadn_position (order : nat) := m_position ((order + 1) * (order + 1)) 1.
Definition m_hexn_position (order : nat) := m_position ((order + 1) * (order + 1) * (order + 1)) 2.
