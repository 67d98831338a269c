(** Which vector entries the routines of the fixed-order elements of ristra/elements/elements.cc read and write (840-2127 and
    2695-2880: Quad_4_2D, Quad_8_2D, Quad_12_2D, Hex8, Hex20, Hex32, Tess16), transcribed a second time, independently of
    [ElementsModel], with vectors that have a size.
    - a routine is a list of loops; a loop assigns an expression in the entries of the point and of ref_vert to the entries
      lo, lo + step, ... below hi of its result.
    - real_t is R; the reference parameters are distinct objects.
    - check_unity and sum are never read and left out; they read shape_fcn only.
    - Tess16 reads its member ref_vert, which is a parameter here and taken to hold values ([ElementsModel] has the case that
      it does not). *)
From Coq Require Import Reals List ZArith Arith Lia.
From Verif Require Import Outcome VectorModel ElementsMemModel.
Import ListNotations.
Local Open Scope R_scope.

(** ** expressions *)
Inductive el := Cst (r : R) | X (d : nat) | F (d : nat) | Add (a b : el) | Sub (a b : el) | Mul (a b : el) | Div (a b : el).
Declare Scope el_scope.
Delimit Scope el_scope with el.
Bind Scope el_scope with el.
Infix "+" := Add : el_scope.
Infix "-" := Sub : el_scope.
Infix "*" := Mul : el_scope.
Infix "/" := Div : el_scope.
Notation "# r" := (Cst r%R) (at level 0, r at level 0, format "# r") : el_scope.
(* F d is ref_vert[this_vert][d], X d is entry d of the point *)
Fixpoint ev (ref : vv) (xi : list R) (i : nat) (e : el) : outcome R :=
  let two f a b := bind (ev ref xi i a) (fun x => bind (ev ref xi i b) (fun y => Ok (f x y))) in
  match e with
  | Cst r => Ok r
  | X d => rd xi d
  | F d => rd2 ref i d
  | Add a b => two Rplus a b
  | Sub a b => two Rminus a b
  | Mul a b => two Rmult a b
  | Div a b => two Rdiv a b
  end.
(** ** routines *)
Record seg := For { lo : nat; hi : nat; stp : nat; what : el }.
Definition upto (s : seg) : list nat := map (fun k => lo s + k * stp s)%nat (seq 0 ((hi s - lo s + stp s - 1) / stp s)).
Definition s_step (ref : vv) (xi : list R) (e : el) (out : outcome (list R)) (i : nat) : outcome (list R) :=
  bind out (fun out => bind (ev ref xi i e) (fun v => wr out i v)).
Definition s_for (ref : vv) (xi : list R) (out : outcome (list R)) (s : seg) : outcome (list R) :=
  fold_left (s_step ref xi (what s)) (upto s) out.
Definition s_run (segs : list seg) (ref : vv) (xi out : list R) : outcome (list R) := fold_left (s_for ref xi) segs (Ok out).
(* "x_point[dim] = 0.0" for dim < D, then the sum over the vertices, e.g. 902-916 *)
Definition s_zero (D : nat) (x : list R) : outcome (list R) := mloop D (fun d x => wr x d 0) x.
Definition s_position (segs : list seg) (ref : vv) (n D : nat) (x xi : list R) (vertices : vv) (shape : list R) : outcome (list R) :=
  bind (s_run segs ref xi shape) (fun shape => bind (s_zero D x) (m_position n D vertices shape)).
(* the loops exchanged, 1602-1611 *)
Definition s_position_dim (segs : list seg) (ref : vv) (n D : nat) (x xi : list R) (vertices : vv) (shape : list R) : outcome (list R) :=
  bind (s_run segs ref xi shape) (fun shape => bind (s_zero D x) (fun x =>
    mloop D (fun dim x => mloop n (fun v x =>
      bind (rd x dim) (fun a => bind (rd2 vertices v dim) (fun p => bind (rd shape v) (fun b => wr x dim (a + p * b))))) x) x)).

(** ** Quad_4_2D *)
(* 878-884 ref_vert *)
Definition s_quad4_ref : vv :=
  [[-1; -1]; [1; -1]; [1; 1]; [-1; 1]].
(* 887-921 Quad_4_2D::physical_position, the local array shape_fcn *)
Definition s_quad4_shape : list seg := [
  For 0 4 1 (
    #1 / #4 * (#1 + X 0 * F 0) * (#1 + X 1 * F 1))].
Definition s_quad4_position := s_position s_quad4_shape s_quad4_ref 4 2.
(* 924-936 Quad_4_2D::basis *)
Definition s_quad4_basis : list seg := [
  For 0 4 1 (
    #1 / #4 * (#1 + X 0 * F 0) * (#1 + X 1 * F 1))].
(* 940-950 Quad_4_2D::partial_xi_shape_fcn *)
Definition s_quad4_partial_xi : list seg := [
  For 0 4 1 (
    (#1 / #4) * (F 0) * (#1 + X 1 * F 1))].
(* 954-963 Quad_4_2D::partial_eta_shape_fcn *)
Definition s_quad4_partial_eta : list seg := [
  For 0 4 1 (
    (#1 / #4) * (#1 + X 0 * F 0) * (F 1))].
(** ** Quad_8_2D *)
(* 990-1002 ref_vert *)
Definition s_quad8_ref : vv :=
  [[-1; -1]; [1; -1]; [1; 1]; [-1; 1]; [0; -1]; [1; 0]; [0; 1]; [-1; 0]].
(* 1006-1054 Quad_8_2D::physical_position, the local array shape_fcn *)
Definition s_quad8_shape : list seg := [
  For 0 4 1 (
    #1 / #4 * (#1 + X 0 * F 0) * (#1 + X 1 * F 1) * (X 0 * F 0 + X 1 * F 1 - #1));
  For 4 7 2 (
    #1 / #2 * (#1 - X 0 * X 0) * (#1 + X 1 * F 1));
  For 5 8 2 (
    #1 / #2 * (#1 + X 0 * F 0) * (#1 - X 1 * X 1))].
Definition s_quad8_position := s_position s_quad8_shape s_quad8_ref 8 2.
(* 1057-1085 Quad_8_2D::basis *)
Definition s_quad8_basis : list seg := [
  For 0 4 1 (
    #1 / #4 * (#1 + X 0 * F 0) * (#1 + X 1 * F 1) * (X 0 * F 0 + X 1 * F 1 - #1));
  For 4 7 2 (
    #1 / #2 * (#1 - X 0 * X 0) * (#1 + X 1 * F 1));
  For 5 8 2 (
    #1 / #2 * (#1 + X 0 * F 0) * (#1 - X 1 * X 1))].
(* 1088-1115 Quad_8_2D::partial_xi_shape_fcn *)
Definition s_quad8_partial_xi : list seg := [
  For 0 4 1 (
    #1 / #4 * (F 0) * (#1 + F 1 * X 1) * ((#2 * F 0 * X 0) + (F 1 * X 1)));
  For 4 7 2 (
    #(-1) * (X 0) * (#1 + F 1 * X 1));
  For 5 8 2 (
    #1 / #2 * (F 0) * (#1 - X 1 * X 1))].
(* 1118-1144 Quad_8_2D::partial_eta_shape_fcn *)
Definition s_quad8_partial_eta : list seg := [
  For 0 4 1 (
    #1 / #4 * (#1 + F 0 * X 0) * (F 1) * ((F 0 * X 0) + (#2 * F 1 * X 1)));
  For 4 7 2 (
    #1 / #2 * (#1 - X 0 * X 0) * (F 1));
  For 5 8 2 (
    #(-1) * (#1 + F 0 * X 0) * (X 1))].
(** ** Quad_12_2D *)
(* 1171-1188 ref_vert *)
Definition s_quad12_ref : vv :=
  [[-1; -1]; [1; -1]; [1; 1]; [-1; 1]; [-1 / 3; -1]; [1 / 3; -1]; [1 / 3; 1]; [-1 / 3; 1]; [-1; -1 / 3]; [1; -1 / 3]; [1; 1 /
  3]; [-1; 1 / 3]].
(* 1191-1244 Quad_12_2D::physical_position, the local array shape_fcn *)
Definition s_quad12_shape : list seg := [
  For 0 4 1 (
    #1 / #32 * (#1 + F 0 * X 0) * (#1 + F 1 * X 1) * (#9 * (X 0 * X 0 + X 1 * X 1) - (#10)));
  For 4 8 1 (
    #9 / #32 * (#1 - X 0 * X 0) * (#1 + X 1 * F 1) * (#1 + #9 * X 0 * F 0));
  For 8 12 1 (
    #9 / #32 * (#1 + X 0 * F 0) * (#1 - X 1 * X 1) * (#1 + #9 * X 1 * F 1))].
Definition s_quad12_position := s_position s_quad12_shape s_quad12_ref 12 2.
(* 1247-1275 Quad_12_2D::basis *)
Definition s_quad12_basis : list seg := [
  For 0 4 1 (
    #1 / #4 * (#1 + X 0 * F 0) * (#1 + X 1 * F 1) * (X 0 * F 0 + X 1 * F 1 - #1));
  For 4 7 2 (
    #1 / #2 * (#1 - X 0 * X 0) * (#1 + X 1 * F 1));
  For 5 8 2 (
    #1 / #2 * (#1 + X 0 * F 0) * (#1 - X 1 * X 1))].
(* 1278-1313 Quad_12_2D::partial_xi_shape_fcn *)
Definition s_quad12_partial_xi : list seg := [
  For 0 4 1 (
    #1 / #32 * (#1 + X 1 * F 1) * ((#9 * F 0 * (X 0 * X 0 + X 1 * X 1)) + (#18 * X 0 * (#1 + X 0 * F 0)) - (#10 * F 0)));
  For 4 8 1 (
    (#9 / #32) * (#1 + X 1 * F 1) * ((#9 * F 0 * (#1 - #3 * X 0 * X 0)) - (#2 * X 0)));
  For 8 12 1 (
    #9 / #32 * (F 0) * (#1 - X 1 * X 1) * (#1 + #9 * X 1 * F 1))].
(* 1316-1349 Quad_12_2D::partial_eta_shape_fcn *)
Definition s_quad12_partial_eta : list seg := [
  For 0 4 1 (
    #1 / #32 * (#1 + X 0 * F 0) * ((#9 * F 1 * (X 0 * X 0 + X 1 * X 1)) + (#18 * X 1 * (#1 + X 1 * F 1)) - (#10 * F 1)));
  For 4 8 1 (
    #9 / #32 * (#1 - X 0 * X 0) * (#1 + #9 * X 0 * F 0) * (F 1));
  For 8 12 1 (
    #9 / #32 * (#1 + X 0 * F 0) * ((#9 * F 1 * (#1 - #3 * X 1 * X 1)) - (#2 * X 1)))].
(** ** Hex8 *)
(* 1392-1404 ref_vert *)
Definition s_hex8_ref : vv :=
  [[-1; -1; -1]; [1; -1; -1]; [1; -1; 1]; [-1; -1; 1]; [-1; 1; -1]; [1; 1; -1]; [1; 1; 1]; [-1; 1; 1]].
(* 1407-1437 Hex8::physical_position, the local array shape_fcn *)
Definition s_hex8_shape : list seg := [
  For 0 8 1 (
    #1 / #8 * (#1 + X 0 * F 0) * (#1 + X 1 * F 1) * (#1 + X 2 * F 2))].
Definition s_hex8_position := s_position s_hex8_shape s_hex8_ref 8 3.
(* 1440-1452 Hex8::basis *)
Definition s_hex8_basis : list seg := [
  For 0 8 1 (
    #1 / #8 * (#1 + X 0 * F 0) * (#1 + X 1 * F 1) * (#1 + X 2 * F 2))].
(* 1456-1468 Hex8::partial_xi_shape_fcn *)
Definition s_hex8_partial_xi : list seg := [
  For 0 8 1 (
    (#1 / #8) * (F 0) * (#1 + X 1 * F 1) * (#1 + X 2 * F 2))].
(* 1471-1481 Hex8::partial_eta_shape_fcn *)
Definition s_hex8_partial_eta : list seg := [
  For 0 8 1 (
    (#1 / #8) * (#1 + X 0 * F 0) * (F 1) * (#1 + X 2 * F 2))].
(* 1484-1494 Hex8::partial_mu_shape_fcn *)
Definition s_hex8_partial_mu : list seg := [
  For 0 8 1 (
    (#1 / #8) * (#1 + X 0 * F 0) * (#1 + X 1 * F 1) * (F 2))].
(** ** Hex20 *)
(* 1525-1552 ref_vert *)
Definition s_hex20_ref : vv :=
  [[-1; -1; -1]; [1; -1; -1]; [1; -1; 1]; [-1; -1; 1]; [-1; 1; -1]; [1; 1; -1]; [1; 1; 1]; [-1; 1; 1]; [0; -1; -1]; [1; -1; 0];
  [0; -1; 1]; [-1; -1; 0]; [0; 1; -1]; [1; 1; 0]; [0; 1; 1]; [-1; 1; 0]; [-1; 0; -1]; [1; 0; -1]; [1; 0; 1]; [-1; 0; 1]].
(* 1556-1620 Hex20::physical_position, the local array shape_fcn *)
Definition s_hex20_shape : list seg := [
  For 0 8 1 (
    #1 / #8 * (#1 + X 0 * F 0) * (#1 + X 1 * F 1) * (#1 + X 2 * F 2) * (X 0 * F 0 + X 1 * F 1 + X 2 * F 2 - #2));
  For 8 15 2 (
    #1 / #4 * (#1 - X 0 * X 0) * (#1 + X 1 * F 1) * (#1 + X 2 * F 2));
  For 16 20 1 (
    #1 / #4 * (#1 + X 0 * F 0) * (#1 - X 1 * X 1) * (#1 + X 2 * F 2));
  For 9 16 2 (
    #1 / #4 * (#1 + X 0 * F 0) * (#1 + X 1 * F 1) * (#1 - X 2 * X 2))].
Definition s_hex20_position := s_position_dim s_hex20_shape s_hex20_ref 20 3.
(* 1623-1662 Hex20::basis *)
Definition s_hex20_basis : list seg := [
  For 0 8 1 (
    #1 / #8 * (#1 + X 0 * F 0) * (#1 + X 1 * F 1) * (#1 + X 2 * F 2) * (X 0 * F 0 + X 1 * F 1 + X 2 * F 2 - #2));
  For 8 15 2 (
    #1 / #4 * (#1 - X 0 * X 0) * (#1 + X 1 * F 1) * (#1 + X 2 * F 2));
  For 16 20 1 (
    #1 / #4 * (#1 + X 0 * F 0) * (#1 - X 1 * X 1) * (#1 + X 2 * F 2));
  For 9 16 2 (
    #1 / #4 * (#1 + X 0 * F 0) * (#1 + X 1 * F 1) * (#1 - X 2 * X 2))].
(* 1666-1705 Hex20::partial_xi_shape_fcn *)
Definition s_hex20_partial_xi : list seg := [
  For 0 8 1 (
    (#1 / #8) * (F 0) * (#1 + (X 1 * F 1)) * (#1 + (X 2 * F 2)) * (#2 * (X 0 * F 0) + X 1 * F 1 + X 2 * F 2 - #1));
  For 8 15 2 (
    (#(-1) / #2) * (X 0) * (#1 + X 1 * F 1) * (#1 + X 2 * F 2));
  For 9 16 2 (
    (#1 / #4) * (F 0) * (#1 + X 1 * F 1) * (#1 - X 2 * X 2));
  For 16 20 1 (
    (#1 / #4) * (F 0) * (#1 - X 1 * X 1) * (#1 + X 2 * F 2))].
(* 1708-1746 Hex20::partial_eta_shape_fcn *)
Definition s_hex20_partial_eta : list seg := [
  For 0 8 1 (
    (#1 / #8) * (#1 + X 0 * F 0) * (F 1) * (#1 + X 2 * F 2) * (X 0 * F 0 + #2 * X 1 * F 1 + X 2 * F 2 - #1));
  For 8 15 2 (
    (#1 / #4) * (#1 - (X 0 * X 0)) * (F 1) * (#1 + X 2 * F 2));
  For 9 16 2 (
    (#1 / #4) * (#1 + X 0 * F 0) * (F 1) * (#1 - (X 2 * X 2)));
  For 16 20 1 (
    (#(-1) / #2) * (#1 + X 0 * F 0) * (X 1) * (#1 + X 2 * F 2))].
(* 1749-1787 Hex20::partial_mu_shape_fcn *)
Definition s_hex20_partial_mu : list seg := [
  For 0 8 1 (
    (#1 / #8) * (#1 + X 0 * F 0) * (#1 + X 1 * F 1) * (F 2) * ((X 0 * F 0) + (X 1 * F 1) + (#2 * X 2 * F 2) - #1));
  For 8 15 2 (
    (#1 / #4) * (#1 - (X 0 * X 0)) * (#1 + X 1 * F 1) * (F 2));
  For 9 16 2 (
    (#(-1) / #2) * (#1 + X 0 * F 0) * (#1 + X 1 * F 1) * (X 2));
  For 16 20 1 (
    (#1 / #4) * (#1 + X 0 * F 0) * (#1 - X 1 * X 1) * (F 2))].
(** ** Hex32 *)
(* 1830-1867 ref_vert *)
Definition s_hex32_ref : vv :=
  [[-1; -1; -1]; [1; -1; -1]; [1; -1; 1]; [-1; -1; 1]; [-1; 1; -1]; [1; 1; -1]; [1; 1; 1]; [-1; 1; 1]; [-1; -1; -1 / 3]; [1;
  -1; -1 / 3]; [1; -1; 1 / 3]; [-1; -1; 1 / 3]; [-1; 1; -1 / 3]; [1; 1; -1 / 3]; [1; 1; 1 / 3]; [-1; 1; 1 / 3]; [-1 / 3; -1;
  -1]; [1 / 3; -1; -1]; [1 / 3; -1; 1]; [-1 / 3; -1; 1]; [-1 / 3; 1; -1]; [1 / 3; 1; -1]; [1 / 3; 1; 1]; [-1 / 3; 1; 1]; [-1;
  -1 / 3; -1]; [1; -1 / 3; -1]; [1; -1 / 3; 1]; [-1; -1 / 3; 1]; [-1; 1 / 3; -1]; [1; 1 / 3; -1]; [1; 1 / 3; 1]; [-1; 1 / 3;
  1]].
(* 1871-1941 Hex32::physical_position, the local array shape_fcn *)
Definition s_hex32_shape : list seg := [
  For 0 8 1 (
    #1 / #64 * (#1 + X 0 * F 0) * (#1 + X 1 * F 1) * (#1 + X 2 * F 2) * (#9 * X 0 * X 0 + #9 * X 1 * X 1 + #9 * X 2 * X 2 -
    #19));
  For 8 16 1 (
    #9 / #64 * (#1 + X 0 * F 0) * (#1 + X 1 * F 1) * (#1 + #9 * X 2 * F 2) * (#1 - X 2 * X 2));
  For 16 24 1 (
    #9 / #64 * (#1 - X 0 * X 0) * (#1 + #9 * X 0 * F 0) * (#1 + X 1 * F 1) * (#1 + X 2 * F 2));
  For 24 32 1 (
    #9 / #64 * (#1 + X 0 * F 0) * (#1 - X 1 * X 1) * (#1 + #9 * X 1 * F 1) * (#1 + X 2 * F 2))].
Definition s_hex32_position := s_position s_hex32_shape s_hex32_ref 32 3.
(* 1944-1989 Hex32::basis *)
Definition s_hex32_basis : list seg := [
  For 0 8 1 (
    #1 / #64 * (#1 + X 0 * F 0) * (#1 + X 1 * F 1) * (#1 + X 2 * F 2) * (#9 * X 0 * X 0 + #9 * X 1 * X 1 + #9 * X 2 * X 2 -
    #19));
  For 8 16 1 (
    #9 / #64 * (#1 + X 0 * F 0) * (#1 + X 1 * F 1) * (#1 + #9 * X 2 * F 2) * (#1 - X 2 * X 2));
  For 16 24 1 (
    #9 / #64 * (#1 - X 0 * X 0) * (#1 + #9 * X 0 * F 0) * (#1 + X 1 * F 1) * (#1 + X 2 * F 2));
  For 24 32 1 (
    #9 / #64 * (#1 + X 0 * F 0) * (#1 - X 1 * X 1) * (#1 + #9 * X 1 * F 1) * (#1 + X 2 * F 2))].
(* 1993-2034 Hex32::partial_xi_shape_fcn *)
Definition s_hex32_partial_xi : list seg := [
  For 0 8 1 (
    #1 / #64 * (#1 + X 1 * F 1) * (#1 + X 2 * F 2) * ((#9 * (F 0) * (X 0 * X 0 + X 1 * X 1 + X 2 * X 2)) + (#18 * X 0 * (#1 + X
    0 * F 0)) - (#19 * F 0)));
  For 8 16 1 (
    #9 / #64 * (F 0) * (#1 + X 1 * F 1) * (#1 + #9 * X 2 * F 2) * (#1 - X 2 * X 2));
  For 16 24 1 (
    #9 / #64 * (#1 + X 1 * F 1) * (#1 + X 2 * F 2) * (#9 * F 0 * (#1 - #3 * X 0 * X 0) - (#2 * X 0)));
  For 24 32 1 (
    #9 / #64 * (F 0) * (#1 - X 1 * X 1) * (#1 + #9 * X 1 * F 1) * (#1 + X 2 * F 2))].
(* 2037-2080 Hex32::partial_eta_shape_fcn *)
Definition s_hex32_partial_eta : list seg := [
  For 0 8 1 (
    #1 / #64 * (#1 + X 0 * F 0) * (#1 + X 2 * F 2) * ((#9 * F 1 * (X 0 * X 0 + X 1 * X 1 + X 2 * X 2)) + (#18 * X 1 * (#1 + X 1
    * F 1)) - (#19 * F 1)));
  For 8 16 1 (
    #9 / #64 * (#1 + X 0 * F 0) * (F 1) * (#1 + #9 * X 2 * F 2) * (#1 - X 2 * X 2));
  For 16 24 1 (
    #9 / #64 * (#1 - X 0 * X 0) * (#1 + #9 * X 0 * F 0) * (F 1) * (#1 + X 2 * F 2));
  For 24 32 1 (
    #9 / #64 * (#1 + X 0 * F 0) * (#1 + X 2 * F 2) * ((#9 * F 1 * (#1 - #3 * X 1 * X 1)) - (#2 * X 1)))].
(* 2083-2127 Hex32::partial_mu_shape_fcn *)
Definition s_hex32_partial_mu : list seg := [
  For 0 8 1 (
    #1 / #64 * (#1 + X 0 * F 0) * (#1 + X 1 * F 1) * ((#9 * (F 2) * (X 0 * X 0 + X 1 * X 1 + X 2 * X 2)) + (#18 * X 2 * (#1 + X
    2 * F 2)) - (#19 * F 2)));
  For 8 16 1 (
    #9 / #64 * (#1 + X 0 * F 0) * (#1 + X 1 * F 1) * ((#9 * F 2 * (#1 - #3 * X 2 * X 2)) - (#2 * X 2)));
  For 16 24 1 (
    #9 / #64 * (#1 - X 0 * X 0) * (#1 + #9 * X 0 * F 0) * (#1 + X 1 * F 1) * (F 2));
  For 24 32 1 (
    #9 / #64 * (#1 + X 0 * F 0) * (#1 - X 1 * X 1) * (#1 + #9 * X 1 * F 1) * (F 2))].
(** ** Tess16 *)
(* 2754-2776 ref_vert of namespace scope *)
Definition s_tess16_ref : vv :=
  [[-1; -1; -1; -1]; [1; -1; -1; -1]; [1; -1; 1; -1]; [-1; -1; 1; -1]; [-1; 1; -1; -1]; [1; 1; -1; -1]; [1; 1; 1; -1]; [-1; 1;
  1; -1]; [-1; -1; -1; 1]; [1; -1; -1; 1]; [1; -1; 1; 1]; [-1; -1; 1; 1]; [-1; 1; -1; 1]; [1; 1; -1; 1]; [1; 1; 1; 1]; [-1; 1;
  1; 1]].
(* 2781-2816 Tess16::physical_position, the local array shape_fcn *)
Definition s_tess16_shape : list seg := [
  For 0 16 1 (
    #1 / #16 * (#1 + X 0 * F 0) * (#1 + X 1 * F 1) * (#1 + X 2 * F 2) * (#1 + X 3 * F 3))].
Definition s_tess16_position (ref : vv) := s_position s_tess16_shape ref 16 4.
(* 2820-2832 Tess16::partial_xi_shape_fcn *)
Definition s_tess16_partial_xi : list seg := [
  For 0 16 1 (
    #1 / #16 * (F 0) * (#1 + X 1 * F 1) * (#1 + X 2 * F 2) * (#1 + X 3 * F 3))].
(* 2835-2847 Tess16::partial_eta_shape_fcn *)
Definition s_tess16_partial_eta : list seg := [
  For 0 16 1 (
    #1 / #16 * (#1 + X 0 * F 0) * (F 1) * (#1 + X 2 * F 2) * (#1 + X 3 * F 3))].
(* 2850-2862 Tess16::partial_mu_shape_fcn *)
Definition s_tess16_partial_mu : list seg := [
  For 0 16 1 (
    #1 / #16 * (#1 + X 0 * F 0) * (#1 + X 1 * F 1) * (F 2) * (#1 + X 3 * F 3))].
(* 2865-2878 Tess16::partial_tau_shape_fcn *)
Definition s_tess16_partial_tau : list seg := [
  For 0 16 1 (
    #1 / #16 * (#1 + X 0 * F 0) * (#1 + X 1 * F 1) * (#1 + X 2 * F 2) * (F 3))].
