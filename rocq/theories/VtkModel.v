(** VTK output: ristra/io/catalyst/flecsale_unstructuredGrid.h, vtk/unstructuredGrid.h.
    - A mesh gives its vertices (identifier and coordinates) and cells in iteration order, and the connectivity lists of identifiers.
      Entities are compared and used as indices through their identifiers.
    - VTK objects are reduced to what they store: points are a list of coordinate triples, None while not set; a grid's cells are a list.
    - [narrow] is the conversion to the float that vtkPoints stores; vtkIdType is taken unbounded.
    - Timers, the unused counts of createMesh (256-262) and writing of files are not modelled. *)
From Coq Require Import List Arith Bool.
From Verif Require Import Outcome.
Import ListNotations.

Record mesh (C : Type) := mk_mesh { m_verts : list (nat * list C); m_cells : list nat; m_owned : list nat;
  c_verts : nat -> list nat; c_faces : nat -> list nat; f_verts : nat -> list nat; f_cells : nat -> list nat }.
Arguments mk_mesh {C}.
Arguments m_verts {C}.
Arguments m_cells {C}.
Arguments m_owned {C}.
Arguments c_verts {C}.
Arguments c_faces {C}.
Arguments f_verts {C}.
Arguments f_cells {C}.
(* a loop over a list that carries a state *)
Fixpoint each {A S} (l : list A) (body : A -> S -> outcome S) (s : S) : outcome S :=
  match l with [] => Ok s | a :: l' => bind (body a s) (each l' body) end.
(* v[i] = x *)
Definition store {A} (l : list A) (i : nat) (x : A) : outcome (list A) :=
  if i <? length l then Ok (firstn i l ++ x :: skipn (S i) l) else UB.
Definition load {A} (l : list A) (i : nat) : outcome A := match nth_error l i with Some x => Ok x | None => UB end.
(* the arguments of InsertNextCell: points, number of faces, face stream *)
Record vcell := mk_vcell { v_pts : list nat; v_nfaces : nat; v_stream : list nat }.

Section Grid.
Context {C F : Type} (narrow : C -> F) (zero : F).
(* 147-167 = 343-363: the body of the loop over faces *)
Definition face_body (m : mesh C) (c f : nat) (face_data : list nat) : outcome (list nat) :=
  let face_cells := f_cells m f in
  let face_verts := f_verts m f in
  let num_face_verts := length face_verts in
  bind (load face_cells 0) (fun first =>
  let face_vert_ids := if negb (Nat.eqb first c) then rev face_verts else face_verts in
  Ok ((face_data ++ [num_face_verts]) ++ face_vert_ids)).
(* 124-175 = 321-371: one cell; [reserve] only affects capacity *)
Definition tot_verts (m : mesh C) (c : nat) : nat := fold_left (fun sum f => sum + length (f_verts m f)) (c_faces m c) 0.
Definition cell_body (m : mesh C) (c : nat) (grid : list vcell) : outcome (list vcell) :=
  bind (each (c_faces m c) (face_body m c) []) (fun face_data =>
  Ok (grid ++ [mk_vcell (c_verts m c) (length (c_faces m c)) face_data])).
(* 120-177 writeCellsToGrid *)
Definition write_cells (m : mesh C) (grid : list vcell) : outcome (list vcell) := each (m_cells m) (cell_body m) grid.

(* 105-111: xyz = {0,0,0}; copy the coordinates over it *)
Definition to_xyz (l : list C) : outcome (F * F * F) :=
  match l with
  | [] => Ok (zero, zero, zero) | [x] => Ok (narrow x, zero, zero) | [x; y] => Ok (narrow x, narrow y, zero)
  | [x; y; z] => Ok (narrow x, narrow y, narrow z) | _ => UB
  end.
(* 98-117 writePointsToGrid *)
Definition write_points (m : mesh C) : outcome (list (option (F * F * F))) :=
  each (m_verts m) (fun '(id, coord) pts => bind (to_xyz coord) (fun p => store pts id (Some p))) (repeat None (length (m_verts m))).

(* 280-298: the body of the loop over vertices of createMesh; the state is vertex_coord and the inserted points *)
Definition point_body (dims : nat) (v : nat * list C) (s : list (option C) * list (F * F * F)) : outcome (list (option C) * list (F * F * F)) :=
  let '(id, coords) := v in let '(vc, pts) := s in
  bind (each (seq 0 dims) (fun i '(vc, vertex) =>
          bind (load coords i) (fun x => bind (store vc (id * 3 + i) (Some x)) (fun vc => Ok (vc, vertex ++ [narrow x])))) (vc, []))
    (fun '(vc, vertex) =>
       let vertex := if Nat.eqb dims 2 then vertex ++ [zero] else vertex in
       (* vtk/unstructuredGrid.h 179-184 insertNextPoint *)
       bind (load vertex 0) (fun x => bind (load vertex 1) (fun y => bind (load vertex 2) (fun z => Ok (vc, pts ++ [(x, y, z)]))))).
(* 308-318: the owned cells *)
Definition ghost_flags (m : mesh C) : outcome (list bool) :=
  each (m_owned m) (fun c g => store g c false) (repeat true (length (m_cells m))).
(* 247-379 createMesh *)
Definition create_mesh (dims : nat) (m : mesh C) : outcome (list (F * F * F) * list nat * list vcell) :=
  bind (each (m_verts m) (point_body dims) (repeat None (length (m_verts m) * dims), [])) (fun '(_, pts) =>
  bind (ghost_flags m) (fun g =>
  bind (each (m_cells m) (fun c grid => bind (load g c) (fun gh => if (gh : bool) then Ok grid else cell_body m c grid)) []) (fun cells =>
  Ok (pts, map fst (m_verts m), cells)))).
End Grid.

(** ** attribute arrays (vtk/unstructuredGrid.h 346-406, 500-559) *)
Section Data.
Context {T : Type}.
(* 500-519 setScalarData = 346-368 addScalarData: data is a pointer to numPoints values *)
Definition set_scalar (data : list T) (n : nat) : outcome (nat * list T) :=
  bind (each (seq 0 n) (fun i a => bind (load data i) (fun x => Ok (a ++ [x]))) []) (fun a => Ok (1, a)).
(* 524-540 setVectorData = 543-559 setTensorData = 370-406: components and values *)
Definition set_vector (data : list (list T)) (n : nat) : outcome (nat * list T) :=
  bind (each (seq 0 n) (fun i a => each (seq 0 (length data)) (fun k a =>
          bind (load data k) (fun d => bind (load d i) (fun x => Ok (a ++ [x])))) a) []) (fun a => Ok (length data, a)).
(* the attribute list the array goes to *)
Inductive where_ := PointData | CellData.
Definition target (type : nat) : where_ := if Nat.eqb type 0 then PointData else CellData.
End Data.
(** ** vertex cells (vtk/unstructuredGrid.h 205-237) *)
Section Verts.
Context {T : Type}.
Record vgrid := mk_vgrid { g_pts : list (option T); g_cells : list nat; g_idx : nat }.
(* InsertPoint(i, p) grows the array as needed *)
Definition insert_point (l : list (option T)) (i : nat) (p : T) : list (option T) :=
  firstn i (l ++ repeat None (i - length l)) ++ Some p :: skipn (S i) l.
(* 205-211 addPoint *)
Definition add_point (p : T) (g : vgrid) : vgrid := mk_vgrid (insert_point (g_pts g) (g_idx g) p) (g_cells g ++ [g_idx g]) (S (g_idx g)).
(* 219-237 setPoints; SetNumberOfPoints resizes *)
Definition set_points (ps : list T) (g : vgrid) : vgrid :=
  mk_vgrid (map Some ps) (g_cells g ++ seq (g_idx g) (length ps)) (g_idx g + length ps).
End Verts.
Arguments vgrid T : clear implicits.
