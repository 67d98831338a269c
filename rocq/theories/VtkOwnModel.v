(** Ownership of VTK objects: ristra/io/catalyst/vtk/unstructuredGrid.h, flecsale_unstructuredGrid.h, adaptor.h.
    - A VTK object is a number with a reference count.  Whatever is obliged to give up a reference later is a holder: a smart pointer (member or
      local), a slot of another VTK object, or the raw pointer processor_ that a destructor deletes.
    - VTK's own behaviour is assumed: X::New() gives an object with count one; assigning to a smart pointer and the setters of VTK objects
      (SetPoints, SetCells, AddArray, SetInputData, SetController, AddPipeline) count the new object up and then the former one down, where an
      array replaces the one of the same name; Delete() and the destructors count down; an object whose count reaches zero is destroyed and gives
      up what its slots hold; touching a destroyed object is UB.
    - Objects that VTK makes for itself (attribute lists, producers) and the raw pointer of SetGlobalController are not modelled.
      The contents of objects are those of VtkModel. *)
From Coq Require Import List Arith Bool String.
From Verif Require Import Outcome.
Import ListNotations.

Inductive kind := KPoint | KCell | KField.
Inductive slot := SPoints | SCells | SArray (k : kind) (name : string) | SInput | SController | SPipeline (n : nat).
Inductive otype := TWriter | TGrid | TPoints | TCells | TArray | TController | TProcessor | TPipeline.
Inductive member := MWriter | MSerial | MPnts | MCells | MGrid | MProcessor.
(* a member of the u-th object of the program, a variable of the program, a local of the modelled functions, a slot of a VTK object *)
Inductive holder := Member (u : nat) (m : member) | Var (t : otype) (x : string) | Local (t : otype) (x : string) | Slot (o : nat) (s : slot).
Definition holder_dec (a b : holder) : {a = b} + {a <> b}.
Proof. repeat decide equality. Defined.

Record world := mk_world { cnt : nat -> nat; held : list (holder * nat); next : nat; ty : nat -> otype }.
Definition world0 : world := mk_world (fun _ => 0) [] 0 (fun _ => TArray).
Definition set_cnt (c : nat -> nat) (o n : nat) : nat -> nat := fun x => if Nat.eqb x o then n else c x.
Definition is_slot_of (o : nat) (h : holder) : bool := match h with Slot p _ => Nat.eqb p o | _ => false end.
Definition is_holder (a : holder) (h : holder) : bool := if holder_dec a h then true else false.

(** ** VTK *)
(* what is pointed to by a holder *)
Definition get (h : holder) (w : world) : option nat := option_map snd (find (fun e => is_holder h (fst e)) (held w)).
(* count down the objects of [work]; those that reach zero give up what their slots hold.
   Every step takes one of the pending or held references, so [fuel] is never short in [release]. *)
Fixpoint release_n (fuel : nat) (work : list nat) (w : world) : outcome world :=
  match work with
  | [] => Ok w
  | o :: work' =>
    match fuel with
    | O => UB
    | S f =>
      match cnt w o with
      | O => UB
      | S O => release_n f (work' ++ map snd (filter (fun e => is_slot_of o (fst e)) (held w)))
                 (mk_world (set_cnt (cnt w) o 0) (filter (fun e => negb (is_slot_of o (fst e))) (held w)) (next w) (ty w))
      | S n => release_n f work' (mk_world (set_cnt (cnt w) o n) (held w) (next w) (ty w))
      end
    end
  end.
Definition release (work : list nat) (w : world) : outcome world := release_n (List.length work + List.length (held w)) work w.
(* the method calls of an object: it must exist *)
Definition use (o : nat) (w : world) : outcome world := match cnt w o with O => UB | _ => Ok w end.
(* X::New() *)
Definition raw_new (t : otype) (w : world) : nat * world :=
  (next w, mk_world (set_cnt (cnt w) (next w) 1) (held w) (S (next w)) (fun x => if Nat.eqb x (next w) then t else ty w x)).
(* h no longer points to anything: the destructor of a smart pointer, processor_->Delete(); processor_ = nullptr *)
Definition clear (h : holder) (w : world) : outcome world :=
  let gone := map snd (filter (fun e => is_holder h (fst e)) (held w)) in
  release gone (mk_world (cnt w) (filter (fun e => negb (is_holder h (fst e))) (held w)) (next w) (ty w)).
(* h takes over a reference that is already counted *)
Definition take (h : holder) (o : nat) (w : world) : outcome world :=
  bind (clear h w) (fun w => Ok (mk_world (cnt w) ((h, o) :: held w) (next w) (ty w))).
(* h = o: count up first *)
Definition assign (h : holder) (o : nat) (w : world) : outcome world :=
  bind (use o w) (fun w => take h o (mk_world (set_cnt (cnt w) o (S (cnt w o))) (held w) (next w) (ty w))).
(* o->Delete() *)
Definition delete (o : nat) (w : world) : outcome world := release [o] w.
(* h = vtkSmartPointer<X>::New() *)
Definition smart_new (t : otype) (h : holder) (w : world) : outcome world := let '(o, w) := raw_new t w in take h o w.
(* p->...: a null pointer or a destroyed object is UB *)
Definition with_obj {A} (h : holder) (w : world) (k : nat -> outcome A) : outcome A :=
  match get h w with None => UB | Some o => bind (use o w) (fun _ => k o) end.
Fixpoint clear_all (l : list holder) (w : world) : outcome world := match l with [] => Ok w | h :: l' => bind (clear h w) (clear_all l') end.

(** ** vtk/unstructuredGrid.h *)
Section Grid.
Context (u : nat).
Notation M := (Member u).
(* 111-129 = 133-154: the constructors *)
Definition construct (w : world) : outcome world :=
  bind (smart_new TWriter (M MWriter) w) (fun w => bind (smart_new TWriter (M MSerial) w) (fun w => bind (smart_new TGrid (M MGrid) w) (fun w =>
  bind (smart_new TPoints (M MPnts) w) (fun w => smart_new TCells (M MCells) w)))).
(* 59: the destructor; members in the opposite order of 38-43, 64 *)
Definition destruct (w : world) : outcome world := clear_all [M MGrid; M MCells; M MPnts; M MSerial; M MWriter] w.
(* 61, 62 getUGrid, getGrid: the result is kept in x *)
Definition get_grid (x : string) (w : world) : outcome world :=
  match get (M MGrid) w with None => clear (Var TGrid x) w | Some o => assign (Var TGrid x) o w end.
(* 172-201 insertNextPoint, insertNextPoints *)
Definition insert_next_point (w : world) : outcome world := with_obj (M MPnts) w (fun _ => Ok w).
(* 247-263 insertNextCell *)
Definition insert_next_cell (w : world) : outcome world := with_obj (M MCells) w (fun _ => Ok w).
(* 205-211 addPoint *)
Definition add_point (w : world) : outcome world := with_obj (M MPnts) w (fun _ => with_obj (M MCells) w (fun _ => Ok w)).
(* 276-280 pushPointsToGrid(cellType) *)
Definition push_cells (w : world) : outcome world :=
  with_obj (M MGrid) w (fun g => with_obj (M MPnts) w (fun p => bind (assign (Slot g SPoints) p w) (fun w =>
  with_obj (M MCells) w (fun c => assign (Slot g SCells) c w)))).
(* 283-286 pushPointsToGrid() *)
Definition push_points (w : world) : outcome world := with_obj (M MGrid) w (fun g => with_obj (M MPnts) w (fun p => assign (Slot g SPoints) p w)).
(* 219-237 setPoints with an array; the loop uses pnts and cells as its first round does *)
Definition set_points (w : world) : outcome world := bind (add_point w) push_cells.
(* 240-244 setPoints: the arguments are copies of the pointers in x and y, given up on return *)
Definition set_points_cells (x y : string) (w : world) : outcome world :=
  with_obj (Var TPoints x) w (fun p => with_obj (Var TCells y) w (fun c => bind (assign (Local TPoints "_pnts") p w) (fun w => bind (assign (Local TCells "_cells") c w) (fun w =>
  bind (with_obj (M MGrid) w (fun g => bind (assign (Slot g SPoints) p w) (fun w => assign (Slot g SCells) c w))) (clear_all [Local TPoints "_pnts"; Local TCells "_cells"]))))).
(* 289-295 reset *)
Definition reset (w : world) : outcome world :=
  with_obj (M MPnts) w (fun p => bind (delete p w) (fun w => with_obj (M MCells) w (fun c => delete c w))).
(* 299-311 addFieldData, 410-426 addVectorData with numComponents: the array is deleted *)
Definition add_deleting (k : kind) (name : string) (w : world) : outcome world :=
  let '(temp, w) := raw_new TArray w in
  with_obj (M MGrid) w (fun g => bind (assign (Slot g (SArray k name)) temp w) (fun w => delete temp w)).
(* 315-337 addVectorData with three arrays, 346-405 addScalarData, addVectorData, addTensorData: it is not *)
Definition add_keeping (k : kind) (name : string) (w : world) : outcome world :=
  let '(temp, w) := raw_new TArray w in
  with_obj (M MGrid) w (fun g => assign (Slot g (SArray k name)) temp w).
(* 445-494 write *)
Definition write (parallel : bool) (w : world) : outcome world :=
  if parallel then
    bind (smart_new TController (Local TController "contr") w) (fun w => with_obj (Local TController "contr") w (fun contr => with_obj (M MWriter) w (fun wr =>
    bind (assign (Slot wr SController) contr w) (fun w => with_obj (M MGrid) w (fun g => bind (assign (Slot wr SInput) g w) (clear (Local TController "contr")))))))
  else with_obj (M MSerial) w (fun wr => with_obj (M MGrid) w (fun g => assign (Slot wr SInput) g w)).
End Grid.
(* 500-559 setScalarData, setVectorData, setTensorData for the grid in x *)
Definition set_data (x : string) (k : kind) (name : string) (w : world) : outcome world :=
  let '(temp, w) := raw_new TArray w in with_obj (Var TGrid x) w (fun g => assign (Slot g (SArray k name)) temp w).
(* 563-619 writeUnstructuredGrid *)
Definition write_grid (x : string) (pieces : nat) (w : world) : outcome world :=
  with_obj (Var TGrid x) w (fun g => bind (assign (Local TGrid "uGrid") g w) (fun w => bind (smart_new TWriter (Local TWriter "writer") w) (fun w => with_obj (Local TWriter "writer") w (fun wr =>
  bind (if 1 <? pieces then bind (smart_new TController (Local TController "contr") w) (fun w => with_obj (Local TController "contr") w (fun contr => assign (Slot wr SController) contr w)) else Ok w) (fun w =>
  bind (assign (Slot wr SInput) g w) (clear_all [Local TController "contr"; Local TWriter "writer"; Local TGrid "uGrid"])))))).

(** ** flecsale_unstructuredGrid.h *)
(* 92-95 initVTKUnstructuredGrid: the parameter is a copy *)
Definition init_grid (x : string) (w : world) : outcome world :=
  bind (match get (Var TGrid x) w with None => Ok w | Some g => assign (Local TGrid "grid") g w end) (fun w => bind (smart_new TGrid (Local TGrid "grid") w) (clear (Local TGrid "grid"))).
(* 98-117 writePointsToGrid *)
Definition write_points (x : string) (w : world) : outcome world :=
  with_obj (Var TGrid x) w (fun g => bind (assign (Local TGrid "grid") g w) (fun w =>
  let '(points, w) := raw_new TPoints w in bind (assign (Slot g SPoints) points w) (fun w => bind (delete points w) (clear (Local TGrid "grid"))))).
(* 181-189 outputVTKUnstructredGrid *)
Definition output_grid (x : string) (w : world) : outcome world :=
  with_obj (Var TGrid x) w (fun g => bind (assign (Local TGrid "grid") g w) (fun w =>
  let '(writer, w) := raw_new TWriter w in bind (assign (Slot writer SInput) g w) (clear (Local TGrid "grid")))).
(* 247-379 createMesh; the result is kept in x *)
Definition create_mesh (u : nat) (x : string) (w : world) : outcome world :=
  bind (construct u w) (fun w => bind (insert_next_point u w) (fun w => bind (push_points u w) (fun w => bind (get_grid u x w) (destruct u)))).

(** ** adaptor.h *)
(* 65-71 = 145-150: the pipelines *)
Fixpoint add_pipelines (h : holder) (l : list nat) (w : world) : outcome world :=
  match l with
  | [] => Ok w
  | n :: l' => bind (smart_new TPipeline (Local TPipeline "pipeline") w) (fun w => with_obj (Local TPipeline "pipeline") w (fun p => with_obj h w (fun pr =>
               bind (assign (Slot pr (SPipeline n)) p w) (fun w => bind (clear (Local TPipeline "pipeline") w) (add_pipelines h l')))))
  end.
(* 140-151 the constructor of adaptor_t for a number of scripts, 154-161 its destructor *)
Definition adaptor (u scripts : nat) (w : world) : outcome world :=
  bind (smart_new TProcessor (Member u MProcessor) w) (add_pipelines (Member u MProcessor) (seq 0 scripts)).
Definition adaptor_destroy (u : nat) (w : world) : outcome world := clear (Member u MProcessor) w.
(* 163-190 process *)
Definition adaptor_process (u : nat) (w : world) : outcome world := with_obj (Member u MProcessor) w (fun _ => Ok w).
(* the implicit copy constructor of adaptor_t copies the pointer *)
Definition adaptor_copy (u v : nat) (w : world) : outcome world :=
  match get (Member u MProcessor) w with None => Ok w | Some p => Ok (mk_world (cnt w) ((Member v MProcessor, p) :: held w) (next w) (ty w)) end.
(* 49-78 initAdaptor returns the pointer; it is kept in x *)
Definition init_adaptor (x : string) (scripts : nat) (w : world) : outcome world :=
  bind (smart_new TProcessor (Var TProcessor x) w) (add_pipelines (Var TProcessor x) (seq 0 scripts)).

(** ** programs *)
Inductive call :=
  | CNew (u : nat) | CDestroy (u : nat) | CGetGrid (u : nat) (x : string) | CVar (t : otype) (x : string) | CDrop (t : otype) (x : string) | CInsertPoint (u : nat) | CInsertCell (u : nat) | CAddPoint (u : nat)
  | CPushCells (u : nat) | CPushPoints (u : nat) | CSetPoints (u : nat) | CSetPointsCells (u : nat) (x y : string) | CReset (u : nat)
  | CField (u : nat) (name : string) | CVectorAOS (u : nat) (k : kind) (name : string) | CAdd (u : nat) (k : kind) (name : string)
  | CWrite (u : nat) (parallel : bool) | CSetData (x : string) (k : kind) (name : string) | CWriteGrid (x : string) (pieces : nat)
  | CInit (x : string) | CWritePoints (x : string) | COutput (x : string) | CCreateMesh (u : nat) (x : string)
  | CAdaptor (u scripts : nat) | CAdaptorProcess (u : nat) | CAdaptorDestroy (u : nat) | CAdaptorCopy (u v : nat)
  | CInitAdaptor (x : string) (scripts : nat).
Definition exec (c : call) (w : world) : outcome world :=
  match c with
  | CNew u => construct u w | CDestroy u => destruct u w | CGetGrid u x => get_grid u x w | CVar t x => smart_new t (Var t x) w | CDrop t x => clear (Var t x) w
  | CInsertPoint u => insert_next_point u w | CInsertCell u => insert_next_cell u w | CAddPoint u => add_point u w
  | CPushCells u => push_cells u w | CPushPoints u => push_points u w | CSetPoints u => set_points u w | CSetPointsCells u x y => set_points_cells u x y w
  | CReset u => reset u w | CField u n => add_deleting u KField n w | CVectorAOS u k n => add_deleting u k n w | CAdd u k n => add_keeping u k n w
  | CWrite u p => write u p w | CSetData x k n => set_data x k n w | CWriteGrid x n => write_grid x n w
  | CInit x => init_grid x w | CWritePoints x => write_points x w | COutput x => output_grid x w | CCreateMesh u x => create_mesh u x w
  | CAdaptor u n => adaptor u n w | CAdaptorProcess u => adaptor_process u w | CAdaptorDestroy u => adaptor_destroy u w | CAdaptorCopy u v => adaptor_copy u v w
  | CInitAdaptor x n => init_adaptor x n w
  end.
Fixpoint run (l : list call) (w : world) : outcome world := match l with [] => Ok w | c :: l' => bind (exec c w) (run l') end.
