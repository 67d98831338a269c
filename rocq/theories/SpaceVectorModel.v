(** Model of ristra/geometry/space_vector.h over the reals, and of the constructors, element access
    and output of ristra/utils/dimensioned_array.h, on which space_vector is built. Vectors of the
    first part are functions of the index together with their dimension, as in VectorModel. Rounding
    is not modelled. *)
From Coq Require Import Reals ZArith Bool String List Lia.
From Verif Require Import Outcome VectorModel.
Import ListNotations.
Local Open Scope R_scope.

(** point_to_vector 47-54, from uninitialised storage [junk] *)
Definition point_to_vector (D : nat) (p junk : vec) : vec := loop D (fun d sv => set sv d (p d)) junk.
(** operator*(v, s) 59-66: tmp is a copy of v *)
Definition sv_scale (D : nat) (v : vec) (s : R) : vec := loop D (fun d tmp => set tmp d (s * v d)) v.
(** dot 72-82 *)
Definition sv_dot (D : nat) (a b : vec) : R := loop D (fun d sum => sum + a d * b d) 0.
(** magnitude 88-97 *)
Definition sv_magnitude (D : nat) (a : vec) : R := sqrt (loop D (fun d sum => sum + a d * a d) 0).
(** cross_magnitude in one, two and three dimensions, 103-128 *)
Definition cross_magnitude1 (a b : vec) : R := 0.
Definition cross_magnitude2 (a b : vec) : R := Rabs (a 0%nat * b 1%nat - a 1%nat * b 0%nat).
Definition cross_magnitude3 (a b junk : vec) : R :=
  let cross := set junk 0 (a 1%nat * b 2%nat - a 2%nat * b 1%nat) in
  let cross := set cross 1 (- a 0%nat * b 2%nat + a 2%nat * b 0%nat) in
  let cross := set cross 2 (a 0%nat * b 1%nat - a 1%nat * b 0%nat) in
  sv_magnitude 3 cross.
(** the variadic constructor, dimensioned_array.h 99-110: data_ = { args ... } *)
Definition of_args (l : list R) : vec := fun i => nth i l 0.
(** normal of two points 135-140 and of two vectors in three dimensions 145-152 *)
Definition sv_normal2 (a b : vec) : vec := of_args [a 1%nat - b 1%nat; b 0%nat - a 0%nat].
Definition sv_normal3 (a b : vec) : vec :=
  of_args [a 1%nat * b 2%nat - a 2%nat * b 1%nat; a 2%nat * b 0%nat - a 0%nat * b 2%nat;
           a 0%nat * b 1%nat - a 1%nat * b 0%nat].

(** * dimensioned_array.h: storage is a list of DIMENSION cells, [None] = uninitialised *)
Section Dim.
Context {T : Type}.
(** initializer-list constructor 85-91: the assertion is gone in a release build; std::copy past the
    end of data_ is undefined *)
Definition dim_of_list (dbg : bool) (dim : nat) (l : list T) : outcome (list (option T)) :=
  assert_then dbg (Nat.eqb (length l) dim)
    (if Nat.leb (length l) dim then Ok (map Some l ++ repeat None (dim - length l)) else UB).
(** fill constructor 116-121, default constructor 75 *)
Definition dim_filled (dim : nat) (v : T) : list (option T) := repeat (Some v) dim.
Definition dim_default (dim : nat) : list (option T) := repeat None dim.
(** operator[] 137-161: data_[static_cast<size_t>(e)], no check; reading an uninitialised cell is
    undefined *)
Definition dim_get (st : list (option T)) (e : nat) : outcome T :=
  match nth_error st e with Some (Some v) => Ok v | _ => UB end.
(** enum class axis 52 *)
Inductive axis := ax_x | ax_y | ax_z.
Definition axis_index (a : axis) : nat := match a with ax_x => 0 | ax_y => 1 | ax_z => 2 end.
(** operator = (const TYPE & val) 185-195; [val] may be element j of the array itself *)
Fixpoint put (st : list (option T)) (i : nat) (v : option T) : list (option T) :=
  match st, i with [], _ => [] | _ :: r, O => v :: r | x :: r, S k => x :: put r k v end.
Definition dim_assign_own (st : list (option T)) (j : nat) : list (option T) :=
  loop (length st) (fun i st => put st i (nth j st None)) st.
Definition dim_assign (st : list (option T)) (v : T) : list (option T) :=
  loop (length st) (fun i st => put st i (Some v)) st.
(** operator << 372-391 *)
Fixpoint dim_print (show : T -> string) (l : list T) : string :=
  match l with [] => " ]" | x :: r => " " ++ show x ++ dim_print show r end.
Definition dim_out (show : T -> string) (l : list T) : string := ("[" ++ dim_print show l)%string.
End Dim.
