(** Model of ristra/math/matrix.h over an abstract commutative ring (field where the code divides),
    for every dimension. A matrix is a function of row and column (indexing itself is C29); the
    elements of a default-constructed local are [junk]. Loops are [for_]; assignments are functional
    updates. Rounding is not modelled; [std::abs(det) > 0] is [det != 0]. *)
From mathcomp Require Import all_ssreflect all_algebra.
From Verif Require Import Outcome.
Set Implicit Arguments. Unset Strict Implicit. Unset Printing Implicit Defensive.
Import GRing.Theory Num.Theory.
Local Open Scope ring_scope.

(** for (i = 0; i < n; i++) body *)
Fixpoint for_ {St : Type} (n : nat) (body : nat -> St -> St) (s : St) : St :=
  match n with 0 => s | k.+1 => body k (for_ k body s) end.

Section Ring.
Variable R : comRingType.
Definition mat := nat -> nat -> R.
Definition vec := nat -> R.
Definition setm (m : mat) (i j : nat) (v : R) : mat :=
  fun a b => if (a == i) && (b == j) then v else m a b.
Definition setv (x : vec) (i : nat) (v : R) : vec := fun a => if a == i then v else x a.
Variable junk : mat.
Variable junkv : vec.

(** tmp(i,j) = f(i,j) for all i, j *)
Definition fill2 (n m : nat) (f : nat -> nat -> R) (tmp : mat) : mat :=
  for_ n (fun i => for_ m (fun j tmp => setm tmp i j (f i j))) tmp.

(** outer_product 39-60: *it++ walks the row-major storage, so the cell is (it / D, it mod D) *)
Definition outer_product (D : nat) (a b : vec) : mat :=
  (for_ D (fun i => for_ D (fun j s => (setm s.1 (s.2 %/ D)%N (s.2 %% D)%N (a i * b j), s.2.+1))) (junk, 0%N)).1.
(** outer_product, accumulating, 74-92: c[i*D+j] += fact * a[i] * b[j] *)
Definition outer_product_acc (D : nat) (a b : vec) (c : mat) (fact : R) : mat :=
  for_ D (fun i => for_ D (fun j c =>
    let k := (i * D + j)%N in setm c (k %/ D)%N (k %% D)%N (c (k %/ D)%N (k %% D)%N + fact * a i * b j))) c.

(** cofactor (a minor, without sign) 104-130 *)
Definition cofactor (N : nat) (m : mat) (row col : nat) : mat :=
  (for_ N (fun i s =>
     if i != row then
       let inner := for_ N (fun j t =>
         if j != col then (setm t.1 s.2 t.2 (m i j), t.2.+1) else t) (s.1, 0%N) in
       (inner.1, s.2.+1)
     else s) (junk, 0%N)).1.

(** determinant 140-164. N = 0 is never instantiated. *)
Fixpoint determinant (N : nat) (m : mat) : R :=
  match N with
  | 0 => 0
  | 1 => m 0%N 0%N
  | k.+1 => for_ N (fun i det =>
      det + (if (i %% 2 == 1)%N then -1 else 1) * m 0%N i * determinant k (cofactor N m 0 i)) 0
  end.

(** ax_plus_y 283-293; [x] is read in the current state (it may be the object y) *)
Definition ax_plus_y (D1 D2 : nat) (A : mat) (x : vec -> vec) (y : vec) : vec :=
  for_ D1 (fun i => for_ D2 (fun j y => setv y i (y i + A i j * x y j))) y.
(** matrix_vector 295-310 *)
Definition matrix_vector (D1 D2 : nat) (alpha : R) (A : mat) (x : vec) (beta : R) (y : vec) : vec :=
  for_ D1 (fun i => for_ D2 (fun j y => setv y i (alpha * A i j * x j + beta * y i))) y.
(** operator*(matrix,vector) 320-333 *)
Definition mat_vec (D1 D2 : nat) (A : mat) (x : vec) : vec :=
  for_ D1 (fun i tmp => for_ D2 (fun j tmp => setv tmp i (tmp i + A i j * x j)) (setv tmp i 0)) junkv.
(** matrix_multiply(A,B,C) 344-359: C += A*B; A and B are read in the current state (either may be
    the object C) *)
Definition matrix_multiply_acc (D1 D2 D3 : nat) (A B : mat -> mat) (C : mat) : mat :=
  for_ D1 (fun i => for_ D3 (fun j C =>
    setm C i j (C i j + for_ D2 (fun k sum => sum + A C i k * B C k j) 0))) C.
(** matrix_multiply(A,B) 361-377: the same loops on C(0) *)
Definition matrix_multiply (D1 D2 D3 : nat) (A B : mat) : mat :=
  matrix_multiply_acc D1 D2 D3 (fun _ => A) (fun _ => B) (fun _ _ => 0).

(** reflection_matrix 435-447, projection_matrix 455-467 *)
Definition add_diag (D : nat) (m : mat) : mat := for_ D (fun i m => setm m i i (m i i + 1)) m.
Definition reflection_matrix (D : nat) (n : vec) : mat :=
  add_diag D (fun i j => - 2%:R * outer_product D n n i j).
Definition projection_matrix (D : nat) (n : vec) : mat :=
  add_diag D (fun i j => - outer_product D n n i j).
(** dot_product, general.h 170-181; reflect, vector.h 35-50 *)
Definition dot_product (D : nat) (a b : vec) : R := for_ D (fun i d => d + a i * b i) 0.
Definition reflect (D : nat) (v n : vec) : vec :=
  let dot := dot_product D v n in
  let rot := for_ D (fun i r => setv r i (r i * (2%:R * dot))) n in
  for_ D (fun i t => setv t i (t i - rot i)) v.

(** identity_matrix 521-532, trace_matrix 534-545, transpose 547-560, doubledot_product 621-636 *)
Definition identity_matrix (N : nat) : mat := for_ N (fun i m => setm m i i 1) (fun _ _ => 0).
Definition trace_matrix (N : nat) (m : mat) : R := for_ N (fun i t => t + m i i) 0.
Definition transpose (D1 D2 : nat) (m : mat) : mat :=
  for_ D1 (fun i => for_ D2 (fun j t => setm t j i (m i j))) junk.
Definition doubledot_product (N1 N2 : nat) (a b : mat) : R :=
  for_ N1 (fun i => for_ N2 (fun j d => d + a i j * b i j)) 0.
End Ring.

Section Field.
Variable F : fieldType.
Variable junk : mat F.
Variable junkv : vec F.
Variable dbg : bool.
Implicit Types A : mat F.

(** tmp /= denom: multi_array.h 533-538 multiplies by 1/denom *)
Definition mdiv (A : mat F) (denom : F) : mat F := fun i j => A i j * (1 / denom).
(** inverse 1x1 174-182 *)
Definition inverse1 A : outcome (mat F) :=
  let a := A 0%N 0%N in assert_then dbg (a != 0) (Ok (setm junk 0 0 (1 / a))).
(** inverse 2x2 184-200 *)
Definition inverse2 A : outcome (mat F) :=
  let a := A 0%N 0%N in let b := A 0%N 1%N in let c := A 1%N 0%N in let d := A 1%N 1%N in
  let tmp := setm (setm (setm (setm junk 0 0 d) 0 1 (- b)) 1 0 (- c)) 1 1 a in
  let denom := a * d - b * c in
  assert_then dbg (denom != 0) (Ok (mdiv tmp denom)).
(** inverse 3x3 202-240 *)
Definition inverse3 A : outcome (mat F) :=
  let a11 := A 0%N 0%N in let a12 := A 0%N 1%N in let a13 := A 0%N 2%N in
  let a21 := A 1%N 0%N in let a22 := A 1%N 1%N in let a23 := A 1%N 2%N in
  let a31 := A 2%N 0%N in let a32 := A 2%N 1%N in let a33 := A 2%N 2%N in
  let tmp := junk in
  let tmp := setm tmp 0 0 (a22*a33 - a32*a23) in
  let tmp := setm tmp 0 1 (a13*a32 - a33*a12) in
  let tmp := setm tmp 0 2 (a12*a23 - a22*a13) in
  let tmp := setm tmp 1 0 (a23*a31 - a33*a21) in
  let tmp := setm tmp 1 1 (a11*a33 - a31*a13) in
  let tmp := setm tmp 1 2 (a13*a21 - a23*a11) in
  let tmp := setm tmp 2 0 (a21*a32 - a31*a22) in
  let tmp := setm tmp 2 1 (a12*a31 - a32*a11) in
  let tmp := setm tmp 2 2 (a11*a22 - a21*a12) in
  let denom := a11*a22*a33 + a12*a23*a31 + a13*a21*a32 - a31*a22*a13 - a32*a23*a11 - a33*a21*a12 in
  assert_then dbg (denom != 0) (Ok (mdiv tmp denom)).
(** inverse, generic, 244-270 *)
Definition inverse_gen (N : nat) A : outcome (mat F) :=
  let det := determinant junk N A in
  assert_then dbg (det != 0)
   (let inv_det := 1 / det in
    Ok (for_ N (fun j => for_ N (fun i tmp =>
      let val := inv_det * determinant junk N.-1 (cofactor junk N A j i) in
      let val := if ((i + j) %% 2 == 1)%N then - val else val in
      setm tmp i j val)) junk)).
(** overload resolution between them *)
Definition inverse (N : nat) A : outcome (mat F) :=
  match N with 1 => inverse1 A | 2 => inverse2 A | 3 => inverse3 A | _ => inverse_gen N A end.
(** solve 387-397 *)
Definition solve (D : nat) A (b : vec F) : outcome (vec F) :=
  bind (inverse D A) (fun inv => Ok (ax_plus_y D D inv (fun _ => b) (fun _ => 0))).


(** operators of multi_array used by exponential (C28) *)
Definition madd (A B : mat F) : mat F := fun i j => A i j + B i j.
Definition msub (A B : mat F) : mat F := fun i j => A i j - B i j.
Definition mscale (c : F) (A : mat F) : mat F := fun i j => c * A i j.
End Field.

Section RealField.
Variable F : realFieldType.
Implicit Types A : mat F.
(** std::max(a,b) = (a < b) ? b : a *)
Definition std_max (a b : F) : F := if a < b then b else a.
(** infinity_norm 469-486 *)
Definition infinity_norm (N : nat) A : F :=
  for_ N (fun ii norm => std_max norm (for_ N (fun jj sum_row => sum_row + `|A ii jj|) 0)) 0.
(** one_norm 488-505 *)
Definition one_norm (N : nat) A : F :=
  for_ N (fun jj norm => std_max norm (for_ N (fun ii sum_col => sum_col + `|A ii jj|) 0)) 0.

(** exponential 562-618. The number of squarings s is computed from the infinity norm through
    std::log, which is not modelled: [s_of] is any function of the norm, and norm 0 (log(0) = -inf,
    whose conversion to int is undefined) is [UB]. *)
Definition pade_q := 6%N.
Record pade := mk_pade { pE : mat F; pD : mat F; pX : mat F; pc : F }.
Definition pade_step (N : nat) A (ii : nat) (s : pade) : pade :=
  let c := pc s * ((pade_q - ii + 1)%N%:R / (ii * (2 * pade_q - ii + 1))%N%:R) in
  let X := matrix_multiply N N N A (pX s) in
  mk_pade (madd (mscale c X) (pE s))
          (if (ii %% 2 == 1)%N then msub (pD s) (mscale c X) else madd (pD s) (mscale c X)) X c.
Definition pade_loop (N : nat) A : pade :=
  for_ (pade_q - 1)%N (fun k => pade_step N A (k + 2)%N)
    (mk_pade (madd (identity_matrix F N) (mscale (1 / 2%:R) A))
             (msub (identity_matrix F N) (mscale (1 / 2%:R) A)) A (1 / 2%:R)).
Variable junk : mat F.
Variable dbg : bool.
Variable s_of : F -> nat.
Definition exponential (N : nat) (m : mat F) : outcome (mat F) :=
  let mat_norm := infinity_norm N m in
  if mat_norm == 0 then UB else
  let s := s_of mat_norm in
  let A := mdiv m (2%:R ^+ s) in
  let p := pade_loop N A in
  bind (inverse junk dbg N (pD p)) (fun Dinv =>
  Ok (for_ s (fun _ E => matrix_multiply N N N E E) (matrix_multiply N N N Dinv (pE p)))).
End RealField.

(** two_norm 507-519 *)
Definition two_norm (F : rcfType) (N : nat) (A : mat F) : F :=
  Num.sqrt (for_ N (fun ii => for_ N (fun jj norm => norm + A ii jj * A ii jj)) 0).
