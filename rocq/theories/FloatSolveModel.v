(** Inversion of matrices of every size, the solution of linear systems, and norms, trace, double dot product, projections
    and reflections in floating-point arithmetic, ristra/math/matrix.h.
    As in FloatShapeModel.v a matrix is its element function and None stands for a failed assertion. *)
From Coq Require Import ZArith List SpecFloat.
From Verif Require Import FloatModel FloatShapeModel.
Import ListNotations.
Section Format.
Variable prec emax : Z.
Notation num := spec_float.
Notation of_int := (of_int prec emax).
(** ristra/math/matrix.h, 174-182 *)
Definition finverse1 (a : num) : option num := if SFeqb a f0 then None else Some (SFdiv prec emax (of_int 1) a).
(** the overload chosen for n x n, 174-271: sizes 1, 2 and 3 have their own; the last is called for all other sizes *)
Definition finverse_any (n : nat) (A : nat -> nat -> num) : option (nat -> nat -> num) :=
  match n with
  | 1 => option_map (fun x _ _ => x) (finverse1 (A 0 0))
  | 2 => option_map (fun '(p, q, r, s) i j => nth j (nth i [[p; q]; [r; s]] []) f0) (finverse2 prec emax (A 0 0) (A 0 1) (A 1 0) (A 1 1))
  | 3 => option_map (fun l i j => nth (3 * i + j) l f0)
           (finverse3 prec emax (A 0 0) (A 0 1) (A 0 2) (A 1 0) (A 1 1) (A 1 2) (A 2 0) (A 2 1) (A 2 2))
  | _ => finverse prec emax n A
  end.
(** ristra/math/matrix.h, 283-293: y[i] += A(i,j) * x[j] *)
Definition fax_plus_y (n : nat) (A : nat -> nat -> num) (x y : nat -> num) (i : nat) : num :=
  fold_left (fun s j => SFadd prec emax s (SFmul prec emax (A i j) (x j))) (seq 0 n) (y i).
(** ristra/math/matrix.h, 387-397: x starts from zero *)
Definition fsolve (n : nat) (A : nat -> nat -> num) (b : nat -> num) : option (nat -> num) :=
  option_map (fun inv => fax_plus_y n inv b (fun _ => of_int 0)) (finverse_any n A).

(** ristra/math/matrix.h, 488-505 *)
Definition fone_norm (n : nat) (A : nat -> nat -> num) : num :=
  fold_left (fun norm j => std_max norm (fold_left (fun s i => SFadd prec emax s (SFabs (A i j))) (seq 0 n) f0)) (seq 0 n) f0.
(** ristra/math/matrix.h, 507-519 *)
Definition ftwo_norm (n : nat) (A : nat -> nat -> num) : num :=
  SFsqrt prec emax (fold_left (fun norm i => fold_left (fun norm j => SFadd prec emax norm (SFmul prec emax (A i j) (A i j))) (seq 0 n) norm) (seq 0 n) f0).
(** ristra/math/matrix.h, 534-545 *)
Definition ftrace (n : nat) (A : nat -> nat -> num) : num := fold_left (fun trace i => SFadd prec emax trace (A i i)) (seq 0 n) f0.
(** ristra/math/matrix.h, 621-636 *)
Definition fdoubledot (n m : nat) (A B : nat -> nat -> num) : num :=
  fold_left (fun dd i => fold_left (fun dd j => SFadd prec emax dd (SFmul prec emax (A i j) (B i j))) (seq 0 m) dd) (seq 0 n) f0.
(** ristra/math/matrix.h, 39-62 *)
Definition fouter (a b : nat -> num) : nat -> nat -> num := fun i j => SFmul prec emax (a i) (b j).
(** mat(i, i) += 1 *)
Definition fadd_diag (A : nat -> nat -> num) : nat -> nat -> num := fun i j => if Nat.eqb i j then SFadd prec emax (A i j) (of_int 1) else A i j.
(** ristra/math/matrix.h, 435-447: the int -2 is converted by the operator of multi_array.h *)
Definition freflection (n : nat -> num) : nat -> nat -> num := fadd_diag (fun i j => SFmul prec emax (of_int (-2)) (fouter n n i j)).
(** ristra/math/matrix.h, 455-467 *)
Definition fprojection (n : nat -> num) : nat -> nat -> num := fadd_diag (fun i j => SFopp (fouter n n i j)).
End Format.
