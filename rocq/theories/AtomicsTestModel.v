(** The threaded unit tests and example programs of ristra/atomics: test/unit-threads.h with unit-threads-*.cc, and
    example/multithreaded-*.cc.  The threads run on the interleaving model of AtomicsModel.v; a value of integer type is an
    [outcome Z], so that an undefined operation anywhere makes everything after it undefined.
    Tests: the integer types int and unsigned and the check of float and double results are modelled; the pointer and complex
    types of the tests are not.  The two variables of multithreaded-min-max.cc are looked at one at a time.
    Not modelled: command lines, printing, creating and joining threads beyond "all have finished". *)
From Coq Require Import List Arith Bool ZArith SpecFloat.
From Verif Require Import Outcome AtomicsModel AtomicsTypesModel FloatModel CatalystModel.
Import ListNotations.
Local Open Scope Z_scope.

Definition tint : ity := mk_ity true W32.
Definition tuint : ity := mk_ity false W32.
Definition tlong : ity := mk_ity true W64.
Definition tulong : ity := mk_ity false W64.

(** ** one operation under a scheme: std::atomic or Kokkos where std::atomic has the operation, else the operator of the language *)
Definition computes (s : scheme) (t x : ity) (o : aop) (val lhs : Z) : outcome Z :=
  match s, std_atomic t o lhs val with
  | CppBin, Some r | CppUn, Some r | KokkosPost, Some r => Ok r
  | _, _ => language t x o lhs val
  end.
Definition atom_op (s : scheme) (t x : ity) (o : aop) (val : Z) : op (outcome Z) :=
  mk_op s (fun v => let r := bind v (computes s t x o val) in (r, r)).
(* atom++ and atom-- return the value before *)
Definition atom_post (s : scheme) (t : ity) (d : Z) : op (outcome Z) :=
  mk_op s (fun v => (bind v (computes s t tint Aadd d), v)).

(** ** unit-threads.h *)
(* 141-146: the serial result, nthread times niter operations *)
Definition serial_value (t : ity) (o : aop) (init val : Z) (nthread niter : nat) : outcome Z :=
  Nat.iter nthread (Nat.iter niter (fun v => bind v (fun lhs => language t t o lhs val))) (Ok init).
(* 156-168: every thread applies the operation niter times *)
Definition test_progs {T} (o : op T) (nthread niter : nat) : list (list (op T)) := repeat (repeat o niter) nthread.
(* 247-252: the serial scheme is tried with one thread only *)
Definition tried (s : scheme) (nthread : nat) : Prop := s = Serial -> nthread = 1%nat.
(* 73-95 approximately_equal for double and for float; 1e-6 is a double, so for float the right side is a double;
   the nearest double to 1e-6 is 4722366482869645 * 2^-72 *)
Definition millionth : spec_float := S754_finite false 4722366482869645 (-72).
Definition less (x y : spec_float) : bool := match SFcompare x y with Some Lt => true | _ => false end.
Definition approximately_equal (a b : spec_float) : bool :=
  less (SFabs (SFsub 53 1024 a b)) (SFmul 53 1024 millionth (SFadd 53 1024 (SFabs a) (SFabs b))).
Definition approximately_equal_float (a b : spec_float) : bool :=
  less (widen (SFabs (SFsub 24 128 a b))) (SFmul 53 1024 millionth (widen (SFadd 24 128 (SFabs a) (SFabs b)))).

(** ** the data of unit-threads-*.cc: operation, type, initial values, right-hand sides, MAXNITER; MAXNTHREAD is 4 in all *)
Record test := mk_test { t_op : aop; t_type : ity; t_initial : list Z; t_rhs : list Z; t_niter : nat }.
Definition maxnthread : nat := 4.
Definition masks : list Z := [123000; 456000; 789000].
Definition hundreds : list Z := [0; 100000; 200000; 300000; 400000].
Definition small : list Z := [0; 1; 2; 3; 4].
Definition tests : list test :=
  [ mk_test Aadd tint [-2; -1; 0; 1; 2] [10; -10; 11; -11] 100; mk_test Aadd tuint small [10; 11; 12; 13; 14] 100;
    mk_test Asub tint [-2; -1; 0; 1; 2] [10; -10; 11; -11] 100; mk_test Asub tuint small [10; 11; 12; 13; 14] 100;
    mk_test Aand tint hundreds masks 100; mk_test Aand tuint hundreds masks 100;
    mk_test Aor tint hundreds masks 100; mk_test Aor tuint hundreds masks 100;
    mk_test Axor tint hundreds masks 100; mk_test Axor tuint hundreds masks 100;
    mk_test Adiv tint hundreds [1; 2; 3] 10; mk_test Adiv tuint hundreds [1; 2; 3] 10;
    mk_test Amod tint [0; 1000; 20000; 300000; 40000000] [1; 2; 3; 4; 5] 10;
    mk_test Amod tuint [0; 1000; 20000; 300000; 40000000] [1; 2; 3; 4; 5] 10;
    mk_test Ashr tint hundreds [1; 2; 3] 10; mk_test Ashr tuint hundreds [1; 2; 3] 10;
    (* ++ and --, before and after: unit-threads-{pre,post}{inc,dec}.cc *)
    mk_test Aadd tint [-2; -1; 0; 1; 2] [1] 500; mk_test Aadd tuint small [1] 500;
    mk_test Asub tint [-2; -1; 0; 1; 2] [1] 500; mk_test Asub tuint small [1] 500;
    mk_test Amul tuint small [0; 1; 2; 3] 10; mk_test Ashl tuint small [0; 1; 2; 3] 10 ].
(* the int part of unit-threads-mul.cc and unit-threads-lshift.cc *)
Definition test_mul : test := mk_test Amul tint small [0; 1; 2; 3] 10.
Definition test_lshift : test := mk_test Ashl tint small [0; 1; 2; 3] 10.

(** ** the examples *)
(* multithreaded-add.cc: atomic<long> atom(0), every thread adds 1 niters times *)
Definition ex_add (s : scheme) (nthreads niters : nat) : list (list (op (outcome Z))) :=
  repeat (repeat (atom_op s tlong tint Aadd 1) niters) nthreads.
(* multithreaded-add-sub.cc 49-87: 2*npairs threads, the even ones add and the odd ones subtract *)
Definition ex_add_sub (s : scheme) (npairs niters : nat) : list (list (op (outcome Z))) :=
  map (fun i => repeat (atom_op s tlong tint (if Nat.odd i then Asub else Aadd) 1) niters) (seq 0 (2 * npairs)).
(* multithreaded-add-sub-inc-dec.cc 26-46; inc and dec are preinc and predec (atomics.h, member functions) *)
Definition body_inc_dec (s u p : scheme) : list (op (outcome Z)) :=
  [ atom_op s tulong tint Aadd 10; atom_op s tulong tint Aadd 20; atom_op s tulong tint Aadd (-30);
    atom_op s tulong tint Asub 10; atom_op s tulong tint Asub 20; atom_op s tulong tint Asub (-30);
    atom_op u tulong tint Aadd 1; atom_op u tulong tint Aadd 1; atom_post p tulong 1;
    atom_op u tulong tint Aadd (-1); atom_op u tulong tint Aadd (-1); atom_post p tulong (-1) ].
Definition ex_inc_dec (s u p : scheme) (nthreads niters : nat) : list (list (op (outcome Z))) :=
  repeat (concat (repeat (body_inc_dec s u p) niters)) nthreads.
(* multithreaded-mul-div-shift.cc 23-34 *)
Definition body_mul_div (s : scheme) : list (op (outcome Z)) :=
  [ atom_op s tulong tint Amul 2; atom_op s tulong tint Ashr 1; atom_op s tulong tint Ashl 1;
    atom_op s tulong tint Adiv 2; atom_op s tulong tint Amul 2; atom_op s tulong tint Adiv 2 ].
Definition ex_mul_div (s : scheme) (nthreads niters : nat) : list (list (op (outcome Z))) :=
  repeat (concat (repeat (body_mul_div s) niters)) nthreads.
(* multithreaded-min-max.cc 13-48: even threads count up from a to b, odd ones down; the loops for one of the variables *)
Definition upward (a b : Z) : list Z := map (fun i => a + Z.of_nat i) (seq 0 (Z.to_nat (b - a + 1))).
Definition ex_min_max (o : aop) (a b : Z) (nthreads : nat) : list (list (op (outcome Z))) :=
  map (fun i => map (atom_op Strong tint tint o) (if Nat.even i then upward a b else rev (upward a b))) (seq 0 nthreads).
