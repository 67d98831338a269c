(** The tests and the example of ristra/atomics that run in one thread: test/unit-{add,sub,mul,div,mod,lshift,rshift,and,or,xor,
    min,max,preinc,predec,postinc,postdec}.cc for int and unsigned (the first four also for float and double), and example/correct-operators.cc.  Every assertion compares
    the value an operation on the atomic variable returns with the one the language computes; the three spellings of an
    operation (operator, member function, global function) are the same operation.
    Not modelled: float and double of the others, the output compared with *.blessed, unit-operators, unit-member-functions and
    unit-global-functions. *)
From Coq Require Import List Arith Bool ZArith SpecFloat.
From Verif Require Import Outcome FloatModel AtomicsModel AtomicsTypesModel AtomicsTestModel.
Import ListNotations.
Local Open Scope Z_scope.

(** what the operations return one after the other, and what is left *)
Fixpoint outputs {T} (p : list (op T)) (v : T) : list T :=
  match p with [] => [] | o :: r => snd (fn o v) :: outputs r (fst (fn o v)) end.
Fixpoint leaves {T} (p : list (op T)) (v : T) : T :=
  match p with [] => v | o :: r => leaves r (fst (fn o v)) end.

(* unit-add.cc, unit-sub.cc, unit-mul.cc, unit-div.cc 17-31: n times, three operations with delta, then delta += step *)
Fixpoint rounds (s : scheme) (t : ity) (o : aop) (delta step : Z) (n : nat) : list (op (outcome Z)) :=
  match n with
  | O => []
  | S m => repeat (atom_op s t t o delta) 3 ++ rounds s t o (delta + step) step m
  end.
(* 17-18 of these files *)
Definition start (t : ity) (o : aop) : Z :=
  match o with Adiv => if signed t then 3375 else 200201625 | _ => if signed t then 1 else 100 end.
Definition first_delta (t : ity) : Z := if signed t then -5 else 5.
Definition unit_rounds (s : scheme) (t : ity) (o : aop) : list (op (outcome Z)) :=
  match o with Adiv => rounds s t o (first_delta t) 4 3 | _ => rounds s t o (first_delta t) 2 6 end.

(* the same for float (24, 128) and double (53, 1024), which are signed *)
Definition float_fun (prec emax : Z) (o : aop) (v d : spec_float) : spec_float :=
  match o with
  | Aadd => SFadd prec emax v d | Asub => SFsub prec emax v d | Amul => SFmul prec emax v d | Adiv => SFdiv prec emax v d
  | _ => S754_nan
  end.
Definition float_op (s : scheme) (prec emax : Z) (o : aop) (d : spec_float) : op spec_float :=
  mk_op s (fun v => let r := float_fun prec emax o v d in (r, r)).
Fixpoint float_rounds (s : scheme) (prec emax : Z) (o : aop) (delta step : spec_float) (n : nat) : list (op spec_float) :=
  match n with
  | O => []
  | S m => repeat (float_op s prec emax o delta) 3 ++ float_rounds s prec emax o (SFadd prec emax delta step) step m
  end.
Definition unit_floats (s : scheme) (prec emax : Z) (o : aop) : list (op spec_float) :=
  match o with
  | Adiv => float_rounds s prec emax o (of_int prec emax (-5)) (of_int prec emax 4) 3
  | _ => float_rounds s prec emax o (of_int prec emax (-5)) (of_int prec emax 2) 6
  end.

(* example/correct-operators.cc 18-85: the operations of fun<T> in order; reads T(a) are left out; the constants of +=, -=, *=
   and /= have type T, the others type int *)
Definition store (s : scheme) (v : Z) : op (outcome Z) := mk_op s (fun _ => (Ok v, Ok v)).
Definition pre (s : scheme) (t : ity) (d : Z) : op (outcome Z) := atom_op s t tint Aadd d.
Definition correct_operators (s : scheme) (t : ity) : list (op (outcome Z)) :=
  [ pre s t 1; atom_post s t 1; pre s t (-1); atom_post s t (-1);
    pre s t 1; atom_post s t 1; pre s t (-1); atom_post s t (-1);
    pre s t 1; pre s t (-1);
    atom_op s t t Aadd 5; atom_op s t t Amul 7; atom_op s t t Adiv 7; atom_op s t t Asub 5;
    atom_op s t t Aadd 5; atom_op s t t Amul 7; atom_op s t t Adiv 7; atom_op s t t Asub 5;
    store s 13; atom_op s t tint Amod 5; store s 13; atom_op s t tint Amod 4;
    store s 3; atom_op s t tint Ashl 1; atom_op s t tint Ashr 1; atom_op s t tint Ashl 2; atom_op s t tint Ashr 1;
    store s 180; atom_op s t tint Aand 170; atom_op s t tint Aor 85; atom_op s t tint Aand 85; atom_op s t tint Aor 170;
    store s 240; atom_op s t tint Axor 170; atom_op s t tint Axor 15 ].
(* the values asserted there; a = x returns x *)
Definition asserted : list Z :=
  [ 1; 1; 1; 1;  1; 1; 1; 1;  1; 0;  5; 35; 5; 0;  5; 35; 5; 0;  13; 3; 13; 1;  3; 6; 3; 12; 6;
    180; 160; 245; 85; 255;  240; 90; 85 ].
