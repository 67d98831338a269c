(** Model of ristra/io/catalyst/utils/insituLog.hpp and of ristra/utils/tasks.h. *)
From Coq Require Import Bool String List Arith.
From Verif Require Import Outcome MiscModel.
Import ListNotations.
Local Open Scope string_scope.

(** * insituLog.hpp. Files are a function of their name ([None]: absent); [ok] says which names can be
    opened. An ofstream that fails to open ignores everything written to it. *)
Definition files := string -> option string.
Definition upd (fs : files) (n : string) (c : string) : files := fun m => if String.eqb m n then Some c else fs m.
Definition put_file (ok : string -> bool) (n c : string) (fs : files) : files := if ok n then upd fs n c else fs.
Definition append_file (ok : string -> bool) (n c : string) (fs : files) : files :=
  if ok n then upd fs n (match fs n with Some old => old ++ c | None => c end) else fs.
(** writeLog, writeLogApp, writeLogNew 46-65 *)
Definition writeLog ok filename log := put_file ok (filename ++ ".log") log.
Definition writeLogApp ok filename log := append_file ok (filename ++ ".log") log.
Definition writeLogNew ok filename log := put_file ok (filename ++ ".log") log.
(** class InsituLog 11-39: the name and the stream it collects in *)
Record insitu_log := mklog { outputFilename : string; log : string }.
Definition log_default := mklog "untitled.log" "".
Definition log_named (n : string) := mklog n "".
Definition setOutputFilename (n : string) (l : insitu_log) := mklog n (log l).
Definition clear (l : insitu_log) := mklog (outputFilename l) "".
Definition log_out (s : string) (l : insitu_log) := mklog (outputFilename l) (log l ++ s).
Definition writeToDisk ok (l : insitu_log) (fs : files) : files := put_file ok (outputFilename l) (log l) fs.
(** a program using the three functions and one InsituLog *)
Inductive act := AWrite (f s : string) | AAppend (f s : string) | ANew (f s : string)
               | ASet (n : string) | AClear | AOut (s : string) | ADisk.
Definition do_act ok (a : act) (st : insitu_log * files) : insitu_log * files :=
  let '(l, fs) := st in
  match a with
  | AWrite f s => (l, writeLog ok f s fs)
  | AAppend f s => (l, writeLogApp ok f s fs)
  | ANew f s => (l, writeLogNew ok f s fs)
  | ASet n => (setOutputFilename n l, fs)
  | AClear => (clear l, fs)
  | AOut s => (log_out s l, fs)
  | ADisk => (l, writeToDisk ok l fs)
  end.
Definition acts ok (p : list act) (st : insitu_log * files) := fold_left (fun st a => do_act ok a st) p st.

(** * tasks.h. A container is its first address and its size; elements are addresses of one memory,
    so that containers may overlap. [func] gets the addresses its arguments refer to. *)
Section Task.
Context {T : Type}.
Definition memory := nat -> T.
Record container := mkc { base : nat; len : nat }.
(** simple_task_impl 22-28: the range-for over the zip, zip_impl.h 98-133, 264-268 *)
Fixpoint task_loop (fuel : nat) (func : list nat -> memory -> memory) (cur ends : list nat) (m : memory) : option memory :=
  match fuel with
  | 0 => None
  | S f => if not_equal_tuples cur ends then task_loop f func (incr_all cur) ends (func cur m) else Some m
  end.
(** simple_task 45-50 *)
Definition simple_task (fuel : nat) (dbg : bool) (func : list nat -> memory -> memory) (args : list container) (m : memory)
  : option (outcome memory) :=
  match zip_check dbg (map len args) with
  | Ok _ => option_map Ok (task_loop fuel func (map base args) (map (fun c => base c + len c) args) m)
  | Throw => Some Throw | AssertFail => Some AssertFail | UB => Some UB
  end.
End Task.
