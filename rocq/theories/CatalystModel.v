(** Catalyst helpers: ristra/io/catalyst/utils/insituTimer.hpp, utils/catalystUtils.hpp, adaptor.h.
    - Clock readings are given to the calls as integers (ticks); durations are differences of ticks, -1 is None.
    - Files, images and parsed JSON are given by their contents.
    - MPI calls and messages are not modelled. *)
From Coq Require Import List Arith ZArith Ascii Bool SpecFloat.
From Verif Require Import Outcome StringModel FloatModel.
Import ListNotations.

(** ** InsituTimer *)
Definition str_eq (a b : str) : bool := if list_eq_dec ascii_dec a b then true else false.
Definition tmap := str -> option Z.
Definition upd (m : tmap) (n : str) (v : option Z) : tmap := fun x => if str_eq x n then v else m x.
Record timer := mk_timer { timers : tmap; durations : tmap }.
Definition timer0 : timer := mk_timer (fun _ => None) (fun _ => None).
(* std::map::insert keeps an existing entry *)
Definition insert (m : tmap) (n : str) (v : Z) : tmap := match m n with None => upd m n (Some v) | Some _ => m end.
(* 31-47 start *)
Definition start (n : str) (now : Z) (s : timer) : timer * Z :=
  match timers s n with
  | None => (mk_timer (insert (timers s) n now) (durations s), 1%Z)
  | Some _ => (mk_timer (upd (timers s) n (Some now)) (upd (durations s) n None), 1%Z)
  end.
(* 50-66 stop *)
Definition stop (n : str) (now : Z) (s : timer) : timer * Z :=
  match timers s n with
  | Some t => (mk_timer (timers s) (insert (durations s) n (now - t)), 1%Z)
  | None => (s, (-1)%Z)
  end.
(* 69-79 getDuration *)
Definition get_duration (n : str) (s : timer) : option Z := durations s n.
Inductive top := Start (n : str) (now : Z) | Stop (n : str) (now : Z).
Definition run (s : timer) (o : top) : timer := match o with Start n t => fst (start n t s) | Stop n t => fst (stop n t s) end.

(** ** adaptor.h *)
(* [wants forced] is RequestDataDescription: whether some pipeline asks for data, given whether output is forced *)
(* 82-115 processCatalyst; 169-192 adaptor_t::process: whether CoProcess is called *)
Definition process_catalyst (wants : bool -> bool) (last : bool) : bool :=
  let forced := if last then true else false in
  let forced := true in
  wants forced.
Definition adaptor_process (wants : bool -> bool) (last : bool) : bool :=
  let forced := if last then true else false in
  wants forced.
(* 118-130 finalizeAdaptor: a value-returning function without a return statement; the caller gets undefined behaviour *)
Definition finalize_adaptor {P} (processor : option P) : outcome (option P) := UB.

(** ** catalystUtils.hpp *)
(* 15-45 getCatalystScripts; [json] is the list under "catalyst-scripts" when present, Throw when the file does not parse *)
Definition get_scripts (input : str) (json : outcome (option (list str))) : outcome (list str) :=
  match input with
  | [] => Ok []
  | _ => bind (str_substr input 0 (match rfind input sep with Some i => i | None => length input end)) (fun path =>
         bind json (fun o => match o with
           | Some l => Ok (map (fun f => path ++ [sep] ++ f) l)
           | None => Ok [] end))
  end.
(* 48-54 replaceInString; replace(npos, ...) throws out_of_range *)
Definition replace_in_string (original what by_ : str) : outcome str :=
  match str_find original what 0 with
  | Some i => Ok (str_replace original i (length what) by_)
  | None => Throw
  end.
(* 70-127 imageCompare; an image is width, height, channels and bytes, None when it does not load *)
Record image := mk_image { width : nat; height : nat; channels : nat; bytes : list ascii }.
Fixpoint diff_count (a b : list ascii) : nat :=
  match a, b with x :: a', y :: b' => (if Ascii.eqb x y then 0 else 1) + diff_count a' b' | _, _ => 0 end.
(* 117: (float)numDiff/numPixels > 0.02 divides in float, and compares in double *)
Definition widen (x : spec_float) : spec_float :=
  match x with S754_finite s m e => binary_normalize 53 1024 (if s then Z.neg m else Z.pos m) e s | _ => x end.
Definition two_percent : spec_float := SFdiv 53 1024 (of_int 53 1024 2) (of_int 53 1024 100).
Definition too_different (d num : Z) : bool :=
  match SFcompare (widen (SFdiv 24 128 (of_int 24 128 d) (of_int 24 128 num))) two_percent with Some Gt => true | _ => false end.
Definition image_compare (a b : option image) : bool :=
  match a, b with
  | Some x, Some y =>
      if negb (width x =? width y) then false else if negb (height x =? height y) then false
      else if negb (channels x =? channels y) then false
      else let num := width x * height x * channels x in
           let d := diff_count (firstn num (bytes x)) (firstn num (bytes y)) in
           if too_different (Z.of_nat d) (Z.of_nat num) then false else true
  | _, _ => false
  end.
(* 132-165 compareFiles; std::equal compares as many characters as the first file has *)
Fixpoint std_equal (a b : list ascii) : bool :=
  match a, b with
  | [], _ => true
  | x :: a', y :: b' => Ascii.eqb x y && std_equal a' b'
  | _ :: _, [] => false
  end.
Definition compare_files (a b : option (list ascii)) : bool :=
  match a, b with
  | Some x, Some y => if negb (length x =? length y) then false else std_equal x y
  | _, _ => false
  end.
