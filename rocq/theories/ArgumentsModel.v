(** Model of ristra/initialization/arguments.h. The parser of boost::program_options is a parameter:
    a function of the options and the command line that returns a variables map or throws po::error. *)
From Coq Require Import Bool String List.
From Verif Require Import Outcome.
Import ListNotations.
Local Open Scope string_scope.

(** an option as handed to add_options(): flag, name of T in po::value<T> (None: untyped), message *)
Record opt := mkopt { flag : string; type : option string; message : string }.
(** po::options_description: caption and options in the order they were added *)
Record group := mkgroup { title : string; opts : list opt }.
(** descriptions_ 52: a std::map, ordered by key *)
Definition table := list (string * group).
Fixpoint find (k : string) (t : table) : option group :=
  match t with
  | [] => None
  | (k', g) :: r => if String.eqb k k' then Some g else find k r
  end.
(** std::map: set the entry of key k, keeping the order *)
Fixpoint store (k : string) (g : group) (t : table) : table :=
  match t with
  | [] => [(k, g)]
  | (k', g') :: r => if String.eqb k k' then (k, g) :: r
                     else if String.ltb k k' then (k, g) :: t else (k', g') :: store k g r
  end.
(** register_group 75-81: emplace does nothing if the key exists; true in any case *)
Definition register_group (k ti : string) (t : table) : table * bool :=
  (match find k t with Some _ => t | None => store k (mkgroup ti []) t end, true).
(** register_argument 85-116: descriptions_[key] creates an empty description *)
Definition register_argument (k : string) (o : opt) (t : table) : table * bool :=
  let g := match find k t with Some g => g | None => mkgroup "" [] end in
  (store k (mkgroup (title g) (opts g ++ [o])%list) t, true).

(** the registrations of a program, in the order static initialisation happens to run them *)
Inductive event := EGroup (k ti : string) | EArg (k : string) (o : opt).
Definition key_of (e : event) : string := match e with EGroup k _ => k | EArg k _ => k end.
Definition step (t : table) (e : event) : table :=
  match e with EGroup k ti => fst (register_group k ti t) | EArg k o => fst (register_argument k o t) end.
Definition run (es : list event) : table := fold_left step es [].

(** the option list 128-131: cmdline_options.add(desc.second) in key order *)
Definition all_options (t : table) : list opt := flat_map (fun p => opts (snd p)) t.
Definition captions (t : table) : list string := map (fun p => title (snd p)) t.

(** boost::any values by the name of their type; po::variables_map *)
Record value := mkvalue { vtype : string; vtext : string }.
Definition vmap := list (string * value).
Definition count (m : vmap) (n : string) : nat :=
  if existsb (fun p => String.eqb n (fst p)) m then 1 else 0.
Fixpoint lookup (m : vmap) (n : string) : option value :=
  match m with [] => None | (n', v) :: r => if String.eqb n n' then Some v else lookup r n end.
(** command_line_variables_t::as 30-37; as<T>() of a value of another type throws bad_any_cast *)
Definition as_ (m : vmap) (n : string) (T : string) (def : string) : outcome string :=
  if Nat.eqb (count m n) 0 then Ok def
  else match lookup m n with
       | Some v => if String.eqb (vtype v) T then Ok (vtext v) else Throw
       | None => UB
       end.

(** what is written to cerr and cout *)
Inductive chunk := CErr (text : string) | CErrOptions (t : table) | COut (text : string) | COutOptions (t : table).
Inductive parse_result := Parsed (m : vmap) | PoError (what : string) (m : vmap).
(** process_arguments 121-160: [parse] covers lines 137-141; vm may be partly filled when it throws *)
Definition process_arguments (parse : list opt -> list string -> parse_result)
    (t : table) (argv : list string) (print : bool) : outcome (vmap * bool * list chunk * string) :=
  match argv with
  | [] => UB
  | prog :: _ =>
      match parse (all_options t) argv with
      | PoError what m =>
          Ok (m, true, if print then [CErr ("ERROR: " ++ what); CErr ("Usage: " ++ prog ++ " [options]"); CErrOptions t] else [], prog)
      | Parsed m =>
          Ok (m, false, if negb (Nat.eqb (count m "help") 0) && print
                        then [COut ("Usage: " ++ prog ++ " [options]"); COutOptions t] else [], prog)
      end
  end.
