(** Model of ristra/utils/string_utils.h on lists of characters. *)
From Coq Require Import List Arith ZArith NArith Ascii Bool Lia.
From Verif Require Import Outcome.
Import ListNotations.

Definition str := list ascii.

(** std::string::find(pat,pos): smallest i >= pos with s[i..) starting with pat. *)
Fixpoint prefixb (p s : str) : bool :=
  match p, s with
  | [], _ => true
  | _ :: _, [] => false
  | a :: p', b :: s' => Ascii.eqb a b && prefixb p' s'
  end.
Fixpoint find0 (s pat : str) : option nat :=
  if prefixb pat s then Some 0
  else match s with [] => None | _ :: t => option_map S (find0 t pat) end.
Definition str_find (s pat : str) (pos : nat) : option nat :=
  if length s <? pos then None else option_map (Nat.add pos) (find0 (skipn pos s) pat).

(** std::string::replace(pos,n,to) for pos <= size() *)
Definition str_replace (s : str) (pos n : nat) (to : str) : str :=
  firstn pos s ++ to ++ skipn (pos + n) s.

(** replace_all, lines 34-41; [None]: the loop has not finished within the fuel. The growth limit
    of std::string (length_error, bad_alloc) is not modelled. *)
Fixpoint replace_loop (fuel : nat) (from to s : str) (start : nat) : option str :=
  match fuel with
  | 0 => None
  | S f => match str_find s from start with
           | None => Some s
           | Some i => replace_loop f from to (str_replace s i (length from) to) (i + length to)
           end
  end.
Definition replace_all (fuel : nat) (s from to : str) : option str := replace_loop fuel from to s 0.

(** std::string::rfind(c, s.length()) and find_last_of of one character: the last index of c. *)
Fixpoint rfind (s : str) (c : ascii) : option nat :=
  match s with
  | [] => None
  | x :: t => match rfind t c with
              | Some i => Some (S i)
              | None => if Ascii.eqb x c then Some 0 else None
              end
  end.
(** std::string::substr(pos,n): throws when pos > size() *)
Definition str_substr (s : str) (pos n : nat) : outcome str :=
  if length s <? pos then Throw else Ok (firstn n (skipn pos s)).

Definition sep : ascii := "/"%char.
Definition dot : ascii := "."%char.

(** basename, lines 77-90 (POSIX separator) *)
Definition basename (s : str) : outcome str :=
  match rfind s sep with
  | Some i => str_substr s (i + 1) (length s - 1)
  | None => Ok s
  end.
(** file_extension, lines 98-109 *)
Definition file_extension (s : str) : outcome str :=
  bind (basename s) (fun base =>
  match rfind base dot with
  | Some i => str_substr base (i + 1) (length base - 1)
  | None => Ok []
  end).
(** remove_extension, lines 117-121 *)
Definition remove_extension (s : str) : outcome str :=
  match rfind s dot with
  | None => Ok s
  | Some i => str_substr s 0 i
  end.
(** split_extension, lines 129-136 *)
Definition split_extension (s : str) : outcome (str * str) :=
  match rfind s dot with
  | None => Ok (s, [])
  | Some i => bind (str_substr s 0 i) (fun a =>
              bind (str_substr s (i + 1) (length s)) (fun b => Ok (a, b)))
  end.

(** split, lines 146-180. The character class table is the classic one (space, \t \n \v \f \r)
    with the delimiters added; rc[d] with a negative char (code >= 128 where char is signed) writes
    outside the table. operator>> skips class-space characters, then takes the following run. *)
Definition classic_space (c : ascii) : bool :=
  let n := nat_of_ascii c in (n =? 32) || ((9 <=? n) && (n <=? 13)).
Definition is_delim (delims : str) (c : ascii) : bool :=
  classic_space c || existsb (Ascii.eqb c) delims.
Fixpoint skip_ws (d : ascii -> bool) (s : str) : str :=
  match s with [] => [] | c :: t => if d c then skip_ws d t else s end.
Fixpoint span_tok (d : ascii -> bool) (s : str) : str * str :=
  match s with
  | [] => ([], [])
  | c :: t => if d c then ([], s) else let (a, b) := span_tok d t in (c :: a, b)
  end.
Fixpoint read_tokens (fuel : nat) (d : ascii -> bool) (s : str) : option (list str) :=
  match fuel with
  | 0 => None
  | S f => match skip_ws d s with
           | [] => Some []
           | s' => let (a, b) := span_tok d s' in option_map (cons a) (read_tokens f d b)
           end
  end.
Definition split (s delims : str) : outcome (list str) :=
  match s with
  | [] => Ok []
  | _ => if existsb (fun c => 128 <=? nat_of_ascii c) delims then UB
         else match read_tokens (S (length s)) (is_delim delims) s with
              | Some ts => Ok ts
              | None => UB
              end
  end.

(** num_digits, lines 183-195. [None]: fuel exhausted. *)
Fixpoint digits_loop (fuel : nat) (number digits : N) : option N :=
  match fuel with
  | 0 => None
  | S f => if N.eqb number 0 then Some digits else digits_loop f (N.div number 10) (N.succ digits)
  end.
Definition num_digits (fuel : nat) (n : N) : option N := digits_loop fuel (N.div n 10) 1.

(** operator<<(ostream,unsigned): decimal digits, most significant first. *)
Fixpoint decimal (fuel : nat) (n : N) (acc : list N) : option (list N) :=
  match fuel with
  | 0 => None
  | S f => let acc' := (N.modulo n 10) :: acc in
           if N.eqb (N.div n 10) 0 then Some acc' else decimal f (N.div n 10) acc'
  end.
(** zero_padded, lines 200-207: setw(padding), setfill('0'); setw is a minimum width. Characters
    are represented by their digit. [padding] above INT_MAX is not modelled. *)
Definition zero_padded (fuel : nat) (n : N) (padding : nat) : option (list N) :=
  option_map (fun ds => repeat 0%N (padding - length ds) ++ ds) (decimal fuel n []).

(** * to_wstring, lines 61-70. The multibyte decoding of the locale is a function [dec] of the remaining text: the wide
    character at its front and the number of bytes it takes, [None] if the bytes are invalid. *)
Section Wide.
Variable dec : str -> option (N * nat).
(** std::mbstowcs(dst, text, n): at most n wide characters are stored, up to the end of the text. An invalid sequence
    ends the conversion (the return value (size_t)-1 is not looked at); what was stored before is taken to stay, as in
    glibc. The wide characters stored *)
Fixpoint mbstowcs (n : nat) (text : str) : list N :=
  match n with
  | O => []
  | S n' => match text with
            | [] => []
            | _ => match dec text with
                   | None => []
                   | Some (w, k) => w :: mbstowcs n' (skipn k text)
                   end
            end
  end.
(** wstr.resize(size) fills with L'\0'; the characters stored overwrite the front (and the terminator, if it is
    stored, another L'\0') *)
Definition to_wstring (text : str) : list N :=
  let size := length text in
  let stored := mbstowcs size text in
  stored ++ repeat 0%N (size - length stored).
End Wide.
(** the decoding of the C locale: bytes below 128 stand for themselves, others are invalid; and of UTF-8, sequences of
    one to three bytes (longer ones and the exclusion of overlong forms are left out) *)
Definition dec_c (s : str) : option (N * nat) :=
  match s with [] => None | a :: _ => let n := N_of_ascii a in if N.ltb n 128 then Some (n, 1) else None end.
Definition cont (a : ascii) : option N :=
  let n := N_of_ascii a in if (N.leb 128 n && N.ltb n 192)%bool then Some (n - 128)%N else None.
Definition dec_utf8 (s : str) : option (N * nat) :=
  match s with
  | [] => None
  | a :: t =>
    let n := N_of_ascii a in
    if N.ltb n 128 then Some (n, 1)
    else if N.ltb n 192 then None
    else if N.ltb n 224 then
      match t with
      | b :: _ => option_map (fun x => (((n - 192) * 64 + x)%N, 2)) (cont b) | [] => None end
    else if N.ltb n 240 then
      match t with
      | b :: c :: _ => match cont b, cont c with
                       | Some x, Some y => Some ((((n - 224) * 64 + x) * 64 + y)%N, 3) | _, _ => None end
      | _ => None end
    else None
  end.
