(* scripts/query_mutant_info.py: how text is extracted from the original file. *)
From Coq Require Import String Ascii List NArith Bool Arith.
From Verif Require Import Base Clang SourceRange.
Import ListNotations.

(* A character of a Python string, as the bytes of its UTF-8 encoding. *)
Definition pchar : Type := string.

(* The number of bytes of the character that starts with a byte *)
Definition utf8_length (c : ascii) : nat :=
  let n := N_of_ascii c in
  if N.ltb n 192 then 1 else if N.ltb n 224 then 2 else if N.ltb n 240 then 3 else 4.

(* open(..., 'r') decodes UTF-8 (the default encoding of current platforms).  Simplified:
   a character is as long as its first byte says, malformed input (an exception in
   Python) is not detected. *)
Fixpoint decode_from (text : string) (pending : nat) (acc : string) : list pchar :=
  match text with
  | EmptyString => match acc with EmptyString => [] | _ => [acc] end
  | String c rest =>
      match pending with
      | 0 => let n := utf8_length c in
             if Nat.eqb n 1 then char_string c :: decode_from rest 0 EmptyString
             else decode_from rest (n - 1) (char_string c)
      | 1 => (acc ++ char_string c)%string :: decode_from rest 0 EmptyString
      | S p => decode_from rest p (acc ++ char_string c)%string
      end
  end.
Definition decode (text : string) : list pchar := decode_from text 0 EmptyString.

Definition p_lf : pchar := char_string lf.
Definition p_cr : pchar := char_string cr.

(* Universal newlines: CR LF and CR are read as LF. *)
Fixpoint universal (t : list pchar) : list pchar :=
  match t with
  | [] => []
  | c :: rest =>
      if String.eqb c p_cr
      then match rest with
           | c' :: rest' => if String.eqb c' p_lf then universal rest
                            else p_lf :: universal rest
           | [] => [p_lf]
           end
      else c :: universal rest
  end.

(* readlines(): every line keeps its line feed *)
Fixpoint lines (t : list pchar) : list (list pchar) :=
  match t with
  | [] => []
  | c :: rest =>
      if String.eqb c p_lf then [c] :: lines rest
      else match lines rest with
           | [] => [[c]]
           | l :: ls => (c :: l) :: ls
           end
  end.
Definition readlines (text : string) : list (list pchar) := lines (universal (decode text)).

Definition nth_line (ls : list (list pchar)) (n : nat) : list pchar := nth n ls [].

(* query_mutant_info.py:62-80, the text only (a line number beyond the file, an exception
   in Python, gives the empty line here) *)
Definition text_for_source_range (text : string) (info : loc_info) : string :=
  let ls := readlines text in
  concat_strings
    (if Nat.eqb (start_line info) (end_line info)
     then skipn (start_column info - 1)
            (firstn (end_column info - 1) (nth_line ls (start_line info - 1)))
     else skipn (start_column info - 1) (nth_line ls (start_line info - 1))
          ++ concat (map (nth_line ls)
               (seq (start_line info) (end_line info - 1 - start_line info)))
          ++ firstn (end_column info - 1) (nth_line ls (end_line info - 1)))%list.
