(* util.cc: source ranges, their line and column numbers, and snippets. *)
From Coq Require Import String Ascii List NArith ZArith Bool Arith.
From Verif Require Import Base Clang.
Import ListNotations.
Local Open Scope string_scope.

Definition lf : ascii := "010"%char.
Definition cr : ascii := "013"%char.

(* clang::SourceManager::getSpellingLineNumber and getSpellingColumnNumber of the
   character at an offset, counting from line l, column c (LineOffsetMapping: a line ends
   with LF, CR or CR LF; columns count bytes). *)
Fixpoint position_from (text : string) (off l c : nat) : nat * nat :=
  match off, text with
  | S n, String ch rest =>
      if Ascii.eqb ch lf then position_from rest n (S l) 1
      else if Ascii.eqb ch cr
      then match rest with
           | String ch' _ =>
               if Ascii.eqb ch' lf then position_from rest n l (S c)
               else position_from rest n (S l) 1
           | EmptyString => position_from rest n (S l) 1
           end
      else position_from rest n l (S c)
  | _, _ => (l, c)
  end.
Definition position (text : string) (off : nat) : nat * nat :=
  position_from text off 1 1.

(* A token range in the buffer of the main file: offset of its first character, offset of
   its last token, and Lexer::MeasureTokenLength of that token. *)
Record token_range := { tr_begin : nat; tr_last : nat; tr_last_length : nat }.

(* util.cc:108-116 and 136-141: start and end position; the end column is the column of
   the last token plus its length *)
Definition range_start (text : string) (r : token_range) : nat * nat :=
  position text (tr_begin r).
Definition range_end (text : string) (r : token_range) : nat * nat :=
  let '(l, c) := position text (tr_last r) in (l, c + tr_last_length r).

(* util.cc:99-119 on the four numbers it computes *)
Definition consistent_positions (start_line start_column end_line end_column : nat)
  : bool :=
  Nat.ltb start_line end_line || Nat.ltb start_column end_column.
Definition source_range_consistency_check (text : string) (r : token_range) : bool :=
  let '(sl, sc) := range_start text r in
  let '(el, ec) := range_end text r in
  consistent_positions sl sc el ec.

(* util.cc:149-152 *)
Definition snip_text : string := " ... [snip] ... ".
Definition snippet_length_each_side : nat := 10.
Definition min_snipped_length : nat :=
  String.length snip_text + 2 * snippet_length_each_side.

(* util.cc:146-165; StringRef::substr stops at the end of the buffer, as substring does.
   The subtraction is on unsigned numbers in the code: it does not wrap as long as the
   range does not end before it begins. *)
Definition range_length (r : token_range) : nat :=
  tr_last r - tr_begin r + tr_last_length r.
Definition snippet_of (text : string) (r : token_range) : string :=
  let length := range_length r in
  if Nat.leb length min_snipped_length then substring (tr_begin r) length text
  else substring (tr_begin r) snippet_length_each_side text
       ++ snip_text
       ++ substring (tr_begin r + length - snippet_length_each_side)
            snippet_length_each_side text.

(* util.cc:121-166, InfoForSourceRange *)
Definition info_for_source_range (text : string) (r : token_range) : loc_info :=
  {| start_line := fst (range_start text r); start_column := snd (range_start text r);
     end_line := fst (range_end text r); end_column := snd (range_end text r);
     snippet := snippet_of text r |}.

(* util.cc:34-88.  A source location, with what Clang answers about it: in which file it
   is; for a location in a macro expansion, whether it is at the start or end of the
   expansion and if so where the macro was expanded. *)
Inductive expansion := InMain (off : nat) | NotInMain.
Inductive location :=
| LocMain (off : nat)              (* getFileID = getMainFileID *)
| LocOther                         (* a file that is not the main file *)
| LocMacro (scratch : bool)        (* isWrittenInScratchSpace of the spelling *)
    (at_start at_end : option expansion).  (* isAtStart/EndOfMacroExpansion *)

Definition location_in_main_file (l : location) (is_start : bool) : option nat :=
  match l with
  | LocMain off => Some off
  | LocOther => None
  | LocMacro scratch at_start at_end =>
      if scratch then None
      else match (if is_start then at_start else at_end) with
           | Some (InMain off) => Some off
           | _ => None
           end
  end.

(* util.cc:192-214 *)
Definition source_range_in_main_file (b e : location) : option (nat * nat) :=
  match location_in_main_file b true with
  | None => None
  | Some bo => match location_in_main_file e false with
               | None => None
               | Some eo => Some (bo, eo)
               end
  end.
