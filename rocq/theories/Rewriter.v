(* clang::Rewriter, as used by dredd.  A buffer has one cell per character offset of the
   original text plus one for the end; a cell holds the text inserted at the offset and
   the text that stands for the original character.  InsertTextBefore puts text before
   what was inserted at the offset earlier, InsertTextAfterToken after it
   (RewriteBuffer::InsertText with InsertAfter false / true); ReplaceText changes the
   characters and leaves insertions alone.  RewriteBufferProof.v relates this to the
   buffer and delta tree that Clang maintains. *)
From Coq Require Import String Ascii List NArith ZArith Bool.
From Verif Require Import Base Clang Gen.
Import ListNotations.
Local Open Scope string_scope.

Definition cell : Type := string * string.

Fixpoint cells_of (text : string) : list cell :=
  match text with
  | EmptyString => [("", "")]
  | String c s => ("", char_string c) :: cells_of s
  end.

Definition cell_text (x : cell) : string := fst x ++ snd x.
Definition render (cs : list cell) : string := concat_strings (map cell_text cs).

Fixpoint update_nth {A} (n : nat) (f : A -> A) (l : list A) : list A :=
  match l with
  | [] => []
  | x :: l => match n with
              | 0 => f x :: l
              | S n => x :: update_nth n f l
              end
  end.

(* Blank the characters of len cells from offset off *)
Fixpoint blank (off len : nat) (cs : list cell) : list cell :=
  match len with
  | 0 => cs
  | S len => blank (S off) len (update_nth off (fun x => (fst x, "")) cs)
  end.

Definition apply_edit (e : edit) (cs : list cell) : list cell :=
  match e with
  | InsertBefore off s => update_nth off (fun x => (s ++ fst x, snd x)) cs
  | InsertAfterToken off s => update_nth off (fun x => (fst x ++ s, snd x)) cs
  | ReplaceText off len s =>
      update_nth off (fun x => (fst x, s)) (blank off len cs)
  end.

Definition apply_edits (es : list edit) (cs : list cell) : list cell :=
  fold_left (fun cs e => apply_edit e cs) es cs.

(* The text of a file after a sequence of edits *)
Definition rewrite (text : string) (es : list edit) : string :=
  render (apply_edits es (cells_of text)).
