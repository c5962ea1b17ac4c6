(* Where Dredd looks for a construct that is partly written through macros: util.cc:30-88
   (getSourceLocationInMainFileForExtremeOfRange) and util.cc:192-215
   (GetSourceRangeInMainFile). *)
From Coq Require Import String List Arith Bool.
Import ListNotations.

(* What a macro invocation is replaced by.
   - Token s scratch: a token of the macro's definition; scratch says that it does not occur
     there, but results from ## or is made by the preprocessor as for __LINE__.
   - Nested body: the replacement of a macro that is invoked in the definition.
   - Argument ts: the tokens that a parameter is replaced by, after their own expansion.
   A function-like macro whose name comes last in the replacement and takes its arguments from
   the file is a Nested of the invocation that it ends. *)
Inductive expansion :=
| Token (s : string) (scratch : bool)
| Nested (body : list expansion)
| Argument (ts : list (string * bool)).

(* The source as the preprocessor sees it, without directives and comments: tokens outside of
   macro invocations, and macro invocations, of the main file or of an included one. *)
Inductive item :=
| Plain (main : bool) (s : string)
| Invocation (main : bool) (body : list expansion).

(* A clang::SourceLocation: the item, and for a token that results from a macro invocation the
   way to it through the nested expansions.  Simplification: Clang's location holds the
   innermost expansion, from which the way outwards is followed. *)
Record location := { l_item : nat; l_path : list nat }.

(* SourceManager::isWrittenInScratchSpace(getSpellingLoc(loc)) *)
Fixpoint scratch_at (body : list expansion) (path : list nat) : bool :=
  match path with
  | [] => false
  | k :: path =>
    match nth_error body k with
    | Some (Token _ b) => b
    | Some (Nested body) => scratch_at body path
    | Some (Argument ts) =>
      match path with
      | j :: _ => match nth_error ts j with Some (_, b) => b | None => false end
      | [] => false
      end
    | None => false
    end
  end.

(* Lexer::isAtStartOfMacroExpansion: isAtStartOfImmediateMacroExpansion for each level *)
Fixpoint at_start (path : list nat) : bool :=
  match path with
  | [] => true
  | k :: path => (k =? 0) && at_start path
  end.

(* Lexer::isAtEndOfMacroExpansion: isAtEndOfImmediateMacroExpansion for each level *)
Fixpoint at_end (body : list expansion) (path : list nat) : bool :=
  match path with
  | [] => true
  | k :: path =>
    (S k =? length body) &&
    match nth_error body k with
    | Some (Nested body) => at_end body path
    | Some (Argument ts) =>
      match path with
      | [] => true
      | j :: _ => S j =? length ts
      end
    | _ => true
    end
  end.

(* util.cc:32-87.  The result is the item that the location returned belongs to: its only token,
   or the invocation, whose first token (is_start) or last token is returned. *)
Definition extreme_in_main (f : list item) (l : location) (is_start : bool) : option nat :=
  match nth_error f (l_item l) with
  | Some (Plain main _) => if main then Some (l_item l) else None
  | Some (Invocation main body) =>
    if scratch_at body (l_path l) then None
    else if (if is_start then at_start (l_path l) else at_end body (l_path l))
    then (if main then Some (l_item l) else None)
    else None
  | None => None
  end.

(* util.cc:192-215 *)
Definition range_in_main (f : list item) (b e : location) : option (nat * nat) :=
  match extreme_in_main f b true with
  | None => None
  | Some i =>
    match extreme_in_main f e false with
    | None => None
    | Some j => Some (i, j)
    end
  end.
