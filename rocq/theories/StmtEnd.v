(* The end of a removed statement: mutation_remove_stmt.cc:60-99 and 163-176, on the text that
   follows the last token of the statement in the file. *)
From Coq Require Import String Ascii List Bool Arith.
From Verif Require Import Base Clang Gen GenStmt.
Import ListNotations.
Local Open Scope string_scope.

(* Clang's raw lexer (Lexer::getRawToken with IgnoreWhiteSpace, which keeps comments as tokens).
   Not modelled: trigraphs, lines spliced in the middle of a comment delimiter, and languages
   without line comments. *)
Definition backslash : ascii := "\"%char.
Definition newline : ascii := "010"%char.
Definition blank_char (a : ascii) : bool :=
  Ascii.eqb a " " || Ascii.eqb a newline || (Nat.leb 9 (nat_of_ascii a) && Nat.leb (nat_of_ascii a) 13).
(* white space that does not end a line *)
Definition horizontal (a : ascii) : bool := blank_char a && negb (Ascii.eqb a newline).

Definition cons_fst (a : ascii) (p : string * string) : string * string :=
  (String a (fst p), snd p).

(* White space, including spliced lines, and what follows it *)
Fixpoint skip_blank (s : string) : string * string :=
  match s with
  | String a s' =>
      if blank_char a then cons_fst a (skip_blank s')
      else match s' with
           | String b s'' =>
               if Ascii.eqb a backslash && Ascii.eqb b newline
               then cons_fst a (cons_fst b (skip_blank s''))
               else ("", s)
           | EmptyString => ("", s)
           end
  | EmptyString => ("", "")
  end.
(* The rest of a line comment; the line goes on after a backslash, maybe with white space. *)
Fixpoint line_comment (spliced : bool) (s : string) : string * string :=
  match s with
  | String a s' =>
      if Ascii.eqb a newline then
        if spliced then cons_fst a (line_comment false s') else ("", s)
      else cons_fst a (line_comment (Ascii.eqb a backslash || (spliced && horizontal a)) s')
  | EmptyString => ("", "")
  end.
(* The rest of a block comment, if it is closed *)
Fixpoint block_comment (star : bool) (s : string) : option (string * string) :=
  match s with
  | String a s' =>
      if star && Ascii.eqb a "/" then Some (String a "", s')
      else match block_comment (Ascii.eqb a "*") s' with
           | Some p => Some (cons_fst a p)
           | None => None
           end
  | EmptyString => None
  end.

Inductive token := TComment | TSemi | THash | TOther.

(* The token at the beginning of a text, its text and the text after it *)
Definition token_at (s : string) : token * string * string :=
  match s with
  | String a (String b s') =>
      if Ascii.eqb a "/" && Ascii.eqb b "/" then
        (TComment, String a (String b (fst (line_comment false s'))), snd (line_comment false s'))
      else if Ascii.eqb a "/" && Ascii.eqb b "*" then
        match block_comment false s' with
        | Some (c, r) => (TComment, String a (String b c), r)
        | None => (TOther, "", s)
        end
      else if Ascii.eqb a ";" then (TSemi, ";", String b s')
      else if (Ascii.eqb a "#" && negb (Ascii.eqb b "#")) || (Ascii.eqb a "%" && Ascii.eqb b ":")
      then (THash, "", s)
      else (TOther, "", s)
  | String a EmptyString =>
      if Ascii.eqb a ";" then (TSemi, ";", "")
      else if Ascii.eqb a "#" then (THash, "", s) else (TOther, "", s)
  | EmptyString => (TOther, "", "")
  end.
Definition next_token (s : string) : string * (token * string * string) :=
  (fst (skip_blank s), token_at (snd (skip_blank s))).

(* lines 69-86: skip comments; at most as many turns as there are characters *)
Fixpoint over_comments (turns : nat) (s : string) : string * bool * string :=
  match turns with
  | 0 => ("", false, s)
  | S turns =>
      match next_token s with
      | (w, (TComment, t, rest)) =>
          let '(taken, _, rest') := over_comments turns rest in (w ++ t ++ taken, true, rest')
      | _ => ("", false, s)
      end
  end.

Record extension := {
  x_taken : string;      (* what the range is extended by *)
  x_comment : bool;      (* is_extended_with_comment *)
  x_semi : bool;         (* is_extended_with_semi *)
  x_hash : bool;         (* IsNextTokenHash *)
  x_rest : string
}.
Definition is_hash (s : string) : bool :=
  match next_token s with (_, (THash, _, _)) => true | _ => false end.
(* lines 60-99 *)
Definition extend (s : string) : extension :=
  let '(taken, comment, rest) := over_comments (String.length s) s in
  match next_token rest with
  | (w, (TSemi, t, rest')) =>
      {| x_taken := taken ++ w ++ t; x_comment := comment; x_semi := true; x_hash := is_hash rest';
         x_rest := rest' |}
  | _ =>
      {| x_taken := taken; x_comment := comment; x_semi := false; x_hash := is_hash rest;
         x_rest := rest |}
  end.

(* The statement that ends at an offset of the text *)
Definition site_at (start finish : nat) (after : string) : stmt_site :=
  {| s_range := {| r_begin := start; r_end := finish + String.length (x_taken (extend after)) |};
     s_ext_comment := x_comment (extend after);
     s_ext_semi := x_semi (extend after);
     s_next_hash := x_hash (extend after) |}.
