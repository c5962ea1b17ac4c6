(* Which characters of a text are code. *)
From Coq Require Import String Ascii List Bool Arith.
From Verif Require Import Base.
Import ListNotations.
Local Open Scope string_scope.

(* C11 5.1.1.2 and 6.4.9: code, a slash in code, a backslash in code, line comment, line comment
   after a backslash, block comment, block comment after a star, literal, literal after a
   backslash.  Raw strings are left out. *)
Inductive mode := Code | Slash | Splice | Line | LineSplice | Block | BlockStar
| Quoted (q : ascii) | Escaped (q : ascii).

Definition white (a : ascii) : bool :=
  match nat_of_ascii a with 9 | 10 | 11 | 12 | 13 | 32 => true | _ => false end.
Definition ends_line (a : ascii) : bool := Nat.eqb (nat_of_ascii a) 10.

(* In code: the new mode and the character that is seen *)
Definition in_code (a : ascii) : mode * string :=
  if white a then (Code, "")
  else match a with
       | "/"%char => (Slash, "")
       | "\"%char => (Splice, "")
       | """"%char | "'"%char => (Quoted a, String a "")
       | _ => (Code, String a "")
       end.
Definition prepend (s : string) (r : mode * string) : mode * string := (fst r, s ++ snd r).
Definition one_char (m : mode) (a : ascii) : mode * string :=
  match m with
  | Code => in_code a
  | Slash => match a with
             | "/"%char => (Line, "")
             | "*"%char => (Block, "")
             | _ => prepend "/" (in_code a)
             end
  | Splice => if ends_line a then (Code, "") else prepend "\" (in_code a)
  | Line => if ends_line a then (Code, "")
            else match a with "\"%char => (LineSplice, "") | _ => (Line, "") end
  | LineSplice => if ends_line a then (Line, "")
                  else match a with
                       | "\"%char => (LineSplice, "")
                       | _ => if white a then (LineSplice, "") else (Line, "")
                       end
  | Block => match a with "*"%char => (BlockStar, "") | _ => (Block, "") end
  | BlockStar => match a with
                 | "/"%char => (Code, "")
                 | "*"%char => (BlockStar, "")
                 | _ => (Block, "")
                 end
  | Quoted q => if Ascii.eqb a q then (Code, String a "")
                else match a with
                     | "\"%char => (Escaped q, String a "")
                     | _ => (Quoted q, String a "")
                     end
  | Escaped q => (Quoted q, String a "")
  end.

(* The mode after a text, and the characters of it that are code and not white space *)
Fixpoint read (m : mode) (s : string) : mode * string :=
  match s with
  | EmptyString => (m, "")
  | String a s => prepend (snd (one_char m a)) (read (fst (one_char m a)) s)
  end.

(* The code of a text that begins outside comments; a last slash or backslash counts. *)
Definition code (s : string) : string :=
  snd (read Code s) ++ match fst (read Code s) with Slash => "/" | Splice => "\" | _ => "" end.

(* The code of what closes a statement, given the code that follows the statement: the semicolon
   that follows, or one of its own if a preprocessor directive follows, and a brace *)
Definition closing (v : string) : string :=
  match v with
  | String ";" _ | String "#" _ => ";}"
  | _ => "}"
  end.
Definition behind_semicolon (v : string) : string :=
  match v with String ";" v' => v' | _ => v end.
(* No statement is followed by these: the token that joins tokens in a macro definition, and the
   alternative spellings of it and of the hash sign *)
Definition usual (v : string) : Prop :=
  match v with
  | String "#" (String "#" _) | String "%" _ => False
  | _ => True
  end.
