(* A reader for definitions of functions on numbers, as the tool writes them
   (mutation_replace_expr.cc:457-510, mutation_replace_binary_operator.cc:438-521 and 714-875,
   mutation_replace_unary_operator.cc:182-252): from text to syntax.  Tokens, expressions and
   statements are those of CText.v.  It follows the grammars of C and C++ and knows nothing
   about the tool.  Simplification: the specifiers of a type stand in the usual order. *)
From Coq Require Import String Ascii List NArith Bool.
From Verif Require Import Base CText.
Import ListNotations.
Local Open Scope string_scope.

(* Types: names, qualifiers, pointers, references, and std::function without arguments *)
Inductive fty :=
| FName (ws : list string)
| FConst (t : fty)
| FVolatile (t : fty)
| FPtr (t : fty)
| FRef (t : fty)
| FFunction (t : fty).

(* C11 6.7.2p2, C++ [dcl.type.simple], and the types that compilers add *)
Definition specifier (w : string) : bool :=
  existsb (String.eqb w)
    ["bool"; "_Bool"; "char"; "signed"; "unsigned"; "wchar_t"; "char8_t"; "char16_t";
     "char32_t"; "short"; "int"; "long"; "__int128"; "__fp16"; "_Float16"; "__bf16";
     "float"; "double"; "__float128"; "__ibm128"].
Definition one_word : list string :=
  ["bool"; "_Bool"; "char"; "signed"; "unsigned"; "wchar_t"; "char8_t"; "char16_t";
   "char32_t"; "short"; "int"; "long"; "__int128"; "__fp16"; "_Float16"; "__bf16";
   "float"; "double"; "__float128"; "__ibm128"].
Definition names_type (ws : list string) : bool :=
  match ws with
  | [w] => existsb (String.eqb w) one_word
  | [("signed" | "unsigned"); w] =>
      existsb (String.eqb w) ["char"; "short"; "int"; "long"; "__int128"]
  | ["long"; "long"] | ["long"; "double"] | ["short"; "int"] | ["long"; "int"] => true
  | [("signed" | "unsigned"); "long"; "long"] => true
  | _ => false
  end.

Fixpoint specifiers (ts : list token) : list string * list token :=
  match ts with
  | Word w :: r =>
      if specifier w then let (ws, r) := specifiers r in (w :: ws, r) else ([], ts)
  | _ => ([], ts)
  end.

Fixpoint declarator_signs (t : fty) (ts : list token) : fty * list token :=
  match ts with
  | Sign "*" :: r => declarator_signs (FPtr t) r
  | Sign "&" :: r => (FRef t, r)
  | _ => (t, ts)
  end.

Fixpoint parse_fty (fuel : nat) (ts : list token) : parse_result fty :=
  match fuel with
  | 0 => None
  | S fuel =>
      match parse_base fuel ts with
      | Some (t, r) => Some (declarator_signs t r)
      | None => None
      end
  end
with parse_base (fuel : nat) (ts : list token) : parse_result fty :=
  match fuel with
  | 0 => None
  | S fuel =>
      match ts with
      | Word "const" :: r =>
          match parse_base fuel r with Some (t, r) => Some (FConst t, r) | None => None end
      | Word "volatile" :: r =>
          match parse_base fuel r with Some (t, r) => Some (FVolatile t, r) | None => None end
      | Word "std" :: Sign "::" :: Word "function" :: Sign "<" :: r =>
          match parse_fty fuel r with
          | Some (t, Sign "(" :: Sign ")" :: Sign ">" :: r) => Some (FFunction t, r)
          | _ => None
          end
      | _ =>
          let (ws, r) := specifiers ts in
          if names_type ws then Some (FName ws, r) else None
      end
  end.

Record fdef := {
  fd_result : fty;
  fd_name : string;
  fd_params : list (fty * string);
  fd_body : cstmt
}.

Fixpoint parse_fparams (fuel : nat) (ts : list token) : parse_result (list (fty * string)) :=
  match fuel with
  | 0 => None
  | S fuel =>
      match parse_fty fuel ts with
      | Some (t, Word x :: Sign ")" :: r) => Some ([(t, x)], r)
      | Some (t, Word x :: Sign "," :: r) =>
          match parse_fparams fuel r with
          | Some (ps, r) => Some ((t, x) :: ps, r)
          | None => None
          end
      | _ => None
      end
  end.

(* static type name(parameters) { ... } *)
Definition parse_fdef (fuel : nat) (ts : list token) : parse_result fdef :=
  match ts with
  | Word "static" :: r =>
      match parse_fty fuel r with
      | Some (t, Word f :: Sign "(" :: r) =>
          match parse_fparams fuel r with
          | Some (ps, Sign "{" :: r) =>
              match parse_stmts fuel r with
              | Some (s, r) =>
                  Some ({| fd_result := t; fd_name := f; fd_params := ps; fd_body := s |}, r)
              | None => None
              end
          | _ => None
          end
      | _ => None
      end
  | _ => None
  end.

(* Definitions one after the other; the fuel bounds their number and their depth. *)
Fixpoint parse_fdefs (fuel : nat) (ts : list token) : option (list fdef) :=
  match fuel with
  | 0 => None
  | S fuel =>
      match ts with
      | [] => Some []
      | _ =>
          match parse_fdef (100 + List.length ts) ts with
          | Some (d, r) => option_map (cons d) (parse_fdefs fuel r)
          | None => None
          end
      end
  end.
Definition read_functions (s : string) : option (list fdef) :=
  match tokens_of s with
  | Some ts => parse_fdefs (S (List.length ts)) ts
  | None => None
  end.
