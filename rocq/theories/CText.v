(* A reader for the fragment of C and C++ in which the inserted code is written
   (mutate_ast_consumer.cc:49-73 and 253-473, mutation_replace_expr.cc:457-510,
   mutation_replace_binary_operator.cc:438-521 and 714-875,
   mutation_replace_unary_operator.cc:182-252): from text to syntax.  It follows the grammars
   of the languages and knows nothing about the tool.  Simplifications: preprocessing
   directives are skipped, there are no character constants, no octal or hexadecimal
   constants, floating-point constants have no exponent and no suffix, and of the escape sequences in string literals only those for
   the newline, the quote and the backslash. *)
From Coq Require Import String Ascii List NArith ZArith Bool.
From Verif Require Import Base.
Import ListNotations.
Local Open Scope string_scope.

(** * Tokens *)

Inductive token :=
| Word (s : string)        (* identifier or keyword *)
| Number (n : N)
| Real (n : N) (f : string)  (* floating-point constant: before and after the point *)
| Text (s : string)        (* string literal *)
| Sign (s : string).       (* operator or punctuator *)

Definition word_char (c : ascii) : bool := is_alnum c || Ascii.eqb c "_".

(* Punctuators that are no beginning of a longer one *)
Definition single (c : ascii) : bool :=
  existsb (Ascii.eqb c) ["("; ")"; "["; "]"; "{"; "}"; ";"; ","; "?"; "~"; "."]%char.
(* Those of two characters, except for the shifts *)
Definition double (s : string) : bool :=
  existsb (String.eqb s)
    ["::"; "=="; "!="; "<="; ">="; "&&"; "||"; "++"; "--"; "->"; "+="; "-=";
     "*="; "/="; "%="; "&="; "|="; "^="].

(* What is being read; the characters read so far *)
Inductive mode :=
| Between
| InWord (s : string)
| InNumber (n : N)
| InReal (n : N) (f : string)
| InText (s : string)
| InEscape (s : string)
| InSign (c : ascii)
| InShift (s : string)
| InComment
| InDirective
| Bad.

Record reader := { tokens : list token (* last first *); reading : mode }.

Definition snoc (s : string) (c : ascii) : string := s ++ char_string c.
Definition character_value (c : ascii) : N := N_of_ascii c - 48.

(* The next character when nothing has been begun *)
Definition begin (ts : list token) (c : ascii) : reader :=
  if is_digit c then {| tokens := ts; reading := InNumber (character_value c) |}
  else if word_char c then {| tokens := ts; reading := InWord (char_string c) |}
  else if Ascii.eqb c " " || Ascii.eqb c "010" then {| tokens := ts; reading := Between |}
  else if Ascii.eqb c "034" then {| tokens := ts; reading := InText "" |}
  else if Ascii.eqb c "#" then {| tokens := ts; reading := InDirective |}
  else if single c then {| tokens := Sign (char_string c) :: ts; reading := Between |}
  else {| tokens := ts; reading := InSign c |}.

Definition read_char (r : reader) (c : ascii) : reader :=
  let ts := tokens r in
  match reading r with
  | Between => begin ts c
  | InWord s => if word_char c then {| tokens := ts; reading := InWord (snoc s c) |}
                else begin (Word s :: ts) c
  | InNumber n =>
      if is_digit c then {| tokens := ts; reading := InNumber (10 * n + character_value c) |}
      else if Ascii.eqb c "." then {| tokens := ts; reading := InReal n "" |}
      else if word_char c then {| tokens := ts; reading := Bad |}
      else begin (Number n :: ts) c
  | InReal n f =>
      if is_digit c then {| tokens := ts; reading := InReal n (snoc f c) |}
      else if word_char c || Ascii.eqb c "." then {| tokens := ts; reading := Bad |}
      else begin (Real n f :: ts) c
  | InText s =>
      if Ascii.eqb c "034" then {| tokens := Text s :: ts; reading := Between |}
      else if Ascii.eqb c "\" then {| tokens := ts; reading := InEscape s |}
      else if Ascii.eqb c "010" then {| tokens := ts; reading := Bad |}
      else {| tokens := ts; reading := InText (snoc s c) |}
  | InEscape s =>
      if Ascii.eqb c "n" then {| tokens := ts; reading := InText (snoc s "010") |}
      else if Ascii.eqb c "\" || Ascii.eqb c "034"
      then {| tokens := ts; reading := InText (snoc s c) |}
      else {| tokens := ts; reading := Bad |}
  | InSign d =>
      if Ascii.eqb d "/" && Ascii.eqb c "/" then {| tokens := ts; reading := InComment |}
      else let two := String d (char_string c) in
           if String.eqb two "<<" || String.eqb two ">>"
           then {| tokens := ts; reading := InShift two |}
           else if double two then {| tokens := Sign two :: ts; reading := Between |}
           else begin (Sign (char_string d) :: ts) c
  | InShift s =>
      if Ascii.eqb c "=" then {| tokens := Sign (snoc s c) :: ts; reading := Between |}
      else begin (Sign s :: ts) c
  | InComment => {| tokens := ts;
                    reading := if Ascii.eqb c "010" then Between else InComment |}
  | InDirective => {| tokens := ts;
                      reading := if Ascii.eqb c "010" then Between else InDirective |}
  | Bad => r
  end.

Fixpoint read_from (r : reader) (s : string) : reader :=
  match s with
  | EmptyString => r
  | String c s => read_from (read_char r c) s
  end.

(* The tokens of a text that ends with a newline *)
Definition tokens_of (s : string) : option (list token) :=
  let r := read_from {| tokens := []; reading := Between |} s in
  match reading r with
  | Between => Some (rev (tokens r))
  | _ => None
  end.

(** * Syntax *)

Inductive cty :=
| CBool | CInt | CChar | CU64 | CSize | CVoid | CString | CStream | CFile
| CAtomicBool
| CPtr (t : cty).

Inductive cexpr :=
| EVar (x : string)                  (* also qualified names *)
| ENum (n : N)
| EReal (n : N) (f : string)
| EText (s : string)
| EBool (b : bool)
| ENull
| EBin (o : string) (l r : cexpr)    (* binary operators except the assignments *)
| ECond (c t e : cexpr)
| EUn (o : string) (e : cexpr)       (* prefix operators *)
| EPost (o : string) (e : cexpr)     (* postfix ++ and -- *)
| ECast (t : cty) (e : cexpr)
| EIndex (a i : cexpr)
| EMember (e : cexpr) (m : string)
| ECall0 (f : cexpr)
| ECall1 (f a : cexpr)
| ECall2 (f a b : cexpr)
| ECall3 (f a b c : cexpr)
| EAssign (o : string) (l r : cexpr).

Record decl := {
  d_static : bool;
  d_thread : bool;                   (* thread_local *)
  d_ty : cty;
  d_name : string;
  d_size : option cexpr;             (* of an array *)
  d_init : option cexpr
}.

Inductive cstmt :=
| CSkip
| CSeq (a b : cstmt)
| CBlock (s : cstmt)
| CDecl (d : decl)
| CExpr (e : cexpr)
| CIf (c : cexpr) (t : cstmt)
| CWhile (c : cexpr) (b : cstmt)
| CFor (init : cstmt) (c step : cexpr) (b : cstmt)
| CBreak
| CReturn (e : option cexpr).

Record cfun := {
  f_ty : cty;
  f_name : string;
  f_params : list (cty * string);
  f_body : cstmt
}.
Inductive item := IVar (d : decl) | IFun (f : cfun).

(** * Parsing

    By recursive descent; the fuel bounds the depth. *)

Definition parse_result A := option (A * list token).

(* Names of types, C11 6.7.2 and the library *)
Definition base_type (ts : list token) : parse_result cty :=
  match ts with
  | Word "std" :: Sign "::" :: Word "atomic" :: Sign "<" :: Word "bool" :: Sign ">" :: r =>
      Some (CAtomicBool, r)
  | Word "std" :: Sign "::" :: Word "string" :: Sign "::" :: _ => None
  | Word "std" :: Sign "::" :: Word "string" :: r => Some (CString, r)
  | Word "std" :: Sign "::" :: Word "ofstream" :: r => Some (CStream, r)
  | Word "bool" :: r => Some (CBool, r)
  | Word "int" :: r => Some (CInt, r)
  | Word "char" :: r => Some (CChar, r)
  | Word "void" :: r => Some (CVoid, r)
  | Word "uint64_t" :: r => Some (CU64, r)
  | Word "size_t" :: r => Some (CSize, r)
  | Word "FILE" :: r => Some (CFile, r)
  | Word "atomic_bool" :: r => Some (CAtomicBool, r)
  | _ => None
  end.
Fixpoint pointers (t : cty) (ts : list token) : cty * list token :=
  match ts with
  | Sign "*" :: r => pointers (CPtr t) r
  | _ => (t, ts)
  end.
Definition parse_type (ts : list token) : parse_result cty :=
  let ts := match ts with Word "const" :: r => r | _ => ts end in
  match base_type ts with
  | Some (t, r) => Some (pointers t r)
  | None => None
  end.

Definition expect (s : string) (ts : list token) : option (list token) :=
  match ts with
  | Sign s' :: r => if String.eqb s s' then Some r else None
  | _ => None
  end.

(* The rest of a qualified name *)
Fixpoint qualified (x : string) (ts : list token) : string * list token :=
  match ts with
  | Sign "::" :: Word y :: r => qualified (x ++ "::" ++ y) r
  | _ => (x, ts)
  end.

(* Binary operators and how strongly they bind, C11 6.5.5-6.5.14 *)
Definition strength (o : string) : option nat :=
  match o with
  | "||" => Some 1 | "&&" => Some 2 | "|" => Some 3 | "^" => Some 4 | "&" => Some 5
  | "==" | "!=" => Some 6
  | "<" | ">" | "<=" | ">=" => Some 7
  | "<<" | ">>" => Some 8
  | "+" | "-" => Some 9
  | "*" | "/" | "%" => Some 10
  | _ => None
  end.
Definition is_prefix_sign (o : string) : bool :=
  existsb (String.eqb o) ["!"; "~"; "-"; "+"; "&"; "*"; "++"; "--"].
Definition is_assign_sign (o : string) : bool :=
  existsb (String.eqb o) ["="; "+="; "-="; "*="; "/="; "%="; "&="; "|="; "^="; "<<="; ">>="].

Fixpoint parse_expr (fuel : nat) (ts : list token) {struct fuel} : parse_result cexpr :=
  match fuel with
  | 0 => None
  | S fuel =>
      match parse_cond fuel ts with
      | Some (l, Sign o :: r) =>
          if is_assign_sign o then
            match parse_expr fuel r with
            | Some (e, r) => Some (EAssign o l e, r)
            | None => None
            end
          else Some (l, Sign o :: r)
      | x => x
      end
  end
with parse_cond (fuel : nat) (ts : list token) {struct fuel} : parse_result cexpr :=
  match fuel with
  | 0 => None
  | S fuel =>
      match parse_binary fuel 1 ts with
      | Some (c, Sign "?" :: r) =>
          match parse_expr fuel r with
          | Some (t, Sign ":" :: r) =>
              match parse_cond fuel r with
              | Some (e, r) => Some (ECond c t e, r)
              | None => None
              end
          | _ => None
          end
      | x => x
      end
  end
with parse_binary (fuel : nat) (least : nat) (ts : list token) {struct fuel}
  : parse_result cexpr :=
  match fuel with
  | 0 => None
  | S fuel =>
      match parse_unary fuel ts with
      | Some (l, r) => parse_operators fuel least l r
      | None => None
      end
  end
(* the operators that follow l and bind at least so strongly *)
with parse_operators (fuel : nat) (least : nat) (l : cexpr) (ts : list token) {struct fuel}
  : parse_result cexpr :=
  match fuel with
  | 0 => None
  | S fuel =>
      match ts with
      | Sign o :: r =>
          match strength o with
          | Some n =>
              if Nat.leb least n then
                match parse_binary fuel (S n) r with
                | Some (e, r) => parse_operators fuel least (EBin o l e) r
                | None => None
                end
              else Some (l, ts)
          | None => Some (l, ts)
          end
      | _ => Some (l, ts)
      end
  end
with parse_unary (fuel : nat) (ts : list token) {struct fuel} : parse_result cexpr :=
  match fuel with
  | 0 => None
  | S fuel =>
      match ts with
      | Sign "(" :: r =>
          match parse_type r with
          | Some (t, Sign ")" :: r) =>
              match parse_unary fuel r with
              | Some (e, r) => Some (ECast t e, r)
              | None => None
              end
          | _ => parse_postfix fuel ts
          end
      | Sign o :: r =>
          if is_prefix_sign o then
            match parse_unary fuel r with
            | Some (e, r) => Some (EUn o e, r)
            | None => None
            end
          else None
      | _ => parse_postfix fuel ts
      end
  end
with parse_postfix (fuel : nat) (ts : list token) {struct fuel} : parse_result cexpr :=
  match fuel with
  | 0 => None
  | S fuel =>
      match ts with
      | Word "static_cast" :: Sign "<" :: r =>
          match parse_type r with
          | Some (t, Sign ">" :: Sign "(" :: r) =>
              match parse_expr fuel r with
              | Some (e, Sign ")" :: r) => parse_suffixes fuel (ECast t e) r
              | _ => None
              end
          | _ => None
          end
      | Word "true" :: r => parse_suffixes fuel (EBool true) r
      | Word "false" :: r => parse_suffixes fuel (EBool false) r
      | Word "nullptr" :: r => parse_suffixes fuel ENull r
      | Word "NULL" :: r => parse_suffixes fuel ENull r
      | Word x :: r => let (y, r) := qualified x r in parse_suffixes fuel (EVar y) r
      | Number n :: r => parse_suffixes fuel (ENum n) r
      | Real n f :: r => parse_suffixes fuel (EReal n f) r
      | Text s :: r => parse_suffixes fuel (EText s) r
      | Sign "(" :: r =>
          match parse_expr fuel r with
          | Some (e, Sign ")" :: r) => parse_suffixes fuel e r
          | _ => None
          end
      | _ => None
      end
  end
with parse_suffixes (fuel : nat) (e : cexpr) (ts : list token) {struct fuel}
  : parse_result cexpr :=
  match fuel with
  | 0 => None
  | S fuel =>
      match ts with
      | Sign "[" :: r =>
          match parse_expr fuel r with
          | Some (i, Sign "]" :: r) => parse_suffixes fuel (EIndex e i) r
          | _ => None
          end
      | Sign "." :: Word m :: r => parse_suffixes fuel (EMember e m) r
      | Sign "++" :: r => parse_suffixes fuel (EPost "++" e) r
      | Sign "--" :: r => parse_suffixes fuel (EPost "--" e) r
      | Sign "(" :: Sign ")" :: r => parse_suffixes fuel (ECall0 e) r
      | Sign "(" :: r =>
          match parse_expr fuel r with
          | Some (a, Sign ")" :: r) => parse_suffixes fuel (ECall1 e a) r
          | Some (a, Sign "," :: r) =>
              match parse_expr fuel r with
              | Some (b, Sign ")" :: r) => parse_suffixes fuel (ECall2 e a b) r
              | Some (b, Sign "," :: r) =>
                  match parse_expr fuel r with
                  | Some (c, Sign ")" :: r) => parse_suffixes fuel (ECall3 e a b c) r
                  | _ => None
                  end
              | _ => None
              end
          | _ => None
          end
      | _ => Some (e, ts)
      end
  end.

(* A declaration after its specifiers: declarator and initialiser *)
Definition parse_declarator (fuel : nat) (static thread : bool) (ts : list token)
  : parse_result decl :=
  match parse_type ts with
  | Some (t, Word x :: r) =>
      let d := {| d_static := static; d_thread := thread; d_ty := t; d_name := x;
                  d_size := None; d_init := None |} in
      match r with
      | Sign ";" :: r => Some (d, r)
      | Sign "[" :: r =>
          match parse_expr fuel r with
          | Some (n, Sign "]" :: Sign ";" :: r) =>
              Some ({| d_static := static; d_thread := thread; d_ty := t; d_name := x;
                       d_size := Some n; d_init := None |}, r)
          | _ => None
          end
      | Sign "=" :: r =>
          match parse_expr fuel r with
          | Some (e, Sign ";" :: r) =>
              Some ({| d_static := static; d_thread := thread; d_ty := t; d_name := x;
                       d_size := None; d_init := Some e |}, r)
          | _ => None
          end
      | Sign "(" :: r =>
          match parse_expr fuel r with
          | Some (e, Sign ")" :: Sign ";" :: r) =>
              Some ({| d_static := static; d_thread := thread; d_ty := t; d_name := x;
                       d_size := None; d_init := Some e |}, r)
          | _ => None
          end
      | _ => None
      end
  | _ => None
  end.
Definition parse_declaration (fuel : nat) (ts : list token) : parse_result decl :=
  match ts with
  | Word "static" :: Word "thread_local" :: r => parse_declarator fuel true true r
  | Word "static" :: r => parse_declarator fuel true false r
  | _ => parse_declarator fuel false false ts
  end.

Fixpoint parse_stmt (fuel : nat) (ts : list token) {struct fuel} : parse_result cstmt :=
  match fuel with
  | 0 => None
  | S fuel =>
      match ts with
      | Sign "{" :: r =>
          match parse_stmts fuel r with
          | Some (s, r) => Some (CBlock s, r)
          | None => None
          end
      | Word "if" :: Sign "(" :: r =>
          match parse_expr fuel r with
          | Some (c, Sign ")" :: r) =>
              match parse_stmt fuel r with
              | Some (s, Word "else" :: _) => None
              | Some (s, r) => Some (CIf c s, r)
              | None => None
              end
          | _ => None
          end
      | Word "while" :: Sign "(" :: r =>
          match parse_expr fuel r with
          | Some (c, Sign ")" :: r) =>
              match parse_stmt fuel r with
              | Some (s, r) => Some (CWhile c s, r)
              | None => None
              end
          | _ => None
          end
      | Word "for" :: Sign "(" :: r =>
          match parse_stmt fuel r with
          | Some (i, r) =>
              match parse_expr fuel r with
              | Some (c, Sign ";" :: r) =>
                  match parse_expr fuel r with
                  | Some (e, Sign ")" :: r) =>
                      match parse_stmt fuel r with
                      | Some (s, r) => Some (CFor i c e s, r)
                      | None => None
                      end
                  | _ => None
                  end
              | _ => None
              end
          | None => None
          end
      | Word "break" :: Sign ";" :: r => Some (CBreak, r)
      | Word "return" :: Sign ";" :: r => Some (CReturn None, r)
      | Word "return" :: r =>
          match parse_expr fuel r with
          | Some (e, Sign ";" :: r) => Some (CReturn (Some e), r)
          | _ => None
          end
      | _ =>
          match parse_declaration fuel ts with
          | Some (d, r) => Some (CDecl d, r)
          | None =>
              match parse_expr fuel ts with
              | Some (e, Sign ";" :: r) => Some (CExpr e, r)
              | _ => None
              end
          end
      end
  end
(* up to the closing brace *)
with parse_stmts (fuel : nat) (ts : list token) {struct fuel} : parse_result cstmt :=
  match fuel with
  | 0 => None
  | S fuel =>
      match ts with
      | Sign "}" :: r => Some (CSkip, r)
      | _ =>
          match parse_stmt fuel ts with
          | Some (s, r) =>
              match parse_stmts fuel r with
              | Some (s', r) => Some (CSeq s s', r)
              | None => None
              end
          | None => None
          end
      end
  end.

Fixpoint parse_params (fuel : nat) (ts : list token) : parse_result (list (cty * string)) :=
  match fuel with
  | 0 => None
  | S fuel =>
      match parse_type ts with
      | Some (t, Word x :: Sign ")" :: r) => Some ([(t, x)], r)
      | Some (t, Word x :: Sign "," :: r) =>
          match parse_params fuel r with
          | Some (ps, r) => Some ((t, x) :: ps, r)
          | None => None
          end
      | _ => None
      end
  end.

(* static type name(parameters) { ... } *)
Definition parse_function (fuel : nat) (ts : list token) : parse_result cfun :=
  match ts with
  | Word "static" :: r =>
      match parse_type r with
      | Some (t, Word f :: Sign "(" :: r) =>
          match parse_params fuel r with
          | Some (ps, Sign "{" :: r) =>
              match parse_stmts fuel r with
              | Some (s, r) =>
                  Some ({| f_ty := t; f_name := f; f_params := ps; f_body := s |}, r)
              | None => None
              end
          | _ => None
          end
      | _ => None
      end
  | _ => None
  end.

Fixpoint parse_items (fuel : nat) (ts : list token) : option (list item) :=
  match fuel with
  | 0 => None
  | S fuel =>
      match ts with
      | [] => Some []
      | _ =>
          match parse_function fuel ts with
          | Some (f, r) => option_map (cons (IFun f)) (parse_items fuel r)
          | None =>
              match parse_declaration fuel ts with
              | Some (d, r) => option_map (cons (IVar d)) (parse_items fuel r)
              | None => None
              end
          end
      end
  end.

Definition parse_text (s : string) : option (list item) :=
  match tokens_of s with
  | Some ts => parse_items (S (S (List.length ts)) * 2) ts
  | None => None
  end.
