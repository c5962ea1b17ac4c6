(* How a piece of C or C++ code is read as an expression: tokens, and the grammar of
   expressions.  This knows nothing about the tool.

   Not covered, so that texts which contain them are not read at all: lists in braces, lambdas,
   template arguments, names with ::, casts other than those to arithmetic types, raw strings,
   prefixes of strings, alternative spellings of punctuators such as <%. *)
From Coq Require Import String Ascii List NArith ZArith Bool Arith.
From Verif Require Import Base Clang Gen GenExpr GenBinary GenUnary Mutation GenSpec SourceRange
  QueryText Query QuerySpec.
Import ListNotations.
Local Open Scope string_scope.

(** * Tokens *)

Inductive token := Word (s : string) | Sign (s : string).   (* Word: also numbers and strings *)

(* What is being read, with the characters so far *)
Inductive mode :=
| Between
| InWord (s : string)
| InNumber (s : string)
| InSign (s : string)
| InQuotes (q : ascii) (s : string)
| InEscape (q : ascii) (s : string)
| InLine                      (* a comment that ends with the line *)
| InBlock                     (* a comment with an end of its own *)
| InBlockStar
| Splice (m : mode)           (* behind a backslash at the end of a line *)
| Bad.

Definition letter (c : ascii) : bool := is_alnum c && negb (is_digit c) || Ascii.eqb c "_".
Definition space (c : ascii) : bool := existsb (Ascii.eqb c) [" "; "009"; "010"; "011"; "012"; "013"]%char.
(* Punctuators that are no beginning of a longer one *)
Definition single (c : ascii) : bool :=
  existsb (Ascii.eqb c) ["("; ")"; "["; "]"; "{"; "}"; ";"; ","; "?"; "~"]%char.
Definition sign (s : string) : bool :=
  existsb (String.eqb s)
    ["+"; "-"; "*"; "/"; "%"; "<"; ">"; "="; "!"; "&"; "|"; "^"; "."; ":";
     "++"; "--"; "<<"; ">>"; "<="; ">="; "=="; "!="; "&&"; "||"; "->"; "::";
     "+="; "-="; "*="; "/="; "%="; "&="; "|="; "^="; "<<="; ">>="; "<=>"].

Definition snoc (s : string) (c : ascii) : string := s ++ String c "".
Definition lexer : Type := list token * mode.     (* tokens: last first *)

(* The next character when nothing has been begun *)
Definition begin (ts : list token) (c : ascii) : lexer :=
  if is_digit c then (ts, InNumber (String c ""))
  else if letter c then (ts, InWord (String c ""))
  else if space c then (ts, Between)
  else if Ascii.eqb c "\" then (ts, Splice Between)
  else if Ascii.eqb c "034" || Ascii.eqb c "'" then (ts, InQuotes c (String c ""))
  else if single c then (Sign (String c "") :: ts, Between)
  else if sign (String c "") then (ts, InSign (String c ""))
  else (ts, Bad).
Definition exponent (s : string) : bool :=
  match rev (list_ascii_of_string s) with
  | c :: _ => existsb (Ascii.eqb c) ["e"; "E"; "p"; "P"]%char
  | [] => false
  end.
Definition next_char (st : lexer) (c : ascii) : lexer :=
  let (ts, m) := st in
  match m with
  | Between => begin ts c
  | InWord s => if is_alnum c || Ascii.eqb c "_" then (ts, InWord (snoc s c))
                else if Ascii.eqb c "\" then (ts, Splice m)
                else begin (Word s :: ts) c
  | InNumber s => if is_alnum c || Ascii.eqb c "_" || Ascii.eqb c "." ||
                     (Ascii.eqb c "+" || Ascii.eqb c "-") && exponent s
                  then (ts, InNumber (snoc s c))
                  else if Ascii.eqb c "\" then (ts, Splice m)
                  else begin (Word s :: ts) c
  | InSign s => if String.eqb s "/" && Ascii.eqb c "/" then (ts, InLine)
                else if String.eqb s "/" && Ascii.eqb c "*" then (ts, InBlock)
                else if String.eqb s "." && is_digit c then (ts, InNumber (snoc s c))
                else if sign (snoc s c) then (ts, InSign (snoc s c))
                else if Ascii.eqb c "\" then (ts, Splice m)
                else begin (Sign s :: ts) c
  | InQuotes q s => if Ascii.eqb c q then (Word (snoc s c) :: ts, Between)
                    else if Ascii.eqb c "\" then (ts, InEscape q (snoc s c))
                    else if Ascii.eqb c "010" then (ts, Bad)
                    else (ts, InQuotes q (snoc s c))
  | InEscape q s => (ts, InQuotes q (snoc s c))
  | InLine => if Ascii.eqb c "010" then (ts, Between)
              else if Ascii.eqb c "\" then (ts, Bad) else (ts, InLine)
  | InBlock => if Ascii.eqb c "*" then (ts, InBlockStar) else (ts, InBlock)
  | InBlockStar => if Ascii.eqb c "/" then (ts, Between)
                   else if Ascii.eqb c "*" then (ts, InBlockStar) else (ts, InBlock)
  | Splice m => if Ascii.eqb c "010" then (ts, m) else (ts, Bad)
  | Bad => (ts, Bad)
  end.
Fixpoint scan (st : lexer) (s : string) : lexer :=
  match s with EmptyString => st | String c s => scan (next_char st c) s end.
Definition finished (st : lexer) : option (list token) :=
  match snd st with
  | Between => Some (rev (fst st))
  | InWord s | InNumber s => Some (rev (Word s :: fst st))
  | InSign s => Some (rev (Sign s :: fst st))
  | _ => None
  end.
Definition tokens_of (s : string) : option (list token) := finished (scan ([], Between) s).

(** * Expressions *)

(* Operators are given by their usual spelling; parentheses leave no trace. *)
Inductive ex :=
| Atom (s : string)
| Pre (o : string) (e : ex)
| Post (e : ex) (o : string)
| Bin (o : string) (l r : ex)
| Cond (a b d : ex)
| Cast (type : list token) (e : ex)
| OfType (o : string) (type : list token)
| Member (e : ex) (o x : string)
| Index (e i : ex)
| Call (f : ex) (args : option ex).

Section Grammar.
Variable cxx : bool.

(* Words that are operators: some in C++ only, where they need no header. *)
Definition word_signs : list (string * string) :=
  if cxx then
    [("and", "&&"); ("or", "||"); ("bitand", "&"); ("bitor", "|"); ("xor", "^");
     ("not_eq", "!="); ("and_eq", "&="); ("or_eq", "|="); ("xor_eq", "^=");
     ("not", "!"); ("compl", "~")]
  else [].
Definition word_prefixes : list string :=
  ["sizeof"; "alignof"; "_Alignof"; "__alignof__"; "__extension__"; "__real__"; "__imag__";
   "co_await"; "delete"].
Definition type_words : list string :=
  ["void"; "bool"; "_Bool"; "char"; "short"; "int"; "long"; "float"; "double"; "signed";
   "unsigned"; "const"; "volatile"; "struct"; "union"; "enum"; "typename"].
Definition named (l : list string) (w : string) : bool := existsb (String.eqb w) l.
Definition respelt (w : string) : option string :=
  option_map snd (find (fun x => String.eqb w (fst x)) word_signs).
(* The operator that a token is *)
Definition operator (t : token) : option string :=
  match t with Sign s => Some s | Word w => respelt w end.

Definition levels : list (nat * list string) :=
  [(0, [","]); (1, ["="; "*="; "/="; "%="; "+="; "-="; "<<="; ">>="; "&="; "^="; "|="]);
   (2, ["?"]); (3, ["||"]); (4, ["&&"]); (5, ["|"]); (6, ["^"]); (7, ["&"]); (8, ["=="; "!="]);
   (9, ["<"; ">"; "<="; ">="]); (10, ["<=>"]); (11, ["<<"; ">>"]); (12, ["+"; "-"]);
   (13, ["*"; "/"; "%"])].
Definition level (o : string) : option nat :=
  option_map fst (find (fun x => named (snd x) o) levels).
Definition infix (t : token) : option (string * nat) :=
  match operator t with
  | Some o => match level o with Some k => Some (o, k) | None => None end
  | None => None
  end.
Definition prefix (t : token) : option string :=
  match t with
  | Sign s => if named ["+"; "-"; "!"; "~"; "*"; "&"; "++"; "--"] s then Some s else None
  | Word w => if named word_prefixes w then Some w
              else match respelt w with
                   | Some s => if named ["!"; "~"; "&"] s then Some s else None
                   | None => None
                   end
  end.
Definition suffix (t : token) : bool :=
  match t with Sign s => named ["."; "->"; "["; "("; "++"; "--"] s | Word _ => false end.
(* Words that can stand for a value *)
Definition plain_word (w : string) : bool :=
  negb (named word_prefixes w) && negb (named type_words w) &&
  match respelt w with Some _ => false | None => true end.
Definition begins_type (ts : list token) : bool :=
  match ts with Word w :: _ => named type_words w | _ => false end.
Definition begins_cast (ts : list token) : bool :=
  match ts with Sign s :: ts => String.eqb s "(" && begins_type ts | _ => false end.
(* sizeof and the like can be applied to a type. *)
Definition applied_to_type (t : token) (ts : list token) : bool :=
  match t with
  | Word w => named ["sizeof"; "alignof"; "_Alignof"; "__alignof__"] w && begins_cast ts
  | Sign _ => false
  end.
Definition no_parenthesis (t : token) : bool :=
  match t with Sign s => negb (named ["("; ")"] s) | Word _ => true end.

(* The tokens ts begin with an expression e all of whose operators outside parentheses have at
   least level n, and rest is left; expressions extend as far as possible. *)
Inductive expression : nat -> list token -> ex -> list token -> Prop :=
| expression_intro n ts l r e rest :
    unary ts l r -> operators n l r e rest -> expression n ts e rest
(* l has been read *)
with operators : nat -> ex -> list token -> ex -> list token -> Prop :=
| no_operator n l ts :
    match ts with
    | t :: _ => match infix t with Some (_, k) => k < n | None => True end
    | [] => True
    end -> operators n l ts l ts
| left_operator n l t o k ts r ts1 e rest :
    infix t = Some (o, k) -> n <= k -> k <> 1 -> k <> 2 ->
    expression (S k) ts r ts1 -> operators n (Bin o l r) ts1 e rest ->
    operators n l (t :: ts) e rest
| assignment n l t o ts r ts1 e rest :
    infix t = Some (o, 1) -> n <= 1 ->
    expression 1 ts r ts1 -> operators n (Bin o l r) ts1 e rest ->
    operators n l (t :: ts) e rest
| conditional n l t o ts a ts1 b ts2 e rest :
    infix t = Some (o, 2) -> n <= 2 ->
    expression 0 ts a (Sign ":" :: ts1) -> expression 1 ts1 b ts2 ->
    operators n (Cond l a b) ts2 e rest -> operators n l (t :: ts) e rest
with unary : list token -> ex -> list token -> Prop :=
| unary_prefix t o ts e rest :
    prefix t = Some o -> applied_to_type t ts = false -> unary ts e rest ->
    unary (t :: ts) (Pre o e) rest
| unary_of_type t o ty ts :
    prefix t = Some o -> applied_to_type t (Sign "(" :: ty ++ Sign ")" :: ts) = true ->
    forallb no_parenthesis ty = true ->
    unary (t :: Sign "(" :: ty ++ Sign ")" :: ts) (OfType o ty) ts
| unary_cast ty ts e rest :
    begins_type ty = true -> forallb no_parenthesis ty = true -> unary ts e rest ->
    unary (Sign "(" :: ty ++ Sign ")" :: ts) (Cast ty e) rest
| unary_postfix ts a r e rest :
    primary ts a r -> suffixes a r e rest -> unary ts e rest
with primary : list token -> ex -> list token -> Prop :=
| primary_word w rest : plain_word w = true -> primary (Word w :: rest) (Atom w) rest
| primary_paren ts e rest :
    expression 0 ts e (Sign ")" :: rest) -> primary (Sign "(" :: ts) e rest
with suffixes : ex -> list token -> ex -> list token -> Prop :=
| no_suffix a ts : match ts with t :: _ => suffix t = false | [] => True end -> suffixes a ts a ts
| suffix_member a o x ts e rest :
    named ["."; "->"] o = true -> plain_word x = true ->
    suffixes (Member a o x) ts e rest -> suffixes a (Sign o :: Word x :: ts) e rest
| suffix_index a ts i ts1 e rest :
    expression 0 ts i (Sign "]" :: ts1) -> suffixes (Index a i) ts1 e rest ->
    suffixes a (Sign "[" :: ts) e rest
| suffix_call_nothing a ts e rest :
    suffixes (Call a None) ts e rest -> suffixes a (Sign "(" :: Sign ")" :: ts) e rest
| suffix_call a ts i ts1 e rest :
    expression 0 ts i (Sign ")" :: ts1) -> suffixes (Call a (Some i)) ts1 e rest ->
    suffixes a (Sign "(" :: ts) e rest
| suffix_step a o ts e rest :
    named ["++"; "--"] o = true -> suffixes (Post a o) ts e rest ->
    suffixes a (Sign o :: ts) e rest.

(* The whole text is this expression. *)
Definition reads_as (s : string) (e : ex) : Prop :=
  exists ts, tokens_of s = Some ts /\ expression 0 ts e [].

(** * What is shown *)

(* Operands that consist of words, dots and white space are shown without parentheses; they
   should have no words that are operators. *)
Definition operator_word (t : token) : bool :=
  match t with Word w => negb (plain_word w) | Sign _ => false end.
Definition clear (s : string) : Prop :=
  forallb (fun c => existsb (Ascii.eqb c) bare_chars) (list_ascii_of_string s) = false \/
  forall ts, tokens_of s = Some ts -> existsb operator_word ts = false.

(* The expression that a mutant puts in place of the original one *)
Definition mutated_expression (r : rhs) (e1 e2 : ex) : ex :=
  match r with
  | RArg1 => e1
  | RArg2 => e2
  | RPre o | RPreParen o => Pre (uop_str o) e1
  | RPost o => Post e1 (uop_str o)
  | RBin o => Bin (bop_str o) e1 e2
  | RLit (LInt z) => if Z.ltb z 0 then Pre "-" (Atom (string_of_Z (- z))) else Atom (string_of_Z z)
  | RLit (LFloat z) =>
      if Z.ltb z 0 then Pre "-" (Atom (string_of_Z (- z) ++ ".0")) else Atom (string_of_Z z ++ ".0")
  | RLit (LBool b) => Atom (if b then "true" else "false")
  end.
Definition has_operator (r : rhs) : bool :=
  match r with RPre _ | RPreParen _ | RPost _ | RBin _ => true | _ => false end.

(* Operands that occur in the replacement *)
Definition has_first (r : rhs) : bool := match r with RArg2 | RLit _ => false | _ => true end.
Definition has_second (r : rhs) : bool := match r with RArg2 | RBin _ => true | _ => false end.

(* The text s that is shown for the k-th mutant of a group is read as the expression that
   replaces the original one, if the operands in the source can be read. *)
Definition shown_well (source : string) (g : group) (k : nat) (s : string) : Prop :=
  let operand i e r := reads_as (text_for_source_range source i) e /\
    (has_operator r = true -> clear (text_for_source_range source i)) in
  match g with
  | GroupRemoveStmt _ _ => True
  | GroupReplaceExpr i l =>
      forall id a e r, nth_error l k = Some (id, a) -> expr_meaning cpp_literals a = Some r ->
      (has_first r = true -> operand i e r) -> reads_as s (mutated_expression r e e)
  | GroupReplaceUnary _ i _ l =>
      forall id a e r, nth_error l k = Some (id, a) -> un_meaning a = Some r ->
      (has_first r = true -> operand i e r) -> reads_as s (mutated_expression r e e)
  | GroupReplaceBinary _ i j _ l =>
      forall id a e1 e2 r, nth_error l k = Some (id, a) -> bin_meaning a = Some r ->
      (has_first r = true -> operand i e1 r) -> (has_second r = true -> operand j e2 r) ->
      reads_as s (mutated_expression r e1 e2)
  end.
End Grammar.
