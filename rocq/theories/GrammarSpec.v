(* The grammar of the code that Dredd writes, and trees that follow the grammar.

   This is a piece of the grammar of C and C++: calls, parentheses, casts, lambdas and
   conditional statements.  The rest of the language is a parameter. *)
From Coq Require Import String Ascii List Bool Arith.
From Verif Require Import Base Clang Gen GenExpr GenBinary GenUnary GenStmt Lang Cst NestSpec.
Import ListNotations.
Local Open Scope string_scope.

(* What may stand at a place.  Prec n: expressions that bind at least as tightly as n: primary 0,
   postfix 1, unary 2, cast 3, ..., assignment 16.  Clause: the right-hand side of an
   assignment or an argument, where C++ also allows a list in braces.  Expression: also a comma
   operator.  Unfinished: a statement that lacks the semicolon.  Items: some statements of a
   block.  Open: what a semicolon may follow in a block. *)
Inductive cat :=
| Prec (n : nat) | Clause | Braced | Expression | Unfinished | Statement | Items | Open.
Definition assignment : nat := 16.
Definition below (a b : cat) : Prop :=
  match a, b with
  | Prec m, Prec n => m <= n
  | Prec m, (Clause | Expression | Unfinished | Open) => m <= assignment
  | Clause, Clause => True
  | Braced, (Braced | Clause) => True
  | Expression, (Expression | Unfinished | Open) => True
  | Unfinished, (Unfinished | Open) => True
  | Statement, (Statement | Items | Open) => True
  | Items, (Items | Open) => True
  | Open, Open => True
  | _, _ => False
  end.

(* Text with holes *)
Inductive piece := T (s : string) | H (c : cat).

Definition identifier (s : string) : Prop :=
  match s with
  | String a _ => alnum a = true /\ ~ (48 <= nat_of_ascii a <= 57)
  | EmptyString => False
  end /\ forall a, In a (list_ascii_of_string s) -> alnum a = true.
Inductive type_name : string -> Prop :=
| builtin c t : type_name (ty_name c t)
| volatile_type t : type_name t -> type_name ("volatile " ++ t)
| const_type t : type_name t -> type_name ("const " ++ t)
| reference_type t : type_name t -> type_name (t ++ "&").

Section Grammar.
Variable white : string -> Prop.                (* white space and comments *)
Variable rule : list piece -> cat -> Prop.      (* the rest of the language *)
Variable cxx : bool.

Inductive derivable : cat -> list piece -> Prop :=
| d_hole c : derivable c [H c]
| d_below c d p : below c d -> derivable c p -> derivable d p
| d_before c w p : white w -> derivable c p -> derivable c (T w :: p)
| d_after c w p : white w -> derivable c p -> derivable c (p ++ [T w])
| d_number n : derivable (Prec 0) [T (string_of_nat n)]
| d_paren p : derivable Expression p -> derivable (Prec 0) (T "(" :: p ++ [T ")"])
| d_call f p : identifier f -> arguments p -> derivable (Prec 1) (T f :: T "(" :: p ++ [T ")"])
| d_cast t p : cxx = true -> type_name t -> derivable Expression p ->
    derivable (Prec 1) (T "static_cast<" :: T t :: T ">(" :: p ++ [T ")"])
| d_lambda t p : cxx = true -> type_name t -> derivable Expression p ->
    derivable (Prec 0) (T "[&]() -> " :: T t :: T " { return " :: p ++ [T "; }"])
| d_address p : derivable (Prec 3) p -> derivable (Prec 2) (T "&" :: p)
| d_not p : derivable (Prec 3) p -> derivable (Prec 2) (T "!" :: p)
| d_if p q : derivable Expression p -> derivable Items q ->
    derivable Statement (T "if (" :: p ++ T ")" :: T " " :: T "{" :: q ++ [T "}"])
| d_items p q : derivable Items p -> derivable Items q -> derivable Items (p ++ q)
| d_open p q : derivable Items p -> derivable Open q -> derivable Open (p ++ q)
| d_finish p : derivable Unfinished p -> derivable Statement (p ++ [T ";"])
| d_end p : derivable Open p -> derivable Items (p ++ [T ";"])
| d_rule p c : rule p c -> derivable c p
with arguments : list piece -> Prop :=
| one_argument p : derivable Clause p -> arguments p
| more_arguments p q : derivable Clause p -> arguments q -> arguments (p ++ T "," :: q).

(* The text before the first hole, and each hole with the text behind it *)
Fixpoint merge (p : list piece) : string * list (cat * string) :=
  match p with
  | [] => ("", [])
  | T s :: p => (s ++ fst (merge p), snd (merge p))
  | H c :: p => ("", (c, fst (merge p)) :: snd (merge p))
  end.

(* Operators *)
Definition precedence (o : bop) : nat :=
  match o with
  | Mul | Div | Rem => 5 | Add | Sub => 6 | Shl | Shr => 7
  | LT | GT | LE | GE => 9 | EQ | NE => 10 | And => 11 | Xor => 12 | Or => 13
  | LAnd => 14 | LOr => 15 | _ => assignment
  end.
Definition operation (o : bop) : cat :=
  match o with Comma => Expression | _ => Prec (precedence o) end.
Definition left_operand (o : bop) : cat :=
  if is_assign o then Prec 15 else operation o.
Definition right_operand (o : bop) : cat :=
  if is_assign o then (if cxx then Clause else Prec assignment)
  else match o with Comma => Prec assignment | _ => Prec (precedence o - 1) end.

Variable L : lang.

(* The tree is one of the grammar, for a place of this category. *)
Inductive fits : cat -> cst L -> Prop :=
| f_val s v c p : derivable c p -> merge p = (s, []) -> fits c (CVal s v)
| f_node k ps last c p : derivable c p -> fill (fst (merge p)) (snd (merge p)) ps last ->
    fits c (CNode k ps last)
| f_expr e sub c : below (Prec 1) c -> fits c sub -> fits c (CExpr e sub)
| f_bin b l w1 w2 r c : white w1 -> white w2 -> fits (left_operand (b_op b)) l ->
    fits (right_operand (b_op b)) r -> below (operation (b_op b)) c ->
    fits c (CBin b l w1 w2 r)
| f_pre u w sub c : is_prefix (u_op u) = true -> white w -> fits (Prec 3) sub ->
    below (Prec 2) c -> fits c (CUn u w sub)
| f_post u w sub c : is_prefix (u_op u) = false -> white w -> fits (Prec 1) sub ->
    below (Prec 1) c -> fits c (CUn u w sub)
| f_stmt s sub c : fits Statement sub -> below Items c -> fits c (CStmt s sub)
| f_unfinished s sub c : fits Unfinished sub -> below Open c -> fits c (CStmt s sub)
with fill : string -> list (cat * string) -> list (string * cst L) -> string -> Prop :=
| fill_end last : fill last [] [] last
| fill_hole s c t s' hs ps last : fits c t -> fill s' hs ps last ->
    fill s ((c, s') :: hs) ((s, t) :: ps) last.
End Grammar.

(* Where the sites have to be careful: a comma operator as an argument, a list in braces in a
   cast, a statement without its semicolon.  In C there is no implicit conversion of an element of
   a list in braces that Dredd sees (Clang's InitListChecker::CheckScalarType replaces the
   element in both forms of the list). *)
Section Careful.
Variable white : string -> Prop.
Variable rule : list piece -> cat -> Prop.
Variable c : ctx.
Variable o : options.
Variable L : lang.
Notation fits := (fits white rule (cpp c) L).

Definition careful_expr (e : expr) (sub : cst L) : Prop :=
  (cpp c = true \/ e_init_list_cast e = None) /\
  (fits (Prec assignment) sub \/
   fits Expression sub /\
   (e_binop e = Some Comma \/ cpp c = true /\ e_side_effects e = true \/
    cpp c = false /\ e_lvalue e = true)).
Definition careful_binary (b : binary) (r : cst L) : Prop :=
  b_op b <> Comma /\
  (cpp c = true -> e_side_effects (b_rhs b) = true -> fits Expression r).
Definition careful_stmt (s : stmt_site) (sub : cst L) : Prop :=
  fits Statement sub \/ track o = true \/ s_ext_semi s = false /\ s_next_hash s = true.

Fixpoint careful (t : cst L) : Prop :=
  match t with
  | CVal _ _ => True
  | CNode _ ps _ => fold_right (fun p P => careful (snd p) /\ P) True ps
  | CExpr e sub => careful sub /\ careful_expr e sub
  | CBin b l _ _ r => careful l /\ careful r /\ careful_binary b r
  | CUn _ _ sub => careful sub
  | CStmt s sub => careful sub /\ careful_stmt s sub
  end.
End Careful.
