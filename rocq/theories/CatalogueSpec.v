(* The catalogue of mutation operators: which replacements there are for a site when
   mutation optimisations are off. *)
From Coq Require Import List Bool.
From Verif Require Import Base Clang Gen GenExpr GenBinary GenUnary GenStmt Mutation.
Import ListNotations.

(* Expressions.  L-values are incremented and decremented; r-values get a unary operator in
   front, or are replaced by a small constant, as far as their type allows. *)
Definition expr_offer (c : ctx) (e : expr) (a : expr_action) : Prop :=
  let t := e_ty e in
  match a with
  | InsertPreInc | InsertPreDec => e_lvalue e = true
  | InsertLNot => e_lvalue e = false /\ is_integer t = true
  | InsertNot | ReplaceWithZeroInt | ReplaceWithOneInt =>
      e_lvalue e = false /\ is_integer t = true /\ t <> TBool
  | InsertMinus => e_lvalue e = false /\ (is_signed c t = true \/ is_float t = true)
  | ReplaceWithMinusOneInt => e_lvalue e = false /\ is_signed c t = true
  | ReplaceWithZeroFloat | ReplaceWithOneFloat | ReplaceWithMinusOneFloat =>
      e_lvalue e = false /\ is_float t = true
  | ReplaceWithTrue | ReplaceWithFalse => e_lvalue e = false /\ t = TBool
  end.

(* Binary operators *)
Inductive family := Arithmetic | Bitwise | Shift | Relational | Logical | Assigning.
Definition family_of (o : bop) : option family :=
  match o with
  | Add | Sub | Mul | Div | Rem => Some Arithmetic
  | And | Or | Xor => Some Bitwise
  | Shl | Shr => Some Shift
  | LT | GT | LE | GE | EQ | NE => Some Relational
  | LAnd | LOr => Some Logical
  | Assign | MulAssign | DivAssign | RemAssign | AddAssign | SubAssign | ShlAssign | ShrAssign
  | AndAssign | XorAssign | OrAssign => Some Assigning
  | Comma => None
  end.
(* Operators that need operands of integer type *)
Definition integers_only (o : bop) : Prop :=
  match o with
  | Rem | RemAssign | ShlAssign | ShrAssign | AndAssign | XorAssign | OrAssign => True
  | _ => False
  end.
Definition defined_for (b : binary) (o : bop) : Prop :=
  integers_only o ->
  is_integer (e_ty (b_lhs b)) = true /\ is_integer (e_ty (b_rhs b)) = true.
(* Replacements from another family: == and != for logical operators, and the other way round
   if the operands are truth values.  C keeps && and || apart, for which only the other one is
   offered. *)
Definition related (c : ctx) (b : binary) (o : bop) : Prop :=
  match b_op b, o with
  | (LAnd | LOr), (EQ | NE) => cpp c = true
  | (EQ | NE), (LAnd | LOr) => e_ty (b_lhs b) = TBool
  | _, _ => family_of o = family_of (b_op b)
  end.
Definition operator_offer (c : ctx) (b : binary) (o : bop) : Prop :=
  o <> b_op b /\ related c b o /\ defined_for b o.

Definition operator_of (a : bin_action) : option bop :=
  match a with
  | ReplaceWithLHS | ReplaceWithRHS | BReplaceWithUnknown => None
  | BReplaceWithAdd => Some Add | BReplaceWithDiv => Some Div | BReplaceWithMul => Some Mul
  | BReplaceWithRem => Some Rem | BReplaceWithSub => Some Sub
  | BReplaceWithAddAssign => Some AddAssign | BReplaceWithAndAssign => Some AndAssign
  | BReplaceWithAssign => Some Assign | BReplaceWithDivAssign => Some DivAssign
  | BReplaceWithMulAssign => Some MulAssign | BReplaceWithOrAssign => Some OrAssign
  | BReplaceWithRemAssign => Some RemAssign | BReplaceWithShlAssign => Some ShlAssign
  | BReplaceWithShrAssign => Some ShrAssign | BReplaceWithSubAssign => Some SubAssign
  | BReplaceWithXorAssign => Some XorAssign
  | BReplaceWithAnd => Some And | BReplaceWithOr => Some Or | BReplaceWithXor => Some Xor
  | BReplaceWithLAnd => Some LAnd | BReplaceWithLOr => Some LOr
  | BReplaceWithEQ => Some EQ | BReplaceWithGE => Some GE | BReplaceWithGT => Some GT
  | BReplaceWithLE => Some LE | BReplaceWithLT => Some LT | BReplaceWithNE => Some NE
  | BReplaceWithShl => Some Shl | BReplaceWithShr => Some Shr
  end.
Definition binary_offer (c : ctx) (b : binary) (a : bin_action) : Prop :=
  match a with
  | ReplaceWithLHS | ReplaceWithRHS => family_of (b_op b) <> Some Assigning
  | _ => exists o, operator_of a = Some o /\ operator_offer c b o
  end.

(* Unary operators: the operand alone, and any other operator that can be applied to the operand
   and whose result can stand where the original one's does.  An increment stays
   a prefix or postfix operator. *)
Definition increments (o : uop) : option bool :=   (* true: in front *)
  match o with
  | PreInc | PreDec => Some true | PostInc | PostDec => Some false | _ => None
  end.
Definition unary_operator_offer (u : unary) (o : uop) : Prop :=
  o <> u_op u /\
  (increments o <> None -> e_lvalue (u_sub u) = true) /\
  (increments o <> None -> increments (u_op u) <> None -> increments o = increments (u_op u)) /\
  (u_lvalue u = true -> increments o = Some true) /\
  (o = Not -> is_integer (e_ty (u_sub u)) = true).
Definition unary_offer (u : unary) (a : un_action) : Prop :=
  match a with
  | ReplaceWithOperand => True
  | ReplaceWithMinus => unary_operator_offer u Minus
  | ReplaceWithNot => unary_operator_offer u Not
  | ReplaceWithLNot => unary_operator_offer u LNot
  | ReplaceWithPreDec => unary_operator_offer u PreDec
  | ReplaceWithPostDec => unary_operator_offer u PostDec
  | ReplaceWithPreInc => unary_operator_offer u PreInc
  | ReplaceWithPostInc => unary_operator_offer u PostInc
  | UReplaceWithUnknown => False
  end.

(* The actions that are described for a site are those on offer, each once. *)
Definition exactly {A} (offer : A -> Prop) (l : list (nat * A)) : Prop :=
  NoDup (map snd l) /\ forall a, In a (map snd l) <-> offer a.
