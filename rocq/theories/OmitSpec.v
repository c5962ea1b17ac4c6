(* Which mutants of the catalogue are left out when mutation optimisations are on. *)
From Coq Require Import List Bool ZArith.
From Verif Require Import Base Clang Gen GenExpr GenBinary GenUnary GenStmt Mutation CatalogueSpec.
Import ListNotations.

(* The compiler knows the value of the expression to be 0, 1 or -1. *)
Inductive small := Zero | One | MinusOne.
Definition known (e : expr) (k : small) : Prop :=
  if is_float (e_ty e)
  then e_float e = Some match k with Zero => FZero | One => FOne | MinusOne => FMinusOne end
  else e_int e = Some match k with Zero => 0%Z | One => 1%Z | MinusOne => (-1)%Z end.
Definition known_small (e : expr) : Prop := exists k, known e k.

(* Operators whose result is a truth value; && and || count in C++ only. *)
Definition decides (c : ctx) (o : bop) : Prop :=
  family_of o = Some Relational \/ family_of o = Some Logical /\ cpp c = true.
Definition yields_truth (c : ctx) (e : expr) : Prop :=
  exists o, e_binop e = Some o /\ decides c o.
(* An operand of && or || in C++ *)
Definition decided_by (c : ctx) (e : expr) : Prop := cpp c = true /\ e_logical_operand e = true.

(* Expressions.  Nothing is inserted before an expression that yields a truth value, before an
   operand of && or ||, and where the result would be one of the constants. *)
Definition insertion_omitted (c : ctx) (e : expr) (constants : Prop) : Prop :=
  yields_truth c e \/ decided_by c e \/ constants.
(* The constant that is the weaker of the two mutants for an operator *)
Definition weak_constant (c : ctx) (e : expr) (b : bool) : Prop :=
  exists o, e_binop e = Some o /\ decides c o /\
    match o with
    | LAnd | GT | LT | EQ => b = true
    | _ => b = false
    end.
Definition expr_omitted (c : ctx) (e : expr) (a : expr_action) : Prop :=
  match a with
  | InsertPreInc | InsertPreDec => False
  | InsertLNot => insertion_omitted c e
      ((exists k, e_int e = Some k) \/ e_ty e = TBool /\ exists b, e_boolval e = Some b)
  | InsertNot => insertion_omitted c e
      (is_signed c (e_ty e) = true /\ (known e Zero \/ known e MinusOne))
  | InsertMinus => insertion_omitted c e (known_small e)
  | ReplaceWithZeroInt | ReplaceWithZeroFloat => known e Zero
  | ReplaceWithOneInt | ReplaceWithOneFloat => known e One
  | ReplaceWithMinusOneInt | ReplaceWithMinusOneFloat => known e MinusOne
  | ReplaceWithTrue => e_boolval e = Some true \/ weak_constant c e true
  | ReplaceWithFalse => e_boolval e = Some false \/ weak_constant c e false
  end.

(* Binary operators: the replacements that are enough for a comparison, && and || *)
Definition enough (o : bop) : list bop :=
  match o with
  | LT => [LE; NE] | GT => [GE; NE] | LE => [LT; EQ] | GE => [GT; EQ]
  | EQ => [LE; GE] | NE => [LT; GT]
  | LAnd => [EQ] | LOr => [NE]
  | _ => []
  end.
(* Replacements that yield an operand or a constant because an operand is 0 or 1.  The replacement
   of 0 op 0 by 0 / 0 is kept. *)
Definition degenerate (b : binary) (o : bop) : Prop :=
  known (b_rhs b) Zero /\ In o [Add; Sub; Shl; Shr; Mul; Rem] \/
  known (b_rhs b) One /\ In o [Mul; Div] \/
  known (b_lhs b) Zero /\ In o [Add; Shl; Shr; Mul; Rem] \/
  known (b_lhs b) Zero /\ o = Div /\ ~ known (b_rhs b) Zero \/
  known (b_lhs b) One /\ o = Mul.
Definition binary_omitted (c : ctx) (b : binary) (a : bin_action) : Prop :=
  (* && and || of C are left alone *)
  ~ (family_of (b_op b) = Some Logical /\ cpp c = false) /\
  match a with
  | ReplaceWithLHS => family_of (b_op b) = Some Relational \/ known_small (b_lhs b)
  | ReplaceWithRHS => family_of (b_op b) = Some Relational \/ known_small (b_rhs b)
  | _ => exists o, operator_of a = Some o /\
           (decides c (b_op b) /\ ~ In o (enough (b_op b)) \/ degenerate b o)
  end.

(* Unary operators *)
Definition unary_omitted (u : unary) (a : un_action) : Prop :=
  match a with
  | ReplaceWithOperand => In (u_op u) [LNot; Minus; Not]
  | ReplaceWithMinus => known_small (u_sub u)
  | ReplaceWithLNot => known (u_sub u) Zero \/ known (u_sub u) One
  | _ => False
  end.

(* Operators that are not mutated at all: 0 op 1, -1, ~0 and ~1 *)
Definition binary_spared (b : binary) : Prop := known (b_lhs b) Zero /\ known (b_rhs b) One.
Definition unary_spared (u : unary) : Prop :=
  u_op u = Minus /\ known (u_sub u) One \/
  u_op u = Not /\ (known (u_sub u) Zero \/ known (u_sub u) One).
