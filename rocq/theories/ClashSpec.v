(* What Clang guarantees about the nodes that dredd mutates, as far as the types of generated
   functions depend on it, and when two generated functions clash. *)
From Coq Require Import String List ZArith Bool.
From Verif Require Import Base Clang Gen GenExpr GenBinary GenUnary GenStmt Mutation RunSpec.
Import ListNotations.

(* An r-value whose value is known as an int is known as a truth value too; an l-value is
   only mutated if it can be incremented. *)
Definition clang_expr (e : expr) : Prop :=
  (e_ty e = TBool -> e_int e <> None -> e_boolval e <> None) /\
  (e_lvalue e = true -> can_mutate_lvalue e = true).

(* The type of the result of a comparison or a logical operator *)
Definition truth_type (c : ctx) : ty := if cpp c then TBool else TInt.

(* C11 6.5.5-6.5.16: the operands have been converted, so the type of the result is that of
   the left operand or that of truth values. *)
Definition clang_binary (c : ctx) (b : binary) : Prop :=
  b_op b <> Comma /\
  b_ty b = if is_relational (b_op b) || is_logical (b_op b) then truth_type c
           else e_ty (b_lhs b).

(* C11 6.5.2.4, 6.5.3.1, 6.5.3.3: increments take a modifiable l-value, and prefix ones give
   it back in C++; the others take and give an r-value. *)
Definition clang_unary (c : ctx) (u : unary) : Prop :=
  match u_op u with
  | PreInc | PreDec =>
      e_lvalue (u_sub u) = true /\ e_const (u_sub u) = false /\ u_ty u = e_ty (u_sub u) /\
      u_lvalue u = cpp c /\ u_volatile u = e_volatile (u_sub u) /\ u_const u = false
  | PostInc | PostDec =>
      e_lvalue (u_sub u) = true /\ e_const (u_sub u) = false /\ u_ty u = e_ty (u_sub u) /\
      u_lvalue u = false
  | Minus | Not =>
      e_lvalue (u_sub u) = false /\ u_ty u = e_ty (u_sub u) /\ u_lvalue u = false
  | LNot => e_lvalue (u_sub u) = false /\ u_ty u = truth_type c /\ u_lvalue u = false
  | Plus | UExtension => False
  end.

Definition clang_node (c : ctx) (m : mutation) : Prop :=
  match m with
  | MutExpr e _ => clang_expr e
  | MutBinary b _ _ _ => clang_binary c b
  | MutUnary u _ _ => clang_unary c u
  | MutStmt _ _ => True
  end.

(* Two definitions that a compiler takes for the same function: in C functions with the same
   name, in C++ functions with the same name and the same parameter types. *)
Definition same_function (c : ctx) (f g : mfun) : Prop :=
  mf_name f = mf_name g /\
  (cpp c = true -> map fst (mf_params f) = map fst (mf_params g)).
