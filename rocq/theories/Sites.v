(* mutate_visitor.cc: which operator nodes become mutation sites.  The records stand for
   nodes whose types are supported (mutate_visitor.cc:63-70). *)
From Coq Require Import ZArith Bool.
From Verif Require Import Base Clang Gen GenExpr GenBinary GenUnary.

(* mutate_visitor.cc:367-429.  operand_in_main: the operand has a source range in the main
   file. *)
Definition unary_site (opt operand_in_main : bool) (u : unary) : bool :=
  if negb operand_in_main then false
  else if uop_eqb (u_op u) Plus then false
  else if is_incdec (u_op u) && e_bitfield (u_sub u) then false
  else if opt && (uop_eqb (u_op u) Minus && equivalent_to (u_sub u) 1) then false
  else if opt && (uop_eqb (u_op u) Not &&
                  (equivalent_to (u_sub u) 0 || equivalent_to (u_sub u) 1)) then false
  else true.

(* mutate_visitor.cc:431-491 *)
Definition binary_site (opt lhs_in_main rhs_in_main : bool) (b : binary) : bool :=
  if negb lhs_in_main || negb rhs_in_main then false
  else if is_assign (b_op b) && e_bitfield (b_lhs b) then false
  else if bop_eqb (b_op b) Comma then false
  else if opt && (equivalent_to (b_lhs b) 0 && equivalent_to (b_rhs b) 1) then false
  else true.
