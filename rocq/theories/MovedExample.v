(* Programs for PropsMoved.v *)
From Coq Require Import String List Bool.
From Verif Require Import VisitorExample Base Clang Gen GenExpr GenBinary GenUnary GenStmt
  Mutation Visitor GrammarExample.
Import ListNotations.
Local Open Scope string_scope.

(* return report(__func__); *)
Definition name_program : node :=
  program [function [
    Ast (Visitor.KStmt SOther) (here_with no_loc (statement_at 0 24 true) 0)
      [(ROther, expr_at (ECall false) (typed (fact TInt false true None 7 23)) no_site
         [(RArg, expr_at (ECast true false) (unsupported (fact TInt false false None 14 22)) no_site
            [(RSub, expr_at EOther (unsupported (fact TInt true false None 14 22)) no_site [])])])]]].

(* x = ({ return 1; 2; }); *)
Definition return_operator : binary :=
  {| b_op := Assign; b_ty := TInt; b_lhs := fact TInt true false None 0 1;
     b_rhs := fact TInt false true None 4 22; b_op_offset := 2; b_range := from_to 0 22 |}.
Definition return_program : node :=
  program [function [
    expr_at (EBinary return_operator no_loc no_loc) (typed (fact TInt true true (Some Assign) 0 22))
      (statement_at 0 23 true)
      [(RLhs, expr_at (EDeclRef 100) (typed (fact TInt true false None 0 1)) no_site []);
       (RRhs, expr_at EStmtExpr (typed (fact TInt false true None 4 22)) no_site
          [(ROther, stmt SCompound 5
             [(ROther, Ast (Visitor.KStmt SOther) (here_with no_loc (statement_at 7 16 true) 7)
                 [(ROther, expr_at EOther (typed (one 14 15)) no_site [])]);
              (ROther, expr_at EOther (typed (fact TInt false false None 17 18)) no_site [])])])]]].
