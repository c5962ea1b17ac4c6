(* C59: the function in which code is executed. *)
From Coq Require Import String Ascii List Bool Arith.
From Verif Require Import VisitorExample Base Clang Gen GenExpr GenBinary GenUnary GenStmt
  Mutation MutTree TreeSpec Rewriter RewriterProof Visitor SimExample GrammarExample MovedSpec
  MovedProof MovedExample.
Import ListNotations.
Local Open Scope string_scope.

(* Exactly the operands with side effects, and the right operands of && and ||, are moved into a
   function of their own, and only in C++. *)
Theorem C59_moved_partial : forall c o m first id off,
  opens_function (a_edits (apply_mutation c o m first id)) off <-> In off (moved c m).
Proof. exact moved_exact. Qed.
Print Assumptions C59_moved_partial.

(* So in C all code stays where it is. *)
Theorem C59_c : forall c o m first id off,
  cpp c = false -> ~ opens_function (a_edits (apply_mutation c o m first id)) off.
Proof.
  intros c o m first id off C O. apply moved_exact in O. unfold moved in O. rewrite C in O.
  exact O.
Qed.
Print Assumptions C59_c.

Example C59_example :
  moved cpp_ctx (MutExpr (fact TInt false true None 7 23) no_loc) = [7] /\
  moved c_ctx (MutExpr (fact TInt false true None 7 23) no_loc) = [].
Proof. split; reflexivity. Qed.

(* The name of the function: report(__func__) is told to report operator(). *)
Theorem C59_name_refuted : exists root before after,
  written cpp_ctx optimised root "return report(__func__);" =
    before ++ "[&]() -> int { return static_cast<int>(report(__func__)); }" ++ after.
Proof.
  exists name_program.
  exists "if (!__dredd_enabled_mutation(6)) { return __dredd_replace_expr_int(". exists ", 0); }".
  vm_compute. reflexivity.
Qed.
Print Assumptions C59_name_refuted.

(* A return statement in a statement expression: it leaves the lambda, not the function. *)
Theorem C59_return_refuted : exists root before after,
  written cpp_ctx optimised root "x = ({ return 1; 2; });" =
    before ++ "[&]() -> int { return static_cast<int>(({ if (!__dredd_enabled_mutation(3)) { return "
      ++ "__dredd_replace_expr_int_one(1, 0); } 2; })); }" ++ after.
Proof.
  exists return_program.
  exists ("if (!__dredd_enabled_mutation(20)) { "
    ++ "__dredd_replace_binary_operator_Assign_arg1_int_arg2_int(x , [&]() -> int { return "
    ++ "static_cast<int>(__dredd_replace_expr_int(").
  exists ", 4)); }, 10); }". vm_compute. reflexivity.
Qed.
Print Assumptions C59_return_refuted.
