(* Properties C07, C21, C23: the generated functions. *)
From Coq Require Import String Ascii List Arith Bool Lia.
From Verif Require Import Base Clang Gen GenExpr GenBinary GenUnary GenStmt Mutation RunSpec
  GenSpec GenProof RunTest.
Import ListNotations.

(* C07: for every site and every id, the tests of the generated function are the described
   mutants in order, each returns what its action means, the remaining case returns the
   original expression, the site calls this function with the first id of the group, and
   this function is what is declared.  The logical operators of C are encoded differently:
   see C07_c_logical. *)
Theorem C07_tests_match_actions : forall c o m first id,
  track o = false ->
  let a := apply_mutation c o m first id in
  match m, a_group a with
  | MutExpr e _, GroupReplaceExpr _ l =>
      let f := expr_function c o e in
      tests_match (expr_meaning c) id l (mf_lines f) /\ mf_orig f = RArg1 /\
      calls (a_edits a) (mf_name f) (id - first) /\ a_decls a = [print_mfun f]
  | MutBinary b _ _ _, GroupReplaceBinary _ _ _ op l =>
      op = b_op b /\
      (c_logical c b = false ->
       let f := binary_function c o b in
       tests_match bin_meaning id l (mf_lines f) /\ mf_orig f = RBin op /\
       calls (a_edits a) (mf_name f) (id - first) /\ a_decls a = [print_mfun f])
  | MutUnary u _ _, GroupReplaceUnary _ _ op l =>
      let f := unary_function c o u in
      op = u_op u /\
      tests_match un_meaning id l (mf_lines f) /\ mf_orig f = original_unary op /\
      calls (a_edits a) (mf_name f) (id - first) /\ a_decls a = [print_mfun f]
  | MutStmt s _, GroupRemoveStmt id' _ =>
      id' = id /\
      a_edits a = [InsertBefore (r_begin (s_range s))
                     ("if (!__dredd_enabled_mutation(" ++ string_of_nat (id - first)
                      ++ ")) { ")%string;
                   InsertAfterToken (r_end (s_range s)) (stmt_close s)]
  | _, _ => False
  end.
Proof. exact C07_lemma. Qed.
Print Assumptions C07_tests_match_actions.

Example C07_example :
  track default_options = false /\ c_logical c_ctx b_sum1 = false /\
  mf_lines (binary_function c_ctx default_options b_sum1)
  = [(0, RBin Div); (1, RBin Mul); (2, RBin Rem); (3, RBin Sub); (4, RArg1); (5, RArg2)].
Proof. vm_compute. auto. Qed.

(* C07 for && and || in C: the operands and the whole expression are wrapped in calls of three
   functions, which are declared; with the mutant at offset k enabled they give the truth
   value that the instance with id + k describes, and with none that of the original. *)
Theorem C07_c_logical : forall c o b i il ir first id,
  track o = false -> c_logical c b = true ->
  let a := apply_mutation c o (MutBinary b i il ir) first id in
  exists fl fr fo l,
    a_group a = GroupReplaceBinary i il ir (b_op b) l /\
    a_decls a = [print_mfun fl; print_mfun fr; print_mfun fo] /\
    (let close := (", " ++ string_of_nat (id - first) ++ ")")%string in
     a_edits a = [InsertBefore (r_begin (e_range (b_lhs b))) (mf_name fl ++ "(")%string;
                  InsertAfterToken (r_end (e_range (b_lhs b))) close;
                  InsertBefore (r_begin (e_range (b_rhs b))) (mf_name fr ++ "(")%string;
                  InsertAfterToken (r_end (e_range (b_rhs b))) close;
                  InsertBefore (r_begin (b_range b)) (mf_name fo ++ "(")%string;
                  InsertAfterToken (r_end (b_range b)) close]) /\
    c_logical_encoded (b_op b) fl fr fo id l.
Proof. exact C07_c_logical_lemma. Qed.
Print Assumptions C07_c_logical.

Definition b_and1 : binary :=
  {| b_op := LAnd; b_ty := b_ty b_sum1; b_lhs := b_lhs b_sum1; b_rhs := b_rhs b_sum1;
     b_range := b_range b_sum1; b_op_offset := b_op_offset b_sum1 |}.
Example C07_c_logical_example :
  track default_options = false /\ c_logical c_ctx b_and1 = true /\
  c_logical_actions b_and1 = [BReplaceWithLOr; ReplaceWithLHS; ReplaceWithRHS].
Proof. vm_compute. auto. Qed.

(* C21: without optimisation every site that the visitor creates yields a mutant. *)
Theorem C21_every_site_has_a_mutant : forall c m,
  plausible m -> 0 < mutant_count c false m.
Proof. exact C21_lemma. Qed.
Print Assumptions C21_every_site_has_a_mutant.

Example C21_example :
  plausible (MutExpr l_x1 i_x1) /\ e_lvalue l_x1 = true /\
  mutant_count c_ctx false (MutExpr l_x1 i_x1) = 2.
Proof. vm_compute. auto. Qed.

(* C23: optimising leaves actions out and changes nothing else. *)
Theorem C23_optimisation_only_removes : forall c m,
  match m with
  | MutExpr e _ => sublist (expr_mutants c true e) (expr_mutants c false e)
  | MutBinary b _ _ _ => sublist (binary_actions c true b) (binary_actions c false b) /\
                         sublist (binary_mutants true b) (binary_mutants false b)
  | MutUnary u _ _ => sublist (unary_mutants true u) (unary_mutants false u)
  | MutStmt _ _ => True
  end.
Proof. exact C23_lemma. Qed.
Print Assumptions C23_optimisation_only_removes.

Example C23_example :
  List.length (expr_mutants c_ctx true e_one) = 3 /\
  List.length (expr_mutants c_ctx false e_one) = 6.
Proof. vm_compute. auto. Qed.
