(* C57: the mutated text follows the grammar. *)
From Coq Require Import String Ascii List Bool Arith Lia.
From Verif Require Import VisitorExample Base Clang Gen GenExpr GenBinary GenUnary GenStmt
  Mutation MutTree TreeSpec Rewriter RewriterProof Visitor Lang Cst SimExample GrammarSpec
  GrammarProof GrammarExample.
Import ListNotations.
Local Open Scope string_scope.

(* A tree that follows the grammar, and in which no site has a bare comma operator, a list in braces
   or a missing semicolon in the wrong place, still follows the grammar when it is mutated: every
   inserted call gets the arguments it is meant to get, whatever the rest of the language is. *)
Theorem C57_grammar_partial (white : string -> Prop) rule c o L t id d :
  white "" -> white " " -> white nl ->
  fits white rule (cpp c) L d t -> careful white rule c o L t ->
  fits white rule (cpp c) L d (fst (mutate L c o t id)).
Proof. intros W1 W2 W3. exact (mutated_fits white rule c o L W1 W2 W3 t id d). Qed.
Print Assumptions C57_grammar_partial.

(* return x + y; *)
Example C57_example :
  small_white "" /\ small_white " " /\ small_white nl /\
  fits small_white small_rule true toy Items sum_statement /\
  careful small_white small_rule cpp_ctx optimised toy sum_statement.
Proof.
  assert (S : fits small_white small_rule true toy Expression
                (CBin sum_site (SimExample.use "x") " " " " (SimExample.use "y"))).
  { apply f_bin; try (right; left; reflexivity); try (cbn; unfold assignment; lia).
    - apply use_fits; [apply name_x|cbn; unfold assignment; lia].
    - apply use_fits; [apply name_y|cbn; unfold assignment; lia]. }
  assert (A : fits small_white small_rule true toy (Prec assignment)
                (CBin sum_site (SimExample.use "x") " " " " (SimExample.use "y"))).
  { apply f_bin; try (right; left; reflexivity); try (cbn; unfold assignment; lia).
    - apply use_fits; [apply name_x|cbn; unfold assignment; lia].
    - apply use_fits; [apply name_y|cbn; unfold assignment; lia]. }
  assert (V : forall s, identifier s ->
    careful small_white small_rule cpp_ctx optimised toy (SimExample.use s)).
  { intros s N. assert (B : below (Prec 1) (Prec assignment)) by (cbn; unfold assignment; lia).
    split; [split; [exact Logic.I|]|]; (split; [auto|left]).
    - apply var_fits; assumption.
    - apply f_expr; [exact B|]. apply var_fits; assumption. }
  assert (R : fits small_white small_rule true toy Statement
    (CNode Lang.KExpr [("return ", CExpr (value TInt false (Some Add))
       (CBin sum_site (SimExample.use "x") " " " " (SimExample.use "y")))] ";")).
  { eapply (f_node _ _ _ _ _ _ _ _ ([T "return "; H Expression] ++ [T ";"])%list).
    - apply d_finish, d_rule, small_return.
    - cbn [app merge fst snd]. apply fill_hole; [|apply fill_end].
      apply f_expr; [cbn; unfold assignment; lia|exact S]. }
  split; [left; reflexivity|]. split; [right; left; reflexivity|].
  split; [right; right; reflexivity|]. split.
  - apply f_stmt; [exact R|exact Logic.I].
  - split; [|left; exact R]. cbn [careful fold_right snd].
    split; [|exact Logic.I]. split.
    + split; [apply V, name_x|]. split; [apply V, name_y|]. split; [discriminate|].
      discriminate.
    + split; [auto|]. left. exact A.
Qed.

(* A comma operator below an implicit conversion: the conversion is mutated, the operator is not
   put in parentheses, and the call has three arguments for two parameters. *)
Theorem C57_comma_refuted : exists root before args after,
  written c_ctx optimised root "return g(), 1;" =
    before ++ "__dredd_replace_expr_long(" ++ args ++ ")" ++ after /\
  commas 0 args = 2 /\
  exists f, In f (generated c_ctx optimised root) /\
    prefix "static long __dredd_replace_expr_long(long arg, int local_mutation_id) {" f = true.
Proof.
  exists comma_program.
  exists "if (!__dredd_enabled_mutation(9)) { return ".
  exists "g(), __dredd_replace_expr_int_one(1, 0), 3". exists "; }".
  split; [vm_compute; reflexivity|]. split; [vm_compute; reflexivity|].
  destruct (find (prefix "static long __dredd_replace_expr_long(long arg, int local_mutation_id) {")
              (generated c_ctx optimised comma_program)) as [f|] eqn:E.
  - apply find_some in E as [I P]. exists f. split; assumption.
  - vm_compute in E. discriminate.
Qed.
Print Assumptions C57_comma_refuted.

(* A list in braces on the right of an assignment: it becomes the operand of a cast, which is not
   a place for such a list. *)
Theorem C57_braces_refuted : exists root before inside after,
  written cpp_ctx optimised root "x = {g()};" =
    before ++ "static_cast<int>({" ++ inside ++ "})" ++ after.
Proof.
  exists braces_program.
  exists ("if (!__dredd_enabled_mutation(16)) { "
    ++ "__dredd_replace_binary_operator_Assign_arg1_int_arg2_int(x , [&]() -> int { return ").
  exists "__dredd_replace_expr_int([&]() -> int { return static_cast<int>(g()); }, 0)".
  exists "; }, 6); }". vm_compute. reflexivity.
Qed.
Print Assumptions C57_braces_refuted.

(* A statement that gets its semicolon from a macro: the block ends before the semicolon. *)
Theorem C57_semicolon_refuted : exists root,
  written c_ctx optimised root "f() END" = "if (!__dredd_enabled_mutation(0)) { f() } END".
Proof. exists semicolon_program. vm_compute. reflexivity. Qed.
Print Assumptions C57_semicolon_refuted.
