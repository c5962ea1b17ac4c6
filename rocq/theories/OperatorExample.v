(* return MINUS x;  where MINUS is a macro for the operator - *)
From Coq Require Import String List ZArith Bool Lia.
From Verif Require Import Base Clang Gen GenExpr GenBinary GenUnary GenStmt Rewriter Mutation
  PreludeSpec Prelude Lang Cst Runtime SimSpec SimTop LangRun MutantSpec SimExample SimRefute
  RunTest Operator OperatorSpec.
Import ListNotations.
Local Open Scope string_scope.

Notation c_ctx := SimExample.c_ctx.
Definition l_operand : expr := mk_expr true None None None (Some false) 13 14.
Definition operand : expr := mk_expr false None None None None 13 14.
Definition negation : expr := mk_expr false None None None None 7 14.
Definition minus : unary :=
  {| u_op := Minus; u_ty := TInt; u_lvalue := false; u_volatile := false; u_const := false;
     u_side_effects := false; u_sub := operand; u_op_offset := 7;
     u_range := {| r_begin := 7; r_end := 14 |} |}.
Definition return_stmt : stmt_site :=
  {| s_range := {| r_begin := 0; r_end := 15 |}; s_ext_comment := false; s_ext_semi := true;
     s_next_hash := false |}.

Definition use_x : cst toy := CExpr operand (CExpr l_operand (var "x")).
(* the operator in the words of the macro, with its meaning *)
Definition by_macro (sub : cst toy) : cst toy :=
  CNode (KAt TInt) [("MINUS ", CNode (KUn Minus) [("", CNode (KAt TInt) [("", sub)] "")] "")] "".
Definition original : list (string * cst toy) :=
  [("f", CNode KReturn [("return ", by_macro use_x)] ";")].

(* The edits of the five sites: x as an l-value and as an r-value, the operator, the whole
   expression, and the statement *)
Definition macro_edits : list edit :=
  (expr_edits c_ctx optimised l_operand 0 ++ expr_edits c_ctx optimised operand 2 ++
   unary_edits_at c_ctx optimised minus OpInMacro 8 ++ expr_edits c_ctx optimised negation 10 ++
   stmt_edits optimised return_stmt 16)%list.
Definition written : list (string * cst toy) :=
  [("f", mutated_stmt toy optimised return_stmt 16
     (CNode KReturn [("return ", mutated_expr toy c_ctx optimised negation 10
        (mutated_unary toy c_ctx optimised minus 8 ""
           (by_macro (fst (mutate toy c_ctx optimised use_x 0)))))] ";"))].

Lemma macro_text : map (fun f => text (snd f)) original = ["return MINUS x;"].
Proof. reflexivity. Qed.
Lemma macro_meaning : den toy c_ctx (by_macro use_x) = den toy c_ctx (CUn minus " " use_x).
Proof. reflexivity. Qed.
Lemma macro_rewritten :
  [rewrite "return MINUS x;" macro_edits] = map (fun f => text (snd f)) written.
Proof. vm_compute. reflexivity. Qed.
Definition five : tmem := start (I 0) (I 0) (P 0) (I 5) (I 0).
Lemma written_returns :
  finishes toy (selecting 0 17 false None) c_ctx (body_of toy c_ctx written) false tt five
    (initial_tls 17) (call toy "f" []) five (RV (L := toy) (I 5)).
Proof. apply (first_run_finishes _ _ _ _ _ 400). vm_compute. reflexivity. Qed.
Lemma original_returns m r :
  finishes toy no_runtime c_ctx (body_of toy c_ctx original) false tt five tt (call toy "f" []) m r ->
  m = five /\ r = RV (L := toy) (I (-5)).
Proof.
  intro F.
  destruct (results_of toy no_runtime c_ctx (body_of toy c_ctx original) false 400 tt five tt
              (call toy "f" [])) as [l|] eqn:Q; [|vm_compute in Q; discriminate].
  pose proof (results_finishes _ _ _ _ _ _ _ _ _ _ _ _ _ Q F) as H.
  vm_compute in Q. injection Q as <-. cbn in H. destruct H as [H | []].
  injection H as <- <-. auto.
Qed.
Lemma macro_differs :
  ~ behaves_like toy c_ctx false (selecting 0 17 false None) (initial_tls 17)
      (body_of toy c_ctx written) (call toy "f" []) (body_of toy c_ctx original) (call toy "f" []).
Proof.
  intro B. pose proof (same_results _ _ _ _ _ _ _ _ _ B _ _ _ _ written_returns) as H.
  apply original_returns in H as [_ H]. discriminate.
Qed.
