(* Property C55: the token of a mutated operator. *)
From Coq Require Import String List ZArith Bool Arith Lia.
From Verif Require Import Base Clang Gen GenExpr GenBinary GenUnary GenStmt Rewriter Mutation
  PreludeSpec Prelude Lang Cst Runtime NestSpec SimSpec MutantSpec SimExample RunTest Operator
  OperatorSpec OperatorProof OperatorExample.
Import ListNotations.
Local Open Scope string_scope.

(* C55: the rewritten text of an operation is the call that it should be (C29) if and only if
   the operator is a token of the file that is as long as the usual one. *)
Theorem C55_binary_partial : forall L c o b p id pre (l r : cst L) w1 s w2 post,
  let off := String.length pre in
  let op := off + size l + String.length w1 in
  from_to off (size l) (e_range (b_lhs b)) ->
  from_to (op + String.length s + String.length w2) (size r) (e_range (b_rhs b)) ->
  s <> "" -> s <> "," -> spelled_at p op (bop_str (b_op b)) s ->
  (rewrite (pre ++ (text l ++ w1 ++ s ++ w2 ++ text r) ++ post) (binary_edits_at c o b p id) =
   pre ++ text (mutated_binary L c o b id l w1 w2 r) ++ post
   <-> usual p (bop_str (b_op b)) s).
Proof. exact binary_exactly. Qed.
Print Assumptions C55_binary_partial.

Theorem C55_unary_partial : forall L c o u p id pre (sub : cst L) w s post,
  let a := if is_prefix (u_op u) then "" else text sub ++ w in
  let z := if is_prefix (u_op u) then w ++ text sub else "" in
  from_to (String.length pre) (String.length (a ++ s ++ z)) (u_range u) ->
  s <> "" -> spelled_at p (String.length (pre ++ a)) (uop_str (u_op u)) s ->
  (rewrite (pre ++ (a ++ s ++ z) ++ post) (unary_edits_at c o u p id) =
   pre ++ text (mutated_unary L c o u id w sub) ++ post
   <-> usual p (uop_str (u_op u)) s).
Proof. exact unary_exactly. Qed.
Print Assumptions C55_unary_partial.

(* The edits are those of C29 if the operator is in the file. *)
Example C55_same_edits : forall c o u b id,
  unary_edits_at c o u (OpInFile (u_op_offset u)) id = unary_edits c o u id /\
  binary_edits_at c o b (OpInFile (b_op_offset b)) id = binary_edits c o b id.
Proof. split; reflexivity. Qed.

(* return MINUS x;  as in C55_macro_refuted *)
Example C55_example :
  let sub := var "x" in
  from_to (String.length "return ") (String.length ("" ++ "MINUS" ++ " " ++ text sub)) (u_range minus) /\
  spelled_at OpInMacro 7 "-" "MINUS" /\ ~ usual OpInMacro "-" "MINUS" /\
  spelled_at (OpInFile 7) 7 "-" "-" /\ usual (OpInFile 7) "-" "-".
Proof. cbn. unfold from_to. cbn. repeat split; auto; discriminate. Qed.

(* Of the alternative tokens, only "or" is as long as the usual one. *)
Theorem C55_alternative_binary : forall o s off, alternative_bop o = Some s ->
  (usual (OpInFile off) (bop_str o) s <-> o = LOr).
Proof. exact alternative_binary. Qed.
Print Assumptions C55_alternative_binary.

Theorem C55_alternative_unary : forall o s off, alternative_uop o = Some s ->
  ~ usual (OpInFile off) (uop_str o) s.
Proof. exact alternative_unary. Qed.
Print Assumptions C55_alternative_unary.

Example C55_alternative_example :
  alternative_bop Or = Some "bitor" /\ ~ usual (OpInFile 2) (bop_str Or) "bitor" /\
  alternative_bop LOr = Some "or" /\ usual (OpInFile 2) (bop_str LOr) "or" /\
  alternative_uop Not = Some "compl" /\ ~ usual (OpInFile 0) (uop_str Not) "compl".
Proof. cbn. repeat split; auto; discriminate. Qed.

(* C55 is false of them: x bitor y is rewritten to something that is not a program. *)
Theorem C55_alternative_refuted : exists c o b p id,
  cpp c = true /\ alternative_bop (b_op b) = Some "bitor" /\
  rewrite "x bitor y" (binary_edits_at c o b p id) =
    "__dredd_replace_binary_operator_Or_arg1_int_arg2_int(x ,itor y, 0)".
Proof.
  exists cpp_ctx, optimised,
    {| b_op := Or; b_ty := TInt; b_lhs := mk_expr false None None None None 0 1;
       b_rhs := mk_expr false None None None None 8 9; b_op_offset := 2;
       b_range := {| r_begin := 0; r_end := 9 |} |}, (OpInFile 2), 0.
  vm_compute. auto.
Qed.
Print Assumptions C55_alternative_refuted.

(* C55 is false of operators that come from a macro (in C also: the alternative tokens of
   <iso646.h>): the operator stays, and is applied once more by the generated function.  With
   no mutant enabled, return MINUS x; returns x. *)
Theorem C55_macro_refuted : exists (original written : list (string * cst toy)) es,
  map (fun f => text (snd f)) original = ["return MINUS x;"] /\
  body_of toy c_ctx original "f" =
    Some (N KReturn [den toy c_ctx (CUn minus " " use_x)]) /\
  es = (expr_edits c_ctx optimised l_operand 0 ++ expr_edits c_ctx optimised operand 2 ++
        unary_edits_at c_ctx optimised minus OpInMacro 8 ++
        expr_edits c_ctx optimised negation 10 ++ stmt_edits optimised return_stmt 16)%list /\
  [rewrite "return MINUS x;" es] = map (fun f => text (snd f)) written /\
  finishes toy (selecting 0 17 false None) c_ctx (body_of toy c_ctx written) false tt five
    (initial_tls 17) (call toy "f" []) five (RV (L := toy) (I 5)) /\
  (forall m r, finishes toy no_runtime c_ctx (body_of toy c_ctx original) false tt five tt
     (call toy "f" []) m r -> m = five /\ r = RV (L := toy) (I (-5))).
Proof.
  exact (ex_intro _ original (ex_intro _ written (ex_intro _ macro_edits
    (conj macro_text (conj eq_refl (conj eq_refl (conj macro_rewritten
      (conj written_returns original_returns)))))))).
Qed.
Print Assumptions C55_macro_refuted.
