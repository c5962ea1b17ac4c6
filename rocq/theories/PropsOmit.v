(* C63: which mutants optimisation leaves out. *)
From Coq Require Import List Bool ZArith.
From Verif Require Import Base Clang Gen GenExpr GenBinary GenUnary GenStmt Mutation MutTree
  GenSpec SimExample Sites CatalogueSpec OmitSpec OmitProof.
Import ListNotations.

(* What the information file lists for a site is what the catalogue offers, but for the omissions
   of OmitSpec.v, each once. *)
Theorem C63_kept : forall c o m first id,
  optimise o = true -> plausible m ->
  match m, a_group (apply_mutation c o m first id) with
  | MutExpr e _, GroupReplaceExpr _ l => exactly (fun a => expr_offer c e a /\ ~ expr_omitted c e a) l
  | MutBinary b _ _ _, GroupReplaceBinary _ _ _ _ l =>
      exactly (fun a => binary_offer c b a /\ ~ binary_omitted c b a) l
  | MutUnary u _ _, GroupReplaceUnary _ _ _ l =>
      exactly (fun a => unary_offer u a /\ ~ unary_omitted u a) l
  | MutStmt _ _, GroupRemoveStmt _ _ => True
  | _, _ => False
  end.
Proof. exact kept. Qed.
Print Assumptions C63_kept.

(* The operators that are no mutation site because of optimisation *)
Theorem C63_sites :
  (forall l r b, binary_site true l r b = true <->
                 binary_site false l r b = true /\ ~ binary_spared b) /\
  (forall i u, unary_site true i u = true <-> unary_site false i u = true /\ ~ unary_spared u).
Proof. exact sites_kept. Qed.
Print Assumptions C63_sites.

(* x + 1.0: replacing + by * or / and the whole by the right operand is left out; -x: the operand *)
Definition plus_one : binary :=
  binary_of Add TDouble (value TDouble false None)
    {| e_ty := TDouble; e_lvalue := false; e_volatile := false; e_const := false;
       e_bitfield := false; e_side_effects := false; e_int := None; e_float := Some FOne;
       e_boolval := None; e_cxx11_constant := false; e_binop := None;
       e_logical_operand := false; e_cast_parent_lvalue := None; e_init_list_cast := None;
       e_preceded_by_ident := false; e_range := at_zero |}.
Example C63_example :
  binary_actions cpp_ctx false plus_one =
    [BReplaceWithDiv; BReplaceWithMul; BReplaceWithSub; ReplaceWithLHS; ReplaceWithRHS] /\
  binary_actions cpp_ctx true plus_one = [BReplaceWithSub; ReplaceWithLHS] /\
  binary_omitted cpp_ctx plus_one BReplaceWithMul /\ ~ binary_omitted cpp_ctx plus_one ReplaceWithLHS.
Proof.
  split; [reflexivity|]. split; [reflexivity|]. split.
  - split; [intros [H _]; discriminate|]. exists Mul. split; [reflexivity|]. right.
    right. left. split; [reflexivity|]. now left.
  - intros [_ [H|[k H]]]; [discriminate|destruct k; discriminate].
Qed.
