(* C58: which mutants a site has when optimisations are off. *)
From Coq Require Import List Bool.
From Verif Require Import Base Clang Gen GenExpr GenBinary GenUnary GenStmt Mutation MutTree
  GenSpec SimExample CatalogueSpec CatalogueProof.
Import ListNotations.

(* What the information file lists for a site is what the catalogue offers, each once. *)
Theorem C58_catalogue : forall c o m first id,
  optimise o = false -> plausible m ->
  match m, a_group (apply_mutation c o m first id) with
  | MutExpr e _, GroupReplaceExpr _ l => exactly (expr_offer c e) l
  | MutBinary b _ _ _, GroupReplaceBinary _ _ _ _ l => exactly (binary_offer c b) l
  | MutUnary u _ _, GroupReplaceUnary _ _ _ l => exactly (unary_offer u) l
  | MutStmt _ _, GroupRemoveStmt _ _ => True
  | _, _ => False
  end.
Proof.
  intros c o m first id O P. destruct m as [e i|b i il ir|u i is|s i]; cbn in *; try rewrite O;
    unfold exactly; try rewrite number_snd.
  - exact (expr_exactly c e P).
  - exact (binary_exactly c b P).
  - exact (unary_exactly u).
  - exact Logic.I.
Qed.
Print Assumptions C58_catalogue.

(* Every action that can be described has a site at which it is offered. *)
Definition double_add : binary :=
  binary_of Add TDouble (value TDouble false None) (value TDouble false None).
Example C58_example :
  binary_actions cpp_ctx false double_add =
    [BReplaceWithDiv; BReplaceWithMul; BReplaceWithSub; ReplaceWithLHS; ReplaceWithRHS] /\
  binary_offer cpp_ctx double_add BReplaceWithDiv /\
  ~ binary_offer cpp_ctx double_add BReplaceWithRem.
Proof.
  split; [reflexivity|]. split.
  - exists Div. split; [reflexivity|]. split; [discriminate|]. split; [reflexivity|]. intros [].
  - intros (o & E & _ & _ & D). injection E as <-. destruct (D Logic.I) as [X _]. discriminate.
Qed.

Theorem C58_no_dead_action : forall c,
  (forall a, exists e, (e_lvalue e = true -> can_mutate_lvalue e = true) /\ expr_offer c e a) /\
  (forall a, a <> BReplaceWithUnknown -> exists b, b_op b <> Comma /\ binary_offer c b a) /\
  (forall a, a <> UReplaceWithUnknown -> exists u, u_op u <> Plus /\ unary_offer u a).
Proof. exact no_dead_action. Qed.
Print Assumptions C58_no_dead_action.
