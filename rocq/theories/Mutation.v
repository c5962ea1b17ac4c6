(* Applying one mutation: the Apply methods of the four mutation classes. *)
From Coq Require Import String Ascii List NArith ZArith Bool.
From Verif Require Import Base Clang Gen GenExpr GenBinary GenUnary GenStmt.
Import ListNotations.
Local Open Scope string_scope.

(* A mutation found by the visitor, with the locations stored at its construction. *)
Inductive mutation :=
| MutExpr (e : expr) (info : loc_info)
| MutBinary (b : binary) (info info_lhs info_rhs : loc_info)
| MutUnary (u : unary) (info info_sub : loc_info)
| MutStmt (s : stmt_site) (info : loc_info).

(* protobufs/dredd.proto MutationGroup *)
Inductive group :=
| GroupRemoveStmt (id : nat) (info : loc_info)
| GroupReplaceExpr (info : loc_info) (instances : list (nat * expr_action))
| GroupReplaceBinary (info info_lhs info_rhs : loc_info) (op : bop)
    (instances : list (nat * bin_action))
| GroupReplaceUnary (info info_sub : loc_info) (op : uop)
    (instances : list (nat * un_action)).

(* The ids that a group describes. *)
Definition group_ids (g : group) : list nat :=
  match g with
  | GroupRemoveStmt id _ => [id]
  | GroupReplaceExpr _ l => map fst l
  | GroupReplaceBinary _ _ _ _ l => map fst l
  | GroupReplaceUnary _ _ _ l => map fst l
  end.

Record applied := {
  a_group : group;            (* returned protobuf message *)
  a_next : nat;               (* mutation_id after the call *)
  a_edits : list edit;        (* rewriter requests, in order *)
  a_decls : list string       (* declarations inserted in dredd_declarations *)
}.

(* mutation_replace_expr.cc:641-693, mutation_replace_binary_operator.cc:523-625,
   mutation_replace_unary_operator.cc:339-470, mutation_remove_stmt.cc:43-161.
   first is first_mutation_id_in_file, id the mutation_id on entry. *)
Definition apply_mutation (c : ctx) (o : options) (m : mutation) (first id : nat)
  : applied :=
  match m with
  | MutExpr e info =>
      let ms := expr_mutants c (optimise o) e in
      {| a_group := GroupReplaceExpr info (number_from id (map fst ms));
         a_next := id + List.length ms;
         a_edits := expr_edits c o e (id - first);
         a_decls := [print_mfun (expr_function c o e)] |}
  | MutBinary b info info_lhs info_rhs =>
      let acts := binary_actions c (optimise o) b in
      {| a_group := GroupReplaceBinary info info_lhs info_rhs (b_op b)
                      (number_from id acts);
         a_next := id + List.length acts;
         a_edits := if c_logical c b then c_logical_edits c o b (id - first)
                    else binary_edits c o b (id - first);
         a_decls := if c_logical c b then map print_mfun (c_logical_functions c o b)
                    else [print_mfun (binary_function c o b)] |}
  | MutUnary u info info_sub =>
      let ms := unary_mutants (optimise o) u in
      {| a_group := GroupReplaceUnary info info_sub (u_op u)
                      (number_from id (map fst ms));
         a_next := id + List.length ms;
         a_edits := unary_edits c o u (id - first);
         a_decls := [print_mfun (unary_function c o u)] |}
  | MutStmt s info =>
      {| a_group := GroupRemoveStmt id info;
         a_next := S id;
         a_edits := stmt_edits o s (id - first);
         a_decls := [] |}
  end.
