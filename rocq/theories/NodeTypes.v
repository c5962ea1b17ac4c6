(* The option --show-ast-node-types (options.h:41-43, main.cc:80-85): the class and the address
   of each mutated node are written as a comment.  The definitions follow those of GenExpr.v,
   GenBinary.v, GenUnary.v, GenStmt.v, Mutation.v and Run.v, with the comment added. *)
From Coq Require Import String Ascii List NArith ZArith Bool.
From Verif Require Import Base Clang Gen GenExpr GenBinary GenUnary GenStmt PreludeText Mutation
  MutTree Rewriter Run.
Import ListNotations.
Local Open Scope string_scope.

(* getStmtClassName() of a node and its address as streamed by C++ *)
Record node_type := { nt_class : string; nt_address : string }.

(* mutation_replace_expr.cc:553-558 (the same text in the other three classes) *)
Definition type_comment (t : node_type) : string :=
  "/*" ++ nt_class t ++ " " ++ nt_address t ++ "*/".

(* mutation_replace_expr.cc:538-639 *)
Definition expr_prefix_shown (c : ctx) (o : options) (t : node_type) (e : expr) : string :=
  (if e_preceded_by_ident e then " " else "")
  ++ (match e_init_list_cast e with
      | Some t => "static_cast<" ++ ty_name c t ++ ">("
      | None => ""
      end)
  ++ (expr_function_name c (optimise o) e ++ type_comment t ++ "(")
  ++ (if cpp c && e_side_effects e
      then "[&]() -> " ++ input_type c e ++ " { return "
           ++ (if e_cxx11_constant e then "" else "static_cast<" ++ input_type c e ++ ">(")
      else "")
  ++ (if negb (cpp c) && e_lvalue e && ends_with_star (input_type c e) then "&(" else "")
  ++ (match e_binop e with Some Comma => "(" | _ => "" end).

Definition expr_edits_shown (c : ctx) (o : options) (t : node_type) (e : expr) (local_id : nat)
  : list edit :=
  [InsertBefore (r_begin (e_range e)) (expr_prefix_shown c o t e);
   InsertAfterToken (r_end (e_range e)) (expr_suffix c e local_id)].

(* mutation_replace_binary_operator.cc:627-712 *)
Definition binary_edits_shown (c : ctx) (o : options) (t : node_type) (b : binary)
  (local_id : nat) : list edit :=
  let lt := binary_lhs_type c b in
  let rt := binary_rhs_type c b in
  let lambda t := "[&]() -> " ++ t ++ " { return static_cast<" ++ t ++ ">(" in
  let lhs_prefix :=
    (binary_function_name c (optimise o) b ++ type_comment t ++ "(")
    ++ (if lhs_delayed c b then lambda lt
        else if negb (cpp c) && is_assign (b_op b) then "&(" else "") in
  let lhs_suffix :=
    if lhs_delayed c b then "); }"
    else if negb (cpp c) && is_assign (b_op b) then ")" else "" in
  let rhs_prefix := if rhs_delayed c b then lambda rt else "" in
  let rhs_suffix :=
    (if rhs_delayed c b then "); }" else "") ++ ", " ++ string_of_nat local_id ++ ")" in
  [ReplaceText (b_op_offset b) (String.length (bop_str (b_op b))) ",";
   InsertBefore (r_begin (e_range (b_lhs b))) lhs_prefix;
   InsertAfterToken (r_end (e_range (b_lhs b))) lhs_suffix;
   InsertBefore (r_begin (e_range (b_rhs b))) rhs_prefix;
   InsertAfterToken (r_end (e_range (b_rhs b))) rhs_suffix].

(* mutation_replace_unary_operator.cc:392-458 *)
Definition unary_edits_shown (c : ctx) (o : options) (nt : node_type) (u : unary)
  (local_id : nat) : list edit :=
  let t := unary_input_type c u in
  let cast := negb (e_cxx11_constant (u_sub u)) in
  let prefix :=
    (unary_function_name c (optimise o) u ++ type_comment nt ++ "(")
    ++ (if unary_delayed c u
        then "[&]() -> " ++ t ++ " { return "
             ++ (if cast then "static_cast<" ++ t ++ ">(" else "")
        else "")
    ++ (if negb (cpp c) && is_incdec (u_op u) then "&(" else "") in
  let suffix :=
    (if unary_delayed c u then (if cast then ")" else "") ++ "; }" else "")
    ++ (if negb (cpp c) && is_incdec (u_op u) then ")" else "")
    ++ ", " ++ string_of_nat local_id ++ ")" in
  [ReplaceText (u_op_offset u) (String.length (uop_str (u_op u))) "";
   InsertBefore (r_begin (u_range u)) prefix;
   InsertAfterToken (r_end (u_range u)) suffix].

(* mutation_remove_stmt.cc:103-134 *)
Definition stmt_open_shown (o : options) (t : node_type) (local_id : nat) : string :=
  if track o
  then ("__dredd_record_covered_mutants" ++ type_comment t ++ "(")
       ++ string_of_nat local_id ++ ", 1); "
  else "if (!" ++ ("__dredd_enabled_mutation" ++ type_comment t ++ "(")
       ++ string_of_nat local_id ++ ")) { ".

(* mutation_remove_stmt.cc:103-161 *)
Definition stmt_edits_shown (o : options) (t : node_type) (s : stmt_site) (local_id : nat)
  : list edit :=
  InsertBefore (r_begin (s_range s)) (stmt_open_shown o t local_id)
  :: if track o then [] else [InsertAfterToken (r_end (s_range s)) (stmt_close s)].

(* A mutation and the node it is for *)
Definition typed_mutation : Type := mutation * node_type.

(* The Apply methods of the four mutation classes, see apply_mutation.  HandleCLogicalOperator
   (mutation_replace_binary_operator.cc:571-585, 714-897) is not told of the option. *)
Definition apply_mutation_shown (c : ctx) (o : options) (mt : typed_mutation) (first id : nat)
  : applied :=
  let (m, t) := mt in
  let a := apply_mutation c o m first id in
  {| a_group := a_group a;
     a_next := a_next a;
     a_edits := match m with
                | MutExpr e _ => expr_edits_shown c o t e (id - first)
                | MutBinary b _ _ _ =>
                    if c_logical c b then c_logical_edits c o b (id - first)
                    else binary_edits_shown c o t b (id - first)
                | MutUnary u _ _ => unary_edits_shown c o t u (id - first)
                | MutStmt s _ => stmt_edits_shown o t s (id - first)
                end;
     a_decls := a_decls a |}.

(* mutate_ast_consumer.cc:496-505 *)
Definition apply_one_shown (c : ctx) (o : options) (build_tree : bool) (first idx : nat)
  (st : astate) (m : typed_mutation) : astate :=
  let a := apply_mutation_shown c o m first (st_id st) in
  {| st_nodes :=
       if build_tree && Nat.ltb (st_id st) (a_next a)
       then update_nth idx (fun p => {| p_groups := p_groups p ++ [a_group a];
                                        p_children := p_children p |}) (st_nodes st)
       else st_nodes st;
     st_id := a_next a;
     st_edits := st_edits st ++ a_edits a;
     st_decls := st_decls st ++ a_decls a |}%list.

(* mutate_ast_consumer.cc:475-506 *)
Fixpoint apply_tree_shown (c : ctx) (o : options) (build_tree : bool) (first idx : nat)
  (t : tree typed_mutation) (st : astate) : astate :=
  match t with
  | Node ms ks =>
      let st := (fix go (ks : list (tree typed_mutation)) (st : astate) :=
                   match ks with
                   | [] => st
                   | k :: ks =>
                       go ks (apply_tree_shown c o build_tree first (List.length (st_nodes st)) k
                                (add_child idx st))
                   end) ks st in
      fold_left (apply_one_shown c o build_tree first idx) ms st
  end.

(* Run.v unit_info and source_file with typed mutations *)
Record typed_unit := {
  tu_ctx : ctx;
  tu_tree : tree typed_mutation;
  tu_rewrites : list edit;
  tu_prelude_offset : nat
}.
Record typed_file := {
  tf_name : string;
  tf_text : string;
  tf_unit : option typed_unit
}.

(* mutate_ast_consumer.cc:95-175 *)
Definition handle_unit_shown (o : options) (build_tree : bool) (text : string) (u : typed_unit)
  (id : nat) : handled :=
  let st := apply_tree_shown (tu_ctx u) o build_tree id 0 (tidy (tu_tree u))
              (initial_astate id) in
  if Nat.eqb id (st_id st) then
    {| h_next := st_id st; h_output := None; h_info := None |}
  else
    {| h_next := st_id st;
       h_output := Some (rewrite text
         (st_edits st ++ tu_rewrites u
          ++ prelude_edits (tu_ctx u) o id (st_id st - id) (tu_prelude_offset u)
               (st_decls st))%list);
       h_info := if build_tree then Some (st_nodes st) else None |}.

(* new_mutate_frontend_action_factory.cc:48-68 and mutate_ast_consumer.cc:76-175 *)
Definition process_file_shown (o : options) (build_tree : bool) (st : rstate) (f : typed_file)
  : rstate :=
  if string_mem (tf_name f) (rs_processed st) then st
  else
    let processed := (tf_name f :: rs_processed st)%list in
    match tf_unit f with
    | None => {| rs_id := rs_id st; rs_processed := processed; rs_info := rs_info st;
                 rs_written := rs_written st |}
    | Some u =>
        let h := handle_unit_shown o build_tree (tf_text f) u (rs_id st) in
        {| rs_id := h_next h;
           rs_processed := processed;
           rs_info := match h_info h with
                      | Some ns => rs_info st ++ [(tf_name f, ns)]
                      | None => rs_info st
                      end;
           rs_written := match h_output h with
                         | Some t => rs_written st ++ [(tf_name f, t)]
                         | None => rs_written st
                         end |}%list
    end.

(* tool.run in main.cc:152 *)
Definition run_shown (o : options) (build_tree : bool) (fs : list typed_file) : rstate :=
  fold_left (process_file_shown o build_tree) fs initial_rstate.
