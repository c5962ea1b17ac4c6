(* C60: the option --show-ast-node-types. *)
From Coq Require Import String Ascii List Bool Arith Permutation Lia.
From Verif Require Import VisitorExample Base Clang Gen GenExpr GenBinary GenUnary GenStmt
  Mutation MutTree TreeSpec Rewriter RewriterProof Run SimExample GrammarExample
  NodeTypes NodeTypesSpec NodeTypesProof.
Import ListNotations.
Local Open Scope string_scope.

(* A run with the option has the same ids, the same information file and rewrites the same files;
   the files differ by comments after the names of called functions. *)
Theorem C60_only_comments : forall o build_tree fs,
  (forall f u mt, In f fs -> tf_unit f = Some u -> In mt (post (tu_tree u)) ->
   well_named (snd mt)) ->
  let st := run o build_tree (map plain_file fs) in
  let st' := run_shown o build_tree fs in
  rs_id st' = rs_id st /\ rs_info st' = rs_info st /\
  Forall2 (fun w w' => fst w' = fst w /\ exists ws, commented ws (snd w) (snd w'))
    (rs_written st) (rs_written st').
Proof. exact run_only_comments. Qed.
Print Assumptions C60_only_comments.

(* Every mutated node is described by one comment, and there are no others; except that && and ||
   of C are not described. *)
Theorem C60_described_partial : forall o build_tree text u id s,
  (forall mt, In mt (post (tu_tree u)) -> well_named (snd mt)) ->
  (forall mt, In mt (post (tu_tree u)) -> place (fst mt) <= String.length text) ->
  h_output (handle_unit o build_tree text (plain_unit u) id) = Some s ->
  exists s' ws, h_output (handle_unit_shown o build_tree text u id) = Some s' /\
    commented ws s s' /\
    Permutation ws (map (fun mt => says (snd mt)) (filter (described (tu_ctx u)) (post (tu_tree u)))).
Proof. exact unit_described. Qed.
Print Assumptions C60_described_partial.

(* So in C++ every mutated node is described. *)
Theorem C60_cpp : forall o build_tree text u id s,
  cpp (tu_ctx u) = true ->
  (forall mt, In mt (post (tu_tree u)) -> well_named (snd mt)) ->
  (forall mt, In mt (post (tu_tree u)) -> place (fst mt) <= String.length text) ->
  h_output (handle_unit o build_tree text (plain_unit u) id) = Some s ->
  exists s' ws, h_output (handle_unit_shown o build_tree text u id) = Some s' /\
    commented ws s s' /\
    Permutation ws (map (fun mt => says (snd mt)) (post (tu_tree u))).
Proof. exact unit_described_cpp. Qed.
Print Assumptions C60_cpp.

(* return x + y; *)
Definition a_type (s : string) : node_type := {| nt_class := s; nt_address := "0x55d0" |}.
Definition an_operator (op : bop) (len : nat) : binary :=
  {| b_op := op; b_ty := TInt; b_lhs := fact TInt false false None 7 8;
     b_rhs := fact TInt false false None (10 + len) (11 + len); b_op_offset := 9;
     b_range := from_to 7 (11 + len) |}.
Definition a_unit (c : ctx) (op : bop) (len : nat) : typed_unit :=
  {| tu_ctx := c;
     tu_tree := Node [] [Node [(MutBinary (an_operator op len) no_loc no_loc no_loc,
                                a_type "BinaryOperator");
                               (MutStmt {| s_range := from_to 0 (12 + len); s_ext_comment := false;
                                           s_ext_semi := true; s_next_hash := false |} no_loc,
                                a_type "ReturnStmt")] []];
     tu_rewrites := []; tu_prelude_offset := 0 |}.

Definition edited (st : astate) (text : string) : string := rewrite text (st_edits st).
Example C60_example :
  edited (apply_tree_shown c_ctx optimised true 0 0 (tu_tree (a_unit c_ctx Add 1)) (initial_astate 0))
    "return x + y;" =
  "if (!__dredd_enabled_mutation/*ReturnStmt 0x55d0*/(6)) { return "
  ++ "__dredd_replace_binary_operator_Add_arg1_int_arg2_int/*BinaryOperator 0x55d0*/(x , y, 0); }"
  /\ (forall mt, In mt (post (tu_tree (a_unit c_ctx Add 1))) ->
      well_named (snd mt) /\ place (fst mt) <= String.length "return x + y;").
Proof.
  split; [vm_compute; reflexivity|]. intros mt [<-|[<-|[]]]; (split; [|cbn; lia]).
  all: intros a [I|I]; cbn in I;
    repeat (destruct I as [<-|I]; [reflexivity|]); contradiction.
Qed.

(* return x && y; in C: the statement is described, the operator is not. *)
Theorem C60_logical_refuted : exists u text,
  List.length (post (tu_tree u)) = 2 /\
  edited (apply_tree_shown (tu_ctx u) optimised true 0 0 (tu_tree u) (initial_astate 0)) text =
  "if (!__dredd_enabled_mutation/*ReturnStmt 0x55d0*/(3)) { return "
  ++ "__dredd_replace_binary_operator_LAnd_arg1_int_arg2_int_outer("
  ++ "__dredd_replace_binary_operator_LAnd_arg1_int_arg2_int_lhs(x, 0) && "
  ++ "__dredd_replace_binary_operator_LAnd_arg1_int_arg2_int_rhs(y, 0), 0); }".
Proof. exists (a_unit c_ctx LAnd 2), "return x && y;". split; vm_compute; reflexivity. Qed.
Print Assumptions C60_logical_refuted.
