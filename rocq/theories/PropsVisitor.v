(* Properties of where mutations are made: C34, C35, C42, C46, C49, C50, C51. *)
From Coq Require Import List Bool Arith.
From Verif Require Import Base Clang Gen GenStmt Mutation MutTree TreeSpec Visitor VisitorSpec
  VisitorProof VisitorExample.
Import ListNotations.

(* C34.  Apart from the removal of the whole statement, nothing at or beneath code that must
   stay constant is mutated. *)
Theorem C34_constant_code_untouched : forall is_cpp opt root pos m,
  In (pos, m) (post (visited_tree is_cpp opt root)) ->
  forall p q up n, pos = p ++ q -> walk root p up n ->
  constant_context is_cpp (node_kind n) up ->
  q = [] /\ is_removal m.
Proof. exact constant_code_not_mutated. Qed.
Print Assumptions C34_constant_code_untouched.

Example C34_untouched_example :
  exists pos m, In (pos, m) (post (visited_tree true true constant_program)) /\
  ~ is_removal m /\ exists up n, walk constant_program pos up n.
Proof.
  destruct (has_in replaces [0; 0; 2; 0] (post (visited_tree true true constant_program)))
    as (m & Hin & Hm); [vm_compute; reflexivity|].
  exists [0; 0; 2; 0], m. split; [exact Hin|]. split; [destruct m; try discriminate; intros []|].
  do 2 eexists. repeat (eapply path_child; [reflexivity|]). apply path_here.
Qed.

Theorem C34_expressions_only_in_functions : forall is_cpp opt root pos m,
  In (pos, m) (post (visited_tree is_cpp opt root)) -> ~ is_removal m ->
  forall up n, walk root pos up n ->
  inside_function up /\ n_in_main (node_info n) = true /\
  exists e x, node_kind n = KExpr e x /\ x_supported x = true.
Proof. exact expressions_in_functions. Qed.
Print Assumptions C34_expressions_only_in_functions.

(* The constexpr variable is a specialization of a variable template. *)
Theorem C34_specialization_refuted : exists root pos m p q up n v,
  In (pos, m) (post (visited_tree true true root)) /\
  pos = p ++ q /\ q <> [] /\ walk root p up n /\
  node_kind n = KDecl (DVar v) /\ v_constexpr v = true.
Proof.
  destruct (has_in removes [0; 0; 0; 0; 0]
              (post (visited_tree true true specialization_program)))
    as (m & Hin & _); [vm_compute; reflexivity|].
  exists specialization_program, [0; 0; 0; 0; 0], m, [0], [0; 0; 0; 0]. do 3 eexists.
  split; [exact Hin|]. split; [reflexivity|]. split; [discriminate|].
  split; [eapply path_child; [reflexivity|]; apply path_here|].
  split; reflexivity.
Qed.
Print Assumptions C34_specialization_refuted.

(* C35 *)
Theorem C35_exactly_the_removable_statements : forall is_cpp opt root pos s l,
  In (pos, MutStmt s l) (post (visited_tree is_cpp opt root)) <->
  exists up n, open_path is_cpp opt root [] pos up n /\ in_block up /\
    removable opt (node_kind n) (node_info n) /\ ~ discarded opt (node_kind n) up /\
    s = n_site (node_info n) /\ l = n_loc (node_info n).
Proof. exact removal_sites. Qed.
Print Assumptions C35_exactly_the_removable_statements.

Theorem C35_removed_once : forall is_cpp opt root l1 l2 l3 pos m1 m2,
  post (visited_tree is_cpp opt root) = l1 ++ (pos, m1) :: l2 ++ (pos, m2) :: l3 ->
  is_removal m1 -> is_removal m2 -> False.
Proof. exact removed_once. Qed.
Print Assumptions C35_removed_once.

(* The statement after the case label is removed, the label is not. *)
Example C35_example :
  (exists s l, In ([0; 0; 2; 1; 0; 1], MutStmt s l)
                 (post (visited_tree true true constant_program))) /\
  (forall m, ~ In ([0; 0; 2; 1; 0], m) (post (visited_tree true true constant_program))).
Proof.
  split.
  - destruct (has_in removes [0; 0; 2; 1; 0; 1]
                (post (visited_tree true true constant_program)))
      as (m & Hin & Hm); [vm_compute; reflexivity|].
    destruct m; try discriminate. eauto.
  - apply has_not. vm_compute. reflexivity.
Qed.

(* C42 *)
Theorem C42_rule : forall n, may_depend_on_temporary n = true <-> refers_to_temporary n.
Proof. exact may_depend_refers. Qed.
Print Assumptions C42_rule.

Theorem C42_not_mutated : forall is_cpp opt root pos m,
  In (pos, m) (post (visited_tree is_cpp opt root)) -> ~ is_removal m ->
  forall up n, walk root pos up n -> ~ refers_to_temporary n.
Proof. exact temporaries_not_mutated. Qed.
Print Assumptions C42_not_mutated.

Example C42_example :
  refers_to_temporary index_call /\
  (exists m, In ([0; 0; 0; 0], m) (post (visited_tree true true index_program)) /\
             ~ is_removal m) /\
  (forall m, ~ In ([0; 0; 0; 0; 0], m) (post (visited_tree true true index_program))).
Proof.
  split; [|split].
  - eapply (refers_call _ _ _ _ _ RArg);
      [left; eexists; reflexivity | left; reflexivity | left; reflexivity
      | left; reflexivity | apply refers_temporary].
  - destruct (has_in replaces [0; 0; 0; 0] (post (visited_tree true true index_program)))
      as (m & Hin & Hm); [vm_compute; reflexivity|].
    exists m. split; [exact Hin|]. destruct m; try discriminate; intros [].
  - apply has_not. vm_compute. reflexivity.
Qed.

(* C46.  What is removed is never a declaration, a null statement or a label of any kind, so
   names declared in a block and jumps into it are left as they were.  Missing: statements
   whose value or position matters, for which it is false. *)
Theorem C46_labels_and_declarations_stay_partial : forall is_cpp opt root pos s l,
  In (pos, MutStmt s l) (post (visited_tree is_cpp opt root)) ->
  forall up n, walk root pos up n -> removable opt (node_kind n) (node_info n) /\ in_block up.
Proof. exact removed_statement. Qed.
Print Assumptions C46_labels_and_declarations_stay_partial.

(* The value of a GNU statement expression is lost. *)
Theorem C46_value_refuted : exists root pos s l,
  In (pos, MutStmt s l) (post (visited_tree false true root)) /\ value_used root pos.
Proof.
  destruct (has_in removes [0; 0; 0; 0; 0; 0]
              (post (visited_tree false true statement_expression_program)))
    as (m & Hin & Hm); [vm_compute; reflexivity|]. destruct m; try discriminate.
  exists statement_expression_program, [0; 0; 0; 0; 0; 0]. do 2 eexists. split.
  - exact Hin.
  - exists [0; 0; 0; 0; 0], 0. do 7 eexists. split; [reflexivity|]. split.
    + repeat (eapply path_child; [reflexivity|]). apply path_here.
    + split; [reflexivity|]. split; [reflexivity|]. reflexivity.
Qed.
Print Assumptions C46_value_refuted.

(* A [[fallthrough]] statement is wrapped, so it is no longer directly before the label. *)
Theorem C46_fallthrough_refuted : exists root pos s l up n,
  In (pos, MutStmt s l) (post (visited_tree true true root)) /\ before_label root pos /\
  walk root pos up n /\ node_kind n = KStmt SFallthrough.
Proof.
  destruct (has_in removes [0; 0; 0; 1; 1]
              (post (visited_tree true true fallthrough_program)))
    as (m & Hin & Hm); [vm_compute; reflexivity|]. destruct m; try discriminate.
  exists fallthrough_program, [0; 0; 0; 1; 1]. do 4 eexists. split; [|split; [|split]].
  - exact Hin.
  - exists [0; 0; 0; 1], 1. do 5 eexists. split; [reflexivity|]. split.
    + repeat (eapply path_child; [reflexivity|]). apply path_here.
    + split; [reflexivity|]. right. reflexivity.
  - repeat (eapply path_child; [reflexivity|]). apply path_here.
  - reflexivity.
Qed.
Print Assumptions C46_fallthrough_refuted.

(* C49 *)
(* An argument that the compiler requires to be constant, of a built-in function other than
   __builtin_frame_address *)
Theorem C49_builtin_argument_refuted : exists root pos m f up n,
  In (pos, m) (post (visited_tree false true root)) /\ ~ is_removal m /\
  walk root pos (f :: up) n /\ fr_role f = RConstantArg /\
  fixed_context (node_kind n) (f :: up).
Proof.
  destruct (has_in replaces [0; 0; 0; 0; 0]
              (post (visited_tree false true builtin_program)))
    as (m & Hin & Hm); [vm_compute; reflexivity|].
  exists builtin_program, [0; 0; 0; 0; 0], m. do 3 eexists.
  split; [|split; [|split; [|split]]].
  - exact Hin.
  - destruct m; try discriminate; intros [].
  - repeat (eapply path_child; [reflexivity|]). apply path_here.
  - reflexivity.
  - apply fixed_constant_arg. reflexivity.
Qed.
Print Assumptions C49_builtin_argument_refuted.

(* The body of a constexpr lambda *)
Theorem C49_constexpr_lambda_refuted : exists root pos m p q up n x,
  In (pos, m) (post (visited_tree true true root)) /\ ~ is_removal m /\
  pos = p ++ q /\ walk root p up n /\ node_kind n = KExpr (ELambda true) x /\
  fixed_context (node_kind n) up.
Proof.
  destruct (has_in replaces [0; 0; 0; 0; 0; 0; 0; 0]
              (post (visited_tree true true constexpr_lambda_program)))
    as (m & Hin & Hm); [vm_compute; reflexivity|].
  exists constexpr_lambda_program, [0; 0; 0; 0; 0; 0; 0; 0], m, [0; 0; 0; 0; 0], [0; 0; 0].
  do 3 eexists.
  split; [|split; [|split; [|split; [|split]]]].
  - exact Hin.
  - destruct m; try discriminate; intros [].
  - reflexivity.
  - repeat (eapply path_child; [reflexivity|]). apply path_here.
  - reflexivity.
  - apply fixed_lambda.
Qed.
Print Assumptions C49_constexpr_lambda_refuted.

(* The operand of a decltype in a declaration *)
Theorem C49_unevaluated_refuted : exists root pos m f up n,
  In (pos, m) (post (visited_tree true true root)) /\ ~ is_removal m /\
  walk root pos (f :: up) n /\ fr_role f = RUnevaluated /\
  fixed_context (node_kind n) (f :: up).
Proof.
  destruct (has_in replaces [0; 0; 0; 0; 0; 0]
              (post (visited_tree true true decltype_program)))
    as (m & Hin & Hm); [vm_compute; reflexivity|].
  exists decltype_program, [0; 0; 0; 0; 0; 0], m. do 3 eexists.
  split; [|split; [|split; [|split]]].
  - exact Hin.
  - destruct m; try discriminate; intros [].
  - repeat (eapply path_child; [reflexivity|]). apply path_here.
  - reflexivity.
  - apply fixed_unevaluated. reflexivity.
Qed.
Print Assumptions C49_unevaluated_refuted.

(* C50.  A call of a member function on a temporary *)
Theorem C50_temporaries_refuted : exists root pos e l up n,
  In (pos, MutExpr e l) (post (visited_tree true true root)) /\ e_lvalue e = true /\
  walk root pos up n /\ borrows_from_temporary n.
Proof.
  destruct (has_in replaces_lvalue [0; 0; 0; 0; 0]
              (post (visited_tree true true temporary_program)))
    as (m & Hin & Hm); [vm_compute; reflexivity|]. destruct m; try discriminate.
  exists temporary_program, [0; 0; 0; 0; 0]. do 4 eexists. split; [|split; [|split]].
  - exact Hin.
  - exact Hm.
  - repeat (eapply path_child; [reflexivity|]). apply path_here.
  - eapply borrows_object; [left; reflexivity | left; reflexivity | left; reflexivity |].
    apply borrows_temporary.
Qed.
Print Assumptions C50_temporaries_refuted.

(* C51.  Exactly the static assertions that are in reach are replaced … *)
Theorem C51_static_assertions_recorded_partial : forall is_cpp opt root pos,
  In pos (vs_asserts (visit is_cpp opt root)) <->
  exists up n, open_path is_cpp opt root [] pos up n /\ not_in_label up /\
               static_assertion n.
Proof. exact assertions_recorded. Qed.
Print Assumptions C51_static_assertions_recorded_partial.

(* … and, in C++, the sizes of exactly the variables and fields in reach that are declared as
   arrays of constant size.  Missing: other places that need constants, for which it is
   false. *)
Theorem C51_arrays_recorded_partial : forall opt root pos,
  In pos (vs_arrays (visit true opt root)) <->
  exists up n, open_path true opt root [] pos up n /\ not_in_label up /\
               constant_sized_array n.
Proof. exact arrays_recorded. Qed.
Print Assumptions C51_arrays_recorded_partial.

Example C51_example :
  vs_asserts (visit true true recorded_program) = [[0; 0; 0; 0]] /\
  vs_arrays (visit true true recorded_program) = [[0; 0; 1; 0]].
Proof. split; vm_compute; reflexivity. Qed.

(* A variable whose initialiser is mutated is used in a case label, which is not replaced. *)
Theorem C51_case_label_refuted : exists root v dpos dup dn m cpos f up c,
  walk root dpos dup dn /\ node_kind dn = KDecl (DVar v) /\
  In (dpos ++ [0], m) (post (visited_tree true true root)) /\ ~ is_removal m /\
  walk root cpos (f :: up) c /\ fr_kind f = KStmt SCase /\ fr_role f = RCaseValue /\
  uses (v_location v) c /\
  vs_asserts (visit true true root) = [] /\ vs_arrays (visit true true root) = [] /\
  vs_args (visit true true root) = [].
Proof.
  destruct (has_in replaces [0; 0; 0; 0; 0]
              (post (visited_tree true true case_label_program)))
    as (m & Hin & Hm); [vm_compute; reflexivity|].
  exists case_label_program, (variable 2), [0; 0; 0; 0]. do 2 eexists.
  exists m, [0; 0; 1; 1; 0; 0]. do 3 eexists.
  split; [repeat (eapply path_child; [reflexivity|]); apply path_here|].
  split; [reflexivity|]. split; [exact Hin|].
  split; [destruct m; try discriminate; intros []|].
  split; [repeat (eapply path_child; [reflexivity|]); apply path_here|].
  split; [reflexivity|]. split; [reflexivity|]. split.
  - repeat (eapply uses_below; [left; reflexivity|]). apply uses_here.
  - split; [|split]; vm_compute; reflexivity.
Qed.
Print Assumptions C51_case_label_refuted.

(* The same for the size of an array type in a typedef *)
Theorem C51_typedef_refuted : exists root v dpos dup dn m cpos up c,
  walk root dpos dup dn /\ node_kind dn = KDecl (DVar v) /\
  In (dpos ++ [0], m) (post (visited_tree true true root)) /\ ~ is_removal m /\
  walk root cpos up c /\ node_kind c = KLoc LConstantArray /\
  uses (v_location v) c /\
  vs_asserts (visit true true root) = [] /\ vs_arrays (visit true true root) = [] /\
  vs_args (visit true true root) = [].
Proof.
  destruct (has_in replaces [0; 0; 0; 0; 0]
              (post (visited_tree true true typedef_program)))
    as (m & Hin & Hm); [vm_compute; reflexivity|].
  exists typedef_program, (variable 2), [0; 0; 0; 0]. do 2 eexists.
  exists m, [0; 0; 1; 0; 0]. do 2 eexists.
  split; [repeat (eapply path_child; [reflexivity|]); apply path_here|].
  split; [reflexivity|]. split; [exact Hin|].
  split; [destruct m; try discriminate; intros []|].
  split; [repeat (eapply path_child; [reflexivity|]); apply path_here|].
  split; [reflexivity|]. split.
  - repeat (eapply uses_below; [left; reflexivity|]). apply uses_here.
  - split; [|split]; vm_compute; reflexivity.
Qed.
Print Assumptions C51_typedef_refuted.
