(* Property C75: the code that the query script shows for a mutant is read as the expression
   that the mutant puts in place of the original one. *)
From Coq Require Import String Ascii List NArith ZArith Bool Arith.
From Verif Require Import Base Clang Gen GenExpr GenBinary GenUnary Mutation MutTree GenSpec
  Rewriter Run RunSpec RunTest TreeSpec SourceRange QueryText Query QuerySpec QueryProof
  ShownSpec ShownProof ShownTop ShownExample.
Import ListNotations.
Local Open Scope string_scope.

(* C75: what is shown for a mutant is read as the operands, as they are read in the source
   file, with the operator of the mutant, whatever the operators in the operands are.
   Missing: operands of operators that have operators which are words (and, bitor, sizeof)
   and otherwise only words, dots and white space; for these the claim is false. *)
Theorem C75_shown_partial : forall cxx o fs original id,
  id < rs_id (run o true fs) ->
  exists n ns p g k f u m s,
    In (n, ns) (rs_info (run o true fs)) /\ In p ns /\ In g (p_groups p) /\
    nth_error (group_ids g) k = Some id /\
    In f (RunSpec.distinct [] fs) /\ Run.f_name f = n /\ f_unit f = Some u /\
    In m (post (ui_tree u)) /\ describes_group (ui_ctx u) (optimise o) m g /\
    show_info (rs_info (run o true fs)) original id = Shown s /\
    shown_well cxx (original n) g k s.
Proof. exact shown_in_run. Qed.
Print Assumptions C75_shown_partial.

(* C75: a text is read in at most one way. *)
Theorem C75_one_reading : forall cxx s e e',
  reads_as cxx s e -> reads_as cxx s e' -> e = e'.
Proof. exact reads_once. Qed.
Print Assumptions C75_one_reading.

(* In return x + y + x; the mutant 44 replaces the second +. *)
Example C75_example :
  show_info (rs_info (run default_options true [add_c_file])) (fun _ => add_c) 44
  = Shown "(x + y) / x" /\
  reads_as false "(x + y) / x" (Bin "/" (Bin "+" (Atom "x") (Atom "y")) (Atom "x")) /\
  reads_as false (text_for_source_range add_c i_sum1) (Bin "+" (Atom "x") (Atom "y")) /\
  clear false (text_for_source_range add_c i_sum1) /\
  reads_as false (text_for_source_range add_c i_x2) (Atom "x") /\
  clear false (text_for_source_range add_c i_x2).
Proof.
  split. { vm_compute. reflexivity. }
  split. { read. }
  split. { read. }
  split. { left. vm_compute. reflexivity. }
  split. { read. }
  right. intro ts. vm_compute. now intros [= <-].
Qed.

(* C75 is false when operators are words: for a bitor b, the mutant -(a bitor b) is shown as
   - a bitor b. *)
Theorem C75_operand_refuted :
  exists fs original id n ns p i l k a r e e' s,
    let info := rs_info (run default_options true fs) in
    In (n, ns) info /\ In p ns /\ In (GroupReplaceExpr i l) (p_groups p) /\
    nth_error l k = Some (id, a) /\ expr_meaning cpp_literals a = Some r /\
    reads_as true (text_for_source_range (original n) i) e /\
    show_info info original id = Shown s /\ reads_as true s e' /\
    e' <> mutated_expression r e e.
Proof. exact words_expr. Qed.
Print Assumptions C75_operand_refuted.

(* C75: for a bitor b bitor c, the mutant (a bitor b) & c is shown as a bitor b & c. *)
Theorem C75_operands_refuted :
  exists fs original id n ns p i i1 i2 o l k a r e1 e2 e' s,
    let info := rs_info (run default_options true fs) in
    In (n, ns) info /\ In p ns /\ In (GroupReplaceBinary i i1 i2 o l) (p_groups p) /\
    nth_error l k = Some (id, a) /\ bin_meaning a = Some r /\
    reads_as true (text_for_source_range (original n) i1) e1 /\
    reads_as true (text_for_source_range (original n) i2) e2 /\
    show_info info original id = Shown s /\ reads_as true s e' /\
    e' <> mutated_expression r e1 e2.
Proof. exact words_binary. Qed.
Print Assumptions C75_operands_refuted.
