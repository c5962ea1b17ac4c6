(* Properties of the types of generated functions: C40. *)
From Coq Require Import String List ZArith Bool.
From Verif Require Import Base Clang Gen GenExpr GenBinary GenUnary GenStmt Mutation Sites
  ClashSpec TypeSpec TypeProof.
Import ListNotations.

(* C40.  The functions that a mutation needs, and their calls, are accepted, if the original
   operator is.  Missing: operands that are elements of vectors, register variables of C,
   x-values, and increments of bool before C++17, for which it is false. *)
Theorem C40_accepted_partial : forall c cpp17 o m first id w,
  clang_node c m -> is_site (optimise o) m ->
  is_xvalue w = false -> the_object w <> VectorElement ->
  (cpp c = false -> the_object w <> RegisterVariable) ->
  (forall e, first_operand m = Some e -> consistent e w) ->
  original_accepted c cpp17 m w ->
  (cpp c = true -> ~ steps_bool m) ->
  let a := apply_mutation c o m first id in
  Forall2 (fun d k => exists f, d = print_mfun f /\ compiles c cpp17 f k /\
                                passed c (a_edits a) f (id - first))
    (a_decls a) (calls_of c o m w).
Proof. exact mutation_compiles. Qed.
Print Assumptions C40_accepted_partial.

(* Any two types of parameters have different texts, so compiles and passed speak about the
   same types. *)
Theorem C40_text_determines_type : forall c p q, param_text c p = param_text c q -> p = q.
Proof. exact param_text_determines. Qed.
Print Assumptions C40_text_determines_type.

(** Witnesses *)

Definition in_cpp : ctx :=
  {| cpp := true; prints_bool := true; char_signed := true; wchar_signed := true |}.
Definition in_c : ctx :=
  {| cpp := false; prints_bool := false; char_signed := true; wchar_signed := true |}.
Definition default_options : options := {| optimise := true; track := false |}.
Definition nowhere : loc_info :=
  {| start_line := 1; start_column := 1; end_line := 1; end_column := 2;
     snippet := "x"%string |}.

(* An l-value whose value is used if converted is true, or an r-value *)
Definition operand_node (t : ty) (lvalue converted : bool) : expr :=
  {| e_ty := t; e_lvalue := lvalue; e_volatile := false; e_const := false;
     e_bitfield := false; e_side_effects := false; e_int := None; e_float := None;
     e_boolval := None; e_cxx11_constant := false; e_binop := None;
     e_logical_operand := false;
     e_cast_parent_lvalue := if converted then Some false else None;
     e_init_list_cast := None; e_preceded_by_ident := false;
     e_range := {| r_begin := 10; r_end := 11 |} |}.
Definition assignment (t : ty) (o : bop) : binary :=
  {| b_op := o; b_ty := t; b_lhs := operand_node t true false;
     b_rhs := operand_node t false false; b_op_offset := 12;
     b_range := {| r_begin := 10; r_end := 15 |} |}.
Definition increment (t : ty) (o : uop) (lvalue : bool) : unary :=
  {| u_op := o; u_ty := t; u_lvalue := lvalue; u_volatile := false; u_const := false;
     u_side_effects := true; u_sub := operand_node t true false; u_op_offset := 8;
     u_range := {| r_begin := 8; r_end := 11 |} |}.

(* x += y with float x, y in C *)
Example C40_accepted_example :
  let m := MutBinary (assignment TFloat AddAssign) nowhere nowhere nowhere in
  clang_node in_c m /\ is_site true m /\
  (forall e, first_operand m = Some e -> consistent e ordinary) /\
  original_accepted in_c true m ordinary /\
  List.length (binary_mutants true (assignment TFloat AddAssign)) = 4 /\
  calls_of in_c default_options m ordinary =
    [([Place TFloat false false Ordinary; Value TFloat], Value TFloat, false)].
Proof.
  cbn zeta. split; [split; [discriminate|reflexivity]|]. split; [reflexivity|].
  split; [intros e E; injection E as <-; split; [discriminate | intros [_ F]; discriminate F]|].
  split; [discriminate|]. split; vm_compute; reflexivity.
Qed.

(* Before C++17, a bool can be incremented, but not decremented. *)
Theorem C40_bool_refuted : exists u,
  let m := MutUnary u nowhere nowhere in
  clang_node in_cpp m /\ is_site true m /\ consistent (u_sub u) ordinary /\
  original_accepted in_cpp false m ordinary /\
  calls_of in_cpp default_options m ordinary
    = [([expr_operand (u_sub u) ordinary], unary_operand u, false)] /\
  ~ compiles in_cpp false (unary_function in_cpp default_options u)
      ([expr_operand (u_sub u) ordinary], unary_operand u, false).
Proof.
  exists (increment TBool PreInc true). cbn zeta.
  split; [repeat split|]. split; [reflexivity|].
  split; [split; [discriminate | intros [_ F]; discriminate F]|].
  split; [discriminate|]. split; [reflexivity|].
  apply (not_compiles _ _ _ [Delayed (ByReference TBool false false)]); [reflexivity|].
  intros result _ _ H _. specialize (H (RPre PreDec)). destruct result;
    apply H; vm_compute; tauto.
Qed.
Print Assumptions C40_bool_refuted.

(* In C, every use of a register variable has its address taken. *)
Theorem C40_register_refuted : exists e w,
  let m := MutExpr e nowhere in
  clang_node in_c m /\ consistent e w /\ is_xvalue w = false /\
  the_object w = RegisterVariable /\
  ~ compiles in_c true (expr_function in_c default_options e)
      ([expr_operand e w], expr_operand e w, is_converted e).
Proof.
  exists (operand_node TInt true true),
    {| the_object := RegisterVariable; is_xvalue := false |}. cbn zeta.
  split; [split; [discriminate | reflexivity]|].
  split; [split; [discriminate | intros [_ F]; discriminate F]|].
  split; [reflexivity|]. split; [reflexivity|].
  apply (not_compiles _ _ _ [Direct (ByPointer TInt false false)]); [reflexivity|].
  intros result _ A _ _. inversion A as [|p x ps xs H _]. subst.
  destruct H as (_ & _ & _ & _ & _ & H). apply H; reflexivity.
Qed.
Print Assumptions C40_register_refuted.

(* No reference can be bound to an element of a vector. *)
Theorem C40_vector_element_refuted : exists b w,
  let m := MutBinary b nowhere nowhere nowhere in
  clang_node in_cpp m /\ is_site true m /\ consistent (b_lhs b) w /\
  is_xvalue w = false /\ the_object w = VectorElement /\
  original_accepted in_cpp true m w /\
  ~ compiles in_cpp true (binary_function in_cpp default_options b)
      ([expr_operand (b_lhs b) w; expr_operand (b_rhs b) ordinary], binary_operand in_cpp b,
       false).
Proof.
  exists (assignment TFloat Assign), {| the_object := VectorElement; is_xvalue := false |}.
  cbn zeta. split; [split; [discriminate | reflexivity]|]. split; [reflexivity|].
  split; [split; [discriminate | intros [_ F]; discriminate F]|].
  split; [reflexivity|]. split; [reflexivity|]. split; [discriminate|].
  apply (not_compiles _ _ _ [Direct (ByReference TFloat false false); Direct (ByValue TFloat)]);
    [reflexivity|].
  intros result _ A _ _. inversion A as [|p x ps xs H _]. subst.
  destruct H as (_ & _ & _ & _ & _ & H). apply H; reflexivity.
Qed.
Print Assumptions C40_vector_element_refuted.

(* An x-value, for example std::move(x), is replaced by a new object, so a reference bound to
   it no longer refers to x. *)
Theorem C40_xvalue_refuted : exists e w,
  let m := MutExpr e nowhere in
  clang_node in_cpp m /\ consistent e w /\ is_xvalue w = true /\
  ~ compiles in_cpp true (expr_function in_cpp default_options e)
      ([expr_operand e w], expr_operand e w, is_converted e).
Proof.
  exists (operand_node TInt false false), {| the_object := Ordinary; is_xvalue := true |}.
  cbn zeta. split; [split; discriminate|].
  split; [split; [discriminate | intros [F _]; discriminate F]|]. split; [reflexivity|].
  apply (not_compiles _ _ _ [Direct (ByValue TInt)]); [reflexivity|].
  intros result _ _ _ H. exact H.
Qed.
Print Assumptions C40_xvalue_refuted.

(* The GNU marker __extension__ is taken for an operator.  A debug build stops at an
   assertion; otherwise the function contains an undeclared identifier. *)
Theorem C40_extension_refuted : exists u,
  unary_site true true u = true /\ u_op u = UExtension /\ e_ty (u_sub u) = TInt /\
  print_rhs (unary_function in_c default_options u)
    (mf_orig (unary_function in_c default_options u)) = "__extension__arg"%string.
Proof.
  exists {| u_op := UExtension; u_ty := TInt; u_lvalue := false; u_volatile := false;
            u_const := false; u_side_effects := false; u_sub := operand_node TInt false false;
            u_op_offset := 8; u_range := {| r_begin := 8; r_end := 11 |} |}.
  repeat split.
Qed.
Print Assumptions C40_extension_refuted.
