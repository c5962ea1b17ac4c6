(* The text of the mutator functions, read as C or C++: C68. *)
From Coq Require Import String List ZArith NArith Bool.
From Verif Require Import Base Clang Gen GenExpr GenBinary GenUnary GenStmt Mutation Sites GenSpec
  ClashSpec TypeSpec CText FunText FunSpec FunTop FunAccepted.
Import ListNotations.
Local Open Scope string_scope.

(* C68.  The declaration that a mutation needs is the definition of one function; the edits
   call it; it returns what the first enabled mutant of the group means, or the original
   expression, or records coverage of the group. *)
Theorem C68_text_does_what_is_described : forall c o m first id,
  clang_node c m -> in_three c m = false -> (forall s i, m <> MutStmt s i) ->
  let a := apply_mutation c o m first id in
  exists d, read_functions (concat_strings (a_decls a)) = Some [d] /\
    calls (a_edits a) (fd_name d) (id - first) /\
    does c (track o) (a_group a) (id - first) d.
Proof. exact C68_text_lemma. Qed.
Print Assumptions C68_text_does_what_is_described.

(* && and || in C: three definitions, around the operands and the whole, that together give
   the truth value that the enabled mutant describes; or one that records coverage. *)
Theorem C68_text_of_three : forall c o b i i1 i2 first id,
  clang_binary c b ->
  let m := MutBinary b i i1 i2 in
  in_three c m = true ->
  let a := apply_mutation c o m first id in
  if track o
  then exists d, read_functions (concat_strings (a_decls a)) = Some [d] /\
    surrounds (a_edits a) (b_range b) (fd_name d) (id - first) /\
    forall some enabled,
      behaves some enabled (id - first) (fd_body d) =
      Some ([(id - first, List.length (meanings c (a_group a)))], Some (first_arg d))
  else exists dl dr dw,
    read_functions (concat_strings (a_decls a)) = Some [dl; dr; dw] /\
    surrounds (a_edits a) (e_range (b_lhs b)) (fd_name dl) (id - first) /\
    surrounds (a_edits a) (e_range (b_rhs b)) (fd_name dr) (id - first) /\
    surrounds (a_edits a) (b_range b) (fd_name dw) (id - first) /\
    do_together c (a_group a) (id - first) dl dr dw.
Proof. exact C68_three_lemma. Qed.
Print Assumptions C68_text_of_three.

(* The declarations of a file, in whatever order, are read as their definitions one after the
   other. *)
Theorem C68_texts_together : forall c o texts,
  (forall s, In s texts -> exists m first id,
     clang_node c m /\ In s (a_decls (apply_mutation c o m first id))) ->
  exists ds, read_functions (concat_strings texts) = Some ds /\
    Forall2 (fun s d => read_functions s = Some [d]) texts ds.
Proof. exact C68_together_lemma. Qed.
Print Assumptions C68_texts_together.

(* What is read is accepted by a compiler, with the calls that the edits write.  Missing: the
   operands for which it is false (C40). *)
Theorem C68_text_accepted_partial : forall c cpp17 o m first id w,
  clang_node c m -> is_site (optimise o) m ->
  is_xvalue w = false -> the_object w <> VectorElement ->
  (cpp c = false -> the_object w <> RegisterVariable) ->
  (forall e, first_operand m = Some e -> consistent e w) ->
  original_accepted c cpp17 m w ->
  (cpp c = true -> ~ steps_bool m) ->
  let a := apply_mutation c o m first id in
  exists ds, read_functions (concat_strings (a_decls a)) = Some ds /\
    Forall2 (accepted c cpp17 (a_edits a) (id - first)) ds (calls_of c o m w).
Proof. exact C68_accepted_lemma. Qed.
Print Assumptions C68_text_accepted_partial.

(** Witnesses *)

Definition cpp20 : ctx :=
  {| cpp := true; prints_bool := true; char_signed := true; wchar_signed := true |}.
Definition c17 : ctx :=
  {| cpp := false; prints_bool := false; char_signed := true; wchar_signed := true |}.
Definition defaults : options := {| optimise := true; track := false |}.
Definition somewhere : loc_info :=
  {| start_line := 1; start_column := 1; end_line := 1; end_column := 2; snippet := "x" |}.
Definition node (t : ty) (effects : bool) (at_ : nat) : expr :=
  {| e_ty := t; e_lvalue := false; e_volatile := false; e_const := false;
     e_bitfield := false; e_side_effects := effects; e_int := None; e_float := None;
     e_boolval := None; e_cxx11_constant := false; e_binop := None;
     e_logical_operand := false; e_cast_parent_lvalue := None;
     e_init_list_cast := None; e_preceded_by_ident := false;
     e_range := {| r_begin := at_; r_end := at_ + 1 |} |}.
Definition operation (o : bop) (result : ty) (effects : bool) : mutation :=
  MutBinary {| b_op := o; b_ty := result; b_lhs := node TUInt effects 10;
               b_rhs := node TUInt false 14; b_op_offset := 12;
               b_range := {| r_begin := 10; r_end := 15 |} |} somewhere somewhere somewhere.

(* f() / y with unsigned operands in C++: the definition that is read, and what it returns
   when the second mutant is enabled *)
Example C68_text_example :
  let m := operation Div TUInt true in
  clang_node cpp20 m /\ in_three cpp20 m = false /\
  exists d, read_functions (concat_strings (a_decls (apply_mutation cpp20 defaults m 0 7)))
            = Some [d] /\
    fd_result d = FName ["unsigned"; "int"] /\
    fd_name d = "__dredd_replace_binary_operator_Div_arg1_unsigned_int_arg2_unsigned_int" /\
    fd_params d = [(FFunction (FName ["unsigned"; "int"]), "arg1");
                   (FName ["unsigned"; "int"], "arg2"); (FName ["int"], "local_mutation_id")] /\
    behaves true (Nat.eqb 8) 7 (fd_body d) =
      Some ([], Some (EBin "*" (ECall0 (EVar "arg1")) (EVar "arg2"))) /\
    behaves true (Nat.eqb 11) 7 (fd_body d) = Some ([], Some (ECall0 (EVar "arg1"))) /\
    behaves true (Nat.eqb 13) 7 (fd_body d) =
      Some ([], Some (EBin "/" (ECall0 (EVar "arg1")) (EVar "arg2"))).
Proof.
  cbn zeta. split; [split; [discriminate|reflexivity]|]. split; [reflexivity|].
  eexists. split; [vm_compute; reflexivity|]. repeat split; vm_compute; reflexivity.
Qed.

(* x && y in C *)
Example C68_three_example :
  let m := operation LAnd TInt false in
  clang_node c17 m /\ in_three c17 m = true /\
  option_map (map fd_name)
    (read_functions (concat_strings (a_decls (apply_mutation c17 defaults m 0 7)))) =
  Some ["__dredd_replace_binary_operator_LAnd_arg1_unsigned_int_arg2_unsigned_int_lhs";
        "__dredd_replace_binary_operator_LAnd_arg1_unsigned_int_arg2_unsigned_int_rhs";
        "__dredd_replace_binary_operator_LAnd_arg1_unsigned_int_arg2_unsigned_int_outer"].
Proof.
  cbn zeta. split; [split; [discriminate|reflexivity]|]. split; vm_compute; reflexivity.
Qed.

(* Several definitions *)
Example C68_together_example :
  let texts := (a_decls (apply_mutation c17 defaults (operation LAnd TInt false) 0 7)
    ++ a_decls (apply_mutation c17 defaults (operation Add TUInt false) 0 10))%list in
  List.length texts = 4 /\
  exists ds, read_functions (concat_strings texts) = Some ds /\ List.length ds = 4.
Proof.
  cbn zeta. split; [reflexivity|]. eexists. split; [vm_compute; reflexivity|reflexivity].
Qed.

(* x < y in C: hypotheses and the call *)
Example C68_accepted_example :
  let m := operation LT TInt false in
  clang_node c17 m /\ is_site true m /\ original_accepted c17 true m ordinary /\
  (forall e, first_operand m = Some e -> consistent e ordinary) /\
  calls_of c17 defaults m ordinary = [([Value TUInt; Value TUInt], Value TInt, false)].
Proof.
  cbn zeta. split; [split; [discriminate|reflexivity]|]. split; [reflexivity|].
  split; [discriminate|]. split; [|reflexivity].
  intros e E. injection E as <-. split; [discriminate|intros [F _]; discriminate F].
Qed.

(* A text that is not a function, and a function whose parameters cannot be read *)
Example C68_reader_rejects :
  read_functions ("static int f(int arg, int local_mutation_id) {" ++ nl ++ "  return arg;" ++ nl)
  = None /\
  read_functions ("static int f(int, int local_mutation_id) { return 0; }" ++ nl) = None /\
  read_functions ("static intf(int arg) { return 0; }" ++ nl) = None.
Proof. vm_compute. auto. Qed.
