(* A whole file of the repository's test suite, test/single_file/add.c, reproduced
   byte for byte.  Also the running example for the hypotheses of the theorems. *)
From Coq Require Import String Ascii List NArith ZArith Bool.
From Verif Require Import Base Clang Gen GenExpr GenBinary GenUnary GenStmt Mutation MutTree
  PreludeText Rewriter Run.
Import ListNotations.
Local Open Scope string_scope.

Definition add_c : string :=
  "int main() {" ++ nl
  ++ "  int x = 1;" ++ nl
  ++ "  int y = 2;" ++ nl
  ++ "  return x + y + x;" ++ nl
  ++ "}" ++ nl.

Definition add_c_expected : string :=
  "// DREDD PRELUDE START" ++ nl
  ++ "// If this has been inserted at an inappropriate place in a source file," ++ nl
  ++ "// declare a placeholder function with the following signature to" ++ nl
  ++ "// mandate where the prelude should be placed:" ++ nl
  ++ "//" ++ nl
  ++ "// void __dredd_prelude_start();" ++ nl
  ++ "//" ++ nl
  ++ "#include <inttypes.h>" ++ nl
  ++ "#include <stdatomic.h>" ++ nl
  ++ "#include <stdbool.h>" ++ nl
  ++ "#include <stdio.h>" ++ nl
  ++ "#include <stdlib.h>" ++ nl
  ++ "#include <string.h>" ++ nl
  ++ "" ++ nl
  ++ "#ifdef _MSC_VER" ++ nl
  ++ "#define thread_local __declspec(thread)" ++ nl
  ++ "#elif __APPLE__" ++ nl
  ++ "#define thread_local __thread" ++ nl
  ++ "#else" ++ nl
  ++ "#include <threads.h>" ++ nl
  ++ "#endif" ++ nl
  ++ "" ++ nl
  ++ "static thread_local int __dredd_some_mutation_enabled = 1;" ++ nl
  ++ "static bool __dredd_enabled_mutation(int local_mutation_id) {" ++ nl
  ++ "  static thread_local int initialized = 0;" ++ nl
  ++ "  static thread_local uint64_t enabled_bitset[1];" ++ nl
  ++ "  if (!initialized) {" ++ nl
  ++ "    int some_mutation_enabled = 0;" ++ nl
  ++ "    const char* dredd_environment_variable = getenv(""DREDD_ENABLED_MUTATION"");" ++ nl
  ++ "    if (dredd_environment_variable) {" ++ nl
  ++ "      char* temp = malloc(strlen(dredd_environment_variable) + 1);" ++ nl
  ++ "      strcpy(temp, dredd_environment_variable);" ++ nl
  ++ "      char* token;" ++ nl
  ++ "      token = strtok(temp, "","");" ++ nl
  ++ "      while(token) {" ++ nl
  ++ "        int value = atoi(token);" ++ nl
  ++ "        int local_value = value - 0;" ++ nl
  ++ "        if (local_value >= 0 && local_value < 57) {" ++ nl
  ++ "          enabled_bitset[local_value / 64] |= ((uint64_t) 1 << (local_value % 64));" ++ nl
  ++ "          some_mutation_enabled = 1;" ++ nl
  ++ "        }" ++ nl
  ++ "        token = strtok(NULL, "","");" ++ nl
  ++ "      }" ++ nl
  ++ "      free(temp);" ++ nl
  ++ "    }" ++ nl
  ++ "    initialized = 1;" ++ nl
  ++ "    __dredd_some_mutation_enabled = some_mutation_enabled;" ++ nl
  ++ "  }" ++ nl
  ++ "  return enabled_bitset[local_mutation_id / 64] & ((uint64_t) 1 << (local_mutation_id % 64));" ++ nl
  ++ "}" ++ nl
  ++ "" ++ nl
  ++ "static int __dredd_replace_expr_int_one(int arg, int local_mutation_id) {" ++ nl
  ++ "  if (!__dredd_some_mutation_enabled) return arg;" ++ nl
  ++ "  if (__dredd_enabled_mutation(local_mutation_id + 0)) return ~(arg);" ++ nl
  ++ "  if (__dredd_enabled_mutation(local_mutation_id + 1)) return 0;" ++ nl
  ++ "  if (__dredd_enabled_mutation(local_mutation_id + 2)) return -1;" ++ nl
  ++ "  return arg;" ++ nl
  ++ "}" ++ nl
  ++ "" ++ nl
  ++ "static int __dredd_replace_expr_int_lvalue(int* arg, int local_mutation_id) {" ++ nl
  ++ "  if (!__dredd_some_mutation_enabled) return (*arg);" ++ nl
  ++ "  if (__dredd_enabled_mutation(local_mutation_id + 0)) return ++((*arg));" ++ nl
  ++ "  if (__dredd_enabled_mutation(local_mutation_id + 1)) return --((*arg));" ++ nl
  ++ "  return (*arg);" ++ nl
  ++ "}" ++ nl
  ++ "" ++ nl
  ++ "static int __dredd_replace_expr_int_constant(int arg, int local_mutation_id) {" ++ nl
  ++ "  if (!__dredd_some_mutation_enabled) return arg;" ++ nl
  ++ "  if (__dredd_enabled_mutation(local_mutation_id + 0)) return ~(arg);" ++ nl
  ++ "  if (__dredd_enabled_mutation(local_mutation_id + 1)) return -(arg);" ++ nl
  ++ "  if (__dredd_enabled_mutation(local_mutation_id + 2)) return 0;" ++ nl
  ++ "  if (__dredd_enabled_mutation(local_mutation_id + 3)) return 1;" ++ nl
  ++ "  if (__dredd_enabled_mutation(local_mutation_id + 4)) return -1;" ++ nl
  ++ "  return arg;" ++ nl
  ++ "}" ++ nl
  ++ "" ++ nl
  ++ "static int __dredd_replace_expr_int(int arg, int local_mutation_id) {" ++ nl
  ++ "  if (!__dredd_some_mutation_enabled) return arg;" ++ nl
  ++ "  if (__dredd_enabled_mutation(local_mutation_id + 0)) return !(arg);" ++ nl
  ++ "  if (__dredd_enabled_mutation(local_mutation_id + 1)) return ~(arg);" ++ nl
  ++ "  if (__dredd_enabled_mutation(local_mutation_id + 2)) return -(arg);" ++ nl
  ++ "  if (__dredd_enabled_mutation(local_mutation_id + 3)) return 0;" ++ nl
  ++ "  if (__dredd_enabled_mutation(local_mutation_id + 4)) return 1;" ++ nl
  ++ "  if (__dredd_enabled_mutation(local_mutation_id + 5)) return -1;" ++ nl
  ++ "  return arg;" ++ nl
  ++ "}" ++ nl
  ++ "" ++ nl
  ++ "static int __dredd_replace_binary_operator_Add_arg1_int_arg2_int(int arg1, int arg2, int local_mutation_id) {" ++ nl
  ++ "  if (!__dredd_some_mutation_enabled) return arg1 + arg2;" ++ nl
  ++ "  if (__dredd_enabled_mutation(local_mutation_id + 0)) return arg1 / arg2;" ++ nl
  ++ "  if (__dredd_enabled_mutation(local_mutation_id + 1)) return arg1 * arg2;" ++ nl
  ++ "  if (__dredd_enabled_mutation(local_mutation_id + 2)) return arg1 % arg2;" ++ nl
  ++ "  if (__dredd_enabled_mutation(local_mutation_id + 3)) return arg1 - arg2;" ++ nl
  ++ "  if (__dredd_enabled_mutation(local_mutation_id + 4)) return arg1;" ++ nl
  ++ "  if (__dredd_enabled_mutation(local_mutation_id + 5)) return arg2;" ++ nl
  ++ "  return arg1 + arg2;" ++ nl
  ++ "}" ++ nl
  ++ "" ++ nl
  ++ "int main() {" ++ nl
  ++ "  int x = __dredd_replace_expr_int_one(1, 0);" ++ nl
  ++ "  int y = __dredd_replace_expr_int_constant(2, 3);" ++ nl
  ++ "  if (!__dredd_enabled_mutation(56)) { return __dredd_replace_expr_int(__dredd_replace_binary_operator_Add_arg1_int_arg2_int(__dredd_replace_expr_int(__dredd_replace_binary_operator_Add_arg1_int_arg2_int(__dredd_replace_expr_int(__dredd_replace_expr_int_lvalue(&(x), 8), 10) , __dredd_replace_expr_int(__dredd_replace_expr_int_lvalue(&(y), 16), 18), 24), 30) , __dredd_replace_expr_int(__dredd_replace_expr_int_lvalue(&(x), 36), 38), 44), 50); }" ++ nl
  ++ "}" ++ nl.

Definition mk_info (l c l2 c2 : nat) (s : string) : loc_info :=
  {| start_line := l; start_column := c; end_line := l2; end_column := c2; snippet := s |}.

Definition mk_expr (lv : bool) (i : option Z) (b : option bool) (op : option bop)
  (cast : option bool) (off off2 : nat) : expr :=
  {| e_ty := TInt; e_lvalue := lv; e_volatile := false; e_const := false;
     e_bitfield := false; e_side_effects := false; e_int := i; e_float := None;
     e_boolval := b; e_cxx11_constant := false; e_binop := op; e_logical_operand := false;
     e_cast_parent_lvalue := cast; e_init_list_cast := None; e_preceded_by_ident := false;
     e_range := {| r_begin := off; r_end := off2 |} |}.

Definition e_one : expr :=
  mk_expr false (Some 1%Z) (Some true) (None) (None) 23 24.
Definition e_two : expr :=
  mk_expr false (Some 2%Z) (Some true) (None) (None) 36 37.
Definition l_x1 : expr :=
  mk_expr true (None) (None) (None) (Some false) 48 49.
Definition r_x1 : expr :=
  mk_expr false (None) (None) (None) (None) 48 49.
Definition l_y : expr :=
  mk_expr true (None) (None) (None) (Some false) 52 53.
Definition r_y : expr :=
  mk_expr false (None) (None) (None) (None) 52 53.
Definition l_x2 : expr :=
  mk_expr true (None) (None) (None) (Some false) 56 57.
Definition r_x2 : expr :=
  mk_expr false (None) (None) (None) (None) 56 57.
Definition e_sum1 : expr :=
  mk_expr false (None) (None) (Some Add) (None) 48 53.
Definition e_sum2 : expr :=
  mk_expr false (None) (None) (Some Add) (None) 48 57.
Definition b_sum1 : binary :=
  {| b_op := Add; b_ty := TInt; b_lhs := r_x1; b_rhs := r_y; b_op_offset := 50;
     b_range := e_range e_sum1 |}.
Definition b_sum2 : binary :=
  {| b_op := Add; b_ty := TInt; b_lhs := e_sum1; b_rhs := r_x2; b_op_offset := 54;
     b_range := e_range e_sum2 |}.
Definition s_return : stmt_site :=
  {| s_range := {| r_begin := 41; r_end := 58 |}; s_ext_comment := false;
     s_ext_semi := true; s_next_hash := false |}.

Definition i_x1 := mk_info 4 10 4 11 "x".
Definition i_y := mk_info 4 14 4 15 "y".
Definition i_x2 := mk_info 4 18 4 19 "x".
Definition i_sum1 := mk_info 4 10 4 15 "x + y".
Definition i_sum2 := mk_info 4 10 4 19 "x + y + x".

(* Statement, declaration and expression nodes; nodes without mutations included *)
Definition add_c_tree : tree mutation :=
  Node [] [Node [] [Node [] [
    Node [] [Node [] [Node [MutExpr e_one (mk_info 2 11 2 12 "1")] []]];
    Node [] [Node [] [Node [MutExpr e_two (mk_info 3 11 3 12 "2")] []]];
    Node [MutStmt s_return (mk_info 4 3 4 19 "return x + y + x")] [
      Node [MutBinary b_sum2 i_sum2 i_sum1 i_x2; MutExpr e_sum2 i_sum2] [
        Node [MutBinary b_sum1 i_sum1 i_x1 i_y; MutExpr e_sum1 i_sum1] [
          Node [MutExpr r_x1 i_x1] [Node [MutExpr l_x1 i_x1] []];
          Node [MutExpr r_y i_y] [Node [MutExpr l_y i_y] []]];
        Node [MutExpr r_x2 i_x2] [Node [MutExpr l_x2 i_x2] []]]]]]].

Definition c_ctx : ctx :=
  {| cpp := false; prints_bool := false; char_signed := true; wchar_signed := true |}.
Definition add_c_unit : unit_info :=
  {| ui_ctx := c_ctx; ui_tree := add_c_tree; ui_rewrites := []; ui_prelude_offset := 0 |}.
Definition add_c_file : source_file :=
  {| f_name := "add.c"; f_text := add_c; f_unit := Some add_c_unit |}.
Definition bad_file : source_file :=
  {| f_name := "bad.c"; f_text := "int"; f_unit := None |}.
Definition add2_c_file : source_file :=
  {| f_name := "add2.c"; f_text := add_c; f_unit := Some add_c_unit |}.
Definition default_options : options := {| optimise := true; track := false |}.

Example add_c_reproduced :
  rs_written (run default_options true [add_c_file]) = [("add.c", add_c_expected)].
Proof. vm_compute. reflexivity. Qed.

Example two_files_share_the_counter :
  let st := run default_options true [bad_file; add_c_file; bad_file; add2_c_file; add_c_file] in
  rs_id st = 114 /\ map fst (rs_info st) = ["add.c"; "add2.c"].
Proof. vm_compute. split; reflexivity. Qed.
