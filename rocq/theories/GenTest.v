(* Tests of the model, not proofs: the printed mutator functions agree with the
   repository's own expected outputs (test/single_file, file named in each comment).
   All 271 distinct functions there were compared when the model was written; every
   sixth is kept here. *)
From Coq Require Import String Ascii List NArith ZArith Bool.
From Verif Require Import Base Clang Gen GenExpr GenBinary GenUnary.
Import ListNotations.
Local Open Scope string_scope.
Local Open Scope Z_scope.
Definition cc := Build_ctx false false true true.
Definition ccb := Build_ctx false true true true.
Definition cppc := Build_ctx true true true true.
Definition mk t lv vol se i f b bo lo cp : expr :=
  Build_expr t lv vol false false se i f b false bo lo cp None false (Build_range 0 0).
Definition mkb op t l r : binary := Build_binary op t l r 0 (Build_range 0 0).
Definition mku op t lv vol se s : unary := Build_unary op t lv vol false se s 0 (Build_range 0 0).

(* add.c.expected *)
Example t0 : print_mfun (expr_function cc (Build_options true false) (mk TInt false false false (Some 1) None None None false None)) =
"static int __dredd_replace_expr_int_one(int arg, int local_mutation_id) {
  if (!__dredd_some_mutation_enabled) return arg;
  if (__dredd_enabled_mutation(local_mutation_id + 0)) return ~(arg);
  if (__dredd_enabled_mutation(local_mutation_id + 1)) return 0;
  if (__dredd_enabled_mutation(local_mutation_id + 2)) return -1;
  return arg;
}

".
Proof. vm_compute. reflexivity. Qed.

(* add.c.noopt.expected *)
Example t6 : print_mfun (expr_function cc (Build_options false false) (mk TInt false false false None None None None false None)) =
"static int __dredd_replace_expr_int(int arg, int local_mutation_id) {
  if (!__dredd_some_mutation_enabled) return arg;
  if (__dredd_enabled_mutation(local_mutation_id + 0)) return !(arg);
  if (__dredd_enabled_mutation(local_mutation_id + 1)) return ~(arg);
  if (__dredd_enabled_mutation(local_mutation_id + 2)) return -(arg);
  if (__dredd_enabled_mutation(local_mutation_id + 3)) return 0;
  if (__dredd_enabled_mutation(local_mutation_id + 4)) return 1;
  if (__dredd_enabled_mutation(local_mutation_id + 5)) return -1;
  return arg;
}

".
Proof. vm_compute. reflexivity. Qed.

(* add.cc.expected *)
Example t12 : print_mfun (binary_function cppc (Build_options true false) (mkb Add TInt (mk TInt false false false None None None None false None) (mk TInt false false false None None None None false None))) =
"static int __dredd_replace_binary_operator_Add_arg1_int_arg2_int(int arg1, int arg2, int local_mutation_id) {
  if (!__dredd_some_mutation_enabled) return arg1 + arg2;
  if (__dredd_enabled_mutation(local_mutation_id + 0)) return arg1 / arg2;
  if (__dredd_enabled_mutation(local_mutation_id + 1)) return arg1 * arg2;
  if (__dredd_enabled_mutation(local_mutation_id + 2)) return arg1 % arg2;
  if (__dredd_enabled_mutation(local_mutation_id + 3)) return arg1 - arg2;
  if (__dredd_enabled_mutation(local_mutation_id + 4)) return arg1;
  if (__dredd_enabled_mutation(local_mutation_id + 5)) return arg2;
  return arg1 + arg2;
}

".
Proof. vm_compute. reflexivity. Qed.

(* add_float.c.expected *)
Example t18 : print_mfun (expr_function cc (Build_options true false) (mk TFloat false false false None None None None false None)) =
"static float __dredd_replace_expr_float(float arg, int local_mutation_id) {
  if (!__dredd_some_mutation_enabled) return arg;
  if (__dredd_enabled_mutation(local_mutation_id + 0)) return -(arg);
  if (__dredd_enabled_mutation(local_mutation_id + 1)) return 0.0;
  if (__dredd_enabled_mutation(local_mutation_id + 2)) return 1.0;
  if (__dredd_enabled_mutation(local_mutation_id + 3)) return -1.0;
  return arg;
}

".
Proof. vm_compute. reflexivity. Qed.

(* add_float.c.noopt.expected *)
Example t24 : print_mfun (binary_function cc (Build_options false false) (mkb Add TFloat (mk TFloat false false false None None None None false None) (mk TFloat false false false None None None None false None))) =
"static float __dredd_replace_binary_operator_Add_arg1_float_arg2_float(float arg1, float arg2, int local_mutation_id) {
  if (!__dredd_some_mutation_enabled) return arg1 + arg2;
  if (__dredd_enabled_mutation(local_mutation_id + 0)) return arg1 / arg2;
  if (__dredd_enabled_mutation(local_mutation_id + 1)) return arg1 * arg2;
  if (__dredd_enabled_mutation(local_mutation_id + 2)) return arg1 - arg2;
  if (__dredd_enabled_mutation(local_mutation_id + 3)) return arg1;
  if (__dredd_enabled_mutation(local_mutation_id + 4)) return arg2;
  return arg1 + arg2;
}

".
Proof. vm_compute. reflexivity. Qed.

(* add_float.cc.expected *)
Example t30 : print_mfun (binary_function cppc (Build_options true false) (mkb Add TFloat (mk TFloat false false false None None None None false None) (mk TFloat false false false None None None None false None))) =
"static float __dredd_replace_binary_operator_Add_arg1_float_arg2_float(float arg1, float arg2, int local_mutation_id) {
  if (!__dredd_some_mutation_enabled) return arg1 + arg2;
  if (__dredd_enabled_mutation(local_mutation_id + 0)) return arg1 / arg2;
  if (__dredd_enabled_mutation(local_mutation_id + 1)) return arg1 * arg2;
  if (__dredd_enabled_mutation(local_mutation_id + 2)) return arg1 - arg2;
  if (__dredd_enabled_mutation(local_mutation_id + 3)) return arg1;
  if (__dredd_enabled_mutation(local_mutation_id + 4)) return arg2;
  return arg1 + arg2;
}

".
Proof. vm_compute. reflexivity. Qed.

(* add_mul.c.expected *)
Example t36 : print_mfun (binary_function cc (Build_options true false) (mkb Mul TInt (mk TInt false false false None None None None false None) (mk TInt false false false None None None None false None))) =
"static int __dredd_replace_binary_operator_Mul_arg1_int_arg2_int(int arg1, int arg2, int local_mutation_id) {
  if (!__dredd_some_mutation_enabled) return arg1 * arg2;
  if (__dredd_enabled_mutation(local_mutation_id + 0)) return arg1 + arg2;
  if (__dredd_enabled_mutation(local_mutation_id + 1)) return arg1 / arg2;
  if (__dredd_enabled_mutation(local_mutation_id + 2)) return arg1 % arg2;
  if (__dredd_enabled_mutation(local_mutation_id + 3)) return arg1 - arg2;
  if (__dredd_enabled_mutation(local_mutation_id + 4)) return arg1;
  if (__dredd_enabled_mutation(local_mutation_id + 5)) return arg2;
  return arg1 * arg2;
}

".
Proof. vm_compute. reflexivity. Qed.

(* add_type_aliases.c.noopt.expected *)
Example t42 : print_mfun (binary_function cc (Build_options false false) (mkb Add TULong (mk TULong false false false None None None None false None) (mk TULong false false false None None None None false None))) =
"static unsigned long __dredd_replace_binary_operator_Add_arg1_unsigned_long_arg2_unsigned_long(unsigned long arg1, unsigned long arg2, int local_mutation_id) {
  if (!__dredd_some_mutation_enabled) return arg1 + arg2;
  if (__dredd_enabled_mutation(local_mutation_id + 0)) return arg1 / arg2;
  if (__dredd_enabled_mutation(local_mutation_id + 1)) return arg1 * arg2;
  if (__dredd_enabled_mutation(local_mutation_id + 2)) return arg1 % arg2;
  if (__dredd_enabled_mutation(local_mutation_id + 3)) return arg1 - arg2;
  if (__dredd_enabled_mutation(local_mutation_id + 4)) return arg1;
  if (__dredd_enabled_mutation(local_mutation_id + 5)) return arg2;
  return arg1 + arg2;
}

".
Proof. vm_compute. reflexivity. Qed.

(* add_type_aliases.c.noopt.expected *)
Example t48 : print_mfun (binary_function cc (Build_options false false) (mkb Add TLong (mk TLong false false false None None None None false None) (mk TLong false false false None None None None false None))) =
"static long __dredd_replace_binary_operator_Add_arg1_long_arg2_long(long arg1, long arg2, int local_mutation_id) {
  if (!__dredd_some_mutation_enabled) return arg1 + arg2;
  if (__dredd_enabled_mutation(local_mutation_id + 0)) return arg1 / arg2;
  if (__dredd_enabled_mutation(local_mutation_id + 1)) return arg1 * arg2;
  if (__dredd_enabled_mutation(local_mutation_id + 2)) return arg1 % arg2;
  if (__dredd_enabled_mutation(local_mutation_id + 3)) return arg1 - arg2;
  if (__dredd_enabled_mutation(local_mutation_id + 4)) return arg1;
  if (__dredd_enabled_mutation(local_mutation_id + 5)) return arg2;
  return arg1 + arg2;
}

".
Proof. vm_compute. reflexivity. Qed.

(* add_type_aliases.cc.noopt.expected *)
Example t54 : print_mfun (binary_function cppc (Build_options false false) (mkb Add TUInt (mk TUInt false false false None None None None false None) (mk TUInt false false false None None None None false None))) =
"static unsigned int __dredd_replace_binary_operator_Add_arg1_unsigned_int_arg2_unsigned_int(unsigned int arg1, unsigned int arg2, int local_mutation_id) {
  if (!__dredd_some_mutation_enabled) return arg1 + arg2;
  if (__dredd_enabled_mutation(local_mutation_id + 0)) return arg1 / arg2;
  if (__dredd_enabled_mutation(local_mutation_id + 1)) return arg1 * arg2;
  if (__dredd_enabled_mutation(local_mutation_id + 2)) return arg1 % arg2;
  if (__dredd_enabled_mutation(local_mutation_id + 3)) return arg1 - arg2;
  if (__dredd_enabled_mutation(local_mutation_id + 4)) return arg1;
  if (__dredd_enabled_mutation(local_mutation_id + 5)) return arg2;
  return arg1 + arg2;
}

".
Proof. vm_compute. reflexivity. Qed.

(* assign.c.noopt.expected *)
Example t60 : print_mfun (binary_function cc (Build_options false false) (mkb Assign TInt (mk TInt true true false None None None None false None) (mk TInt false false false None None None None false None))) =
"static int __dredd_replace_binary_operator_Assign_arg1_volatile_int_arg2_int(volatile int* arg1, int arg2, int local_mutation_id) {
  if (!__dredd_some_mutation_enabled) return (*arg1) = arg2;
  if (__dredd_enabled_mutation(local_mutation_id + 0)) return (*arg1) += arg2;
  if (__dredd_enabled_mutation(local_mutation_id + 1)) return (*arg1) &= arg2;
  if (__dredd_enabled_mutation(local_mutation_id + 2)) return (*arg1) /= arg2;
  if (__dredd_enabled_mutation(local_mutation_id + 3)) return (*arg1) *= arg2;
  if (__dredd_enabled_mutation(local_mutation_id + 4)) return (*arg1) |= arg2;
  if (__dredd_enabled_mutation(local_mutation_id + 5)) return (*arg1) %= arg2;
  if (__dredd_enabled_mutation(local_mutation_id + 6)) return (*arg1) <<= arg2;
  if (__dredd_enabled_mutation(local_mutation_id + 7)) return (*arg1) >>= arg2;
  if (__dredd_enabled_mutation(local_mutation_id + 8)) return (*arg1) -= arg2;
  if (__dredd_enabled_mutation(local_mutation_id + 9)) return (*arg1) ^= arg2;
  return (*arg1) = arg2;
}

".
Proof. vm_compute. reflexivity. Qed.

(* binary_both_zero.cc.expected *)
Example t66 : print_mfun (binary_function cppc (Build_options true false) (mkb Add TInt (mk TInt false false false (Some 0) None None None false None) (mk TInt false false false (Some 0) None None None false None))) =
"static int __dredd_replace_binary_operator_Add_arg1_int_arg2_int_rhs_zero_lhs_zero(int arg1, int arg2, int local_mutation_id) {
  if (!__dredd_some_mutation_enabled) return arg1 + arg2;
  if (__dredd_enabled_mutation(local_mutation_id + 0)) return arg1 / arg2;
  return arg1 + arg2;
}

".
Proof. vm_compute. reflexivity. Qed.

(* binary_long_long_and_long_name_clash.c.noopt.expected *)
Example t72 : print_mfun (c_logical_lhs_function cc (Build_options false false) (mkb LAnd TInt (mk TLong false false false None None None None false None) (mk TLongLong false false false None None None None false None))) =
"static long __dredd_replace_binary_operator_LAnd_arg1_long_arg2_long_long_lhs(long arg, int local_mutation_id) {
  if (!__dredd_some_mutation_enabled) return arg;
  if (__dredd_enabled_mutation(local_mutation_id + 0)) return !arg;
  if (__dredd_enabled_mutation(local_mutation_id + 2)) return 1;
  return arg;
}
".
Proof. vm_compute. reflexivity. Qed.

(* binary_no_arg_replacement.cc.expected *)
Example t78 : print_mfun (binary_function cppc (Build_options true false) (mkb Div TInt (mk TInt false false false None None None None false None) (mk TInt false false false (Some 1) None None None false None))) =
"static int __dredd_replace_binary_operator_Div_arg1_int_arg2_int_rhs_one(int arg1, int arg2, int local_mutation_id) {
  if (!__dredd_some_mutation_enabled) return arg1 / arg2;
  if (__dredd_enabled_mutation(local_mutation_id + 0)) return arg1 + arg2;
  if (__dredd_enabled_mutation(local_mutation_id + 1)) return arg1 % arg2;
  if (__dredd_enabled_mutation(local_mutation_id + 2)) return arg1 - arg2;
  if (__dredd_enabled_mutation(local_mutation_id + 3)) return arg1;
  return arg1 / arg2;
}

".
Proof. vm_compute. reflexivity. Qed.

(* binary_operands_both_zero.c.expected *)
Example t84 : print_mfun (binary_function cc (Build_options true false) (mkb Add TInt (mk TInt false false false (Some 1) None None None false None) (mk TInt false false false (Some 0) None None None false None))) =
"static int __dredd_replace_binary_operator_Add_arg1_int_arg2_int_rhs_zero_lhs_one(int arg1, int arg2, int local_mutation_id) {
  if (!__dredd_some_mutation_enabled) return arg1 + arg2;
  if (__dredd_enabled_mutation(local_mutation_id + 0)) return arg1 / arg2;
  return arg1 + arg2;
}

".
Proof. vm_compute. reflexivity. Qed.

(* binary_operands_both_zero.cc.expected *)
Example t90 : print_mfun (binary_function cppc (Build_options true false) (mkb Add TInt (mk TInt false false false (Some 1) None None None false None) (mk TInt false false false (Some 0) None None None false None))) =
"static int __dredd_replace_binary_operator_Add_arg1_int_arg2_int_rhs_zero_lhs_one(int arg1, int arg2, int local_mutation_id) {
  if (!__dredd_some_mutation_enabled) return arg1 + arg2;
  if (__dredd_enabled_mutation(local_mutation_id + 0)) return arg1 / arg2;
  return arg1 + arg2;
}

".
Proof. vm_compute. reflexivity. Qed.

(* bitfield.c.expected *)
Example t96 : print_mfun (unary_function cc (Build_options true false) (mku Minus TInt false false false (mk TInt false false false None None None None false None))) =
"static int __dredd_replace_unary_operator_Minus_int(int arg, int local_mutation_id) {
  if (!__dredd_some_mutation_enabled) return -arg;
  if (__dredd_enabled_mutation(local_mutation_id + 0)) return ~arg;
  if (__dredd_enabled_mutation(local_mutation_id + 1)) return !arg;
  return -arg;
}

".
Proof. vm_compute. reflexivity. Qed.

(* boolean_not_insertion_optimisation.c.expected *)
Example t102 : print_mfun (c_logical_rhs_function cc (Build_options true false) (mkb LAnd TInt (mk TInt false false false (Some 1) None None None false None) (mk TInt false false false (Some 0) None None None false None))) =
"static int __dredd_replace_binary_operator_LAnd_arg1_int_arg2_int_rhs_zero_lhs_one_rhs(int arg, int local_mutation_id) {
  if (!__dredd_some_mutation_enabled) return arg;
  if (__dredd_enabled_mutation(local_mutation_id + 0)) return !arg;
  if (__dredd_enabled_mutation(local_mutation_id + 1)) return 1;
  return arg;
}
".
Proof. vm_compute. reflexivity. Qed.

(* boolean_not_insertion_optimisation.cc.expected *)
Example t108 : print_mfun (binary_function cppc (Build_options true false) (mkb Assign TBool (mk TBool true false false None None None None false None) (mk TBool false false false None None None None false None))) =
"static bool& __dredd_replace_binary_operator_Assign_arg1_bool_arg2_bool(bool& arg1, bool arg2, int local_mutation_id) {
  if (!__dredd_some_mutation_enabled) return arg1 = arg2;
  if (__dredd_enabled_mutation(local_mutation_id + 0)) return arg1 += arg2;
  if (__dredd_enabled_mutation(local_mutation_id + 1)) return arg1 &= arg2;
  if (__dredd_enabled_mutation(local_mutation_id + 2)) return arg1 /= arg2;
  if (__dredd_enabled_mutation(local_mutation_id + 3)) return arg1 *= arg2;
  if (__dredd_enabled_mutation(local_mutation_id + 4)) return arg1 |= arg2;
  if (__dredd_enabled_mutation(local_mutation_id + 5)) return arg1 %= arg2;
  if (__dredd_enabled_mutation(local_mutation_id + 6)) return arg1 <<= arg2;
  if (__dredd_enabled_mutation(local_mutation_id + 7)) return arg1 >>= arg2;
  if (__dredd_enabled_mutation(local_mutation_id + 8)) return arg1 -= arg2;
  if (__dredd_enabled_mutation(local_mutation_id + 9)) return arg1 ^= arg2;
  return arg1 = arg2;
}

".
Proof. vm_compute. reflexivity. Qed.

(* comma_side_effects.cc.expected *)
Example t114 : print_mfun (binary_function cppc (Build_options true false) (mkb Assign TInt (mk TInt true false false None None None None false None) (mk TInt false false true None None None None false None))) =
"static int& __dredd_replace_binary_operator_Assign_arg1_int_arg2_int(int& arg1, std::function<int()> arg2, int local_mutation_id) {
  if (!__dredd_some_mutation_enabled) return arg1 = arg2();
  if (__dredd_enabled_mutation(local_mutation_id + 0)) return arg1 += arg2();
  if (__dredd_enabled_mutation(local_mutation_id + 1)) return arg1 &= arg2();
  if (__dredd_enabled_mutation(local_mutation_id + 2)) return arg1 /= arg2();
  if (__dredd_enabled_mutation(local_mutation_id + 3)) return arg1 *= arg2();
  if (__dredd_enabled_mutation(local_mutation_id + 4)) return arg1 |= arg2();
  if (__dredd_enabled_mutation(local_mutation_id + 5)) return arg1 %= arg2();
  if (__dredd_enabled_mutation(local_mutation_id + 6)) return arg1 <<= arg2();
  if (__dredd_enabled_mutation(local_mutation_id + 7)) return arg1 >>= arg2();
  if (__dredd_enabled_mutation(local_mutation_id + 8)) return arg1 -= arg2();
  if (__dredd_enabled_mutation(local_mutation_id + 9)) return arg1 ^= arg2();
  return arg1 = arg2();
}

".
Proof. vm_compute. reflexivity. Qed.

(* const_expr_function_call.cc.expected *)
Example t120 : print_mfun (expr_function cppc (Build_options true false) (mk TInt false false true (Some 7) None None None false None)) =
"static int __dredd_replace_expr_int_constant(std::function<int()> arg, int local_mutation_id) {
  if (!__dredd_some_mutation_enabled) return arg();
  if (__dredd_enabled_mutation(local_mutation_id + 0)) return ~(arg());
  if (__dredd_enabled_mutation(local_mutation_id + 1)) return -(arg());
  if (__dredd_enabled_mutation(local_mutation_id + 2)) return 0;
  if (__dredd_enabled_mutation(local_mutation_id + 3)) return 1;
  if (__dredd_enabled_mutation(local_mutation_id + 4)) return -1;
  return arg();
}

".
Proof. vm_compute. reflexivity. Qed.

(* do_not_mutate_under_alignof.cc.expected *)
Example t126 : print_mfun (expr_function cppc (Build_options true false) (mk TULong false false false (Some 7) None None None false None)) =
"static unsigned long __dredd_replace_expr_unsigned_long_constant(unsigned long arg, int local_mutation_id) {
  if (!__dredd_some_mutation_enabled) return arg;
  if (__dredd_enabled_mutation(local_mutation_id + 0)) return ~(arg);
  if (__dredd_enabled_mutation(local_mutation_id + 1)) return 0;
  if (__dredd_enabled_mutation(local_mutation_id + 2)) return 1;
  return arg;
}

".
Proof. vm_compute. reflexivity. Qed.

(* float_binary_opts.c.expected *)
Example t132 : print_mfun (binary_function cc (Build_options true false) (mkb Add TDouble (mk TDouble false false false None (Some FZero) None None false None) (mk TDouble false false false None None None None false None))) =
"static double __dredd_replace_binary_operator_Add_arg1_double_arg2_double_lhs_zero(double arg1, double arg2, int local_mutation_id) {
  if (!__dredd_some_mutation_enabled) return arg1 + arg2;
  if (__dredd_enabled_mutation(local_mutation_id + 0)) return arg1 - arg2;
  if (__dredd_enabled_mutation(local_mutation_id + 1)) return arg2;
  return arg1 + arg2;
}

".
Proof. vm_compute. reflexivity. Qed.

(* float_binary_opts.cc.noopt.expected *)
Example t138 : print_mfun (binary_function cppc (Build_options false false) (mkb Add TDouble (mk TDouble false false false None None None None false None) (mk TDouble false false false None None None None false None))) =
"static double __dredd_replace_binary_operator_Add_arg1_double_arg2_double(double arg1, double arg2, int local_mutation_id) {
  if (!__dredd_some_mutation_enabled) return arg1 + arg2;
  if (__dredd_enabled_mutation(local_mutation_id + 0)) return arg1 / arg2;
  if (__dredd_enabled_mutation(local_mutation_id + 1)) return arg1 * arg2;
  if (__dredd_enabled_mutation(local_mutation_id + 2)) return arg1 - arg2;
  if (__dredd_enabled_mutation(local_mutation_id + 3)) return arg1;
  if (__dredd_enabled_mutation(local_mutation_id + 4)) return arg2;
  return arg1 + arg2;
}

".
Proof. vm_compute. reflexivity. Qed.

(* float_unary_opt.cc.noopt.expected *)
Example t144 : print_mfun (unary_function cppc (Build_options false false) (mku Minus TDouble false false false (mk TDouble false false false None None None None false None))) =
"static double __dredd_replace_unary_operator_Minus_double(double arg, int local_mutation_id) {
  if (!__dredd_some_mutation_enabled) return -arg;
  if (__dredd_enabled_mutation(local_mutation_id + 0)) return !arg;
  if (__dredd_enabled_mutation(local_mutation_id + 1)) return arg;
  return -arg;
}

".
Proof. vm_compute. reflexivity. Qed.

(* floats.c.noopt.expected *)
Example t150 : print_mfun (expr_function cc (Build_options false false) (mk TDouble true false false None None None None false (Some false))) =
"static double __dredd_replace_expr_double_lvalue(double* arg, int local_mutation_id) {
  if (!__dredd_some_mutation_enabled) return (*arg);
  if (__dredd_enabled_mutation(local_mutation_id + 0)) return ++((*arg));
  if (__dredd_enabled_mutation(local_mutation_id + 1)) return --((*arg));
  return (*arg);
}

".
Proof. vm_compute. reflexivity. Qed.

(* floats.cc.expected *)
Example t156 : print_mfun (binary_function cppc (Build_options true false) (mkb Mul TDouble (mk TDouble false false false None None None None false None) (mk TDouble false false false None None None None false None))) =
"static double __dredd_replace_binary_operator_Mul_arg1_double_arg2_double(double arg1, double arg2, int local_mutation_id) {
  if (!__dredd_some_mutation_enabled) return arg1 * arg2;
  if (__dredd_enabled_mutation(local_mutation_id + 0)) return arg1 + arg2;
  if (__dredd_enabled_mutation(local_mutation_id + 1)) return arg1 / arg2;
  if (__dredd_enabled_mutation(local_mutation_id + 2)) return arg1 - arg2;
  if (__dredd_enabled_mutation(local_mutation_id + 3)) return arg1;
  if (__dredd_enabled_mutation(local_mutation_id + 4)) return arg2;
  return arg1 * arg2;
}

".
Proof. vm_compute. reflexivity. Qed.

(* left_shift_opt.c.noopt.expected *)
Example t162 : print_mfun (binary_function cc (Build_options false false) (mkb Shl TInt (mk TInt false false false None None None None false None) (mk TInt false false false None None None None false None))) =
"static int __dredd_replace_binary_operator_Shl_arg1_int_arg2_int(int arg1, int arg2, int local_mutation_id) {
  if (!__dredd_some_mutation_enabled) return arg1 << arg2;
  if (__dredd_enabled_mutation(local_mutation_id + 0)) return arg1 >> arg2;
  if (__dredd_enabled_mutation(local_mutation_id + 1)) return arg1;
  if (__dredd_enabled_mutation(local_mutation_id + 2)) return arg2;
  return arg1 << arg2;
}

".
Proof. vm_compute. reflexivity. Qed.

(* logical_and.cc.expected *)
Example t168 : print_mfun (expr_function cppc (Build_options true false) (mk TBool false false false None None None None false None)) =
"static bool __dredd_replace_expr_bool(bool arg, int local_mutation_id) {
  if (!__dredd_some_mutation_enabled) return arg;
  if (__dredd_enabled_mutation(local_mutation_id + 0)) return !(arg);
  if (__dredd_enabled_mutation(local_mutation_id + 1)) return true;
  if (__dredd_enabled_mutation(local_mutation_id + 2)) return false;
  return arg;
}

".
Proof. vm_compute. reflexivity. Qed.

(* logical_and_div.cc.noopt.expected *)
Example t174 : print_mfun (binary_function cppc (Build_options false false) (mkb NE TBool (mk TInt false false false None None None None false None) (mk TInt false false false None None None None false None))) =
"static bool __dredd_replace_binary_operator_NE_arg1_int_arg2_int(int arg1, int arg2, int local_mutation_id) {
  if (!__dredd_some_mutation_enabled) return arg1 != arg2;
  if (__dredd_enabled_mutation(local_mutation_id + 0)) return arg1 == arg2;
  if (__dredd_enabled_mutation(local_mutation_id + 1)) return arg1 >= arg2;
  if (__dredd_enabled_mutation(local_mutation_id + 2)) return arg1 > arg2;
  if (__dredd_enabled_mutation(local_mutation_id + 3)) return arg1 <= arg2;
  if (__dredd_enabled_mutation(local_mutation_id + 4)) return arg1 < arg2;
  if (__dredd_enabled_mutation(local_mutation_id + 5)) return arg1;
  if (__dredd_enabled_mutation(local_mutation_id + 6)) return arg2;
  return arg1 != arg2;
}

".
Proof. vm_compute. reflexivity. Qed.

(* logical_or.c.noopt.expected *)
Example t180 : print_mfun (c_logical_lhs_function cc (Build_options false false) (mkb LOr TInt (mk TInt false false false None None None None false None) (mk TInt false false false None None None None false None))) =
"static int __dredd_replace_binary_operator_LOr_arg1_int_arg2_int_lhs(int arg, int local_mutation_id) {
  if (!__dredd_some_mutation_enabled) return arg;
  if (__dredd_enabled_mutation(local_mutation_id + 0)) return !arg;
  if (__dredd_enabled_mutation(local_mutation_id + 2)) return 0;
  return arg;
}
".
Proof. vm_compute. reflexivity. Qed.

(* non_const_sized_array.c.expected *)
Example t186 : print_mfun (expr_function cc (Build_options true false) (mk TInt true true false None None None None false (Some false))) =
"static int __dredd_replace_expr_volatile_int_lvalue(volatile int* arg, int local_mutation_id) {
  if (!__dredd_some_mutation_enabled) return (*arg);
  if (__dredd_enabled_mutation(local_mutation_id + 0)) return ++((*arg));
  if (__dredd_enabled_mutation(local_mutation_id + 1)) return --((*arg));
  return (*arg);
}

".
Proof. vm_compute. reflexivity. Qed.

(* positive_int_as_minus_one.c.noopt.expected *)
Example t192 : print_mfun (binary_function cc (Build_options false false) (mkb Sub TUInt (mk TUInt false false false None None None None false None) (mk TUInt false false false None None None None false None))) =
"static unsigned int __dredd_replace_binary_operator_Sub_arg1_unsigned_int_arg2_unsigned_int(unsigned int arg1, unsigned int arg2, int local_mutation_id) {
  if (!__dredd_some_mutation_enabled) return arg1 - arg2;
  if (__dredd_enabled_mutation(local_mutation_id + 0)) return arg1 + arg2;
  if (__dredd_enabled_mutation(local_mutation_id + 1)) return arg1 / arg2;
  if (__dredd_enabled_mutation(local_mutation_id + 2)) return arg1 * arg2;
  if (__dredd_enabled_mutation(local_mutation_id + 3)) return arg1 % arg2;
  if (__dredd_enabled_mutation(local_mutation_id + 4)) return arg1;
  if (__dredd_enabled_mutation(local_mutation_id + 5)) return arg2;
  return arg1 - arg2;
}

".
Proof. vm_compute. reflexivity. Qed.

(* post_inc_volatile.c.noopt.expected *)
Example t198 : print_mfun (unary_function cc (Build_options false false) (mku PostInc TInt false false false (mk TInt true true false None None None None false None))) =
"static int __dredd_replace_unary_operator_PostInc_volatile_int(volatile int* arg, int local_mutation_id) {
  if (!__dredd_some_mutation_enabled) return (*arg)++;
  if (__dredd_enabled_mutation(local_mutation_id + 0)) return (*arg)--;
  if (__dredd_enabled_mutation(local_mutation_id + 1)) return ~(*arg);
  if (__dredd_enabled_mutation(local_mutation_id + 2)) return -(*arg);
  if (__dredd_enabled_mutation(local_mutation_id + 3)) return !(*arg);
  if (__dredd_enabled_mutation(local_mutation_id + 4)) return (*arg);
  return (*arg)++;
}

".
Proof. vm_compute. reflexivity. Qed.

(* pre_dec_assign.cc.expected *)
Example t204 : print_mfun (binary_function cppc (Build_options true false) (mkb Assign TInt (mk TInt true true true None None None None false None) (mk TInt false false false None None None None false None))) =
"static volatile int& __dredd_replace_binary_operator_Assign_arg1_volatile_int_arg2_int(std::function<volatile int&()> arg1, int arg2, int local_mutation_id) {
  if (!__dredd_some_mutation_enabled) return arg1() = arg2;
  if (__dredd_enabled_mutation(local_mutation_id + 0)) return arg1() += arg2;
  if (__dredd_enabled_mutation(local_mutation_id + 1)) return arg1() &= arg2;
  if (__dredd_enabled_mutation(local_mutation_id + 2)) return arg1() /= arg2;
  if (__dredd_enabled_mutation(local_mutation_id + 3)) return arg1() *= arg2;
  if (__dredd_enabled_mutation(local_mutation_id + 4)) return arg1() |= arg2;
  if (__dredd_enabled_mutation(local_mutation_id + 5)) return arg1() %= arg2;
  if (__dredd_enabled_mutation(local_mutation_id + 6)) return arg1() <<= arg2;
  if (__dredd_enabled_mutation(local_mutation_id + 7)) return arg1() >>= arg2;
  if (__dredd_enabled_mutation(local_mutation_id + 8)) return arg1() -= arg2;
  if (__dredd_enabled_mutation(local_mutation_id + 9)) return arg1() ^= arg2;
  return arg1() = arg2;
}

".
Proof. vm_compute. reflexivity. Qed.

(* pre_dec_assign.cc.noopt.expected *)
Example t210 : print_mfun (binary_function cppc (Build_options false false) (mkb Assign TInt (mk TInt true false true None None None None false None) (mk TInt false false false None None None None false None))) =
"static int& __dredd_replace_binary_operator_Assign_arg1_int_arg2_int(std::function<int&()> arg1, int arg2, int local_mutation_id) {
  if (!__dredd_some_mutation_enabled) return arg1() = arg2;
  if (__dredd_enabled_mutation(local_mutation_id + 0)) return arg1() += arg2;
  if (__dredd_enabled_mutation(local_mutation_id + 1)) return arg1() &= arg2;
  if (__dredd_enabled_mutation(local_mutation_id + 2)) return arg1() /= arg2;
  if (__dredd_enabled_mutation(local_mutation_id + 3)) return arg1() *= arg2;
  if (__dredd_enabled_mutation(local_mutation_id + 4)) return arg1() |= arg2;
  if (__dredd_enabled_mutation(local_mutation_id + 5)) return arg1() %= arg2;
  if (__dredd_enabled_mutation(local_mutation_id + 6)) return arg1() <<= arg2;
  if (__dredd_enabled_mutation(local_mutation_id + 7)) return arg1() >>= arg2;
  if (__dredd_enabled_mutation(local_mutation_id + 8)) return arg1() -= arg2;
  if (__dredd_enabled_mutation(local_mutation_id + 9)) return arg1() ^= arg2;
  return arg1() = arg2;
}

".
Proof. vm_compute. reflexivity. Qed.

(* unary.c.expected *)
Example t216 : print_mfun (unary_function cc (Build_options true false) (mku PreInc TInt false false false (mk TInt true false false None None None None false None))) =
"static int __dredd_replace_unary_operator_PreInc_int(int* arg, int local_mutation_id) {
  if (!__dredd_some_mutation_enabled) return ++(*arg);
  if (__dredd_enabled_mutation(local_mutation_id + 0)) return --(*arg);
  if (__dredd_enabled_mutation(local_mutation_id + 1)) return ~(*arg);
  if (__dredd_enabled_mutation(local_mutation_id + 2)) return -(*arg);
  if (__dredd_enabled_mutation(local_mutation_id + 3)) return !(*arg);
  if (__dredd_enabled_mutation(local_mutation_id + 4)) return (*arg);
  return ++(*arg);
}

".
Proof. vm_compute. reflexivity. Qed.

(* unary.c.expected *)
Example t222 : print_mfun (unary_function cc (Build_options true false) (mku PostDec TFloat false false false (mk TFloat true false false None None None None false None))) =
"static float __dredd_replace_unary_operator_PostDec_float(float* arg, int local_mutation_id) {
  if (!__dredd_some_mutation_enabled) return (*arg)--;
  if (__dredd_enabled_mutation(local_mutation_id + 0)) return (*arg)++;
  if (__dredd_enabled_mutation(local_mutation_id + 1)) return -(*arg);
  if (__dredd_enabled_mutation(local_mutation_id + 2)) return !(*arg);
  if (__dredd_enabled_mutation(local_mutation_id + 3)) return (*arg);
  return (*arg)--;
}

".
Proof. vm_compute. reflexivity. Qed.

(* unary.c.noopt.expected *)
Example t228 : print_mfun (unary_function cc (Build_options false false) (mku PostInc TFloat false false false (mk TFloat true false false None None None None false None))) =
"static float __dredd_replace_unary_operator_PostInc_float(float* arg, int local_mutation_id) {
  if (!__dredd_some_mutation_enabled) return (*arg)++;
  if (__dredd_enabled_mutation(local_mutation_id + 0)) return (*arg)--;
  if (__dredd_enabled_mutation(local_mutation_id + 1)) return -(*arg);
  if (__dredd_enabled_mutation(local_mutation_id + 2)) return !(*arg);
  if (__dredd_enabled_mutation(local_mutation_id + 3)) return (*arg);
  return (*arg)++;
}

".
Proof. vm_compute. reflexivity. Qed.

(* unary.cc.expected *)
Example t234 : print_mfun (unary_function cppc (Build_options true false) (mku PostInc TFloat false false true (mk TFloat true false false None None None None false None))) =
"static float __dredd_replace_unary_operator_PostInc_float(std::function<float&()> arg, int local_mutation_id) {
  if (!__dredd_some_mutation_enabled) return arg()++;
  if (__dredd_enabled_mutation(local_mutation_id + 0)) return arg()--;
  if (__dredd_enabled_mutation(local_mutation_id + 1)) return -arg();
  if (__dredd_enabled_mutation(local_mutation_id + 2)) return !arg();
  if (__dredd_enabled_mutation(local_mutation_id + 3)) return arg();
  return arg()++;
}

".
Proof. vm_compute. reflexivity. Qed.

(* unary.cc.noopt.expected *)
Example t240 : print_mfun (unary_function cppc (Build_options false false) (mku PostInc TFloat false false true (mk TFloat true false false None None None None false None))) =
"static float __dredd_replace_unary_operator_PostInc_float(std::function<float&()> arg, int local_mutation_id) {
  if (!__dredd_some_mutation_enabled) return arg()++;
  if (__dredd_enabled_mutation(local_mutation_id + 0)) return arg()--;
  if (__dredd_enabled_mutation(local_mutation_id + 1)) return -arg();
  if (__dredd_enabled_mutation(local_mutation_id + 2)) return !arg();
  if (__dredd_enabled_mutation(local_mutation_id + 3)) return arg();
  return arg()++;
}

".
Proof. vm_compute. reflexivity. Qed.

(* unary_logical_not.c.noopt.expected *)
Example t246 : print_mfun (unary_function ccb (Build_options false false) (mku LNot TInt false false false (mk TBool false false false None None None None false None))) =
"static int __dredd_replace_unary_operator_LNot_bool(bool arg, int local_mutation_id) {
  if (!__dredd_some_mutation_enabled) return !arg;
  if (__dredd_enabled_mutation(local_mutation_id + 0)) return ~arg;
  if (__dredd_enabled_mutation(local_mutation_id + 1)) return -arg;
  if (__dredd_enabled_mutation(local_mutation_id + 2)) return arg;
  return !arg;
}

".
Proof. vm_compute. reflexivity. Qed.

(* unsigned_int.c.expected *)
Example t252 : print_mfun (expr_function cc (Build_options true false) (mk TUInt false false false (Some 1) None None None false None)) =
"static unsigned int __dredd_replace_expr_unsigned_int_one(unsigned int arg, int local_mutation_id) {
  if (!__dredd_some_mutation_enabled) return arg;
  if (__dredd_enabled_mutation(local_mutation_id + 0)) return ~(arg);
  if (__dredd_enabled_mutation(local_mutation_id + 1)) return 0;
  return arg;
}

".
Proof. vm_compute. reflexivity. Qed.

(* unsigned_int.cc.expected *)
Example t258 : print_mfun (unary_function cppc (Build_options true false) (mku LNot TBool false false false (mk TBool false false false (Some 0) None (Some false) None false None))) =
"static bool __dredd_replace_unary_operator_LNot_bool_zero(bool arg, int local_mutation_id) {
  if (!__dredd_some_mutation_enabled) return !arg;
  if (__dredd_enabled_mutation(local_mutation_id + 0)) return ~arg;
  return !arg;
}

".
Proof. vm_compute. reflexivity. Qed.

(* vector_returns_temporary.cc.expected *)
Example t264 : print_mfun (expr_function cppc (Build_options true false) (mk TULong false false false (Some 0) None None None false None)) =
"static unsigned long __dredd_replace_expr_unsigned_long_zero(unsigned long arg, int local_mutation_id) {
  if (!__dredd_some_mutation_enabled) return arg;
  if (__dredd_enabled_mutation(local_mutation_id + 0)) return ~(arg);
  if (__dredd_enabled_mutation(local_mutation_id + 1)) return 1;
  return arg;
}

".
Proof. vm_compute. reflexivity. Qed.

(* volatile.cc.noopt.expected *)
Example t270 : print_mfun (binary_function cppc (Build_options false false) (mkb AddAssign TInt (mk TInt true true false None None None None false None) (mk TInt false false false None None None None false None))) =
"static volatile int& __dredd_replace_binary_operator_AddAssign_arg1_volatile_int_arg2_int(volatile int& arg1, int arg2, int local_mutation_id) {
  if (!__dredd_some_mutation_enabled) return arg1 += arg2;
  if (__dredd_enabled_mutation(local_mutation_id + 0)) return arg1 &= arg2;
  if (__dredd_enabled_mutation(local_mutation_id + 1)) return arg1 = arg2;
  if (__dredd_enabled_mutation(local_mutation_id + 2)) return arg1 /= arg2;
  if (__dredd_enabled_mutation(local_mutation_id + 3)) return arg1 *= arg2;
  if (__dredd_enabled_mutation(local_mutation_id + 4)) return arg1 |= arg2;
  if (__dredd_enabled_mutation(local_mutation_id + 5)) return arg1 %= arg2;
  if (__dredd_enabled_mutation(local_mutation_id + 6)) return arg1 <<= arg2;
  if (__dredd_enabled_mutation(local_mutation_id + 7)) return arg1 >>= arg2;
  if (__dredd_enabled_mutation(local_mutation_id + 8)) return arg1 -= arg2;
  if (__dredd_enabled_mutation(local_mutation_id + 9)) return arg1 ^= arg2;
  return arg1 += arg2;
}

".
Proof. vm_compute. reflexivity. Qed.
