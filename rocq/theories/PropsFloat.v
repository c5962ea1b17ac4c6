(* Properties of the reduced mutant sets of floating-point expressions: C65. *)
From Coq Require Import String List ZArith Bool Lia SpecFloat.
From Verif Require Import Base Clang Gen GenExpr GenBinary GenUnary Sites FloatSpec FloatProof.
Import ListNotations.
Local Open Scope Z_scope.

(* C65: operators dropped.  Up to the sign of a zero nothing is lost, except the NaN that
   comes from infinity times zero or from zero divided by zero. *)
Theorem C65_operators : forall prec emax c b e x y o v,
  1 < prec < emax -> float_node prec emax b e x y ->
  In o (replacement_ops false b) -> float_arithmetic prec emax o x y = Some v ->
  new_nan o x y \/ exists w, same_number v w /\ float_kept prec emax c b e x y w.
Proof. exact (fun prec emax c b e x y o v P N => operators_lemma prec emax P c b e x y N o v). Qed.
Print Assumptions C65_operators.

(* C65: operators that are no mutation site because the operands are 0.0 and 1.0.  Nothing is
   lost. *)
Theorem C65_skipped_sites : forall prec emax c b e x y l r a m v,
  1 < prec < emax -> float_node prec emax b e x y ->
  binary_site false l r b = true -> binary_site true l r b = false ->
  In (a, m) (binary_mutants false b) -> float_value prec emax m x y = Some v ->
  exists original, float_arithmetic prec emax (b_op b) x y = Some original /\
    float_constant_kept prec emax c e original v.
Proof. exact (fun prec emax c b e x y l r a m v P => skipped_lemma prec emax P c b e x y l r a m v). Qed.
Print Assumptions C65_skipped_sites.

(* C65: constants and minus signs dropped.  Before an operand of && or || in C++ only the
   truth of the operand matters. *)
Theorem C65_expressions : forall prec emax c e x a m v,
  1 < prec < emax -> float_expr prec emax e x ->
  In (a, m) (expr_mutants c false e) -> float_value prec emax m x x = Some v ->
  (exists w, same_number v w /\ float_expr_kept prec emax c e x w) \/
  cpp c = true /\ e_logical_operand e = true /\ is_zero v = is_zero x.
Proof. exact (fun prec emax c e x a m v P => expr_lemma prec emax P c e x a m v). Qed.
Print Assumptions C65_expressions.

(* C65: the mutants of -x, whether -x remains a mutation site or not. *)
Theorem C65_minus : forall prec emax c u e x a m v,
  1 < prec < emax -> float_minus_node prec emax u e x ->
  In (a, m) (unary_mutants false u) -> float_value prec emax m x x = Some v ->
  (exists w, same_number v w /\ float_expr_kept prec emax c e (SFopp x) w) \/
  cpp c = true /\ e_logical_operand e = true /\ is_zero v = is_zero (SFopp x).
Proof. exact (fun prec emax c u e x a m v P => minus_lemma prec emax P c u e x a m v). Qed.
Print Assumptions C65_minus.

(* Expressions of type double that Clang knows to be f, or not to be constant *)
Definition double_of (f : option fconst) (o : option bop) : expr :=
  {| e_ty := TDouble; e_lvalue := false; e_volatile := false; e_const := false;
     e_bitfield := false; e_side_effects := false; e_int := None; e_float := f;
     e_boolval := None; e_cxx11_constant := false; e_binop := o;
     e_logical_operand := false; e_cast_parent_lvalue := None; e_init_list_cast := None;
     e_preceded_by_ident := false; e_range := {| r_begin := 0; r_end := 3 |} |}.
Definition double_binary (o : bop) (f g : option fconst) : binary :=
  {| b_op := o; b_ty := TDouble; b_lhs := double_of f None; b_rhs := double_of g None;
     b_op_offset := 1; b_range := {| r_begin := 0; r_end := 3 |} |}.
Definition double_minus (f : option fconst) : unary :=
  {| u_op := Minus; u_ty := TDouble; u_lvalue := false; u_volatile := false;
     u_const := false; u_side_effects := false; u_sub := double_of f None; u_op_offset := 0;
     u_range := {| r_begin := 0; r_end := 3 |} |}.
Definition in_cpp : ctx :=
  {| cpp := true; prints_bool := true; char_signed := true; wchar_signed := true |}.
Definition half : spec_float := S754_finite false 4503599627370496 (-53).

Ltac node := unfold float_node, float_minus_node, float_expr, known_float; cbn [b_lhs b_rhs
  double_binary double_of b_ty e_ty e_float b_op u_op u_ty u_sub double_minus]; repeat split;
  try reflexivity; try (cbn; tauto); try (intros v E; vm_compute in E |- *; assumption).

(* 0.5 * 1.0, of which 0.5 / 1.0 is no mutant because 0.5 is. *)
Example C65_operators_example :
  float_node 53 1024 (double_binary Mul None (Some FOne)) (double_of None (Some Mul))
    half (SFone 53 1024) /\
  In Div (replacement_ops false (double_binary Mul None (Some FOne))) /\
  ~ In Div (replacement_ops true (double_binary Mul None (Some FOne))) /\
  float_arithmetic 53 1024 Div half (SFone 53 1024) = Some half /\
  In (ReplaceWithLHS, RArg1) (binary_mutants true (double_binary Mul None (Some FOne))).
Proof.
  split; [node|]. split; [vm_compute; tauto|]. split; [vm_compute; intuition discriminate|].
  split; [reflexivity|vm_compute; tauto].
Qed.

(* 0.0 - 1.0 *)
Example C65_skipped_example :
  float_node 53 1024 (double_binary Sub (Some FZero) (Some FOne))
    (double_of (Some FMinusOne) (Some Sub)) (S754_zero false) (SFone 53 1024) /\
  binary_site false true true (double_binary Sub (Some FZero) (Some FOne)) = true /\
  binary_site true true true (double_binary Sub (Some FZero) (Some FOne)) = false /\
  In (BReplaceWithDiv, RBin Div) (binary_mutants false (double_binary Sub (Some FZero) (Some FOne))).
Proof. split; [node|]. split; [reflexivity|]. split; [reflexivity|vm_compute; tauto]. Qed.

(* The constant 1.0, before which no minus sign is inserted. *)
Example C65_expressions_example :
  float_expr 53 1024 (double_of (Some FOne) None) (SFone 53 1024) /\
  In (InsertMinus, RPreParen Minus) (expr_mutants in_cpp false (double_of (Some FOne) None)) /\
  ~ In (InsertMinus, RPreParen Minus) (expr_mutants in_cpp true (double_of (Some FOne) None)).
Proof.
  split; [node|]. split; [vm_compute; tauto|vm_compute; intuition discriminate].
Qed.

(* -x, which is not replaced by x since -(-x) is a mutant. *)
Example C65_minus_example :
  float_minus_node 53 1024 (double_minus None) (double_of None None) half /\
  In (ReplaceWithOperand, RArg1) (unary_mutants false (double_minus None)) /\
  ~ In (ReplaceWithOperand, RArg1) (unary_mutants true (double_minus None)).
Proof.
  split; [node|]. split; [vm_compute; tauto|vm_compute; intuition discriminate].
Qed.

Ltac none_kept := intros H; unfold float_kept, float_constant_kept in H;
  repeat match goal with
  | H : exists _, _ |- _ => destruct H
  | H : _ /\ _ |- _ => destruct H
  | H : _ \/ _ |- _ => destruct H
  | H : In _ _ |- _ => vm_compute in H
  | H : False |- _ => destruct H
  | H : (_, _) = (_, _) |- _ => injection H; clear H; intros; subst
  | H : Some _ = Some _ |- _ => injection H; clear H; intros; subst
  end; try discriminate;
  match goal with H : _ = Some _ |- _ => vm_compute in H; congruence end.

(* The dropped mutants that do something of their own: x * 0.0 for x + 0.0 when x is
   infinite, and 0.0 / y for 0.0 + y when y is zero ... *)
Theorem C65_times_zero_refuted : exists c b e x y o v,
  float_node 53 1024 b e x y /\ In o (replacement_ops false b) /\
  float_arithmetic 53 1024 o x y = Some v /\
  ~ exists w, same_number v w /\ float_kept 53 1024 c b e x y w.
Proof.
  exists in_cpp, (double_binary Add None (Some FZero)), (double_of None (Some Add)),
    (S754_infinity false), (S754_zero false), Mul, S754_nan.
  split; [node|]. split; [vm_compute; tauto|]. split; [reflexivity|].
  intros (w & [<-|[Z _]] & H); [|discriminate]. revert H. none_kept.
Qed.
Print Assumptions C65_times_zero_refuted.

Theorem C65_zero_over_refuted : exists c b e x y v,
  float_node 53 1024 b e x y /\ In Div (replacement_ops false b) /\
  float_arithmetic 53 1024 Div x y = Some v /\
  ~ exists w, same_number v w /\ float_kept 53 1024 c b e x y w.
Proof.
  exists in_cpp, (double_binary Add (Some FZero) None), (double_of None (Some Add)),
    (S754_zero false), (S754_zero false), S754_nan.
  split; [node|]. split; [vm_compute; tauto|]. split; [reflexivity|].
  intros (w & [<-|[Z _]] & H); [|discriminate]. revert H. none_kept.
Qed.
Print Assumptions C65_zero_over_refuted.

(* ... and x * 0.0 for x + 0.0 when x is negative, if the sign of zero matters. *)
Theorem C65_sign_of_zero_refuted : exists c b e x y o v,
  float_node 53 1024 b e x y /\ In o (replacement_ops false b) /\
  float_arithmetic 53 1024 o x y = Some v /\ ~ new_nan o x y /\
  ~ float_kept 53 1024 c b e x y v.
Proof.
  exists in_cpp, (double_binary Add None (Some FZero)), (double_of None (Some Add)),
    (SFopp half), (S754_zero false), Mul, (S754_zero true).
  split; [node|]. split; [vm_compute; tauto|]. split; [reflexivity|].
  split; [|none_kept].
  intros [(_ & [(H & _)|(H & _)])|(H & _)]; discriminate.
Qed.
Print Assumptions C65_sign_of_zero_refuted.
