(* Properties of the mutants dropped because an operand is constant or an operator is its own
   inverse: C25, C26, C47. *)
From Coq Require Import String List ZArith Bool Lia.
From Verif Require Import Base Clang Gen GenExpr GenBinary GenUnary Sites ArithSpec ArithProof.
Import ListNotations.
Local Open Scope Z_scope.

(* C25: every replacement operator. *)
Theorem C25_operators : forall c b e x y o v,
  arithmetic_node c b e x y -> In o (replacement_ops false b) ->
  arithmetic c (b_ty b) o x y = Some v -> covered c b e x y v.
Proof. exact arithmetic_covered. Qed.
Print Assumptions C25_operators.

(* C25: operators that are no mutation site because the operands are 0 and 1; signed types. *)
Theorem C25_skipped_sites : forall c b e x y l r m a v,
  arithmetic_node c b e x y ->
  binary_site false l r b = true -> binary_site true l r b = false ->
  is_signed c (b_ty b) = true ->
  In (a, m) (binary_mutants false b) -> binary_mutant_value c (b_ty b) x y m = Some v ->
  original_or_constant c e (arithmetic c (b_ty b) (b_op b) x y) v.
Proof. exact skipped_covered. Qed.
Print Assumptions C25_skipped_sites.

(* An integer constant or unknown value. *)
Definition value_of (t : ty) (k : option Z) (o : option bop) : expr :=
  {| e_ty := t; e_lvalue := false; e_volatile := false; e_const := false;
     e_bitfield := false; e_side_effects := false; e_int := k; e_float := None;
     e_boolval := None; e_cxx11_constant := false; e_binop := o;
     e_logical_operand := false; e_cast_parent_lvalue := None; e_init_list_cast := None;
     e_preceded_by_ident := false; e_range := {| r_begin := 0; r_end := 1 |} |}.
Definition binary_of (t : ty) (o : bop) (k1 k2 : option Z) : binary :=
  {| b_op := o; b_ty := t; b_lhs := value_of t k1 None; b_rhs := value_of t k2 None;
     b_op_offset := 1; b_range := {| r_begin := 0; r_end := 3 |} |}.
Definition unary_of (t result : ty) (o : uop) (k : option Z) : unary :=
  {| u_op := o; u_ty := result; u_lvalue := false; u_volatile := false; u_const := false;
     u_side_effects := false; u_sub := value_of t k None; u_op_offset := 0;
     u_range := {| r_begin := 0; r_end := 2 |} |}.
Definition cpp_ctx : ctx :=
  {| cpp := true; prints_bool := true; char_signed := true; wchar_signed := true |}.
Definition c_ctx : ctx :=
  {| cpp := false; prints_bool := false; char_signed := true; wchar_signed := true |}.

Ltac node :=
  unfold arithmetic_node, unary_node, plain_value, constant_if_known, in_type; cbn;
  repeat match goal with |- _ /\ _ => split end;
  try (left; split; reflexivity); try (intros; congruence); try lia.

(* x + 0 with x = 7: the replacement - is dropped. *)
Example C25_operators_example :
  arithmetic_node cpp_ctx (binary_of TInt Add None (Some 0)) (value_of TInt None (Some Add)) 7 0 /\
  In Sub (replacement_ops false (binary_of TInt Add None (Some 0))) /\
  ~ In Sub (replacement_ops true (binary_of TInt Add None (Some 0))) /\
  arithmetic cpp_ctx TInt Sub 7 0 = Some 7.
Proof.
  split; [node|]. split; [vm_compute; tauto|]. split; [|reflexivity].
  vm_compute. intuition discriminate.
Qed.

Example C25_skipped_example :
  arithmetic_node c_ctx (binary_of TLong Add (Some 0) (Some 1))
    (value_of TLong (Some 1) (Some Add)) 0 1 /\
  binary_site false true true (binary_of TLong Add (Some 0) (Some 1)) = true /\
  binary_site true true true (binary_of TLong Add (Some 0) (Some 1)) = false /\
  is_signed c_ctx TLong = true.
Proof. split; [node|repeat split]. Qed.

(* 0u + 1u: replacing + by - would give the largest value. *)
Theorem C25_unsigned_refuted : exists c b e x y a m v,
  arithmetic_node c b e x y /\
  binary_site false true true b = true /\ binary_site true true true b = false /\
  In (a, m) (binary_mutants false b) /\ binary_mutant_value c (b_ty b) x y m = Some v /\
  ~ original_or_constant c e (arithmetic c (b_ty b) (b_op b) x y) v.
Proof.
  exists cpp_ctx, (binary_of TUInt Add (Some 0) (Some 1)), (value_of TUInt (Some 1) (Some Add)),
    0, 1, BReplaceWithSub, (RBin Sub), 4294967295.
  split; [node|]. split; [reflexivity|]. split; [reflexivity|].
  split; [vm_compute; tauto|]. split; [reflexivity|].
  intros [O|(a & m & I & V)]; [discriminate|].
  vm_compute in I. repeat (destruct I as [I|I]; [injection I as <- <-; discriminate|]). destruct I.
Qed.
Print Assumptions C25_unsigned_refuted.

(* C26: replacement operators dropped at a site. *)
Theorem C26_replacements : forall c u e x i o v,
  unary_node c u e x -> unary_site true i u = true ->
  In o (replacement_uops false u) -> ~ In o (replacement_uops true u) ->
  unary_mutant_value c (e_ty (u_sub u)) (u_ty u) x (apply_uop o) = Some v ->
  original_or_constant c e
    (option_map (convert c (u_ty u)) (unary_arithmetic c (e_ty (u_sub u)) (u_op u) x)) v.
Proof. exact unary_dropped. Qed.
Print Assumptions C26_replacements.

(* C26: insertions dropped. *)
Theorem C26_insertions : forall c e x a o v,
  plain_value c e x ->
  In (a, RPreParen o) (expr_mutants c false e) ->
  ~ In (a, RPreParen o) (expr_mutants c true e) ->
  unary_mutant_value c (e_ty e) (e_ty e) x (RPreParen o) = Some v ->
  original_or_constant c e (Some x) v.
Proof. exact insertion_dropped. Qed.
Print Assumptions C26_insertions.

(* C26: ~0 and ~1, which are no mutation site; signed types. *)
Theorem C26_skipped_not : forall c u e x i a m v,
  unary_node c u e x -> unary_site false i u = true -> unary_site true i u = false ->
  u_op u = Not -> is_signed c (u_ty u) = true ->
  In (a, m) (unary_mutants false u) ->
  unary_mutant_value c (e_ty (u_sub u)) (u_ty u) x m = Some v ->
  original_or_constant c e
    (option_map (convert c (u_ty u)) (unary_arithmetic c (e_ty (u_sub u)) (u_op u) x)) v.
Proof. exact not_skipped. Qed.
Print Assumptions C26_skipped_not.

(* !1 in C, and insertion before the constant 1 of type char. *)
Example C26_replacements_example :
  unary_node c_ctx (unary_of TUInt TInt LNot (Some 1)) (value_of TInt (Some 0) None) 1 /\
  unary_site true true (unary_of TUInt TInt LNot (Some 1)) = true /\
  In Minus (replacement_uops false (unary_of TUInt TInt LNot (Some 1))) /\
  ~ In Minus (replacement_uops true (unary_of TUInt TInt LNot (Some 1))) /\
  unary_mutant_value c_ctx TUInt TInt 1 (apply_uop Minus) = Some (-1).
Proof.
  split; [node|]. split; [reflexivity|]. split; [vm_compute; tauto|].
  split; [vm_compute; intuition discriminate|reflexivity].
Qed.
Example C26_insertions_example :
  plain_value c_ctx (value_of TChar (Some 1) None) 1 /\
  In (InsertMinus, RPreParen Minus) (expr_mutants c_ctx false (value_of TChar (Some 1) None)) /\
  ~ In (InsertMinus, RPreParen Minus) (expr_mutants c_ctx true (value_of TChar (Some 1) None)) /\
  unary_mutant_value c_ctx TChar TChar 1 (RPreParen Minus) = Some (-1).
Proof.
  split; [node|]. split; [vm_compute; tauto|].
  split; [vm_compute; intuition discriminate|reflexivity].
Qed.
Example C26_skipped_example :
  unary_node cpp_ctx (unary_of TInt TInt Not (Some 1)) (value_of TInt (Some (-2)) None) 1 /\
  unary_site false true (unary_of TInt TInt Not (Some 1)) = true /\
  unary_site true true (unary_of TInt TInt Not (Some 1)) = false /\
  In (ReplaceWithMinus, RPre Minus) (unary_mutants false (unary_of TInt TInt Not (Some 1))).
Proof. split; [node|]. repeat split. vm_compute. tauto. Qed.

(* -1 is no mutation site; ~1 would give -2. *)
Theorem C26_minus_one_refuted : exists c u e x a m v,
  unary_node c u e x /\ unary_site false true u = true /\ unary_site true true u = false /\
  is_signed c (u_ty u) = true /\
  In (a, m) (unary_mutants false u) /\
  unary_mutant_value c (e_ty (u_sub u)) (u_ty u) x m = Some v /\
  ~ original_or_constant c e
      (option_map (convert c (u_ty u)) (unary_arithmetic c (e_ty (u_sub u)) (u_op u) x)) v.
Proof.
  exists cpp_ctx, (unary_of TInt TInt Minus (Some 1)), (value_of TInt (Some (-1)) None), 1,
    ReplaceWithNot, (RPre Not), (-2).
  split; [node|]. split; [reflexivity|]. split; [reflexivity|]. split; [reflexivity|].
  split; [vm_compute; tauto|]. split; [reflexivity|].
  intros [O|(a & m & I & V)]; [discriminate|].
  vm_compute in I. repeat (destruct I as [I|I]; [injection I as <- <-; discriminate|]). destruct I.
Qed.
Print Assumptions C26_minus_one_refuted.

(* ~1u is no mutation site; -1u would give the largest value. *)
Theorem C26_unsigned_not_refuted : exists c u e x a m v,
  unary_node c u e x /\ unary_site false true u = true /\ unary_site true true u = false /\
  u_op u = Not /\
  In (a, m) (unary_mutants false u) /\
  unary_mutant_value c (e_ty (u_sub u)) (u_ty u) x m = Some v /\
  ~ original_or_constant c e
      (option_map (convert c (u_ty u)) (unary_arithmetic c (e_ty (u_sub u)) (u_op u) x)) v.
Proof.
  exists cpp_ctx, (unary_of TUInt TUInt Not (Some 1)), (value_of TUInt (Some 4294967294) None), 1,
    ReplaceWithMinus, (RPre Minus), 4294967295.
  split; [node|]. split; [reflexivity|]. split; [reflexivity|]. split; [reflexivity|].
  split; [vm_compute; tauto|]. split; [reflexivity|].
  intros [O|(a & m & I & V)]; [discriminate|].
  vm_compute in I. repeat (destruct I as [I|I]; [injection I as <- <-; discriminate|]). destruct I.
Qed.
Print Assumptions C26_unsigned_not_refuted.

(* C47: dropping a self-inverse operator is the same as inserting it once more. *)
Theorem C47_self_inverse : forall c u e x y,
  unary_node c u e x -> e_logical_operand e = false ->
  (u_op u = Minus -> is_signed c (u_ty u) = true) ->
  (u_op u = LNot -> cpp c = true /\ e_ty (u_sub u) = TBool) ->
  option_map (convert c (u_ty u))
    (unary_arithmetic c (e_ty (u_sub u)) (u_op u) x) = Some y ->
  original_or_constant c e (Some y) (convert c (u_ty u) x) \/
  insertion_gives c e y (convert c (u_ty u) x).
Proof. exact self_inverse_covered. Qed.
Print Assumptions C47_self_inverse.

Example C47_example :
  unary_node cpp_ctx (unary_of TInt TInt Minus None) (value_of TInt None None) 5 /\
  option_map (convert cpp_ctx TInt) (unary_arithmetic cpp_ctx TInt Minus 5) = Some (-5) /\
  ~ In (ReplaceWithOperand, RArg1) (unary_mutants true (unary_of TInt TInt Minus None)) /\
  In (ReplaceWithOperand, RArg1) (unary_mutants false (unary_of TInt TInt Minus None)).
Proof.
  split; [node|]. split; [reflexivity|].
  split; [vm_compute; intuition discriminate|vm_compute; tauto].
Qed.

(* C47: for all other unary operators the replacement by the operand is kept. *)
Theorem C47_only_self_inverse_dropped : forall u,
  ~ In (ReplaceWithOperand, RArg1) (unary_mutants true u) ->
  u_op u = LNot \/ u_op u = Minus \/ u_op u = Not.
Proof. exact only_self_inverse_dropped. Qed.
Print Assumptions C47_only_self_inverse_dropped.

Example C47_dropped_example :
  ~ In (ReplaceWithOperand, RArg1) (unary_mutants true (unary_of TInt TInt Not None)) /\
  In (ReplaceWithOperand, RArg1) (unary_mutants true (unary_of TInt TInt PostInc None)).
Proof. split; [vm_compute; intuition discriminate|vm_compute; tauto]. Qed.

(* -u for unsigned u: no second minus is inserted before unsigned values. *)
Theorem C47_unsigned_minus_refuted : exists c u e x y,
  unary_node c u e x /\ e_logical_operand e = false /\ u_op u = Minus /\
  option_map (convert c (u_ty u))
    (unary_arithmetic c (e_ty (u_sub u)) (u_op u) x) = Some y /\
  In (ReplaceWithOperand, RArg1) (unary_mutants false u) /\
  ~ In (ReplaceWithOperand, RArg1) (unary_mutants true u) /\
  ~ original_or_constant c e (Some y) (convert c (u_ty u) x) /\
  ~ insertion_gives c e y (convert c (u_ty u) x).
Proof.
  exists cpp_ctx, (unary_of TUInt TUInt Minus None), (value_of TUInt None None), 5, 4294967291.
  split; [node|]. split; [reflexivity|]. split; [reflexivity|]. split; [reflexivity|].
  split; [vm_compute; tauto|]. split; [vm_compute; intuition discriminate|].
  split.
  - intros [O|(a & m & I & V)]; [discriminate|].
    vm_compute in I.
    repeat (destruct I as [I|I]; [injection I as <- <-; discriminate|]). destruct I.
  - intros (a & m & I & V). vm_compute in I.
    repeat (destruct I as [I|I]; [injection I as <- <-; discriminate|]). destruct I.
Qed.
Print Assumptions C47_unsigned_minus_refuted.

(* !x in C, where the operand may be any integer: !!x is 0 or 1. *)
Theorem C47_c_not_refuted : exists c u e x y,
  unary_node c u e x /\ e_logical_operand e = false /\ u_op u = LNot /\ cpp c = false /\
  option_map (convert c (u_ty u))
    (unary_arithmetic c (e_ty (u_sub u)) (u_op u) x) = Some y /\
  In (ReplaceWithOperand, RArg1) (unary_mutants false u) /\
  ~ In (ReplaceWithOperand, RArg1) (unary_mutants true u) /\
  ~ original_or_constant c e (Some y) (convert c (u_ty u) x) /\
  ~ insertion_gives c e y (convert c (u_ty u) x).
Proof.
  exists c_ctx, (unary_of TInt TInt LNot None), (value_of TInt None None), 5, 0.
  split; [node|]. split; [reflexivity|]. split; [reflexivity|]. split; [reflexivity|].
  split; [reflexivity|].
  split; [vm_compute; tauto|]. split; [vm_compute; intuition discriminate|].
  split.
  - intros [O|(a & m & I & V)]; [discriminate|].
    vm_compute in I.
    repeat (destruct I as [I|I]; [injection I as <- <-; discriminate|]). destruct I.
  - intros (a & m & I & V). vm_compute in I.
    repeat (destruct I as [I|I]; [injection I as <- <-; discriminate|]). destruct I.
Qed.
Print Assumptions C47_c_not_refuted.
