(* mutation_replace_binary_operator.cc *)
From Coq Require Import String Ascii List NArith ZArith Bool.
From Verif Require Import Base Clang Gen GenExpr.
Import ListNotations.
Local Open Scope string_scope.

(* protobufs/dredd.proto MutationReplaceBinaryOperatorAction *)
Inductive bin_action :=
| ReplaceWithLHS | ReplaceWithRHS
| BReplaceWithAdd | BReplaceWithDiv | BReplaceWithMul | BReplaceWithRem | BReplaceWithSub
| BReplaceWithAddAssign | BReplaceWithAndAssign | BReplaceWithAssign
| BReplaceWithDivAssign | BReplaceWithMulAssign | BReplaceWithOrAssign
| BReplaceWithRemAssign | BReplaceWithShlAssign | BReplaceWithShrAssign
| BReplaceWithSubAssign | BReplaceWithXorAssign
| BReplaceWithAnd | BReplaceWithOr | BReplaceWithXor
| BReplaceWithLAnd | BReplaceWithLOr
| BReplaceWithEQ | BReplaceWithGE | BReplaceWithGT | BReplaceWithLE | BReplaceWithLT
| BReplaceWithNE | BReplaceWithShl | BReplaceWithShr
| BReplaceWithUnknown.   (* MutationReplaceBinaryOperatorAction_MAX, for Comma *)

(* mutation_replace_binary_operator.cc:910-986 *)
Definition bop_action (o : bop) : bin_action :=
  match o with
  | Mul => BReplaceWithMul | Div => BReplaceWithDiv | Rem => BReplaceWithRem
  | Add => BReplaceWithAdd | Sub => BReplaceWithSub
  | Shl => BReplaceWithShl | Shr => BReplaceWithShr
  | LT => BReplaceWithLT | GT => BReplaceWithGT | LE => BReplaceWithLE
  | GE => BReplaceWithGE | EQ => BReplaceWithEQ | NE => BReplaceWithNE
  | And => BReplaceWithAnd | Xor => BReplaceWithXor | Or => BReplaceWithOr
  | LAnd => BReplaceWithLAnd | LOr => BReplaceWithLOr
  | Assign => BReplaceWithAssign | MulAssign => BReplaceWithMulAssign
  | DivAssign => BReplaceWithDivAssign | RemAssign => BReplaceWithRemAssign
  | AddAssign => BReplaceWithAddAssign | SubAssign => BReplaceWithSubAssign
  | ShlAssign => BReplaceWithShlAssign | ShrAssign => BReplaceWithShrAssign
  | AndAssign => BReplaceWithAndAssign | XorAssign => BReplaceWithXorAssign
  | OrAssign => BReplaceWithOrAssign
  | Comma => BReplaceWithUnknown
  end.

(* What Clang answers about a BinaryOperator node. *)
Record binary := {
  b_op : bop;                 (* getOpcode() *)
  b_ty : ty;                  (* getType() as builtin type *)
  b_lhs : expr;               (* getLHS() *)
  b_rhs : expr;               (* getRHS() *)
  b_op_offset : nat;          (* getOperatorLoc() *)
  b_range : range             (* range of the whole expression *)
}.

(* mutation_replace_binary_operator.cc:1056-1082 *)
Definition redundant_boolean_op (b : binary) (o : bop) : bool :=
  match b_op b with
  | LAnd => negb (bop_eqb o EQ)
  | LOr => negb (bop_eqb o NE)
  | GT => negb (bop_eqb o GE) && negb (bop_eqb o NE)
  | GE => negb (bop_eqb o GT) && negb (bop_eqb o EQ)
  | LT => negb (bop_eqb o LE) && negb (bop_eqb o NE)
  | LE => negb (bop_eqb o LT) && negb (bop_eqb o EQ)
  | EQ => negb (bop_eqb o LE) && negb (bop_eqb o GE)
  | NE => negb (bop_eqb o LT) && negb (bop_eqb o GT)
  | _ => false
  end.

(* mutation_replace_binary_operator.cc:1084-1155 *)
Definition redundant_arithmetic_op (b : binary) (o : bop) : bool :=
  if (equivalent_to (b_lhs b) 0 && equivalent_to (b_rhs b) 0) && bop_eqb o Div then false
  else if equivalent_to (b_rhs b) 0 &&
          match o with Add | Sub | Shl | Shr | Mul | Rem => true | _ => false end
  then true
  else if equivalent_to (b_rhs b) 1 && match o with Mul | Div => true | _ => false end
  then true
  else if equivalent_to (b_lhs b) 0 &&
          match o with Add | Shl | Shr | Mul | Rem | Div => true | _ => false end
  then true
  else if equivalent_to (b_lhs b) 1 && bop_eqb o Mul then true
  else false.

(* mutation_replace_binary_operator.cc:54-64 *)
Definition redundant_op (b : binary) (o : bop) : bool :=
  if redundant_boolean_op b o then true
  else if redundant_arithmetic_op b o then true
  else false.

(* mutation_replace_binary_operator.cc:68-86 *)
Definition valid_op (b : binary) (o : bop) : bool :=
  negb ((is_float (e_ty (b_lhs b)) || is_float (e_ty (b_rhs b))) &&
        match o with
        | Rem | AndAssign | OrAssign | RemAssign | ShlAssign | ShrAssign | XorAssign => true
        | _ => false
        end).

(* mutation_replace_binary_operator.cc:367-393 *)
Definition arithmetic_ops : list bop := [Add; Div; Mul; Rem; Sub].
Definition assignment_ops : list bop :=
  [AddAssign; AndAssign; Assign; DivAssign; MulAssign; OrAssign; RemAssign; ShlAssign;
   ShrAssign; SubAssign; XorAssign].
Definition bitwise_ops : list bop := [And; Or; Xor].
Definition logical_ops : list bop := [LAnd; LOr].
Definition relational_ops : list bop := [EQ; NE; GE; GT; LE; LT].
Definition shift_ops : list bop := [Shl; Shr].

Definition bop_mem (o : bop) (l : list bop) : bool := existsb (bop_eqb o) l.

(* mutation_replace_binary_operator.cc:395-421: the first group that contains the
   operator, extended in the boolean cases *)
Definition candidate_ops (b : binary) : list bop :=
  match find (bop_mem (b_op b))
          [arithmetic_ops; assignment_ops; bitwise_ops; logical_ops; relational_ops;
           shift_ops] with
  | None => []
  | Some g =>
      g ++ when (bop_eqb (b_op b) LAnd || bop_eqb (b_op b) LOr) [EQ; NE]
        ++ when (is_bool (e_ty (b_lhs b)) &&
                 (bop_eqb (b_op b) EQ || bop_eqb (b_op b) NE)) [LAnd; LOr]
  end.

(* mutation_replace_binary_operator.cc:423-436 *)
Definition replacement_ops (opt : bool) (b : binary) : list bop :=
  filter (fun o => negb (bop_eqb o (b_op b) || negb (valid_op b o) ||
                         (opt && redundant_op b o)))
    (candidate_ops b).

(* The operand values that make argument replacement redundant,
   mutation_replace_binary_operator.cc:291-303 and 317-329 *)
Definition unit_constant (e : expr) : bool :=
  equivalent_to_int e 0 || equivalent_to_float e 0 ||
  equivalent_to_int e 1 || equivalent_to_float e 1 ||
  equivalent_to_int e (-1) || equivalent_to_float e (-1).

(* mutation_replace_binary_operator.cc:258-342 *)
Definition argument_replacements (opt : bool) (b : binary) : list (bin_action * rhs) :=
  if opt && is_relational (b_op b) then []
  else if is_assign (b_op b) then []
  else when (negb opt || negb (unit_constant (b_lhs b))) [(ReplaceWithLHS, RArg1)]
       ++ when (negb opt || negb (unit_constant (b_rhs b))) [(ReplaceWithRHS, RArg2)].

(* mutation_replace_binary_operator.cc:344-362 *)
Definition operator_replacements (opt : bool) (b : binary) : list (bin_action * rhs) :=
  map (fun o => (bop_action o, RBin o)) (replacement_ops opt b).

(* The mutants of a binary operator handled by GenerateMutatorFunction, in order
   (mutation_replace_binary_operator.cc:499-507) *)
Definition binary_mutants (opt : bool) (b : binary) : list (bin_action * rhs) :=
  operator_replacements opt b ++ argument_replacements opt b.

Definition bop_name (o : bop) : string :=
  match o with
  | Mul => "Mul" | Div => "Div" | Rem => "Rem" | Add => "Add" | Sub => "Sub"
  | Shl => "Shl" | Shr => "Shr"
  | LT => "LT" | GT => "GT" | LE => "LE" | GE => "GE" | EQ => "EQ" | NE => "NE"
  | And => "And" | Xor => "Xor" | Or => "Or" | LAnd => "LAnd" | LOr => "LOr"
  | Assign => "Assign" | MulAssign => "MulAssign" | DivAssign => "DivAssign"
  | RemAssign => "RemAssign" | AddAssign => "AddAssign" | SubAssign => "SubAssign"
  | ShlAssign => "ShlAssign" | ShrAssign => "ShrAssign" | AndAssign => "AndAssign"
  | XorAssign => "XorAssign" | OrAssign => "OrAssign"
  | Comma => ""
  end.

Definition constant_suffix (side : string) (e : expr) : string :=
  if equivalent_to_int e 0 || equivalent_to_float e 0 then side ++ "_zero"
  else if equivalent_to_int e 1 || equivalent_to_float e 1 then side ++ "_one"
  else if equivalent_to_int e (-1) || equivalent_to_float e (-1) then side ++ "_minus_one"
  else "".

(* mutation_replace_binary_operator.cc:88-256 *)
Definition binary_function_name (c : ctx) (opt : bool) (b : binary) : string :=
  "__dredd_replace_binary_operator_" ++ bop_name (b_op b)
  ++ "_arg1_"
  ++ space_to_underscore
       ((if is_assign (b_op b) && e_volatile (b_lhs b) then "volatile " else "")
        ++ ty_name c (e_ty (b_lhs b)))
  ++ "_arg2_" ++ space_to_underscore (ty_name c (e_ty (b_rhs b)))
  ++ (if opt && negb (is_assign (b_op b))
      then constant_suffix "_rhs" (b_rhs b) ++ constant_suffix "_lhs" (b_lhs b)
      else "").

(* mutation_replace_binary_operator.cc:554-609: types of result, left and right operand *)
Definition binary_result_type (c : ctx) (b : binary) : string :=
  let t := ty_name c (b_ty b) in
  if is_assign (b_op b) && cpp c
  then (if e_volatile (b_lhs b) then "volatile " else "") ++ t ++ "&"
  else t.
Definition binary_lhs_type (c : ctx) (b : binary) : string :=
  let t := ty_name c (e_ty (b_lhs b)) in
  if is_assign (b_op b)
  then (if e_volatile (b_lhs b) then "volatile " else "") ++ t
       ++ (if cpp c then "&" else "*")
  else t.
Definition binary_rhs_type (c : ctx) (b : binary) : string := ty_name c (e_ty (b_rhs b)).

Definition lhs_delayed (c : ctx) (b : binary) : bool := cpp c && e_side_effects (b_lhs b).
Definition rhs_delayed (c : ctx) (b : binary) : bool :=
  cpp c && (is_logical (b_op b) || e_side_effects (b_rhs b)).

(* mutation_replace_binary_operator.cc:438-521 *)
Definition binary_function (c : ctx) (o : options) (b : binary) : mfun :=
  {| mf_result := binary_result_type c b;
     mf_name := binary_function_name c (optimise o) b;
     mf_params := [(wrap_function (lhs_delayed c b) (binary_lhs_type c b), "arg1");
                   (wrap_function (rhs_delayed c b) (binary_rhs_type c b), "arg2")];
     mf_access := (if negb (cpp c) && is_assign (b_op b) then APtr
                   else if lhs_delayed c b then ALam else AVal,
                   if rhs_delayed c b then ALam else AVal);
     mf_fast := negb (track o);
     mf_lines := when (negb (track o))
                   (number_from 0 (map snd (binary_mutants (optimise o) b)));
     mf_track := if track o then Some (List.length (binary_mutants (optimise o) b)) else None;
     mf_orig := RBin (b_op b);
     mf_close := "}" ++ nl ++ nl |}.

(* mutation_replace_binary_operator.cc:627-712 *)
Definition binary_edits (c : ctx) (o : options) (b : binary) (local_id : nat) : list edit :=
  let lt := binary_lhs_type c b in
  let rt := binary_rhs_type c b in
  let lambda t := "[&]() -> " ++ t ++ " { return static_cast<" ++ t ++ ">(" in
  let lhs_prefix :=
    binary_function_name c (optimise o) b ++ "("
    ++ (if lhs_delayed c b then lambda lt
        else if negb (cpp c) && is_assign (b_op b) then "&(" else "") in
  let lhs_suffix :=
    if lhs_delayed c b then "); }"
    else if negb (cpp c) && is_assign (b_op b) then ")" else "" in
  let rhs_prefix := if rhs_delayed c b then lambda rt else "" in
  let rhs_suffix :=
    (if rhs_delayed c b then "); }" else "") ++ ", " ++ string_of_nat local_id ++ ")" in
  [ReplaceText (b_op_offset b) (String.length (bop_str (b_op b))) ",";
   InsertBefore (r_begin (e_range (b_lhs b))) lhs_prefix;
   InsertAfterToken (r_end (e_range (b_lhs b))) lhs_suffix;
   InsertBefore (r_begin (e_range (b_rhs b))) rhs_prefix;
   InsertAfterToken (r_end (e_range (b_rhs b))) rhs_suffix].

(* HandleCLogicalOperator, mutation_replace_binary_operator.cc:714-897 *)
Definition c_logical_unit (b : binary) : Z :=
  if bop_eqb (b_op b) LAnd then 1%Z else 0%Z.

(* The constructor for the three helper functions: (t arg, int local_mutation_id) *)
Definition c_logical_fun (name t : string) (fast : bool) (lines : list (nat * rhs))
  (tr : option nat) : mfun :=
  {| mf_result := t; mf_name := name; mf_params := [(t, "arg")];
     mf_access := (AVal, AVal); mf_fast := fast; mf_lines := lines; mf_track := tr;
     mf_orig := RArg1; mf_close := "}" ++ nl |}.

(* lines 741-786 *)
Definition c_logical_lhs_function (c : ctx) (o : options) (b : binary) : mfun :=
  c_logical_fun (binary_function_name c (optimise o) b ++ "_lhs")
    (ty_name c (e_ty (b_lhs b))) true
    [(0, RPre LNot); (2, RLit (LInt (c_logical_unit b)))] None.
(* lines 788-833 *)
Definition c_logical_rhs_function (c : ctx) (o : options) (b : binary) : mfun :=
  c_logical_fun (binary_function_name c (optimise o) b ++ "_rhs")
    (ty_name c (e_ty (b_rhs b))) true
    [(0, RPre LNot); (1, RLit (LInt (c_logical_unit b)))] None.
(* lines 836-875 *)
Definition c_logical_outer_function (c : ctx) (o : options) (b : binary) : mfun :=
  c_logical_fun (binary_function_name c (optimise o) b ++ "_outer")
    (ty_name c (b_ty b)) false
    (when (negb (track o)) [(0, RPre LNot)])
    (if track o then Some 3 else None).

Definition c_logical_functions (c : ctx) (o : options) (b : binary) : list mfun :=
  when (negb (track o)) [c_logical_lhs_function c o b; c_logical_rhs_function c o b]
  ++ [c_logical_outer_function c o b].

(* lines 877-894 *)
Definition c_logical_actions (b : binary) : list bin_action :=
  [if bop_eqb (b_op b) LAnd then BReplaceWithLOr else BReplaceWithLAnd;
   ReplaceWithLHS; ReplaceWithRHS].

Definition c_logical_edits (c : ctx) (o : options) (b : binary) (local_id : nat)
  : list edit :=
  let name := binary_function_name c (optimise o) b in
  let close := ", " ++ string_of_nat local_id ++ ")" in
  when (negb (track o))
    [InsertBefore (r_begin (e_range (b_lhs b))) (name ++ "_lhs(");
     InsertAfterToken (r_end (e_range (b_lhs b))) close;
     InsertBefore (r_begin (e_range (b_rhs b))) (name ++ "_rhs(");
     InsertAfterToken (r_end (e_range (b_rhs b))) close]
  ++ [InsertBefore (r_begin (b_range b)) (name ++ "_outer(");
      InsertAfterToken (r_end (b_range b)) close].

(* The special treatment of && and || in C, mutation_replace_binary_operator.cc:571-585 *)
Definition c_logical (c : ctx) (b : binary) : bool := negb (cpp c) && is_logical (b_op b).

(* mutation_replace_binary_operator.cc:523-625: described actions, in id order *)
Definition binary_actions (c : ctx) (opt : bool) (b : binary) : list bin_action :=
  if c_logical c b then c_logical_actions b else map fst (binary_mutants opt b).
