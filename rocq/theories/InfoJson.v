(* The mutation info file: dredd.proto, its JSON form, and how it is written. *)
From Coq Require Import String Ascii List NArith ZArith Bool Arith.
From Verif Require Import Base Clang Gen GenExpr GenBinary GenUnary Mutation Run SourceRange.
Import ListNotations.
Local Open Scope string_scope.

(* A JSON value.  Simplified: numbers are integers, as all numbers of the file are. *)
Inductive json :=
| JNum (z : Z) | JStr (s : string) | JBool (b : bool) | JNull
| JArr (l : list json) | JObj (l : list (string * json)).

(* The names of the enumerators of MutationReplaceExprAction, dredd.proto:57-71 *)
Definition expr_action_name (a : expr_action) : string :=
  match a with
  | InsertPreInc => "InsertPreInc" | InsertPreDec => "InsertPreDec"
  | InsertLNot => "InsertLNot" | InsertNot => "InsertNot" | InsertMinus => "InsertMinus"
  | ReplaceWithZeroFloat => "ReplaceWithZeroFloat"
  | ReplaceWithOneFloat => "ReplaceWithOneFloat"
  | ReplaceWithMinusOneFloat => "ReplaceWithMinusOneFloat"
  | ReplaceWithZeroInt => "ReplaceWithZeroInt"
  | ReplaceWithOneInt => "ReplaceWithOneInt"
  | ReplaceWithMinusOneInt => "ReplaceWithMinusOneInt"
  | ReplaceWithTrue => "ReplaceWithTrue" | ReplaceWithFalse => "ReplaceWithFalse"
  end.

(* MutationReplaceBinaryOperatorAction, dredd.proto:85-117.  _MAX is the value of the last
   enumerator, ReplaceWithShr. *)
Definition bin_action_name (a : bin_action) : string :=
  match a with
  | ReplaceWithLHS => "ReplaceWithLHS" | ReplaceWithRHS => "ReplaceWithRHS"
  | BReplaceWithAdd => "ReplaceWithAdd" | BReplaceWithDiv => "ReplaceWithDiv"
  | BReplaceWithMul => "ReplaceWithMul" | BReplaceWithRem => "ReplaceWithRem"
  | BReplaceWithSub => "ReplaceWithSub"
  | BReplaceWithAddAssign => "ReplaceWithAddAssign"
  | BReplaceWithAndAssign => "ReplaceWithAndAssign"
  | BReplaceWithAssign => "ReplaceWithAssign"
  | BReplaceWithDivAssign => "ReplaceWithDivAssign"
  | BReplaceWithMulAssign => "ReplaceWithMulAssign"
  | BReplaceWithOrAssign => "ReplaceWithOrAssign"
  | BReplaceWithRemAssign => "ReplaceWithRemAssign"
  | BReplaceWithShlAssign => "ReplaceWithShlAssign"
  | BReplaceWithShrAssign => "ReplaceWithShrAssign"
  | BReplaceWithSubAssign => "ReplaceWithSubAssign"
  | BReplaceWithXorAssign => "ReplaceWithXorAssign"
  | BReplaceWithAnd => "ReplaceWithAnd" | BReplaceWithOr => "ReplaceWithOr"
  | BReplaceWithXor => "ReplaceWithXor"
  | BReplaceWithLAnd => "ReplaceWithLAnd" | BReplaceWithLOr => "ReplaceWithLOr"
  | BReplaceWithEQ => "ReplaceWithEQ" | BReplaceWithGE => "ReplaceWithGE"
  | BReplaceWithGT => "ReplaceWithGT" | BReplaceWithLE => "ReplaceWithLE"
  | BReplaceWithLT => "ReplaceWithLT" | BReplaceWithNE => "ReplaceWithNE"
  | BReplaceWithShl => "ReplaceWithShl" | BReplaceWithShr => "ReplaceWithShr"
  | BReplaceWithUnknown => "ReplaceWithShr"
  end.

(* MutationReplaceUnaryOperatorAction, dredd.proto:170-179; _MAX is ReplaceWithLNot *)
Definition un_action_name (a : un_action) : string :=
  match a with
  | ReplaceWithOperand => "ReplaceWithOperand" | ReplaceWithMinus => "ReplaceWithMinus"
  | ReplaceWithNot => "ReplaceWithNot" | ReplaceWithPreDec => "ReplaceWithPreDec"
  | ReplaceWithPostDec => "ReplaceWithPostDec" | ReplaceWithPreInc => "ReplaceWithPreInc"
  | ReplaceWithPostInc => "ReplaceWithPostInc" | ReplaceWithLNot => "ReplaceWithLNot"
  | UReplaceWithUnknown => "ReplaceWithLNot"
  end.

(* BinaryOperator, dredd.proto:124-154, by mutation_replace_binary_operator.cc:988-1054;
   for the comma BinaryOperator_MAX, which is OrAssign *)
Definition binary_operator_name (o : bop) : string :=
  match o with
  | Mul => "Mul" | Div => "Div" | Rem => "Rem" | Add => "Add" | Sub => "Sub"
  | Shl => "Shl" | Shr => "Shr" | LT => "LT" | GT => "GT" | LE => "LE" | GE => "GE"
  | EQ => "EQ" | NE => "NE" | And => "And" | Xor => "Xor" | Or => "Or"
  | LAnd => "LAnd" | LOr => "LOr" | Assign => "Assign" | MulAssign => "MulAssign"
  | DivAssign => "DivAssign" | RemAssign => "RemAssign" | AddAssign => "AddAssign"
  | SubAssign => "SubAssign" | ShlAssign => "ShlAssign" | ShrAssign => "ShrAssign"
  | AndAssign => "AndAssign" | XorAssign => "XorAssign" | OrAssign => "OrAssign"
  | Comma => "OrAssign"
  end.

(* UnaryOperator, dredd.proto:186-194, by mutation_replace_unary_operator.cc:506-528; for
   other operators UnaryOperator_MAX, which is LNot *)
Definition unary_operator_name (o : uop) : string :=
  match o with
  | PostInc => "PostInc" | PostDec => "PostDec" | PreInc => "PreInc" | PreDec => "PreDec"
  | Minus => "Minus" | Not => "Not" | LNot => "LNot"
  | Plus | UExtension => "LNot"
  end.

(* main.cc:179 *)
Definition always_print_primitive_fields : bool := true.

(* The JSON form of messages (main.cc:174-184, MessageToJsonString): an object with the
   fields in the order of their numbers, names in lower camel case.  A number, enumerator,
   string or repeated field that has its default value is there only with
   always_print_primitive_fields; a message field is there if it was set.  32-bit integers
   are numbers, enumerators are strings. *)
Definition field : Type := list (string * json).
Definition shown_if (is_default : bool) (k : string) (v : json) : field :=
  if always_print_primitive_fields || negb is_default then [(k, v)] else [].
Definition jnat (n : nat) : json := JNum (Z.of_nat n).
Definition number_field (k : string) (n : nat) : field := shown_if (Nat.eqb n 0) k (jnat n).
Definition string_field (k s : string) : field := shown_if (String.eqb s "") k (JStr s).
(* zero: the enumerator with the number 0 *)
Definition enum_field (k zero name : string) : field :=
  shown_if (String.eqb name zero) k (JStr name).
Definition repeated_field {A} (k : string) (f : A -> json) (l : list A) : field :=
  shown_if (match l with [] => true | _ => false end) k (JArr (map f l)).
Definition message_field (k : string) (m : json) : field := [(k, m)].
Definition message (fs : list field) : json := JObj (concat fs).

(* SourceLocation, dredd.proto:45-48 *)
Definition json_location (line column : nat) : json :=
  message [number_field "line" line; number_field "column" column].
Definition json_start (i : loc_info) : json := json_location (start_line i) (start_column i).
Definition json_end (i : loc_info) : json := json_location (end_line i) (end_column i).

(* The three kinds of instances, dredd.proto:73-76, 119-122, 181-184, filled in by
   mutation_replace_expr.cc:719-726, mutation_replace_binary_operator.cc:899-908 and
   mutation_replace_unary_operator.cc:472-481 *)
Definition json_instance {A} (zero : string) (name : A -> string) (x : nat * A) : json :=
  message [enum_field "action" zero (name (snd x)); number_field "mutationId" (fst x)].

(* MutationRemoveStmt, dredd.proto:50-55, filled in by mutation_remove_stmt.cc:52-59 *)
Definition json_remove_stmt (id : nat) (i : loc_info) : json :=
  message [number_field "mutationId" id;
           message_field "start" (json_start i); message_field "end" (json_end i);
           string_field "snippet" (snippet i)].

(* MutationReplaceExpr, dredd.proto:78-83, filled in by mutation_replace_expr.cc:648-655 *)
Definition json_replace_expr (i : loc_info) (l : list (nat * expr_action)) : json :=
  message [message_field "start" (json_start i); message_field "end" (json_end i);
           string_field "snippet" (snippet i);
           repeated_field "instances" (json_instance "InsertPreInc" expr_action_name) l].

(* MutationReplaceBinaryOperator, dredd.proto:156-168, filled in by
   mutation_replace_binary_operator.cc:530-555 *)
Definition json_replace_binary (i il ir : loc_info) (o : bop) (l : list (nat * bin_action))
  : json :=
  message [message_field "exprStart" (json_start i); message_field "exprEnd" (json_end i);
           message_field "lhsStart" (json_start il); message_field "lhsEnd" (json_end il);
           message_field "rhsStart" (json_start ir); message_field "rhsEnd" (json_end ir);
           string_field "exprSnippet" (snippet i);
           string_field "lhsSnippet" (snippet il); string_field "rhsSnippet" (snippet ir);
           enum_field "operator" "Mul" (binary_operator_name o);
           repeated_field "instances" (json_instance "ReplaceWithLHS" bin_action_name) l].

(* MutationReplaceUnaryOperator, dredd.proto:196-205, filled in by
   mutation_replace_unary_operator.cc:346-368 *)
Definition json_replace_unary (i io : loc_info) (o : uop) (l : list (nat * un_action))
  : json :=
  message [message_field "exprStart" (json_start i); message_field "exprEnd" (json_end i);
           message_field "operandStart" (json_start io);
           message_field "operandEnd" (json_end io);
           string_field "exprSnippet" (snippet i);
           string_field "operandSnippet" (snippet io);
           enum_field "operator" "PostInc" (unary_operator_name o);
           repeated_field "instances" (json_instance "ReplaceWithOperand" un_action_name) l].

(* MutationGroup, dredd.proto:36-43 *)
Definition json_group (g : group) : json :=
  message [match g with
           | GroupRemoveStmt id i => message_field "removeStmt" (json_remove_stmt id i)
           | GroupReplaceExpr i l => message_field "replaceExpr" (json_replace_expr i l)
           | GroupReplaceBinary i il ir o l =>
               message_field "replaceBinaryOperator" (json_replace_binary i il ir o l)
           | GroupReplaceUnary i io o l =>
               message_field "replaceUnaryOperator" (json_replace_unary i io o l)
           end].

(* MutationTreeNode, dredd.proto:28-34, filled in by mutate_ast_consumer.cc:476-505 *)
Definition json_node (p : pnode) : json :=
  message [repeated_field "mutationGroups" json_group (p_groups p);
           repeated_field "children" jnat (p_children p)].

(* MutationInfoForFile, dredd.proto:20-26, filled in by mutate_ast_consumer.cc:115-136 *)
Definition json_file (f : string * list pnode) : json :=
  message [string_field "filename" (fst f); repeated_field "mutationTree" json_node (snd f)].

(* MutationInfo, dredd.proto:18 *)
Definition json_info (info : list (string * list pnode)) : json :=
  message [repeated_field "infoForFiles" json_file info].
