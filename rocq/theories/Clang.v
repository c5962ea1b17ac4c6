(* The questions that dredd asks Clang about a syntax tree node, and the builtin
   types and operators that it distinguishes.  Nothing here is dredd code: Clang
   is not modelled, its answers are the fields of the records below. *)
From Coq Require Import String Ascii List ZArith Bool.
From Verif Require Import Base.
Import ListNotations.
Local Open Scope string_scope.

(* clang::BuiltinType kinds that are integer or floating point
   (mutate_visitor.cc:63-70, IsTypeSupported).  Char and WChar stand for both the
   signed and the unsigned kind: they print alike, and only one of the two occurs
   in a translation unit. *)
Inductive ty :=
| TBool | TChar | TSChar | TUChar | TWChar | TChar8 | TChar16 | TChar32
| TShort | TUShort | TInt | TUInt | TLong | TULong | TLongLong | TULongLong
| TInt128 | TUInt128
| THalf | TFloat16 | TBFloat16 | TFloat | TDouble | TLongDouble | TFloat128 | TIbm128.

(* What is fixed for a translation unit: language and signedness of char, wchar_t. *)
Record ctx := {
  cpp : bool;                 (* getLangOpts().CPlusPlus *)
  prints_bool : bool;         (* the printing policy says bool rather than _Bool: C++, or
                                 C with <stdbool.h> included *)
  char_signed : bool;
  wchar_signed : bool
}.

(* clang::BuiltinType::getName with the printing policy of the language. *)
Definition ty_name (c : ctx) (t : ty) : string :=
  match t with
  | TBool => if prints_bool c then "bool" else "_Bool"
  | TChar => "char" | TSChar => "signed char" | TUChar => "unsigned char"
  | TWChar => "wchar_t" | TChar8 => "char8_t" | TChar16 => "char16_t"
  | TChar32 => "char32_t"
  | TShort => "short" | TUShort => "unsigned short"
  | TInt => "int" | TUInt => "unsigned int"
  | TLong => "long" | TULong => "unsigned long"
  | TLongLong => "long long" | TULongLong => "unsigned long long"
  | TInt128 => "__int128" | TUInt128 => "unsigned __int128"
  | THalf => "__fp16" | TFloat16 => "_Float16" | TBFloat16 => "__bf16"
  | TFloat => "float" | TDouble => "double" | TLongDouble => "long double"
  | TFloat128 => "__float128" | TIbm128 => "__ibm128"
  end.

(* BuiltinType::isFloatingPoint / Type::isFloatingType *)
Definition is_float (t : ty) : bool :=
  match t with
  | THalf | TFloat16 | TBFloat16 | TFloat | TDouble | TLongDouble | TFloat128
  | TIbm128 => true
  | _ => false
  end.
(* BuiltinType::isInteger / Type::isIntegerType: true of bool as well *)
Definition is_integer (t : ty) : bool := negb (is_float t).
(* Type::isBooleanType *)
Definition is_bool (t : ty) : bool := match t with TBool => true | _ => false end.
(* BuiltinType::isSignedInteger / Type::isSignedIntegerType *)
Definition is_signed (c : ctx) (t : ty) : bool :=
  match t with
  | TChar => char_signed c
  | TWChar => wchar_signed c
  | TSChar | TShort | TInt | TLong | TLongLong | TInt128 => true
  | _ => false
  end.

(* clang::BinaryOperatorKind (the kinds dredd mentions; Comma stands for itself). *)
Inductive bop :=
| Mul | Div | Rem | Add | Sub | Shl | Shr
| LT | GT | LE | GE | EQ | NE
| And | Xor | Or | LAnd | LOr
| Assign | MulAssign | DivAssign | RemAssign | AddAssign | SubAssign
| ShlAssign | ShrAssign | AndAssign | XorAssign | OrAssign
| Comma.

Definition bop_eq_dec (a b : bop) : {a = b} + {a <> b}.
Proof. decide equality. Defined.
Definition bop_eqb (a b : bop) : bool := if bop_eq_dec a b then true else false.

Definition ty_eq_dec (a b : ty) : {a = b} + {a <> b}.
Proof. decide equality. Defined.
Definition ty_eqb (a b : ty) : bool := if ty_eq_dec a b then true else false.

(* clang::BinaryOperator::getOpcodeStr *)
Definition bop_str (o : bop) : string :=
  match o with
  | Mul => "*" | Div => "/" | Rem => "%" | Add => "+" | Sub => "-"
  | Shl => "<<" | Shr => ">>"
  | LT => "<" | GT => ">" | LE => "<=" | GE => ">=" | EQ => "==" | NE => "!="
  | And => "&" | Xor => "^" | Or => "|" | LAnd => "&&" | LOr => "||"
  | Assign => "=" | MulAssign => "*=" | DivAssign => "/=" | RemAssign => "%="
  | AddAssign => "+=" | SubAssign => "-=" | ShlAssign => "<<=" | ShrAssign => ">>="
  | AndAssign => "&=" | XorAssign => "^=" | OrAssign => "|="
  | Comma => ","
  end.

(* clang::BinaryOperator::isAssignmentOp / isLogicalOp / comparison kinds *)
Definition is_assign (o : bop) : bool :=
  match o with
  | Assign | MulAssign | DivAssign | RemAssign | AddAssign | SubAssign
  | ShlAssign | ShrAssign | AndAssign | XorAssign | OrAssign => true
  | _ => false
  end.
Definition is_logical (o : bop) : bool :=
  match o with LAnd | LOr => true | _ => false end.
Definition is_relational (o : bop) : bool :=
  match o with LT | GT | LE | GE | EQ | NE => true | _ => false end.

(* clang::UnaryOperatorKind.  UExtension stands for the GNU __extension__ marker, which
   Clang represents as a unary operator and which no code in mutate_visitor.cc filters out. *)
Inductive uop :=
| PostInc | PostDec | PreInc | PreDec | Minus | Not | LNot | Plus | UExtension.

Definition uop_eq_dec (a b : uop) : {a = b} + {a <> b}.
Proof. decide equality. Defined.
Definition uop_eqb (a b : uop) : bool := if uop_eq_dec a b then true else false.

(* clang::UnaryOperator::getOpcodeStr *)
Definition uop_str (o : uop) : string :=
  match o with
  | PostInc => "++" | PostDec => "--" | PreInc => "++" | PreDec => "--"
  | Minus => "-" | Not => "~" | LNot => "!" | Plus => "+"
  | UExtension => "__extension__"
  end.

(* clang::UnaryOperator::isIncrementDecrementOp *)
Definition is_incdec (o : uop) : bool :=
  match o with PostInc | PostDec | PreInc | PreDec => true | _ => false end.

(* A compile-time floating point value, up to the distinctions that
   APFloat::isExactlyValue(0.0 / 1.0 / -1.0), a bitwise comparison, can make. *)
Inductive fconst := FZero | FOne | FMinusOne | FOther.

(* A source range in the main file: offset of its first character and offset of the
   first character after its last token. *)
Record range := { r_begin : nat; r_end : nat }.

(* What Clang answers about an expression node. *)
Record expr := {
  e_ty : ty;                      (* getType() as builtin type *)
  e_lvalue : bool;                (* isLValue() *)
  e_volatile : bool;              (* getType().isVolatileQualified() *)
  e_const : bool;                 (* getType().isConstQualified() *)
  e_bitfield : bool;              (* refersToBitField() *)
  e_side_effects : bool;          (* HasSideEffects() *)
  e_int : option Z;               (* EvaluateAsInt, util.cc:168-190 *)
  e_float : option fconst;        (* EvaluateAsFloat *)
  e_boolval : option bool;        (* EvaluateAsBooleanCondition *)
  e_cxx11_constant : bool;        (* IsCxx11ConstantExpr *)
  e_binop : option bop;           (* opcode if the node is a BinaryOperator *)
  e_logical_operand : bool;       (* the node is an operand of a && or || node *)
  e_cast_parent_lvalue : option bool; (* first ImplicitCastExpr parent: its isLValue() *)
  e_init_list_cast : option ty;   (* type of the implicit cast if the node (without
                                     parentheses) has an initializer list parent and an
                                     implicit cast parent *)
  e_preceded_by_ident : bool;     (* the character before the range is [A-Za-z0-9_] *)
  e_range : range                 (* GetSourceRangeInMainFile *)
}.

(* Where a mutation was found, as stored in the mutation info (util.cc:121-166). *)
Record loc_info := {
  start_line : nat; start_column : nat; end_line : nat; end_column : nat;
  snippet : string
}.

(* dredd::Options (the two debugging options dump-asts and show-ast-node-types,
   which only add comments and output, are left out). *)
Record options := {
  optimise : bool;        (* !no_mutation_opts *)
  track : bool            (* only_track_mutant_coverage *)
}.
