(* Integer arithmetic of C and C++ on LP64 targets, for stating which mutants are
   redundant.  None is undefined behaviour.  Shifts of signed values follow C++20, which
   defines the most cases. *)
From Coq Require Import String List ZArith Bool.
From Verif Require Import Base Clang Gen GenExpr GenBinary GenUnary.
Local Open Scope Z_scope.

(* Width and signedness of an integer type other than bool. *)
Definition int_width (t : ty) : Z :=
  match t with
  | TBool => 1
  | TChar | TSChar | TUChar | TChar8 => 8
  | TShort | TUShort | TChar16 => 16
  | TInt | TUInt | TChar32 | TWChar => 32
  | TLong | TULong | TLongLong | TULongLong => 64
  | TInt128 | TUInt128 => 128
  | _ => 0
  end.

(* Values of the type. *)
Definition in_type (c : ctx) (t : ty) (v : Z) : Prop :=
  if is_signed c t then - 2 ^ (int_width t - 1) <= v < 2 ^ (int_width t - 1)
  else 0 <= v < 2 ^ int_width t.
Definition in_typeb (c : ctx) (t : ty) (v : Z) : bool :=
  if is_signed c t then (- 2 ^ (int_width t - 1) <=? v) && (v <? 2 ^ (int_width t - 1))
  else (0 <=? v) && (v <? 2 ^ int_width t).

(* Reduction modulo two to the width. *)
Definition wrap (c : ctx) (t : ty) (v : Z) : Z :=
  let r := v mod 2 ^ int_width t in
  if is_signed c t && (2 ^ (int_width t - 1) <=? r) then r - 2 ^ int_width t else r.

(* Conversion to a type. *)
Definition convert (c : ctx) (t : ty) (v : Z) : Z :=
  if is_bool t then (if v =? 0 then 0 else 1) else wrap c t v.

(* The result of an arithmetic operation in a type. *)
Definition in_range_or_wrap (c : ctx) (t : ty) (v : Z) : option Z :=
  if is_signed c t then (if in_typeb c t v then Some v else None) else Some (wrap c t v).

Definition arithmetic (c : ctx) (t : ty) (o : bop) (x y : Z) : option Z :=
  match o with
  | Add => in_range_or_wrap c t (x + y)
  | Sub => in_range_or_wrap c t (x - y)
  | Mul => in_range_or_wrap c t (x * y)
  | Div => if y =? 0 then None else in_range_or_wrap c t (Z.quot x y)
  | Rem => if y =? 0 then None
           else match in_range_or_wrap c t (Z.quot x y) with
                | Some _ => Some (Z.rem x y)
                | None => None
                end
  | Shl => if (0 <=? y) && (y <? int_width t) then Some (wrap c t (x * 2 ^ y)) else None
  | Shr => if (0 <=? y) && (y <? int_width t) then Some (x / 2 ^ y) else None
  | And => Some (Z.land x y)
  | Or => Some (Z.lor x y)
  | Xor => Some (Z.lxor x y)
  | _ => None
  end.

Definition truth_number (b : bool) : Z := if b then 1 else 0.

(* Integer promotion. *)
Definition promoted (c : ctx) (t : ty) : ty :=
  match t with
  | TBool | TChar | TSChar | TUChar | TChar8 | TShort | TUShort | TChar16 => TInt
  | TChar32 => TUInt
  | TWChar => if wchar_signed c then TInt else TUInt
  | _ => t
  end.

(* Unary operators on an operand of type t. *)
Definition unary_arithmetic (c : ctx) (t : ty) (o : uop) (x : Z) : option Z :=
  let p := promoted c t in
  match o with
  | Plus => Some x
  | Minus => in_range_or_wrap c p (- x)
  | Not => Some (wrap c p (- x - 1))
  | LNot => Some (truth_number (x =? 0))
  | _ => None
  end.

(* What a mutant of a binary operator computes. *)
Definition binary_mutant_value (c : ctx) (t : ty) (x y : Z) (m : rhs) : option Z :=
  match m with
  | RArg1 => Some x
  | RArg2 => Some y
  | RBin o => arithmetic c t o x y
  | _ => None
  end.
(* What a mutant of a unary operator computes, given the types of operand and result. *)
Definition unary_mutant_value (c : ctx) (t result : ty) (x : Z) (m : rhs) : option Z :=
  match m with
  | RArg1 => Some (convert c result x)
  | RPre o | RPreParen o => option_map (convert c result) (unary_arithmetic c t o x)
  | _ => None
  end.
(* What a constant replacement yields. *)
Definition constant_value (m : rhs) : option Z :=
  match m with
  | RLit (LInt z) => Some z
  | RLit (LBool b) => Some (truth_number b)
  | _ => None
  end.

Definition is_arithmetic_op (o : bop) : bool :=
  match o with Add | Sub | Mul | Div | Rem | And | Or | Xor => true | _ => false end.
Definition is_shift_op (o : bop) : bool := match o with Shl | Shr => true | _ => false end.

(* Clang's constants are right. *)
Definition constant_if_known (e : expr) (v : option Z) : Prop :=
  forall k, e_int e = Some k -> v = Some k.

(* A binary operator node b on integers, and the same node e as an expression, where the
   operands have the values x and y.  The usual arithmetic conversions have made the operand
   types equal, except for shifts. *)
Definition arithmetic_node (c : ctx) (b : binary) (e : expr) (x y : Z) : Prop :=
  is_integer (b_ty b) = true /\ is_bool (b_ty b) = false /\
  e_ty e = b_ty b /\ e_lvalue e = false /\
  e_ty (b_lhs b) = b_ty b /\
  (is_arithmetic_op (b_op b) = true /\ e_ty (b_rhs b) = b_ty b \/
   is_shift_op (b_op b) = true /\ is_integer (e_ty (b_rhs b)) = true) /\
  in_type c (b_ty b) x /\ in_type c (e_ty (b_rhs b)) y /\
  constant_if_known (b_lhs b) (Some x) /\ constant_if_known (b_rhs b) (Some y) /\
  constant_if_known e (arithmetic c (b_ty b) (b_op b) x y).

(* The value v is that of the original expression, or of a constant replacement of the
   optimised mutant set. *)
Definition original_or_constant (c : ctx) (e : expr) (original : option Z) (v : Z) : Prop :=
  original = Some v \/
  exists a m, In (a, m) (expr_mutants c true e) /\ constant_value m = Some v.

(* A unary operator node u on integers, and the same node e as an expression, where the
   operand has value x.  The operand of - and ~ is promoted. *)
Definition unary_node (c : ctx) (u : unary) (e : expr) (x : Z) : Prop :=
  is_integer (e_ty (u_sub u)) = true /\ is_integer (u_ty u) = true /\
  match u_op u with
  | Minus | Not => u_ty u = e_ty (u_sub u) /\ promoted c (u_ty u) = u_ty u
  | LNot => u_ty u = (if cpp c then TBool else TInt)
  | _ => False
  end /\
  e_lvalue (u_sub u) = false /\
  e_ty e = u_ty u /\ e_lvalue e = false /\ e_binop e = None /\
  in_type c (e_ty (u_sub u)) x /\
  constant_if_known (u_sub u) (Some x) /\
  constant_if_known e (option_map (convert c (u_ty u))
                         (unary_arithmetic c (e_ty (u_sub u)) (u_op u) x)) /\
  (forall v, e_boolval e = Some v -> is_bool (u_ty u) = true ->
     option_map (convert c (u_ty u))
       (unary_arithmetic c (e_ty (u_sub u)) (u_op u) x) = Some (truth_number v)).

(* An r-value of integer type with value x that is neither a binary operator nor the operand
   of a logical operator. *)
Definition plain_value (c : ctx) (e : expr) (x : Z) : Prop :=
  is_integer (e_ty e) = true /\ e_lvalue e = false /\ e_binop e = None /\
  e_logical_operand e = false /\ in_type c (e_ty e) x /\
  constant_if_known e (Some x) /\
  (forall v, e_boolval e = Some v -> is_bool (e_ty e) = true -> x = truth_number v).

(* The value v is that of the original, of a constant replacement, or of a kept mutant of the
   operator. *)
Definition covered (c : ctx) (b : binary) (e : expr) (x y v : Z) : Prop :=
  original_or_constant c e (arithmetic c (b_ty b) (b_op b) x y) v \/
  exists a m, In (a, m) (binary_mutants true b) /\
              binary_mutant_value c (b_ty b) x y m = Some v.

(* A kept insertion of an operator before an expression of value y gives v. *)
Definition insertion_gives (c : ctx) (e : expr) (y v : Z) : Prop :=
  exists a m, In (a, m) (expr_mutants c true e) /\ unary_mutant_value c (e_ty e) (e_ty e) y m = Some v.
