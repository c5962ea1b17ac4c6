(* Floating-point arithmetic, for stating which mutants are redundant (C65).  The values
   and operations are those of IEEE 754 with rounding to nearest, as defined in Coq's
   library (SpecFloat), for a format with prec bits of precision and exponents below emax:
   24 and 128 for float, 53 and 1024 for double.  NaNs are not told apart. *)
From Coq Require Import String List ZArith Bool SpecFloat.
From Verif Require Import Base Clang Gen GenExpr GenBinary GenUnary.
Import ListNotations.
Local Open Scope Z_scope.

Section Format.
Variables prec emax : Z.

(* The constants that the tool uses *)
Definition float_constant (k : Z) : option spec_float :=
  match k with
  | 0 => Some (S754_zero false)
  | 1 => Some (SFone prec emax)
  | -1 => Some (SFopp (SFone prec emax))
  | _ => None
  end.

Definition float_arithmetic (o : bop) (x y : spec_float) : option spec_float :=
  match o with
  | Add => Some (SFadd prec emax x y)
  | Sub => Some (SFsub prec emax x y)
  | Mul => Some (SFmul prec emax x y)
  | Div => Some (SFdiv prec emax x y)
  | _ => None
  end.

(* ! of a floating-point number is an integer, converted back where a floating-point number
   is expected *)
Definition float_truth (b : bool) : option spec_float :=
  float_constant (if b then 1 else 0).
Definition is_zero (x : spec_float) : bool :=
  match x with S754_zero _ => true | _ => false end.
Definition float_unary (o : uop) (x : spec_float) : option spec_float :=
  match o with
  | Minus => Some (SFopp x)
  | Plus => Some x
  | LNot => float_truth (is_zero x)
  | _ => None
  end.

(* What a mutant computes *)
Definition float_value (m : rhs) (x y : spec_float) : option spec_float :=
  match m with
  | RArg1 => Some x
  | RArg2 => Some y
  | RBin o => float_arithmetic o x y
  | RPre o | RPreParen o => float_unary o x
  | RLit (LFloat k) => float_constant k
  | _ => None
  end.

(* Clang's constants are right. *)
Definition known_float (e : expr) (v : spec_float) : Prop :=
  match e_float e with
  | Some FZero => float_constant 0 = Some v
  | Some FOne => float_constant 1 = Some v
  | Some FMinusOne => float_constant (-1) = Some v
  | _ => True
  end.

(* A binary operator on floating-point numbers with operands x and y, and the same node as
   an expression *)
Definition float_node (b : binary) (e : expr) (x y : spec_float) : Prop :=
  is_float (b_ty b) = true /\ e_ty (b_lhs b) = b_ty b /\ e_ty (b_rhs b) = b_ty b /\
  In (b_op b) [Add; Sub; Mul; Div] /\
  e_ty e = b_ty b /\ e_lvalue e = false /\
  valid_binary prec emax x = true /\ valid_binary prec emax y = true /\
  known_float (b_lhs b) x /\ known_float (b_rhs b) y /\
  (forall v, float_arithmetic (b_op b) x y = Some v -> known_float e v).

(* A floating-point expression with value x; comparisons have no such type. *)
Definition float_expr (e : expr) (x : spec_float) : Prop :=
  is_float (e_ty e) = true /\ e_lvalue e = false /\ known_float e x /\
  match e_binop e with Some o => In o [Add; Sub; Mul; Div] | None => True end.

(* Unary minus on a floating-point number with value x, and the same node as expression *)
Definition float_minus_node (u : unary) (e : expr) (x : spec_float) : Prop :=
  u_op u = Minus /\ is_float (u_ty u) = true /\ e_ty (u_sub u) = u_ty u /\
  e_lvalue (u_sub u) = false /\ u_lvalue u = false /\
  e_ty e = u_ty u /\ float_expr e (SFopp x) /\ known_float (u_sub u) x.

(* Equal as numbers: the signs of zeros do not matter. *)
Definition same_number (v w : spec_float) : Prop :=
  v = w \/ is_zero v = true /\ is_zero w = true.

(* Among the original expression and the constants that replace it in the optimised set of
   mutants there is the value w. *)
Definition float_constant_kept (c : ctx) (e : expr) (original w : spec_float) : Prop :=
  original = w \/
  exists a k, In (a, RLit (LFloat k)) (expr_mutants c true e) /\ float_constant k = Some w.
(* ... or among the kept mutants of the operator *)
Definition float_kept (c : ctx) (b : binary) (e : expr) (x y w : spec_float) : Prop :=
  (exists original, float_arithmetic (b_op b) x y = Some original /\
     float_constant_kept c e original w) \/
  exists a m, In (a, m) (binary_mutants true b) /\ float_value m x y = Some w.

(* The same for the mutants of an expression that is not an operator, and of unary minus *)
Definition float_expr_kept (c : ctx) (e : expr) (x w : spec_float) : Prop :=
  x = w \/ exists a m, In (a, m) (expr_mutants c true e) /\ float_value m x x = Some w.

(* The cases in which a dropped replacement does something else: it gives NaN because
   infinity is multiplied by zero, or zero is divided by zero. *)
Definition is_infinite (x : spec_float) : bool :=
  match x with S754_infinity _ => true | _ => false end.
Definition new_nan (o : bop) (x y : spec_float) : Prop :=
  o = Mul /\ (is_infinite x = true /\ is_zero y = true \/
              is_zero x = true /\ is_infinite y = true) \/
  o = Div /\ is_zero x = true /\ is_zero y = true.
End Format.
