(* Vocabulary for stating that dropped mutants are subsumed by kept ones (C24). *)
From Coq Require Import String List ZArith Bool.
From Verif Require Import Base Clang Gen GenExpr GenBinary.
Import ListNotations.

(* How two operands compare; floating point operands may be unordered. *)
Inductive ordering := Less | Equal | Greater | Unordered.

Definition holds (o : bop) (r : ordering) : option bool :=
  match o with
  | LT => Some match r with Less => true | _ => false end
  | LE => Some match r with Less | Equal => true | _ => false end
  | GT => Some match r with Greater => true | _ => false end
  | GE => Some match r with Greater | Equal => true | _ => false end
  | EQ => Some match r with Equal => true | _ => false end
  | NE => Some match r with Equal => false | _ => true end
  | _ => None
  end.

Definition number (b : bool) : Z := if b then 1%Z else 0%Z.
Definition literal_number (l : lit) : Z :=
  match l with LInt z | LFloat z => z | LBool b => number b end.

(* The value of an expression of integer or boolean type with value v when what a mutator
   function returns for it is m, if m does not mention the operands. *)
Definition wrapped_value (m : rhs) (v : Z) : option Z :=
  match m with
  | RLit l => Some (literal_number l)
  | RPreParen LNot => Some (number (Z.eqb v 0))
  | RPreParen Not => Some (- v - 1)%Z
  | RPreParen Minus => Some (- v)%Z
  | _ => None
  end.

(* A comparison. *)
Definition comparison_value (o : bop) (r : ordering) : option Z :=
  option_map number (holds o r).
Definition comparison_mutant (o : bop) (r : ordering) (m : rhs) : option Z :=
  match m with
  | RBin o' => comparison_value o' r
  | _ => match comparison_value o r with Some v => wrapped_value m v | None => None end
  end.

(* A C++ logical operator on operand values x, y, and the comparisons of booleans. *)
Definition connective (o : bop) (x y : bool) : option bool :=
  match o with
  | LAnd => Some (x && y)
  | LOr => Some (x || y)
  | EQ => Some (Bool.eqb x y)
  | NE => Some (xorb x y)
  | _ => None
  end.
Definition connective_value (o : bop) (xy : bool * bool) : option Z :=
  option_map number (connective o (fst xy) (snd xy)).
Definition connective_mutant (o : bop) (xy : bool * bool) (m : rhs) : option Z :=
  match m with
  | RBin o' => connective_value o' xy
  | RArg1 => Some (number (fst xy))
  | RArg2 => Some (number (snd xy))
  | _ => match connective_value o xy with Some v => wrapped_value m v | None => None end
  end.
(* The same if the mutant is at the left or right operand instead. *)
Definition left_operand_mutant (o : bop) (xy : bool * bool) (m : rhs) : option Z :=
  match wrapped_value m (number (fst xy)) with
  | Some v => connective_value o (negb (Z.eqb v 0), snd xy)
  | None => None
  end.
Definition right_operand_mutant (o : bop) (xy : bool * bool) (m : rhs) : option Z :=
  match wrapped_value m (number (snd xy)) with
  | Some v => connective_value o (fst xy, negb (Z.eqb v 0))
  | None => None
  end.

(* A test suite kills a mutant if on some test the results differ. *)
Definition kills {P} (suite : P -> Prop) (original mutant : P -> option Z) : Prop :=
  exists p, suite p /\ mutant p <> original p.

(* Clang knows nothing about the value. *)
Definition unconstrained (e : expr) : Prop :=
  e_int e = None /\ e_float e = None /\ e_boolval e = None.

(* The node of a comparison or logical operator and its description as operator agree. *)
Definition same_node (c : ctx) (b : binary) (e : expr) : Prop :=
  e_binop e = Some (b_op b) /\ e_lvalue e = false /\
  e_ty e = (if cpp c then TBool else TInt) /\
  unconstrained e /\ unconstrained (b_lhs b) /\ unconstrained (b_rhs b).
