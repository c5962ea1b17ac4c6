(* The parts of the source that are moved into a function of their own, a lambda. *)
From Coq Require Import String List Bool.
From Verif Require Import Base Clang Gen GenExpr GenBinary GenUnary GenStmt Mutation.
Import ListNotations.
Local Open Scope string_scope.

(* Where the code begins that a mutation moves: in C++ operands with side effects, and the
   right operand of && and ||.  Nothing is moved in C. *)
Definition moved (c : ctx) (m : mutation) : list nat :=
  if cpp c then
    match m with
    | MutExpr e _ => if e_side_effects e then [r_begin (e_range e)] else []
    | MutUnary u _ _ => if u_side_effects u then [r_begin (u_range u)] else []
    | MutBinary b _ _ _ =>
        ((if e_side_effects (b_lhs b) then [r_begin (e_range (b_lhs b))] else [])
         ++ (if e_side_effects (b_rhs b) then [r_begin (e_range (b_rhs b))]
             else match b_op b with
                  | LAnd | LOr => [r_begin (e_range (b_rhs b))]
                  | _ => []
                  end))%list
    | MutStmt _ _ => []
    end
  else [].

Definition contains (s t : string) : Prop := exists a b, s = a ++ t ++ b.

(* Text that begins a lambda is inserted at the offset. *)
Definition opens_function (es : list edit) (off : nat) : Prop :=
  exists s, In (InsertBefore off s) es /\ contains s "[&]() -> ".
