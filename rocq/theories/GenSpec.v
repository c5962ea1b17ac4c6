(* Vocabulary for stating properties of generated code: what each action means. *)
From Coq Require Import String Ascii List Arith ZArith Bool.
From Verif Require Import Base Clang Gen GenExpr GenBinary GenUnary GenStmt Mutation.
Import ListNotations.

(* The expression that a described action stands for, in terms of the original operand
   (RArg1) or operands (RArg1, RArg2). *)
Definition expr_meaning (c : ctx) (a : expr_action) : option rhs :=
  Some match a with
       | InsertPreInc => RPreParen PreInc
       | InsertPreDec => RPreParen PreDec
       | InsertLNot => RPreParen LNot
       | InsertNot => RPreParen Not
       | InsertMinus => RPreParen Minus
       | ReplaceWithZeroFloat => RLit (LFloat 0)
       | ReplaceWithOneFloat => RLit (LFloat 1)
       | ReplaceWithMinusOneFloat => RLit (LFloat (-1))
       | ReplaceWithZeroInt => RLit (LInt 0)
       | ReplaceWithOneInt => RLit (LInt 1)
       | ReplaceWithMinusOneInt => RLit (LInt (-1))
       | ReplaceWithTrue => RLit (if cpp c then LBool true else LInt 1)
       | ReplaceWithFalse => RLit (if cpp c then LBool false else LInt 0)
       end.

Definition bin_meaning (a : bin_action) : option rhs :=
  match a with
  | ReplaceWithLHS => Some RArg1
  | ReplaceWithRHS => Some RArg2
  | BReplaceWithAdd => Some (RBin Add)
  | BReplaceWithDiv => Some (RBin Div)
  | BReplaceWithMul => Some (RBin Mul)
  | BReplaceWithRem => Some (RBin Rem)
  | BReplaceWithSub => Some (RBin Sub)
  | BReplaceWithAddAssign => Some (RBin AddAssign)
  | BReplaceWithAndAssign => Some (RBin AndAssign)
  | BReplaceWithAssign => Some (RBin Assign)
  | BReplaceWithDivAssign => Some (RBin DivAssign)
  | BReplaceWithMulAssign => Some (RBin MulAssign)
  | BReplaceWithOrAssign => Some (RBin OrAssign)
  | BReplaceWithRemAssign => Some (RBin RemAssign)
  | BReplaceWithShlAssign => Some (RBin ShlAssign)
  | BReplaceWithShrAssign => Some (RBin ShrAssign)
  | BReplaceWithSubAssign => Some (RBin SubAssign)
  | BReplaceWithXorAssign => Some (RBin XorAssign)
  | BReplaceWithAnd => Some (RBin And)
  | BReplaceWithOr => Some (RBin Or)
  | BReplaceWithXor => Some (RBin Xor)
  | BReplaceWithLAnd => Some (RBin LAnd)
  | BReplaceWithLOr => Some (RBin LOr)
  | BReplaceWithEQ => Some (RBin EQ)
  | BReplaceWithGE => Some (RBin GE)
  | BReplaceWithGT => Some (RBin GT)
  | BReplaceWithLE => Some (RBin LE)
  | BReplaceWithLT => Some (RBin LT)
  | BReplaceWithNE => Some (RBin NE)
  | BReplaceWithShl => Some (RBin Shl)
  | BReplaceWithShr => Some (RBin Shr)
  | BReplaceWithUnknown => None
  end.

Definition un_meaning (a : un_action) : option rhs :=
  match a with
  | ReplaceWithOperand => Some RArg1
  | ReplaceWithMinus => Some (RPre Minus)
  | ReplaceWithNot => Some (RPre Not)
  | ReplaceWithLNot => Some (RPre LNot)
  | ReplaceWithPreDec => Some (RPre PreDec)
  | ReplaceWithPostDec => Some (RPost PostDec)
  | ReplaceWithPreInc => Some (RPre PreInc)
  | ReplaceWithPostInc => Some (RPost PostInc)
  | UReplaceWithUnknown => None
  end.

(* The original unary expression *)
Definition original_unary (o : uop) : rhs :=
  match o with PostInc => RPost PostInc | PostDec => RPost PostDec | _ => RPre o end.

(* The tests of a function are the described instances, in order: instance number k has id
   base + k, is tested at offset k, and returns what its action means. *)
Definition tests_match {A} (meaning : A -> option rhs) (base : nat)
  (instances : list (nat * A)) (lines : list (nat * rhs)) : Prop :=
  List.length instances = List.length lines /\
  forall k x a, nth_error instances k = Some (x, a) ->
    x = base + k /\ exists r, meaning a = Some r /\ nth_error lines k = Some (k, r).

(* A site calls function f with local id n: some insertion contains the call's start and
   the last insertion ends with the id argument. *)
Definition calls (es : list edit) (name : string) (n : nat) : Prop :=
  (exists off s s', In (InsertBefore off (s ++ name ++ "(" ++ s')%string) es) /\
  (exists off s s' es', es = es' ++ [InsertAfterToken off
                                (s ++ ", " ++ string_of_nat n ++ ")" ++ s')%string] /\
                        (s' = "" \/ s' = ")")%string).

(* l is obtained from l' by leaving elements out *)
Inductive sublist {A} : list A -> list A -> Prop :=
| sublist_nil : sublist [] []
| sublist_keep x l l' : sublist l l' -> sublist (x :: l) (x :: l')
| sublist_drop x l l' : sublist l l' -> sublist l (x :: l').

(* A mutation as the visitor creates it: mutate_visitor.cc:497-500 (l-values are mutated
   only if they can be), 465-469 (no comma operators), 380-382 (no unary plus). *)
Definition plausible (m : mutation) : Prop :=
  match m with
  | MutExpr e _ => e_lvalue e = true -> can_mutate_lvalue e = true
  | MutBinary b _ _ _ => b_op b <> Comma
  | MutUnary u _ _ => u_op u <> Plus
  | MutStmt _ _ => True
  end.

(* && and || in C, on truth values.  What a helper function of one argument returns if the
   mutant at offset k (or none) is enabled: *)
Definition helper_result (f : mfun) (k : option nat) (x : bool) : bool :=
  match find (fun l => match k with Some n => fst l =? n | None => false end) (mf_lines f) with
  | Some (_, RPre LNot) => negb x
  | Some (_, RLit (LInt z)) => negb (Z.eqb z 0)
  | Some _ => x
  | None => x
  end.

Definition truth_of (o : bop) (x y : bool) : bool :=
  match o with LAnd => x && y | _ => x || y end.

Definition action_truth (a : bin_action) (x y : bool) : option bool :=
  match a with
  | ReplaceWithLHS => Some x
  | ReplaceWithRHS => Some y
  | BReplaceWithLAnd => Some (x && y)
  | BReplaceWithLOr => Some (x || y)
  | _ => None
  end.

(* The three functions around the operands and the whole expression, all called with the
   first id, together do what the instances describe. *)
Definition c_logical_encoded (o : bop) (fl fr fo : mfun) (base : nat)
  (instances : list (nat * bin_action)) : Prop :=
  let result k x y :=
    helper_result fo k (truth_of o (helper_result fl k x) (helper_result fr k y)) in
  mf_orig fl = RArg1 /\ mf_orig fr = RArg1 /\ mf_orig fo = RArg1 /\
  (forall x y, result None x y = truth_of o x y) /\
  (forall k x y, List.length instances <= k -> result (Some k) x y = truth_of o x y) /\
  (forall k i a, nth_error instances k = Some (i, a) ->
     i = base + k /\ forall x y, action_truth a x y = Some (result (Some k) x y)).
