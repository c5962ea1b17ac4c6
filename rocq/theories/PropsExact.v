(* Exactly the eligible expressions are mutated: C53. *)
From Coq Require Import List Bool Arith.
From Verif Require Import Base Clang Gen GenExpr GenBinary GenUnary GenStmt Mutation MutTree
  TreeSpec RunTest Visitor VisitorSpec VisitorExample ExactSpec ExactProof.
Import ListNotations.

(* C53.  The replacement of an expression is made exactly where the expression is in reach and
   replaceable, … *)
Theorem C53_expressions : forall is_cpp opt root pos y l,
  In (pos, MutExpr y l) (post (visited_tree is_cpp opt root)) <->
  exists e x i up ks, in_reach is_cpp opt root pos e x i up ks /\
    replaceable opt e x up ks /\ y = x_expr x /\ l = n_loc i.
Proof. exact exact_expressions. Qed.
Print Assumptions C53_expressions.

(* … that of a unary operator exactly where it is in reach and replaceable, … *)
Theorem C53_unary_operators : forall is_cpp opt root pos u l sub,
  In (pos, MutUnary u l sub) (post (visited_tree is_cpp opt root)) <->
  exists x i up ks, in_reach is_cpp opt root pos (EUnary u sub) x i up ks /\
    unary_replaceable opt u ks /\ l = n_loc i.
Proof. exact exact_unary. Qed.
Print Assumptions C53_unary_operators.

(* … and the same for binary operators. *)
Theorem C53_binary_operators : forall is_cpp opt root pos b l lhs rhs,
  In (pos, MutBinary b l lhs rhs) (post (visited_tree is_cpp opt root)) <->
  exists x i up ks, in_reach is_cpp opt root pos (EBinary b lhs rhs) x i up ks /\
    binary_replaceable opt b ks /\ l = n_loc i.
Proof. exact exact_binary. Qed.
Print Assumptions C53_binary_operators.

(* int f() { int x = 1; int y = 2; return x + y + x; }: the positions at which expressions and
   operators are replaced *)
Example C53_example :
  map fst (filter (fun s => replaces (snd s)) (post (visited_tree false true add_c_ast))) =
  [[0; 0; 0; 0; 0]; [0; 0; 1; 0; 0]; [0; 0; 2; 0; 0; 0; 0]; [0; 0; 2; 0; 0; 0];
   [0; 0; 2; 0; 0; 1; 0]; [0; 0; 2; 0; 0; 1]; [0; 0; 2; 0; 0]; [0; 0; 2; 0; 1; 0];
   [0; 0; 2; 0; 1]; [0; 0; 2; 0]] /\
  In ([0; 0; 2; 0], MutBinary b_sum2 i_sum2 i_sum1 i_x2)
     (post (visited_tree false true add_c_ast)).
Proof.
  split; [vm_compute; reflexivity|]. vm_compute. do 10 right. left. reflexivity.
Qed.

(* void f() { if (int v = g()) g(); }: the use of v in the condition begins where v is
   declared and is left alone. *)
Definition condition_program : node :=
  program [function [
    stmt (SIf false) 1
      [(ROther, stmt SDeclStmt 2 [(ROther, decl (DVar (variable 3)) 2 [(ROther, call 4 [])])]);
       (RCond, Ast (KExpr (ECast true false) (int_facts false false None)) (here 3)
          [(RSub, Ast (KExpr (EDeclRef 3) (int_facts true false (Some false))) (here 3) [])]);
       (ROther, stmt SCompound 5 [(ROther, call 6 [])])]]].
Ltac not_blocked :=
  intros [H | [(_ & _ & e & x & E & _) | (H & d & E & _)]];
  [ inversion H; subst; try discriminate;
    match goal with h : _ \/ _ |- _ => destruct h; discriminate end
  | discriminate | discriminate ].
Example C53_condition_example :
  map fst (post (visited_tree true true condition_program)) =
    [[0; 0; 0; 0; 0; 0]; [0; 0; 0; 2; 0]; [0; 0; 0]] /\
  exists p, earlier p [0; 0; 0; 1] /\ declares true true condition_program [] 3 p.
Proof.
  split; [vm_compute; reflexivity|]. exists [0; 0; 0; 0; 0]. split.
  - left. exists [0; 0; 0], 0, 1, [0], []. auto.
  - do 3 eexists. split.
    { repeat (eapply open_child; [not_blocked | reflexivity |]). apply open_here. }
    split; [exact I|]. split; [not_blocked|]. split; reflexivity.
Qed.
