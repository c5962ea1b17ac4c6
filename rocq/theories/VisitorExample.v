(* Small programs as ASTs, for the examples and refutations of PropsVisitor.v. *)
From Coq Require Import List Bool Arith String ZArith.
From Verif Require Import Base Clang Gen GenExpr GenBinary GenUnary GenStmt Mutation MutTree TreeSpec
  Rewriter Run RunTest Visitor.
Import ListNotations.
Local Open Scope string_scope.
Local Open Scope list_scope.

(* Deciding by computation whether there is a mutation of some kind at a position *)
Fixpoint position_eqb (a b : list nat) : bool :=
  match a, b with
  | [], [] => true
  | x :: a, y :: b => Nat.eqb x y && position_eqb a b
  | _, _ => false
  end.
Definition has (f : mutation -> bool) (pos : list nat) (l : list (list nat * mutation))
  : bool := existsb (fun s => position_eqb (fst s) pos && f (snd s)) l.

Lemma position_eqb_eq a : forall b, position_eqb a b = true <-> a = b.
Proof.
  induction a as [|x a IH]; intros [|y b]; cbn; try (split; congruence).
  rewrite andb_true_iff, Nat.eqb_eq, IH. split; [intros [-> ->]; reflexivity|].
  intros H. injection H. auto.
Qed.

Lemma has_in f pos l : has f pos l = true -> exists m, In (pos, m) l /\ f m = true.
Proof.
  unfold has. intros H. apply existsb_exists in H as ([p m] & Hin & H).
  apply andb_true_iff in H as [Hp Hf]. apply position_eqb_eq in Hp. cbn in Hp. subst p. eauto.
Qed.

Lemma has_not pos l : has (fun _ => true) pos l = false -> forall m, ~ In (pos, m) l.
Proof.
  unfold has. intros H m Hin. assert (E : has (fun _ => true) pos l = true); [|unfold has in E; congruence].
  apply existsb_exists. exists (pos, m). split; [exact Hin|]. cbn.
  now rewrite (proj2 (position_eqb_eq pos pos) eq_refl).
Qed.

Definition removes (m : mutation) : bool :=
  match m with MutStmt _ _ => true | _ => false end.
Definition replaces (m : mutation) : bool :=
  match m with MutExpr _ _ => true | _ => false end.
Definition replaces_lvalue (m : mutation) : bool :=
  match m with MutExpr e _ => e_lvalue e | _ => false end.

Definition no_loc : loc_info := mk_info 0 0 0 0 "".
Definition no_site : stmt_site :=
  {| s_range := {| r_begin := 0; r_end := 0 |}; s_ext_comment := false; s_ext_semi := false;
     s_next_hash := false |}.

Definition here (pos : nat) : info :=
  {| n_in_main := true; n_begin := pos; n_site := no_site; n_loc := no_loc |}.
Definition here_with (l : loc_info) (s : stmt_site) (pos : nat) : info :=
  {| n_in_main := true; n_begin := pos; n_site := s; n_loc := l |}.

Definition typed (e : expr) : expr_info :=
  {| x_expr := e; x_supported := true; x_pointer := false; x_consistent := true;
     x_null_constant := false; x_in_init_list := false |}.

Definition decl (d : decl_kind) (pos : nat) (ks : list (role * node)) : node :=
  Ast (KDecl d) (here pos) ks.
Definition stmt (s : stmt_kind) (pos : nat) (ks : list (role * node)) : node :=
  Ast (KStmt s) (here pos) ks.
Definition body (ks : list node) : list (role * node) := map (pair ROther) ks.

Definition variable (location : nat) : var_info :=
  {| v_location := location; v_constexpr := false; v_constinit := false;
     v_static_local := false; v_constant_array := false; v_specialization := false |}.

Definition program (ks : list node) : node := decl DTranslationUnit 0 (body ks).
Definition function (ks : list node) : node :=
  decl (DFunction false false) 0 (body [stmt SCompound 0 (body ks)]).

(* test/single_file/add.c *)
Definition at_ (e : expr) (k : expr_kind) (l : loc_info) (ks : list (role * node)) : node :=
  Ast (KExpr k (typed e)) (here_with l no_site (r_begin (e_range e))) ks.
Definition use (l r : expr) (i : loc_info) : node :=
  at_ r (ECast true false) i [(RSub, at_ l EOther i [])].

Definition add_c_ast : node :=
  program [function [
    stmt SDeclStmt 15 [(ROther, decl (DVar (variable 19)) 15
      [(ROther, at_ e_one EOther (mk_info 2 11 2 12 "1") [])])];
    stmt SDeclStmt 28 [(ROther, decl (DVar (variable 32)) 28
      [(ROther, at_ e_two EOther (mk_info 3 11 3 12 "2") [])])];
    Ast (KStmt SOther) (here_with (mk_info 4 3 4 19 "return x + y + x") s_return 41)
      [(ROther, at_ e_sum2 (EBinary b_sum2 i_sum1 i_x2) i_sum2
         [(RLhs, at_ e_sum1 (EBinary b_sum1 i_x1 i_y) i_sum1
             [(RLhs, use l_x1 r_x1 i_x1); (RRhs, use l_y r_y i_y)]);
          (RRhs, use l_x2 r_x2 i_x2)])]]].

(* The traversal builds the tree from which Dredd's expected output was reproduced. *)
Example add_c_visited : tidy (mutation_tree false true add_c_ast) = tidy add_c_tree.
Proof. vm_compute. reflexivity. Qed.

(* ---- Expressions of type int ------------------------------------------------------------ *)
Definition int_facts (lvalue side_effects : bool) (cast : option bool) : expr_info :=
  typed {| e_ty := TInt; e_lvalue := lvalue; e_volatile := false; e_const := false;
     e_bitfield := false; e_side_effects := side_effects; e_int := None; e_float := None;
     e_boolval := None; e_cxx11_constant := false; e_binop := None;
     e_logical_operand := false; e_cast_parent_lvalue := cast; e_init_list_cast := None;
     e_preceded_by_ident := false; e_range := {| r_begin := 0; r_end := 1 |} |}.
(* An expression of class type, or whose type does not matter *)
Definition class_facts : expr_info :=
  let x := int_facts false true None in
  {| x_expr := x_expr x; x_supported := false; x_pointer := false; x_consistent := true;
     x_null_constant := false; x_in_init_list := false |}.

Definition literal (pos : nat) : node :=
  Ast (KExpr EOther (int_facts false false None)) (here pos) [].
Definition call (pos : nat) (ks : list (role * node)) : node :=
  Ast (KExpr (ECall false) (int_facts false true None)) (here pos) ks.
Definition returns (pos : nat) (e : node) : node := stmt SOther pos [(ROther, e)].

(* int f() { static_assert(1); constexpr int x = 2; switch (g()) { case 3: g(); } } *)
Definition constant_program : node :=
  program [function [
    stmt SDeclStmt 1 [(ROther, decl DStaticAssert 1 [(ROther, literal 2)])];
    stmt SDeclStmt 3 [(ROther, decl (DVar
      {| v_location := 3; v_constexpr := true; v_constinit := false; v_static_local := false;
         v_constant_array := false; v_specialization := false |}) 3 [(ROther, literal 4)])];
    stmt SOther 5 [(RCond, call 6 []); (ROther, stmt SCompound 7
      [(ROther, stmt SCase 8 [(RCaseValue, literal 9); (RSub, call 10 [])])])]]].

Example constant_program_sites :
  map fst (post (visited_tree true true constant_program)) =
  [[0; 0; 2; 0]; [0; 0; 2; 1; 0; 1]; [0; 0; 2]].
Proof. vm_compute. reflexivity. Qed.

(* int f() { return ({ g(); }); } *)
Definition statement_expression_program : node :=
  program [function [returns 1
    (Ast (KExpr EStmtExpr (int_facts false true None)) (here 2)
       [(ROther, stmt SCompound 3 [(ROther, call 4 [])])])]].

(* switch (g()) { case 1: g(); [[fallthrough]]; default: g(); } *)
Definition fallthrough_program : node :=
  program [function [stmt SOther 1 [(RCond, call 2 []); (ROther, stmt SCompound 3
    [(ROther, stmt SCase 4 [(RCaseValue, literal 5); (RSub, call 6 [])]);
     (ROther, stmt SFallthrough 7 [(ROther, stmt SNull 8 [])]);
     (ROther, stmt SDefault 9 [(RSub, call 10 [])])])]]].

(* void *f() { return __builtin_return_address(0); } *)
Definition builtin_program : node :=
  program [function [returns 1
    (Ast (KExpr (ECall false)
       {| x_expr := x_expr (int_facts false true None); x_supported := false;
          x_pointer := true; x_consistent := true; x_null_constant := false;
          x_in_init_list := false |}) (here 2)
       [(RConstantArg, literal 3)])]].

(* int f() { auto l = []() constexpr { return 1; }; … } *)
Definition constexpr_lambda_program : node :=
  program [function [stmt SDeclStmt 1 [(ROther, decl (DVar (variable 1)) 1
    [(ROther, Ast (KExpr (ELambda true) class_facts) (here 2)
       [(ROther, stmt SCompound 3 [(ROther, returns 4 (literal 5))])])])]]].

(* int f() { decltype(1) x; … }: the operand is reached through the type of the variable. *)
Definition decltype_program : node :=
  program [function [stmt SDeclStmt 1 [(ROther, decl (DVar (variable 1)) 1
    [(ROther, Ast (KLoc LOther) (here 2) [(RUnevaluated, literal 3)])])]]].

(* template <> constexpr int v<int> = [] { g(); return 1; }(); *)
Definition specialization_program : node :=
  program [decl (DVar
      {| v_location := 1; v_constexpr := true; v_constinit := false; v_static_local := false;
         v_constant_array := false; v_specialization := true |}) 1
    [(ROther, call 2
       [(ROther, Ast (KExpr (ELambda false) class_facts) (here 2)
          [(ROther, stmt SCompound 3 [(ROther, call 4 []); (ROther, returns 5 (literal 6))])])])]].

(* int f() { return make().at(0); }, where make returns a container *)
Definition temporary_call : node :=
  Ast (KExpr EMemberCall (int_facts true true (Some false))) (here 3)
    [(ROther, Ast (KExpr EMember class_facts) (here 3)
        [(RBase, Ast (KExpr EMaterialize class_facts) (here 3)
            [(RSub, Ast (KExpr (ECall false) class_facts) (here 3) [])])]);
     (RArg, literal 4)].
Definition temporary_program : node :=
  program [function [returns 1
    (Ast (KExpr (ECast true false) (int_facts false true None)) (here 3)
       [(RSub, temporary_call)])]].

(* int f() { return make()[0]; }, with an overloaded operator *)
Definition index_call : node :=
  Ast (KExpr (ECall false) (int_facts true true (Some false))) (here 3)
    [(RArg, Ast (KExpr EMaterialize class_facts) (here 3)
        [(RSub, Ast (KExpr (ECall false) class_facts) (here 3) [])]);
     (RArg, literal 4)].
Definition index_program : node :=
  program [function [returns 1
    (Ast (KExpr (ECast true false) (int_facts false true None)) (here 3)
       [(RSub, index_call)])]].

(* void f() { const int n = 3; switch (g()) { case n: g(); } }: the value of the label is a
   use of n. *)
Definition use_of (location pos : nat) : node :=
  Ast (KExpr EConstant (int_facts false false None)) (here pos)
    [(RSub, Ast (KExpr (ECast true false) (int_facts false false None)) (here pos)
        [(RSub, Ast (KExpr (EDeclRef location) (int_facts true false (Some false)))
                  (here pos) [])])].
Definition case_label_program : node :=
  program [function [
    stmt SDeclStmt 1 [(ROther, decl (DVar (variable 2)) 1 [(ROther, literal 3)])];
    stmt SOther 4 [(RCond, call 5 []); (ROther, stmt SCompound 6
      [(ROther, stmt SCase 7 [(RCaseValue, use_of 2 8); (RSub, call 9 [])])])]]].

(* void f() { const int n = 3; typedef int a[n]; } *)
Definition typedef_program : node :=
  program [function [
    stmt SDeclStmt 1 [(ROther, decl (DVar (variable 2)) 1 [(ROther, literal 3)])];
    stmt SDeclStmt 4 [(ROther, decl DOther 4
      [(ROther, Ast (KLoc LConstantArray) (here 5) [(ROther, use_of 2 6)])])]]].

(* void f() { static_assert(1); int a[3]; } *)
Definition recorded_program : node :=
  program [function [
    stmt SDeclStmt 1 [(ROther, decl DStaticAssert 1 [(ROther, literal 2)])];
    stmt SDeclStmt 3 [(ROther, decl (DVar
      {| v_location := 3; v_constexpr := false; v_constinit := false; v_static_local := false;
         v_constant_array := true; v_specialization := false |}) 3
      [(ROther, Ast (KLoc LConstantArray) (here 4) [(ROther, literal 5)])])]]].
