(* Programs for the example and the refutations of PropsGrammar.v. *)
From Coq Require Import String Ascii List Bool Arith ZArith Lia.
From Verif Require Import VisitorExample Base Clang Gen GenExpr GenBinary GenUnary GenStmt
  Mutation MutTree TreeSpec Rewriter RewriterProof Visitor Lang Cst SimExample GrammarSpec.
Import ListNotations.
Local Open Scope string_scope.

(* ---- return x + y; and a small part of the rest of the language ---------------------------- *)
Definition small_white (s : string) : Prop := s = "" \/ s = " " \/ s = nl.
Inductive small_rule : list piece -> cat -> Prop :=
| small_name s : identifier s -> small_rule [T s] (Prec 0)
| small_return : small_rule [T "return "; H Expression] Unfinished.

Definition sum_site : binary := binary_of Add TInt (value TInt false None) (value TInt false None).
Definition sum_statement : cst toy :=
  CStmt some_stmt (CNode KExpr [("return ",
    CExpr (value TInt false (Some Add)) (CBin sum_site (SimExample.use "x") " " " "
                                              (SimExample.use "y")))] ";").

Lemma name_x : identifier "x".
Proof.
  split; [split; [reflexivity|cbn; lia]|]. intros a [<-|[]]. reflexivity.
Qed.
Lemma name_y : identifier "y".
Proof.
  split; [split; [reflexivity|cbn; lia]|]. intros a [<-|[]]. reflexivity.
Qed.

Lemma var_fits cxx s c : identifier s -> below (Prec 1) c ->
  fits small_white small_rule cxx toy c (var s).
Proof.
  intros N B. unfold var. eapply (f_node _ _ _ _ _ _ _ _ [T s]).
  - eapply d_below; [|apply d_rule, small_name, N]. destruct c; cbn in *; auto; lia.
  - cbn [merge fst snd]. replace (s ++ "") with s; [apply fill_end|].
    clear. induction s; cbn; congruence.
Qed.
Lemma use_fits cxx s c : identifier s -> below (Prec 1) c ->
  fits small_white small_rule cxx toy c (SimExample.use s).
Proof.
  intros N B. apply f_expr; [exact B|]. apply f_expr; [exact B|]. apply var_fits; assumption.
Qed.

(* ---- The refutations ------------------------------------------------------------------------- *)
Definition from_to (a b : nat) : range := {| r_begin := a; r_end := b |}.
Definition fact (t : ty) (lvalue effects : bool) (o : option bop) (a b : nat) : expr :=
  {| e_ty := t; e_lvalue := lvalue; e_volatile := false; e_const := false;
     e_bitfield := false; e_side_effects := effects; e_int := None; e_float := None;
     e_boolval := None; e_cxx11_constant := false; e_binop := o;
     e_logical_operand := false; e_cast_parent_lvalue := None; e_init_list_cast := None;
     e_preceded_by_ident := false; e_range := from_to a b |}.
Definition one (a b : nat) : expr :=
  {| e_ty := TInt; e_lvalue := false; e_volatile := false; e_const := false;
     e_bitfield := false; e_side_effects := false; e_int := Some 1%Z; e_float := None;
     e_boolval := None; e_cxx11_constant := false; e_binop := None;
     e_logical_operand := false; e_cast_parent_lvalue := None; e_init_list_cast := None;
     e_preceded_by_ident := false; e_range := from_to a b |}.
Definition unsupported (e : expr) : expr_info :=
  {| x_expr := e; x_supported := false; x_pointer := false; x_consistent := true;
     x_null_constant := false; x_in_init_list := false |}.
Definition in_list (e : expr) : expr_info :=
  {| x_expr := e; x_supported := true; x_pointer := false; x_consistent := true;
     x_null_constant := false; x_in_init_list := true |}.
Definition statement_at (a b : nat) (semi : bool) : stmt_site :=
  {| s_range := from_to a b; s_ext_comment := false; s_ext_semi := semi;
     s_next_hash := false |}.
Definition expr_at (k : expr_kind) (x : expr_info) (s : stmt_site) (ks : list (role * node)) : node :=
  Ast (Visitor.KExpr k x) (here_with no_loc s (r_begin (e_range (x_expr x)))) ks.

(* The edits for the mutations of a file *)
Definition written (c : ctx) (o : options) (root : node) (text : string) : string :=
  rewrite text (edits_from c o 0 0 (post (mutation_tree (cpp c) (optimise o) root))).

(* long f(void) { return g(), 1; }   the offsets are those of return g(), 1; *)
Definition comma_text : string := "return g(), 1;".
Definition comma_value : expr := fact TInt false true (Some Comma) 7 13.
Definition comma_operator : binary :=
  {| b_op := Comma; b_ty := TInt; b_lhs := fact TInt false true None 7 10; b_rhs := one 12 13;
     b_op_offset := 10; b_range := from_to 7 13 |}.
Definition comma_program : node :=
  program [function [
    Ast (Visitor.KStmt SOther) (here_with no_loc (statement_at 0 14 true) 0)
      [(ROther, expr_at (ECast true false) (typed (fact TLong false true None 7 13)) no_site
         [(RSub, expr_at (EBinary comma_operator no_loc no_loc) (typed comma_value) no_site
            [(RLhs, expr_at (ECall false) (unsupported (fact TInt false true None 7 10)) no_site []);
             (RRhs, expr_at EOther (typed (one 12 13)) no_site [])])])]]].

(* int x; ... x = {g()};   in C++ *)
Definition braces_text : string := "x = {g()};".
Definition braces_operator : binary :=
  {| b_op := Assign; b_ty := TInt; b_lhs := fact TInt true false None 0 1;
     b_rhs := fact TInt false true None 4 9; b_op_offset := 2; b_range := from_to 0 9 |}.
Definition braces_program : node :=
  program [function [
    expr_at (EBinary braces_operator no_loc no_loc) (typed (fact TInt true true (Some Assign) 0 9))
      (statement_at 0 10 true)
      [(RLhs, expr_at (EDeclRef 100) (typed (fact TInt true false None 0 1)) no_site []);
       (RRhs, expr_at EInitList (typed (fact TInt false true None 4 9)) no_site
          [(ROther, expr_at (ECall false) (in_list (fact TInt false true None 5 8)) no_site [])])]]].

(* #define END ;   ...   f() END   with a function f that returns nothing *)
Definition semicolon_text : string := "f() END".
Definition semicolon_program : node :=
  program [function [
    expr_at (ECall false) (unsupported (fact TInt false true None 0 3)) (statement_at 0 3 false) []]].

(* The functions that are generated for the mutations of a file *)
Definition generated (c : ctx) (o : options) (root : node) : list string :=
  flat_map (fun m => a_decls (apply_mutation c o m 0 0))
    (post (mutation_tree (cpp c) (optimise o) root)).

(* The commas in the text outside parentheses *)
Fixpoint commas (depth : nat) (s : string) : nat :=
  match s with
  | EmptyString => 0
  | String a s =>
      if ascii_dec a "(" then commas (S depth) s
      else if ascii_dec a ")" then commas (pred depth) s
      else if ascii_dec a "," then (if Nat.eqb depth 0 then 1 else 0) + commas depth s
      else commas depth s
  end.
