(* Properties of the reduced mutant sets of comparisons and logical operators: C24. *)
From Coq Require Import String List ZArith Bool Lia.
From Verif Require Import Base Clang Gen GenExpr GenBinary SubsumeSpec SubsumeProof.
Import ListNotations.

(* C24, comparisons in C and C++.  ord is how the operands of a test compare.  Operands of
   comparisons are promoted, so they are never of type bool. *)
Theorem C24_comparison_operators : forall c b e (P : Type) (ord : P -> ordering) suite,
  is_relational (b_op b) = true -> same_node c b e -> is_bool (e_ty (b_lhs b)) = false ->
  (forall a m, In (a, m) (binary_mutants true b) ->
     kills suite (fun p => comparison_value (b_op b) (ord p))
                 (fun p => comparison_mutant (b_op b) (ord p) m)) ->
  (forall a m, In (a, m) (expr_mutants c true e) ->
     kills suite (fun p => comparison_value (b_op b) (ord p))
                 (fun p => comparison_mutant (b_op b) (ord p) m)) ->
  forall o, In o (replacement_ops false b) ->
    kills suite (fun p => comparison_value (b_op b) (ord p))
                (fun p => comparison_value o (ord p)).
Proof. exact dropped_op. Qed.
Print Assumptions C24_comparison_operators.

Theorem C24_comparison_wrappers : forall c b e (P : Type) (ord : P -> ordering) suite,
  is_relational (b_op b) = true -> same_node c b e -> is_bool (e_ty (b_lhs b)) = false ->
  (forall a m, In (a, m) (binary_mutants true b) ->
     kills suite (fun p => comparison_value (b_op b) (ord p))
                 (fun p => comparison_mutant (b_op b) (ord p) m)) ->
  (forall a m, In (a, m) (expr_mutants c true e) ->
     kills suite (fun p => comparison_value (b_op b) (ord p))
                 (fun p => comparison_mutant (b_op b) (ord p) m)) ->
  forall a m, In (a, m) (expr_mutants c false e) ->
    kills suite (fun p => comparison_value (b_op b) (ord p))
                (fun p => comparison_mutant (b_op b) (ord p) m).
Proof. exact dropped_expr. Qed.
Print Assumptions C24_comparison_wrappers.

(* C24, && and || in C++: mutants of the operator, of the whole and of the operands. *)
Theorem C24_logical_operators : forall c b e (P : Type) (operands : P -> bool * bool) suite,
  cpp c = true -> is_logical (b_op b) = true -> same_node c b e ->
  e_ty (b_lhs b) = TBool -> e_ty (b_rhs b) = TBool ->
  e_lvalue (b_lhs b) = false -> e_lvalue (b_rhs b) = false ->
  (forall a m, In (a, m) (binary_mutants true b) ->
     kills suite (fun p => connective_value (b_op b) (operands p))
                 (fun p => connective_mutant (b_op b) (operands p) m)) ->
  (forall a m, In (a, m) (expr_mutants c true e) ->
     kills suite (fun p => connective_value (b_op b) (operands p))
                 (fun p => connective_mutant (b_op b) (operands p) m)) ->
  (forall a m, In (a, m) (binary_mutants false b) ->
     kills suite (fun p => connective_value (b_op b) (operands p))
                 (fun p => connective_mutant (b_op b) (operands p) m)) /\
  (forall a m, In (a, m) (expr_mutants c false e) ->
     kills suite (fun p => connective_value (b_op b) (operands p))
                 (fun p => connective_mutant (b_op b) (operands p) m)) /\
  (forall a m, In (a, m) (expr_mutants c false (b_lhs b)) ->
     kills suite (fun p => connective_value (b_op b) (operands p))
                 (fun p => left_operand_mutant (b_op b) (operands p) m)) /\
  (forall a m, In (a, m) (expr_mutants c false (b_rhs b)) ->
     kills suite (fun p => connective_value (b_op b) (operands p))
                 (fun p => right_operand_mutant (b_op b) (operands p) m)).
Proof.
  exact (fun c b e P operands suite C L S TL TR VL VR K1 K2 =>
    conj (connective_dropped c b e P operands suite C L S TL K1 K2)
      (conj (connective_dropped_expr c b e P operands suite C L S TL K1 K2)
        (conj (left_dropped c b e P operands suite C L S TL VL K1 K2)
              (right_dropped c b e P operands suite C L S TL TR VR K1 K2)))).
Qed.
Print Assumptions C24_logical_operators.

(* Nodes without special features. *)
Definition plain (t : ty) (o : option bop) : expr :=
  {| e_ty := t; e_lvalue := false; e_volatile := false; e_const := false;
     e_bitfield := false; e_side_effects := false; e_int := None; e_float := None;
     e_boolval := None; e_cxx11_constant := false; e_binop := o;
     e_logical_operand := false; e_cast_parent_lvalue := None; e_init_list_cast := None;
     e_preceded_by_ident := false; e_range := {| r_begin := 0; r_end := 1 |} |}.
Definition plain_binary (o : bop) (t operand : ty) : binary :=
  {| b_op := o; b_ty := t; b_lhs := plain operand None; b_rhs := plain operand None;
     b_op_offset := 1; b_range := {| r_begin := 0; r_end := 3 |} |}.
Definition plain_cpp : ctx :=
  {| cpp := true; prints_bool := true; char_signed := true; wchar_signed := true |}.
Definition plain_c : ctx :=
  {| cpp := false; prints_bool := false; char_signed := true; wchar_signed := true |}.

(* Integer operands. *)
Definition compare_integers (xy : Z * Z) : ordering :=
  match Z.compare (fst xy) (snd xy) with Lt => Less | Eq => Equal | Gt => Greater end.

Ltac kill_all :=
  let I := fresh in
  intros ? ? I; cbn in I;
  repeat (destruct I as [I|I]; [injection I as <- <-|]); try (destruct I);
  first [ eexists (0, 0)%Z; split; [auto|cbn; congruence]
        | eexists (0, -1)%Z; split; [auto|cbn; congruence]
        | eexists (1, 2)%Z; split; [auto|cbn; congruence] ].

(* x < y with the tests (0,0), (0,-1), (1,2) *)
Definition three_tests (p : Z * Z) : Prop := p = (0, 0)%Z \/ p = (0, -1)%Z \/ p = (1, 2)%Z.

Lemma three_tests_kill c :
  c = plain_cpp \/ c = plain_c ->
  let t := if cpp c then TBool else TInt in
  let b := plain_binary LT t TInt in
  let e := plain t (Some LT) in
  (forall a m, In (a, m) (binary_mutants true b) ->
     kills three_tests (fun p => comparison_value (b_op b) (compare_integers p))
                 (fun p => comparison_mutant (b_op b) (compare_integers p) m)) /\
  (forall a m, In (a, m) (expr_mutants c true e) ->
     kills three_tests (fun p => comparison_value (b_op b) (compare_integers p))
                 (fun p => comparison_mutant (b_op b) (compare_integers p) m)).
Proof. unfold kills, three_tests. intros [->| ->]; split; kill_all. Qed.

Example C24_comparison_example :
  is_relational (b_op (plain_binary LT TBool TInt)) = true /\
  same_node plain_cpp (plain_binary LT TBool TInt) (plain TBool (Some LT)) /\
  is_bool (e_ty (b_lhs (plain_binary LT TBool TInt))) = false.
Proof. vm_compute. repeat split. Qed.

Example C24_logical_example :
  let b := plain_binary LAnd TBool TBool in
  same_node plain_cpp b (plain TBool (Some LAnd)) /\
  (forall a m, In (a, m) (binary_mutants true b) ->
     kills (fun _ => True) (connective_value (b_op b))
           (fun p => connective_mutant (b_op b) p m)) /\
  (forall a m, In (a, m) (expr_mutants plain_cpp true (plain TBool (Some LAnd))) ->
     kills (fun _ => True) (connective_value (b_op b))
           (fun p => connective_mutant (b_op b) p m)).
Proof.
  split; [vm_compute; repeat split|].
  split; intros a m I; cbn in I;
    repeat (destruct I as [I|I]; [injection I as <- <-|]); try destruct I;
    first [ eexists (true, true); split; [auto|cbn; congruence]
          | eexists (true, false); split; [auto|cbn; congruence]
          | eexists (false, true); split; [auto|cbn; congruence]
          | eexists (false, false); split; [auto|cbn; congruence] ].
Qed.

(* Beyond C24: the replacement of a comparison by one of its operands, which is dropped
   too, is not covered.  Three tests kill all kept mutants of x < y, but on each of them x
   is true exactly if x < y is. *)
Theorem C24_operand_replacement_refuted : exists c b e suite,
  is_relational (b_op b) = true /\ same_node c b e /\
  (forall a m, In (a, m) (binary_mutants true b) ->
     kills suite (fun p => comparison_value (b_op b) (compare_integers p))
                 (fun p => comparison_mutant (b_op b) (compare_integers p) m)) /\
  (forall a m, In (a, m) (expr_mutants c true e) ->
     kills suite (fun p => comparison_value (b_op b) (compare_integers p))
                 (fun p => comparison_mutant (b_op b) (compare_integers p) m)) /\
  In (ReplaceWithLHS, RArg1) (binary_mutants false b) /\
  ~ kills suite (fun p => comparison_value (b_op b) (compare_integers p))
                (fun p => Some (number (negb (Z.eqb (fst p) 0)))).
Proof.
  exists plain_cpp, (plain_binary LT TBool TInt), (plain TBool (Some LT)), three_tests.
  split; [reflexivity|]. split; [vm_compute; repeat split|].
  destruct (three_tests_kill plain_cpp (or_introl eq_refl)) as [A B].
  split; [exact A|]. split; [exact B|]. split; [vm_compute; tauto|].
  intros (p & [->|[->| ->]] & N); cbn in N; congruence.
Qed.
Print Assumptions C24_operand_replacement_refuted.
