(* Which expressions are eligible for mutation.  Only the AST is taken from the model. *)
From Coq Require Import List Bool Arith ZArith.
From Verif Require Import Base Clang Gen GenExpr GenBinary GenUnary GenStmt Mutation Visitor
  VisitorSpec.
Import ListNotations.

(* The child in a role.  If there were several: the first *)
Definition has_child (ks : list (role * node)) (r : role) (c : node) : Prop :=
  exists before after, ks = before ++ (r, c) :: after /\
    forall r' c', In (r', c') before -> r' <> r.

(* … and it is an expression with these facts. *)
Definition has_operand (ks : list (role * node)) (r : role) (x : expr_info) : Prop :=
  exists e i ks', has_child ks r (Ast (KExpr e x) i ks').

(* The operand is wholly in the main file, and its type is one that is mutated. *)
Definition good_operand (ks : list (role * node)) (r : role) : Prop :=
  exists e x i ks', has_child ks r (Ast (KExpr e x) i ks') /\
    x_supported x = true /\ n_in_main i = true.

(* Clang knows that the expression has the value 0 or 1. *)
Definition known (e : expr) (zero : bool) : Prop :=
  (is_integer (e_ty e) = true /\ e_int e = Some (if zero then 0 else 1)%Z) \/
  (is_float (e_ty e) = true /\ e_float e = Some (if zero then FZero else FOne)).

(* The node directly around the expression is a call found by argument-dependent lookup. *)
Inductive under_adl_call : list frame -> Prop :=
| adl_call x r up : under_adl_call ({| fr_kind := KExpr (ECall true) x; fr_role := r |} :: up).

(* Mutating the expression could change argument-dependent lookup: it is an argument that is
   converted from a type that is not mutated or from the result of a member call, or it is a
   member call (perhaps converted). *)
Inductive lookup_sensitive : expr_kind -> list frame -> list (role * node) -> Prop :=
| sensitive_type d up ks :
    under_adl_call up -> (forall x, has_operand ks RSub x -> x_supported x = false) ->
    lookup_sensitive (ECast true d) up ks
| sensitive_converted d up ks x i ks' :
    under_adl_call up -> has_child ks RSub (Ast (KExpr EMemberCall x) i ks') ->
    lookup_sensitive (ECast true d) up ks
| sensitive_call up ks : under_adl_call up -> lookup_sensitive EMemberCall up ks
| sensitive_inner d x r up ks :
    under_adl_call up ->
    lookup_sensitive EMemberCall ({| fr_kind := KExpr (ECast true d) x; fr_role := r |} :: up) ks.

(* The node directly around the node is a cast with these facts. *)
Definition under_cast (up : list frame) (x : expr_info) : Prop :=
  exists implicit d r up',
    up = {| fr_kind := KExpr (ECast implicit d) x; fr_role := r |} :: up'.

Definition under (k : kind) (up : list frame) : Prop :=
  exists r up', up = {| fr_kind := k; fr_role := r |} :: up'.

(* Expressions that may be mutated at all *)
Record eligible (opt : bool) (e : expr_kind) (x : expr_info) (i : info) (up : list frame)
  (ks : list (role * node)) : Prop := {
  el_function : inside_function up;
  el_main : n_in_main i = true;
  el_range : x_consistent x = true;
  el_type : x_supported x = true;
  el_wrapper : opt = true -> e <> EParen /\ e <> ECleanups;
  el_lookup : ~ lookup_sensitive e up ks;
  el_temporary : ~ refers_to_temporary (Ast (KExpr e x) i ks)
}.

(* Expressions whose value can be replaced *)
Record replaceable (opt : bool) (e : expr_kind) (x : expr_info) (up : list frame)
  (ks : list (role * node)) : Prop := {
  (* an l-value: only if it can be incremented and its value is then read *)
  rp_lvalue : e_lvalue (x_expr x) = true ->
    e_const (x_expr x) = false /\ is_bool (e_ty (x_expr x)) = false /\
    e_bitfield (x_expr x) = false /\ e_cast_parent_lvalue (x_expr x) = Some false;
  rp_list : e <> EInitList;
  rp_null : forall p, under_cast up p -> x_pointer p = true -> x_null_constant x = false;
  rp_enum : forall d y z i ks', e = ECast true d -> under (KExpr EConstruct y) up ->
    ~ has_child ks RSub (Ast (KExpr EEnumConstant z) i ks');
  rp_bitfield : forall implicit d y s, e = ECast implicit d ->
    under (KExpr EMaterialize y) up -> has_operand ks RSub s ->
    e_bitfield (x_expr s) = false;
  (* optimisations *)
  rp_cast : opt = true -> forall p, under_cast up p -> x_in_init_list x = false ->
    e_lvalue (x_expr p) <> e_lvalue (x_expr x);
  rp_component : opt = true ->
    ~ under (KStmt SCompound) up /\ ~ under (KStmt SCase) up /\ ~ under (KStmt SDefault) up
}.

(* Unary operators that can be replaced *)
Record unary_replaceable (opt : bool) (u : unary) (ks : list (role * node)) : Prop := {
  ur_operand : good_operand ks RSub;
  ur_plus : u_op u <> Plus;
  ur_bitfield : e_bitfield (u_sub u) = true ->
    u_op u <> PreInc /\ u_op u <> PreDec /\ u_op u <> PostInc /\ u_op u <> PostDec;
  ur_minus_one : opt = true -> u_op u = Minus -> ~ known (u_sub u) false;
  ur_not : opt = true -> u_op u = Not -> ~ known (u_sub u) true /\ ~ known (u_sub u) false
}.

(* Binary operators that can be replaced *)
Record binary_replaceable (opt : bool) (b : binary) (ks : list (role * node)) : Prop := {
  br_lhs : good_operand ks RLhs;
  br_rhs : good_operand ks RRhs;
  br_bitfield : e_bitfield (b_lhs b) = true ->
    ~ In (b_op b) [Assign; MulAssign; DivAssign; RemAssign; AddAssign; SubAssign;
                   ShlAssign; ShrAssign; AndAssign; XorAssign; OrAssign];
  br_comma : b_op b <> Comma;
  br_zero_one : opt = true -> ~ (known (b_lhs b) true /\ known (b_rhs b) false)
}.

(* A variable declared at location l is completed at position q beneath n.  n is nested in
   up. *)
Definition declares (is_cpp opt : bool) (n : node) (up : list frame) (l : nat) (q : list nat)
  : Prop :=
  exists up' n' v, open_path is_cpp opt n up q up' n' /\ not_in_label up' /\
    ~ blocked is_cpp opt (node_kind n') (node_info n') up' /\
    node_kind n' = KDecl (DVar v) /\ v_location v = l.

(* The expression at position pos may be mutated: it is in reach, eligible, and does not begin
   where a variable is declared that was completed before it. *)
Definition in_reach (is_cpp opt : bool) (root : node) (pos : list nat) (e : expr_kind)
  (x : expr_info) (i : info) (up : list frame) (ks : list (role * node)) : Prop :=
  open_path is_cpp opt root [] pos up (Ast (KExpr e x) i ks) /\ not_in_label up /\
  ~ blocked is_cpp opt (KExpr e x) i up /\ eligible opt e x i up ks /\
  ~ (exists p, earlier p pos /\ declares is_cpp opt root [] (n_begin i) p).
