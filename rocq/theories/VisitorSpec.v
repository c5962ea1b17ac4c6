(* Vocabulary for stating which parts of a program are mutated.  Only the AST and the kinds
   of mutation are taken from the model. *)
From Coq Require Import List Bool Arith.
From Verif Require Import Base Clang Gen GenStmt Mutation Visitor.
Import ListNotations.

(* path n up q up' n': from node n, which is nested in the nodes up (nearest first), taking
   children number q leads to n', which is nested in up'. *)
Inductive path : node -> list frame -> list nat -> list frame -> node -> Prop :=
| path_here n up : path n up [] up n
| path_child k i ks up idx r c q up' n' :
    nth_error ks idx = Some (r, c) ->
    path c ({| fr_kind := k; fr_role := r |} :: up) q up' n' ->
    path (Ast k i ks) up (idx :: q) up' n'.

(* The node at position pos of a translation unit *)
Definition walk (root : node) (pos : list nat) (up : list frame) (n : node) : Prop :=
  path root [] pos up n.

(* Statements include expressions. *)
Definition is_statement (k : kind) : Prop :=
  match k with KStmt _ | KExpr _ _ => True | _ => False end.

(* The node, nested in up, is code whose value must be known to the compiler, or code whose
   text Dredd replaces by its value: nothing in it may be mutated. *)
Inductive constant_context (is_cpp : bool) : kind -> list frame -> Prop :=
| cc_static_assert up : constant_context is_cpp (KDecl DStaticAssert) up
| cc_constexpr_function marker up : constant_context is_cpp (KDecl (DFunction true marker)) up
| cc_constexpr_variable v up :
    v_constexpr v = true \/ v_constinit v = true -> v_specialization v = false ->
    constant_context is_cpp (KDecl (DVar v)) up
| cc_c_static v up :
    is_cpp = false -> v_static_local v = true -> v_specialization v = false ->
    constant_context is_cpp (KDecl (DVar v)) up
| cc_parameter up : constant_context is_cpp (KDecl DParm) up
| cc_case_value k s r up :
    s = SCase \/ s = SDefault -> r <> RSub ->
    constant_context is_cpp k ({| fr_kind := KStmt s; fr_role := r |} :: up)
| cc_array up : constant_context is_cpp (KLoc LConstantArray) up
| cc_dependent_array up : constant_context is_cpp (KLoc LDependentArray) up
| cc_variable_array up : is_cpp = true -> constant_context is_cpp (KLoc LVariableArray) up
| cc_template_argument up : constant_context is_cpp (KLoc LTemplateArgument) up
| cc_lambda_capture up : constant_context is_cpp (KLoc LLambdaCapture) up
| cc_user_literal x up : constant_context is_cpp (KExpr EUserLiteral x) up
| cc_constant x up : constant_context is_cpp (KExpr EConstant x) up
| cc_noexcept x up : constant_context is_cpp (KExpr ENoexcept x) up
| cc_frame_address x up : constant_context is_cpp (KExpr EFrameAddress x) up
| cc_decltype_cast implicit x up :
    constant_context is_cpp (KExpr (ECast implicit true) x) up
| cc_sizeof_operand k y r up :
    is_statement k ->
    constant_context is_cpp k ({| fr_kind := KExpr ESizeAlign y; fr_role := r |} :: up)
| cc_if_constexpr k up :
    is_statement k ->
    constant_context is_cpp k ({| fr_kind := KStmt (SIf true); fr_role := RCond |} :: up)
| cc_new_size k y up :
    is_statement k ->
    constant_context is_cpp k ({| fr_kind := KExpr ENew y; fr_role := RArraySize |} :: up).

Definition is_removal (m : mutation) : Prop :=
  match m with MutStmt _ _ => True | _ => False end.

(* Among the enclosing nodes there is a function, and all declarations between it and the
   node are variables. *)
Definition inside_function (up : list frame) : Prop :=
  exists inner f outer constexpr marker,
    up = inner ++ f :: outer /\ fr_kind f = KDecl (DFunction constexpr marker) /\
    Forall (fun g => match fr_kind g with
                     | KDecl (DVar _) | KDecl DParm => True
                     | KDecl _ => False
                     | _ => True
                     end) inner.

(* The node is a component of a block: a child of a compound statement, or the statement
   after case and default labels that are children of a compound statement. *)
Inductive in_block : list frame -> Prop :=
| block_child r up : in_block ({| fr_kind := KStmt SCompound; fr_role := r |} :: up)
| block_case up :
    in_block up -> in_block ({| fr_kind := KStmt SCase; fr_role := RSub |} :: up)
| block_default up :
    in_block up -> in_block ({| fr_kind := KStmt SDefault; fr_role := RSub |} :: up).

(* With optimisations: an expression statement of a block that has no side effects *)
Definition discarded (opt : bool) (k : kind) (up : list frame) : Prop :=
  opt = true /\ in_block up /\
  exists e x, k = KExpr e x /\ e_side_effects (x_expr x) = false.

(* A declaration (other than the whole program) that is not wholly in the main file *)
Definition foreign (k : kind) (i : info) : Prop :=
  n_in_main i = false /\ exists d, k = KDecl d /\ d <> DTranslationUnit.

(* Nothing beneath such a node may be mutated. *)
Definition blocked (is_cpp opt : bool) (k : kind) (i : info) (up : list frame) : Prop :=
  constant_context is_cpp k up \/ discarded opt k up \/ foreign k i.

(* A path on which no node is blocked, except perhaps the last *)
Inductive open_path (is_cpp opt : bool)
  : node -> list frame -> list nat -> list frame -> node -> Prop :=
| open_here n up : open_path is_cpp opt n up [] up n
| open_child k i ks up idx r c q up' n' :
    ~ blocked is_cpp opt k i up ->
    nth_error ks idx = Some (r, c) ->
    open_path is_cpp opt c ({| fr_kind := k; fr_role := r |} :: up) q up' n' ->
    open_path is_cpp opt (Ast k i ks) up (idx :: q) up' n'.

(* A statement that can be removed: wholly in the main file, and not a null statement, a
   declaration, a label, a case or default label or (with optimisations) a block *)
Definition removable (opt : bool) (k : kind) (i : info) : Prop :=
  is_statement k /\ n_in_main i = true /\
  k <> KStmt SNull /\ k <> KStmt SDeclStmt /\ k <> KStmt SLabel /\
  k <> KStmt SCase /\ k <> KStmt SDefault /\ (opt = true -> k <> KStmt SCompound).

(* An expression of class type or reference that leads to a temporary object through members
   and arguments: it is a temporary, or an l-value or pointer obtained from such an
   expression as a member of it or as the result of a call with it as an argument. *)
Inductive refers_to_temporary : node -> Prop :=
| refers_temporary x i ks : refers_to_temporary (Ast (KExpr EMaterialize x) i ks)
| refers_member x i ks b :
    e_lvalue (x_expr x) = true \/ x_pointer x = true ->
    In (RBase, b) ks -> refers_to_temporary b ->
    refers_to_temporary (Ast (KExpr EMember x) i ks)
| refers_call e x i ks a r :
    (exists adl, e = ECall adl) \/ e = EMemberCall \/ e = EFrameAddress ->
    e_lvalue (x_expr x) = true \/ x_pointer x = true ->
    r = RArg \/ r = RConstantArg ->
    In (r, a) ks -> refers_to_temporary a ->
    refers_to_temporary (Ast (KExpr e x) i ks).

(* As above, but through any chain of l-values and pointers, including the object on which a
   member function is called: the base of the member access that is the callee. *)
Inductive borrows_from_temporary : node -> Prop :=
| borrows_temporary x i ks : borrows_from_temporary (Ast (KExpr EMaterialize x) i ks)
| borrows_operand e x i ks r a :
    e_lvalue (x_expr x) = true \/ x_pointer x = true ->
    In (r, a) ks -> borrows_from_temporary a ->
    borrows_from_temporary (Ast (KExpr e x) i ks)
| borrows_object x i ks y j ms b :
    e_lvalue (x_expr x) = true \/ x_pointer x = true ->
    In (ROther, Ast (KExpr EMember y) j ms) ks -> In (RBase, b) ms ->
    borrows_from_temporary b ->
    borrows_from_temporary (Ast (KExpr EMemberCall x) i ks).

(* The value of the statement is the value of a GNU statement expression: it is the last
   statement of the block of one. *)
Definition value_used (root : node) (pos : list nat) : Prop :=
  exists p idx up k i ks r x up',
    pos = p ++ [idx] /\ walk root p up (Ast k i ks) /\ k = KStmt SCompound /\
    up = {| fr_kind := KExpr EStmtExpr x; fr_role := r |} :: up' /\
    length ks = S idx.

(* Code that is never evaluated, or that has to be a constant expression, apart from what
   constant_context lists: operands that built-in functions and inline assembly require to be
   constant, the bodies of constexpr lambdas and of specializations of constexpr
   variables. *)
Inductive fixed_context : kind -> list frame -> Prop :=
| fixed_constant_arg k f up : fr_role f = RConstantArg -> fixed_context k (f :: up)
| fixed_unevaluated k f up : fr_role f = RUnevaluated -> fixed_context k (f :: up)
| fixed_lambda x up : fixed_context (KExpr (ELambda true) x) up
| fixed_specialization v up : v_constexpr v = true -> fixed_context (KDecl (DVar v)) up.

(* The statement is the last one before a case or default label: a [[fallthrough]] there is
   allowed only if the label follows it directly. *)
Definition before_label (root : node) (pos : list nat) : Prop :=
  exists p idx up i ks r c,
    pos = p ++ [idx] /\ walk root p up (Ast (KStmt SCompound) i ks) /\
    nth_error ks (S idx) = Some (r, c) /\
    (node_kind c = KStmt SCase \/ node_kind c = KStmt SDefault).

(* The node is not part of a case or default label.  (Declarations never are.) *)
Definition not_in_label (up : list frame) : Prop :=
  match up with
  | {| fr_kind := KStmt (SCase | SDefault); fr_role := r |} :: _ => r = RSub
  | _ => True
  end.

(* A static assertion in the main file *)
Definition static_assertion (n : node) : Prop :=
  node_kind n = KDecl DStaticAssert /\ n_in_main (node_info n) = true.

(* A variable or field in the main file that is declared as an array of constant size *)
Definition constant_sized_array (n : node) : Prop :=
  n_in_main (node_info n) = true /\
  (node_kind n = KDecl (DField true) \/
   exists v, node_kind n = KDecl (DVar v) /\ v_constant_array v = true /\
             v_specialization v = false).

(* The variable declared at location is used at or beneath the node. *)
Inductive uses (location : nat) : node -> Prop :=
| uses_here x i ks : uses location (Ast (KExpr (EDeclRef location) x) i ks)
| uses_below k i ks r c : In (r, c) ks -> uses location c -> uses location (Ast k i ks).

(* ---- Order and nesting of mutations ---------------------------------------------------- *)
(* Position p is left behind before position q when nodes are visited after their children:
   it branches off to the left, or it is beneath q. *)
Definition earlier (p q : list nat) : Prop :=
  (exists u a b x y, p = u ++ a :: x /\ q = u ++ b :: y /\ a < b) \/
  (exists a x, p = q ++ a :: x).

(* At one node: replacing the operator, replacing the expression, removing the statement *)
Definition rank (m : mutation) : nat :=
  match m with MutStmt _ _ => 2 | MutExpr _ _ => 1 | _ => 0 end.

Definition comes_before (a b : list nat * mutation) : Prop :=
  earlier (fst a) (fst b) \/ (fst a = fst b /\ rank (snd a) < rank (snd b)).

(* The code that a changes properly contains the code that b changes.  The removal of a
   statement contains the other changes of the statement. *)
Definition encloses (a b : list nat * mutation) : Prop :=
  (exists j q, fst b = fst a ++ j :: q) \/
  (fst a = fst b /\ is_removal (snd a) /\ ~ is_removal (snd b)).

Definition beside (a b : list nat * mutation) : Prop :=
  fst a = fst b /\ (is_removal (snd a) <-> is_removal (snd b)).
