(* mutate_visitor.cc: the traversal of Clang's AST that finds the mutations, together with
   the parts of Clang's RecursiveASTVisitor that it relies on: each node's children are
   traversed in order, then the node itself is visited (shouldTraversePostOrder,
   mutate_visitor.h:103). *)
From Coq Require Import List Bool Arith.
From Verif Require Import Base Clang Gen GenExpr GenBinary GenUnary GenStmt Mutation MutTree
  Sites.
Import ListNotations.

(* ---- The AST ------------------------------------------------------------------------ *)
(* Statement nodes that are not expressions.  SIf: isConstexpr().  SFallthrough: an
   AttributedStmt with attribute [[fallthrough]]; the visitor treats it like any other. *)
Inductive stmt_kind :=
| SCompound | SCase | SDefault | SNull | SDeclStmt | SLabel | SIf (constexpr : bool)
| SFallthrough | SOther.

(* Expression nodes.  ECast: whether it is an ImplicitCastExpr and whether its type is a
   DecltypeType.  ECall: usesADL(); it stands for CallExpr and CXXOperatorCallExpr.
   ESizeAlign: UnaryExprOrTypeTraitExpr of kind UETT_SizeOf or UETT_AlignOf.  EEnumConstant:
   a DeclRefExpr of an EnumConstantDecl.  EDeclRef: a use of the variable that is declared at
   the given location.  ELambda: its call operator is declared constexpr,
   which the visitor ignores.  EUnary and EBinary carry the facts about the operator and the
   location of the operands that the mutation records; operators that Dredd does not know
   are EOther. *)
Inductive expr_kind :=
| EUserLiteral | EConstant | ENoexcept | ESizeAlign | ENew | EFrameAddress
| ECall (adl : bool) | EMemberCall | EMember | ECast (implicit to_decltype : bool)
| EParen | ECleanups | EInitList | EMaterialize | EConstruct | EEnumConstant
| EUnary (u : unary) (info_sub : loc_info)
| EBinary (b : binary) (info_lhs info_rhs : loc_info)
| EStmtExpr | ELambda (constexpr : bool) | EDeclRef (location : nat) | EOther.

(* Variable declarations.  v_specialization: the declaration is a (partial) specialization
   of a variable template or a structured binding, so its class is derived from VarDecl and
   RecursiveASTVisitor does not call TraverseVarDecl for it. *)
Record var_info := {
  v_location : nat;               (* getLocation() *)
  v_constexpr : bool;             (* isConstexpr() *)
  v_constinit : bool;             (* hasAttr<ConstInitAttr>() *)
  v_static_local : bool;          (* isStaticLocal() *)
  v_constant_array : bool;        (* getType()->isConstantArrayType() *)
  v_specialization : bool
}.

(* DFunction: isConstexpr(), and whether the name is __dredd_prelude_start. *)
Inductive decl_kind :=
| DTranslationUnit | DStaticAssert | DFunction (constexpr marker : bool)
| DVar (v : var_info) | DParm | DField (constant_array : bool) | DOther.

(* Other nodes that Clang's visitor descends into: type locations, template arguments and
   lambda captures. *)
Inductive loc_kind :=
| LConstantArray | LVariableArray | LDependentArray | LTemplateArgument | LLambdaCapture
| LOther.

(* What a node is to its parent.  RConstantArg: an operand that the compiler requires to be
   an integer constant expression although it is not in a ConstantExpr node (arguments of
   some built-in functions, immediate operands of inline assembly).  RUnevaluated: an
   operand that is not evaluated (decltype, typeid, _Generic).  The visitor does not know
   the last two. *)
Inductive role :=
| RCaseValue | RSub | RCond | RArraySize | RBase | RArg | RConstantArg | RUnevaluated
| RLhs | RRhs | ROther.

(* Facts about an expression: those used to generate code, and the ones below. *)
Record expr_info := {
  x_expr : expr;
  x_supported : bool;             (* IsTypeSupported(getType()), lines 63-70 *)
  x_pointer : bool;               (* isPointerType(); also isAnyPointerType(), which differs
                                     only for Objective-C *)
  x_consistent : bool;            (* SourceRangeConsistencyCheck *)
  x_null_constant : bool;         (* isNullPointerConstant != NPCK_NotNull *)
  x_in_init_list : bool           (* some parent is an InitListExpr; an initializer has two
                                     parents if the list has two forms *)
}.

Inductive kind :=
| KStmt (s : stmt_kind) | KExpr (e : expr_kind) (x : expr_info) | KDecl (d : decl_kind)
| KLoc (l : loc_kind).

Record info := {
  n_in_main : bool;               (* GetSourceRangeInMainFile is valid, util.cc:30-81 *)
  n_begin : nat;                  (* getBeginLoc() *)
  n_site : stmt_site;             (* facts that MutationRemoveStmt needs *)
  n_loc : loc_info                (* what the mutation info records about the node *)
}.

(* Simplified: a node has one parent (but see x_in_init_list), and nodes that RecursiveASTVisitor never reaches
   (implicit code, template instantiations) are absent. *)
Inductive node := Ast (k : kind) (i : info) (children : list (role * node)).

Definition node_kind (n : node) : kind := match n with Ast k _ _ => k end.
Definition node_info (n : node) : info := match n with Ast _ i _ => i end.
Definition node_children (n : node) : list (role * node) :=
  match n with Ast _ _ ks => ks end.

(* An enclosing node and the role of the child through which it was entered *)
Record frame := { fr_kind : kind; fr_role : role }.

Definition role_eqb (a b : role) : bool :=
  match a, b with
  | RCaseValue, RCaseValue | RSub, RSub | RCond, RCond | RArraySize, RArraySize
  | RBase, RBase | RArg, RArg | RConstantArg, RConstantArg | RUnevaluated, RUnevaluated
  | RLhs, RLhs | RRhs, RRhs | ROther, ROther => true
  | _, _ => false
  end.

(* getSubExpr(), getLHS(), getRHS(), … *)
Definition child (r : role) (ks : list (role * node)) : option node :=
  option_map snd (find (fun c => role_eqb (fst c) r) ks).

Definition child_in_main (r : role) (ks : list (role * node)) : bool :=
  match child r ks with Some n => n_in_main (node_info n) | None => false end.

(* IsTypeSupported of a child's type *)
Definition child_supported (r : role) (ks : list (role * node)) : bool :=
  match child r ks with
  | Some (Ast (KExpr _ x) _ _) => x_supported x
  | _ => false
  end.

(* ---- Questions about parents -------------------------------------------------------- *)
(* libdredd/util.h:94-109, GetFirstParentOfType looks at direct parents only. *)
Definition parent (up : list frame) : option frame := hd_error up.

Definition parent_is (f : kind -> bool) (up : list frame) : bool :=
  match parent up with Some fr => f (fr_kind fr) | None => false end.

Definition is_compound (k : kind) : bool :=
  match k with KStmt SCompound => true | _ => false end.
Definition is_switch_case (k : kind) : bool :=
  match k with KStmt (SCase | SDefault) => true | _ => false end.
Definition is_init_list (k : kind) : bool :=
  match k with KExpr EInitList _ => true | _ => false end.
Definition is_construct (k : kind) : bool :=
  match k with KExpr EConstruct _ => true | _ => false end.
Definition is_materialize (k : kind) : bool :=
  match k with KExpr EMaterialize _ => true | _ => false end.
Definition is_implicit_cast (k : kind) : bool :=
  match k with KExpr (ECast true _) _ => true | _ => false end.
Definition is_member_call (k : kind) : bool :=
  match k with KExpr EMemberCall _ => true | _ => false end.
Definition is_adl_call (k : kind) : bool :=
  match k with KExpr (ECall adl) _ => adl | _ => false end.

(* The expression facts of a parent of class CastExpr *)
Definition cast_parent (up : list frame) : option expr_info :=
  match parent up with
  | Some fr => match fr_kind fr with KExpr (ECast _ _) x => Some x | _ => None end
  | None => None
  end.

(* mutate_visitor.cc:72-93.  The stack of enclosing declarations is the sequence of
   declarations among the enclosing nodes; the translation unit is not put on it, and that a
   variable is put on it twice makes no difference. *)
Fixpoint in_function (up : list frame) : bool :=
  match up with
  | [] => false
  | fr :: up =>
      match fr_kind fr with
      | KDecl (DFunction _ _) => true
      | KDecl (DVar _) | KDecl DParm => in_function up
      | KDecl _ => false
      | _ => in_function up
      end
  end.

(* ---- Expressions that are left alone ------------------------------------------------- *)
(* mutate_visitor.cc:731-764 *)
Definition enum_to_constructor (k : kind) (up : list frame) (ks : list (role * node))
  : bool :=
  is_implicit_cast k && parent_is is_construct up &&
  match child RSub ks with
  | Some (Ast (KExpr EEnumConstant _) _ _) => true
  | _ => false
  end.

(* mutate_visitor.cc:772-823, with 765-770 *)
Definition may_affect_adl (k : kind) (up : list frame) (ks : list (role * node)) : bool :=
  (is_implicit_cast k &&
   (negb (child_supported RSub ks) ||
    match child RSub ks with Some n => is_member_call (node_kind n) | None => false end) &&
   parent_is is_adl_call up)
  || (is_member_call k &&
      (if parent_is is_implicit_cast up then parent_is is_adl_call (tl up)
       else parent_is is_adl_call up)).

(* mutate_visitor.cc:825-862.  A member access has one base. *)
Fixpoint may_depend_on_temporary (n : node) : bool :=
  match n with
  | Ast (KExpr e x) _ ks =>
      let lasting := e_lvalue (x_expr x) || x_pointer x in
      match e with
      | EMaterialize => true
      | EMember =>
          lasting &&
          existsb (fun c => match fst c with
                            | RBase => may_depend_on_temporary (snd c)
                            | _ => false
                            end) ks
      | ECall _ | EMemberCall | EFrameAddress =>
          lasting &&
          existsb (fun c => match fst c with
                            | RArg | RConstantArg => may_depend_on_temporary (snd c)
                            | _ => false
                            end) ks
      | _ => false
      end
  | _ => false
  end.

(* mutate_visitor.cc:367-429 *)
Definition handle_unary (opt : bool) (u : unary) (ks : list (role * node)) : bool :=
  child_supported RSub ks && unary_site opt (child_in_main RSub ks) u.

(* mutate_visitor.cc:431-491 *)
Definition handle_binary (opt : bool) (b : binary) (ks : list (role * node)) : bool :=
  child_supported RLhs ks && child_supported RRhs ks &&
  binary_site opt (child_in_main RLhs ks) (child_in_main RRhs ks) b.

(* mutate_visitor.cc:493-583 *)
Definition handle_expr (opt : bool) (k : kind) (x : expr_info) (up : list frame)
  (ks : list (role * node)) : bool :=
  if e_lvalue (x_expr x) && negb (can_mutate_lvalue (x_expr x)) then false
  else if is_init_list k then false
  else if x_null_constant x &&
          match cast_parent up with Some p => x_pointer p | None => false end then false
  else if enum_to_constructor k up ks then false
  else if match k with KExpr (ECast _ _) _ => true | _ => false end &&
          match child RSub ks with
          | Some (Ast (KExpr _ y) _ _) => e_bitfield (x_expr y)
          | _ => false
          end && parent_is is_materialize up then false
  else if opt && match cast_parent up with
                 | Some p => Bool.eqb (e_lvalue (x_expr p)) (e_lvalue (x_expr x)) &&
                             negb (x_in_init_list x)
                 | None => false
                 end then false
  else if opt && (parent_is is_compound up || parent_is is_switch_case up) then false
  else true.

(* mutate_visitor.cc:585-660.  vars: the locations of the variable declarations visited so
   far. *)
Definition visit_expr (opt : bool) (vars : list nat) (up : list frame) (n : node)
  : list mutation :=
  match n with
  | Ast (KExpr e x) i ks =>
      if opt && match e with EParen | ECleanups => true | _ => false end then []
      else if negb (in_function up) then []
      else if existsb (Nat.eqb (n_begin i)) vars then []
      else if negb (n_in_main i) then []
      else if negb (x_consistent x) then []
      else if negb (x_supported x) then []
      else if may_affect_adl (KExpr e x) up ks then []
      else if may_depend_on_temporary n then []
      else match e with
           | EUnary u info_sub =>
               when (handle_unary opt u ks) [MutUnary u (n_loc i) info_sub]
           | EBinary b info_lhs info_rhs =>
               when (handle_binary opt b ks) [MutBinary b (n_loc i) info_lhs info_rhs]
           | _ => []
           end
           ++ when (handle_expr opt (KExpr e x) x up ks) [MutExpr (x_expr x) (n_loc i)]
  | _ => []
  end.

(* ---- The traversal ------------------------------------------------------------------- *)
(* mutate_visitor.h:251-309.  Nodes are identified by their positions: the list of child
   numbers that leads to them from the root. *)
Record vstate := {
  vs_mutations : list (list nat * mutation);        (* of the innermost tree node *)
  vs_children : list (tree (list nat * mutation));
  vs_vars : list nat;                               (* var_decl_source_locations_ *)
  vs_asserts : list (list nat);                     (* static_assertions_to_rewrite_ *)
  vs_arrays : list (list nat);                      (* constant_sized_arrays_to_rewrite_ *)
  vs_args : list (list nat);                        (* constant_arguments_to_rewrite_ *)
  vs_prelude : option nat                           (* dredd_prelude_start_location_ *)
}.

(* mutate_visitor.h:146-168, PushMutationTreeRAII around f *)
Definition push_tree (f : vstate -> vstate) (st : vstate) : vstate :=
  let st' := f {| vs_mutations := []; vs_children := []; vs_vars := vs_vars st;
                  vs_asserts := vs_asserts st; vs_arrays := vs_arrays st;
                  vs_args := vs_args st; vs_prelude := vs_prelude st |} in
  {| vs_mutations := vs_mutations st;
     vs_children := vs_children st ++ [Node (vs_mutations st') (vs_children st')];
     vs_vars := vs_vars st'; vs_asserts := vs_asserts st'; vs_arrays := vs_arrays st';
     vs_args := vs_args st'; vs_prelude := vs_prelude st' |}.

(* mutate_visitor.cc:722-724 *)
Definition add_mutations (pos : list nat) (ms : list mutation) (st : vstate) : vstate :=
  {| vs_mutations := vs_mutations st ++ map (pair pos) ms;
     vs_children := vs_children st; vs_vars := vs_vars st; vs_asserts := vs_asserts st;
     vs_arrays := vs_arrays st; vs_args := vs_args st; vs_prelude := vs_prelude st |}.

(* mutate_visitor.cc:726-729 *)
Definition add_var (loc : nat) (st : vstate) : vstate :=
  {| vs_mutations := vs_mutations st; vs_children := vs_children st;
     vs_vars := loc :: vs_vars st; vs_asserts := vs_asserts st; vs_arrays := vs_arrays st;
     vs_args := vs_args st; vs_prelude := vs_prelude st |}.

Definition add_assert (pos : list nat) (st : vstate) : vstate :=
  {| vs_mutations := vs_mutations st; vs_children := vs_children st; vs_vars := vs_vars st;
     vs_asserts := vs_asserts st ++ [pos]; vs_arrays := vs_arrays st;
     vs_args := vs_args st; vs_prelude := vs_prelude st |}.

Definition add_array (pos : list nat) (st : vstate) : vstate :=
  {| vs_mutations := vs_mutations st; vs_children := vs_children st; vs_vars := vs_vars st;
     vs_asserts := vs_asserts st; vs_arrays := vs_arrays st ++ [pos];
     vs_args := vs_args st; vs_prelude := vs_prelude st |}.

Definition add_arg (pos : list nat) (st : vstate) : vstate :=
  {| vs_mutations := vs_mutations st; vs_children := vs_children st; vs_vars := vs_vars st;
     vs_asserts := vs_asserts st; vs_arrays := vs_arrays st;
     vs_args := vs_args st ++ [pos]; vs_prelude := vs_prelude st |}.

Definition set_prelude (loc : nat) (st : vstate) : vstate :=
  match vs_prelude st with
  | Some _ => st
  | None =>
      {| vs_mutations := vs_mutations st; vs_children := vs_children st;
         vs_vars := vs_vars st; vs_asserts := vs_asserts st; vs_arrays := vs_arrays st;
         vs_args := vs_args st; vs_prelude := Some loc |}
  end.

(* How a statement is reached: through TraverseStmt, or by the loop of TraverseCompoundStmt
   (mutate_visitor.cc:663-677), which looks through case and default labels. *)
Inductive mode := Plain | Component.

(* Whether and how a child is traversed.  mutate_visitor.cc:674-677 (the labels in front of
   a component of a block), 662-663 (components), 294-299 (a case elsewhere: not its value);
   otherwise RecursiveASTVisitor traverses all children.  The only child of a default label
   is its statement. *)
Definition child_mode (m : mode) (k : kind) (r : role) : option mode :=
  match k with
  | KStmt (SCase | SDefault) => if role_eqb r RSub then Some m else None
  | KStmt SCompound => Some Component
  | _ => Some Plain
  end.

(* mutate_visitor.cc:211-286, except for __builtin_frame_address: TraverseStmt returns
   early. *)
Definition stmt_skipped (k : kind) (up : list frame) : bool :=
  match k with
  | KExpr (EUserLiteral | EConstant | ENoexcept) _ => true
  | _ =>
      match parent up with
      | Some {| fr_kind := KExpr ESizeAlign _ |} => true
      | Some {| fr_kind := KStmt (SIf true); fr_role := RCond |} => true
      | Some {| fr_kind := KExpr ENew _; fr_role := RArraySize |} => true
      | _ =>
          match k with
          | KExpr (ECast _ true) _ => true
          | _ => false
          end
      end
  end.

(* mutate_visitor.cc:678-685 *)
Definition useless_component (opt : bool) (k : kind) : bool :=
  opt && match k with KExpr _ x => negb (e_side_effects (x_expr x)) | _ => false end.

(* mutate_visitor.cc:695-717 *)
Definition removals (opt : bool) (k : kind) (i : info) : list mutation :=
  if negb (n_in_main i) || match k with
                           | KStmt (SNull | SDeclStmt | SLabel) => true
                           | _ => false
                           end then []
  else if opt && is_compound k then []
  else [MutStmt (n_site i) (n_loc i)].

(* The position of getArg(0) *)
Fixpoint first_arg (ks : list (role * node)) (idx : nat) : nat :=
  match ks with
  | [] => idx
  | ((RArg | RConstantArg), _) :: _ => idx
  | _ :: ks => first_arg ks (S idx)
  end.

(* Which declarations and locations are entered.  mutate_visitor.cc:110-146 (TraverseDecl),
   190-201 (TraverseVarDecl), 359-365 (TraverseParmVarDecl), 301-357 (locations). *)
Definition decl_entered (is_cpp : bool) (d : decl_kind) (i : info) : bool :=
  match d with
  | DTranslationUnit => true
  | DStaticAssert => false
  | DFunction constexpr _ => n_in_main i && negb constexpr
  | DVar v =>
      n_in_main i &&
      (v_specialization v ||
       (negb (v_constexpr v) && negb (v_constinit v) && (is_cpp || negb (v_static_local v))))
  | DParm => false
  | DField _ | DOther => n_in_main i
  end.

Definition loc_entered (is_cpp : bool) (l : loc_kind) : bool :=
  match l with
  | LConstantArray | LDependentArray | LTemplateArgument | LLambdaCapture => false
  | LVariableArray => negb is_cpp
  | LOther => true
  end.

(* What TraverseDecl and TraverseVarDecl record before descending: mutate_visitor.cc:117-133,
   134-140, 151-156, 178-189.  Simplified: constant template arguments of a variable's type
   (lines 167-177) are not recorded. *)
Definition record_decl (is_cpp : bool) (d : decl_kind) (i : info) (pos : list nat)
  (st : vstate) : vstate :=
  match d with
  | DTranslationUnit => st
  | _ =>
      if negb (n_in_main i) then st
      else match d with
           | DStaticAssert => add_assert pos st
           | DFunction _ marker => if marker then set_prelude (n_begin i) st else st
           | DField constant_array =>
               if is_cpp && constant_array then add_array pos st else st
           | DVar v =>
               if is_cpp && v_constant_array v && negb (v_specialization v)
               then add_array pos st else st
           | _ => st
           end
  end.

(* RecursiveASTVisitor: the children in order, each with its number *)
Definition visit_children (f : role -> node -> nat -> vstate -> vstate)
  : list (role * node) -> nat -> vstate -> vstate :=
  fix go ks idx st :=
    match ks with
    | [] => st
    | (r, c) :: ks => go ks (S idx) (f r c idx st)
    end.

(* mutate_visitor.cc:95-365, 662-720; the recursion is RecursiveASTVisitor's. *)
Fixpoint traverse (is_cpp opt : bool) (n : node) (m : mode) (up : list frame)
  (pos : list nat) (st : vstate) : vstate :=
  match n with
  | Ast k i ks =>
      let descend :=
        visit_children (fun r c idx st =>
          match child_mode m k r with
          | Some m' =>
              traverse is_cpp opt c m' ({| fr_kind := k; fr_role := r |} :: up)
                (pos ++ [idx]) st
          | None => st
          end) ks 0 in
      let statement :=
        fun st =>
          if stmt_skipped k up then st
          else match k with
               | KExpr EFrameAddress _ => add_arg (pos ++ [first_arg ks 0]) st
               | _ =>
                   push_tree (fun st =>
                     let st := descend st in
                     add_mutations pos (visit_expr opt (vs_vars st) up n) st) st
               end in
      match k with
      | KStmt _ | KExpr _ _ =>
          match m with
          | Plain => statement st
          | Component =>
              if is_switch_case k then descend st
              else if useless_component opt k then st
              else push_tree (fun st =>
                     add_mutations pos (removals opt k i) (statement st)) st
          end
      | KDecl d =>
          let st := record_decl is_cpp d i pos st in
          if decl_entered is_cpp d i then
            let st := descend st in
            match d with DVar v => add_var (v_location v) st | _ => st end
          else st
      | KLoc l => if loc_entered is_cpp l then descend st else st
      end
  end.

(* mutate_visitor.cc:55-61 *)
Definition vstate0 : vstate :=
  {| vs_mutations := []; vs_children := []; vs_vars := []; vs_asserts := [];
     vs_arrays := []; vs_args := []; vs_prelude := None |}.

(* mutate_ast_consumer.cc:95: visitor_->TraverseDecl of the translation unit.  The
   mutation tree's root is what is left on the stack. *)
Definition visit (is_cpp opt : bool) (root : node) : vstate :=
  traverse is_cpp opt root Plain [] [] vstate0.

Definition visited_tree (is_cpp opt : bool) (root : node) : tree (list nat * mutation) :=
  let st := visit is_cpp opt root in Node (vs_mutations st) (vs_children st).

(* The tree without positions, as the rest of the model uses it *)
Fixpoint map_tree {A B} (f : A -> B) (t : tree A) : tree B :=
  match t with Node ms ks => Node (map f ms) (map (map_tree f) ks) end.

Definition mutation_tree (is_cpp opt : bool) (root : node) : tree mutation :=
  map_tree snd (visited_tree is_cpp opt root).
