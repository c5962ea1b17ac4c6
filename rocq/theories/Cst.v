(* Source text with its structure, and the text and structure that dredd's edits make of it.

   A piece of source is a tree in which the nodes that dredd mutates are marked.  The tree of
   the mutated source is given by [mutate]; that the edits of a run turn the text of
   the first tree into the text of the second is proved in NestProof.v.  The denotation [den]
   takes a tree to the term that is executed. *)
From Coq Require Import String List ZArith Bool.
From Verif Require Import Base Clang Gen GenExpr GenBinary GenUnary GenStmt Lang.
Import ListNotations.
Local Open Scope string_scope.

Section Cst.
Variable L : lang.

(* Nodes with the text before each child and after the last one.  CExpr, CBin, CUn and CStmt
   are the sites of the four kinds of mutation.  A CExpr around an l-value includes the
   implicit conversion to an r-value above it (mutation_replace_expr.cc:695-716 requires
   that there is one), and a CExpr in an initializer list includes the implicit conversion
   (mutation_replace_expr.cc:555-568). *)
Inductive cst :=
| CVal (s : string) (v : val L)
| CNode (k : kind L) (ps : list (string * cst)) (last : string)
| CExpr (e : expr) (sub : cst)
| CBin (b : binary) (l : cst) (w1 w2 : string) (r : cst)
| CUn (u : unary) (w : string) (sub : cst)
| CStmt (s : stmt_site) (sub : cst).

Definition un_text (o : uop) (w sub : string) : string :=
  if is_prefix o then uop_str o ++ w ++ sub else sub ++ w ++ uop_str o.

Fixpoint text (t : cst) : string :=
  match t with
  | CVal s _ => s
  | CNode _ ps last =>
      concat_strings (map (fun p => fst p ++ text (snd p)) ps) ++ last
  | CExpr _ sub => text sub
  | CBin b l w1 w2 r => text l ++ w1 ++ bop_str (b_op b) ++ w2 ++ text r
  | CUn u w sub => un_text (u_op u) w (text sub)
  | CStmt _ sub => text sub
  end.

(** * Meaning *)

Variable c : ctx.

(* Operands of a site, with their types. *)
Definition value_of_type (t : ty) (x : tm L) : operand L := (false, N (KAt t) [x]).
Definition object (x : tm L) : operand L := (true, N KLv [x]).
Definition no_operand : operand L := (false, N KWrong []).

(* Sites, given what is done with the operands. *)
Definition expr_site (e : expr) (z : operand L -> operand L) (x : tm L) : tm L :=
  let arg := if e_lvalue e then object x else value_of_type (e_ty e) x in
  let t := N (KAt (e_ty e)) [rvalue (z arg)] in
  match e_init_list_cast e with Some t' => N (KAt t') [t] | None => t end.

Definition binary_operands (b : binary) (x y : tm L) : operand L * operand L :=
  (if is_assign (b_op b) then object x else value_of_type (e_ty (b_lhs b)) x,
   value_of_type (e_ty (b_rhs b)) y).
Definition binary_site (b : binary) (z : operand L -> operand L -> operand L) (x y : tm L)
  : tm L :=
  let z := z (fst (binary_operands b x y)) (snd (binary_operands b x y)) in
  if is_assign (b_op b) && cpp c then lvalue z else N (KAt (b_ty b)) [rvalue z].

Definition unary_site (u : unary) (z : operand L -> operand L) (x : tm L) : tm L :=
  let arg := if e_lvalue (u_sub u) then object x else value_of_type (e_ty (u_sub u)) x in
  if cpp c && u_lvalue u then lvalue (z arg) else N (KAt (u_ty u)) [rvalue (z arg)].

(* A site at which the operation is r: the original one, or that of a mutant. *)
Definition expr_term (e : expr) (r : rhs) (x : tm L) : tm L :=
  expr_site e (fun a => expression L c r a no_operand) x.
Definition binary_term (b : binary) (r : rhs) (x y : tm L) : tm L :=
  binary_site b (expression L c r) x y.
Definition unary_term (u : unary) (r : rhs) (x : tm L) : tm L :=
  unary_site u (fun a => expression L c r a no_operand) x.

Definition written_unary (o : uop) : rhs := if is_prefix o then RPre o else RPost o.

Fixpoint den (t : cst) : tm L :=
  match t with
  | CVal _ v => RV v
  | CNode k ps _ =>
      let args := map (fun p => den (snd p)) ps in
      match k with
      | KM f _ => N k (pass_all L c (mf_params f) args)
      | _ => N k args
      end
  | CExpr e sub => expr_term e RArg1 (den sub)
  | CBin b l _ _ r => binary_term b (RBin (b_op b)) (den l) (den r)
  | CUn u _ sub => unary_term u (written_unary (u_op u)) (den sub)
  | CStmt _ sub => den sub
  end.

(** * The mutated tree *)

Variable o : options.

Definition call1 (f : mfun) (id : nat) (before : string) (a : cst) (after : string) : cst :=
  CNode (KM f id) [(before ++ mf_name f ++ "(", a)]
    (after ++ ", " ++ string_of_nat id ++ ")").

(* mutation_replace_expr.cc:538-639 *)
Definition mutated_expr (e : expr) (id : nat) (sub : cst) : cst :=
  let space := if e_preceded_by_ident e then " " else "" in
  let paren := match e_binop e with Some Comma => true | _ => false end in
  let lp := if paren then "(" else "" in
  let rp := if paren then ")" else "" in
  let f := expr_function c o e in
  let call before :=
    if cpp c && e_side_effects e then
      let t := input_type c e in
      let cast := negb (e_cxx11_constant e) in
      call1 f id before
        (CNode (KLambda t)
           [("[&]() -> " ++ t ++ " { return "
             ++ (if cast then "static_cast<" ++ t ++ ">(" else "") ++ lp, sub)]
           (rp ++ (if cast then ")" else "") ++ "; }")) ""
    else if negb (cpp c) && e_lvalue e then
      call1 f id before (CNode KAddr [("&(" ++ lp, sub)] (rp ++ ")")) ""
    else
      CNode (KM f id) [(before ++ mf_name f ++ "(" ++ lp, sub)]
        (rp ++ ", " ++ string_of_nat id ++ ")") in
  match e_init_list_cast e with
  | Some t => CNode (KAt t) [(space ++ "static_cast<" ++ ty_name c t ++ ">(", call "")] ")"
  | None => call space
  end.

Definition lambda (t : string) (a : cst) : cst :=
  CNode (KLambda t) [("[&]() -> " ++ t ++ " { return static_cast<" ++ t ++ ">(", a)] "); }".

(* mutation_replace_binary_operator.cc:627-712 *)
Definition mutated_binary (b : binary) (id : nat) (l : cst) (w1 w2 : string) (r : cst)
  : cst :=
  let f := binary_function c o b in
  let l' := if lhs_delayed c b then lambda (binary_lhs_type c b) l
            else if negb (cpp c) && is_assign (b_op b) then CNode KAddr [("&(", l)] ")"
            else l in
  let r' := if rhs_delayed c b then lambda (binary_rhs_type c b) r else r in
  CNode (KM f id) [(mf_name f ++ "(", l'); (w1 ++ "," ++ w2, r')]
    (", " ++ string_of_nat id ++ ")").

(* mutation_replace_binary_operator.cc:714-897 *)
Definition mutated_c_logical (b : binary) (id : nat) (l : cst) (w1 w2 : string) (r : cst)
  : cst :=
  let lhs := if track o then l else call1 (c_logical_lhs_function c o b) id "" l "" in
  let rhs := if track o then r else call1 (c_logical_rhs_function c o b) id "" r "" in
  call1 (c_logical_outer_function c o b) id "" (CBin b lhs w1 w2 rhs) "".

(* mutation_replace_unary_operator.cc:392-458.  The operator is removed, the white space
   next to it stays. *)
Definition mutated_unary (u : unary) (id : nat) (w : string) (sub : cst) : cst :=
  let f := unary_function c o u in
  let t := unary_input_type c u in
  let cast := negb (e_cxx11_constant (u_sub u)) in
  let ptr := negb (cpp c) && is_incdec (u_op u) in
  let before := if is_prefix (u_op u) then w else "" in
  let after := if is_prefix (u_op u) then "" else w in
  if unary_delayed c u then
    call1 f id ""
      (CNode (KLambda t)
         [("[&]() -> " ++ t ++ " { return " ++ (if cast then "static_cast<" ++ t ++ ">(" else "")
           ++ before, sub)]
         (after ++ (if cast then ")" else "") ++ "; }")) ""
  else if ptr then
    call1 f id "" (CNode KAddr [("&(" ++ before, sub)] (after ++ ")")) ""
  else
    CNode (KM f id) [(mf_name f ++ "(" ++ before, sub)]
      (after ++ ", " ++ string_of_nat id ++ ")").

(* mutation_remove_stmt.cc:101-154.  In a coverage build the statement follows the call. *)
Definition mutated_stmt (s : stmt_site) (id : nat) (sub : cst) : cst :=
  if track o then CNode (KRecord id 1) [(stmt_open o id, sub)] ""
  else CNode (KRemovable id) [(stmt_open o id, sub)] (stmt_close s).

(* All mutations of a tree, children first (mutate_ast_consumer.cc:475-506); the ids are
   local to the file.  The second component is the next id. *)
Fixpoint mutate (t : cst) (id : nat) : cst * nat :=
  match t with
  | CVal s v => (CVal s v, id)
  | CNode k ps last =>
      let fix go ps id :=
        match ps with
        | [] => ([], id)
        | (s, p) :: ps =>
            let (p, id) := mutate p id in
            let (ps, id) := go ps id in
            ((s, p) :: ps, id)
        end in
      let (ps, id) := go ps id in
      (CNode k ps last, id)
  | CExpr e sub =>
      let (sub, id) := mutate sub id in
      (mutated_expr e id sub, id + List.length (expr_mutants c (optimise o) e))
  | CBin b l w1 w2 r =>
      let (l, id) := mutate l id in
      let (r, id) := mutate r id in
      (if c_logical c b then mutated_c_logical b id l w1 w2 r
       else mutated_binary b id l w1 w2 r,
       id + List.length (binary_actions c (optimise o) b))
  | CUn u w sub =>
      let (sub, id) := mutate sub id in
      (mutated_unary u id w sub, id + List.length (unary_mutants (optimise o) u))
  | CStmt s sub =>
      let (sub, id) := mutate sub id in
      (mutated_stmt s id sub, S id)
  end.

(* The functions of a file. *)
Fixpoint mutate_program (p : list (string * cst)) (id : nat)
  : list (string * cst) * nat :=
  match p with
  | [] => ([], id)
  | (f, t) :: p =>
      let (t, id) := mutate t id in
      let (p, id) := mutate_program p id in
      ((f, t) :: p, id)
  end.

Fixpoint body_of (p : list (string * cst)) (f : string) : option (tm L) :=
  match p with
  | [] => None
  | (g, t) :: p => if String.eqb f g then Some (den t) else body_of p f
  end.
End Cst.

Arguments CVal {L}. Arguments CNode {L}. Arguments CExpr {L}. Arguments CBin {L}.
Arguments CUn {L}. Arguments CStmt {L}. Arguments text {L}.
Arguments value_of_type {L}. Arguments object {L}. Arguments no_operand {L}.
