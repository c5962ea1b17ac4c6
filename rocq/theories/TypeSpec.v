(* Which expressions over numbers C and C++ accept, as far as generated functions and their
   calls need it.  Nothing here refers to how dredd chooses or prints replacements, apart from
   the syntax of generated functions (Gen.v). *)
From Coq Require Import String List ZArith Bool.
From Verif Require Import Base Clang Gen GenExpr GenBinary GenUnary GenStmt Mutation Sites
  ClashSpec.
Import ListNotations.
Local Open Scope string_scope.

(* The kinds of object that an l-value can denote *)
Inductive object := Ordinary | BitField | RegisterVariable | VectorElement.

(* Expressions of arithmetic type: l-values, x-values and pr-values *)
Inductive operand :=
| Place (t : ty) (volatile const : bool) (ob : object)
| Expiring (t : ty)
| Value (t : ty).

Definition operand_ty (x : operand) : ty :=
  match x with Place t _ _ _ => t | Expiring t => t | Value t => t end.

(* C11 6.3.2.1p1 *)
Definition modifiable (x : operand) : bool :=
  match x with Place _ _ const _ => negb const | _ => false end.

(* What an expression yields, as far as it matters for returning it *)
Inductive yields := Rejected | Number | AtPlace (t : ty) (volatile const : bool).

(* C11 6.5.5p2, 6.5.7p2, 6.5.10p2-6.5.12p2, 6.5.16.2p2: %, shifts and bitwise operators need
   integers. *)
Definition needs_integers (o : bop) : bool :=
  match o with
  | Rem | Shl | Shr | And | Xor | Or
  | RemAssign | ShlAssign | ShrAssign | AndAssign | XorAssign | OrAssign => true
  | _ => false
  end.

(* All arithmetic types can be converted to each other.  An assignment is an l-value in C++
   only. *)
Definition binary_yields (c : ctx) (o : bop) (l r : operand) : yields :=
  if needs_integers o && (is_float (operand_ty l) || is_float (operand_ty r)) then Rejected
  else if is_assign o then
    match l with
    | Place t volatile false _ => if cpp c then AtPlace t volatile false else Number
    | _ => Rejected
    end
  else Number.

(* C++ [expr.pre.incr], [expr.post.incr]: a bool cannot be decremented, and since C++17 not
   incremented.  __extension__ is printed directly before the operand, so the two make one
   identifier, which is not declared. *)
Definition unary_yields (c : ctx) (cpp17 : bool) (o : uop) (x : operand) : yields :=
  let boolean := cpp c && is_bool (operand_ty x) in
  let stepped :=
    match x with
    | Place t volatile false _ => if cpp c then AtPlace t volatile false else Number
    | _ => Rejected
    end in
  match o with
  | PreInc => if boolean && cpp17 then Rejected else stepped
  | PreDec => if boolean then Rejected else stepped
  | PostInc => if boolean && cpp17 || negb (modifiable x) then Rejected else Number
  | PostDec => if boolean || negb (modifiable x) then Rejected else Number
  | Not => if is_float (operand_ty x) then Rejected else Number
  | Minus | Plus | LNot => Number
  | UExtension => Rejected
  end.

(* Types of parameters and results *)
Inductive plain :=
| ByValue (t : ty)
| ByReference (t : ty) (volatile const : bool)
| ByPointer (t : ty) (volatile const : bool).
Inductive param := Direct (p : plain) | Delayed (p : plain).

Definition qualified (c : ctx) (t : ty) (volatile const : bool) : string :=
  (if const then "const " else "") ++ (if volatile then "volatile " else "") ++ ty_name c t.

Definition plain_text (c : ctx) (p : plain) : string :=
  match p with
  | ByValue t => ty_name c t
  | ByReference t volatile const => qualified c t volatile const ++ "&"
  | ByPointer t volatile const => qualified c t volatile const ++ "*"
  end.
Definition param_text (c : ctx) (p : param) : string :=
  match p with
  | Direct p => plain_text c p
  | Delayed p => "std::function<" ++ plain_text c p ++ "()>"
  end.

(* Qualifiers may be added, not dropped. *)
Definition implies (a b : bool) : Prop := a = true -> b = true.

(* An argument that is passed as it is (by value or reference), with its address taken (by
   pointer), or as the result of a lambda.  C11 6.5.3.2p1, C++ [dcl.init.ref] *)
Definition accepts_plain (c : ctx) (p : plain) (x : operand) : Prop :=
  match p, x with
  | ByValue _, _ => True
  | ByReference t volatile const, Place t' volatile' const' ob =>
      cpp c = true /\ t = t' /\ implies volatile' volatile /\ implies const' const /\
      ob <> BitField /\ ob <> VectorElement
  | ByPointer t volatile const, Place t' volatile' const' ob =>
      t = t' /\ implies volatile' volatile /\ implies const' const /\
      ob <> BitField /\ ob <> VectorElement /\ (cpp c = false -> ob <> RegisterVariable)
  | _, _ => False
  end.
Definition accepts (c : ctx) (p : param) (x : operand) : Prop :=
  match p with
  | Direct p => accepts_plain c p x
  | Delayed p => cpp c = true /\ accepts_plain c p x
  end.

(* What the body of the function sees: a parameter, a dereferenced pointer, the result of a
   call of std::function *)
Definition seen (a : access) (p : param) : option operand :=
  match a, p with
  | AVal, Direct (ByValue t) => Some (Place t false false Ordinary)
  | AVal, Direct (ByReference t volatile const) => Some (Place t volatile const Ordinary)
  | ALam, Delayed (ByValue t) => Some (Value t)
  | ALam, Delayed (ByReference t volatile const) => Some (Place t volatile const Ordinary)
  | APtr, Direct (ByPointer t volatile const) => Some (Place t volatile const Ordinary)
  | _, _ => None
  end.

Definition place_yields (x : operand) : yields :=
  match x with Place t volatile const _ => AtPlace t volatile const | _ => Number end.

Definition body_yields (c : ctx) (cpp17 : bool) (access : access * access)
  (ps : list param) (r : rhs) : yields :=
  let arg1 := match ps with p :: _ => seen (fst access) p | [] => None end in
  let arg2 := match ps with _ :: p :: _ => seen (snd access) p | _ => None end in
  match r, arg1, arg2 with
  | RArg1, Some x, _ => place_yields x
  | RArg2, _, Some y => place_yields y
  | RPre o, Some x, _ | RPreParen o, Some x, _ =>
      match o with
      | PostInc | PostDec => Rejected
      | _ => unary_yields c cpp17 o x
      end
  | RPost o, Some x, _ =>
      match o with
      | PostInc | PostDec => unary_yields c cpp17 o x
      | _ => Rejected
      end
  | RBin o, Some x, Some y => binary_yields c o x y
  | RLit (LBool _), _, _ => if cpp c then Number else Rejected
  | RLit _, _, _ => Number
  | _, _, _ => Rejected
  end.

(* Returning what an expression yields *)
Definition returns (result : plain) (y : yields) : Prop :=
  match result, y with
  | ByValue _, (Number | AtPlace _ _ _) => True
  | ByReference t volatile const, AtPlace t' volatile' const' =>
      t = t' /\ implies volatile' volatile /\ implies const' const
  | _, _ => False
  end.

(* The call has the type and the value category of the expression that it replaces.  Where
   the program immediately converts an l-value to its value, the value is enough. *)
Definition stands_for (result : plain) (x : operand) (converted : bool) : Prop :=
  match x with
  | Value t => result = ByValue t
  | Expiring _ => False
  | Place t volatile const _ =>
      result = ByReference t volatile const \/ converted = true /\ result = ByValue t
  end.

(* A call: the arguments, the expression that it replaces, and whether that is converted to
   its value *)
Definition call := (list operand * operand * bool)%type.

(* All expressions that a function can return *)
Definition returned (f : mfun) : list rhs := mf_orig f :: map snd (mf_lines f).

(* The compiler accepts the function and the call. *)
Definition compiles (c : ctx) (cpp17 : bool) (f : mfun) (k : call) : Prop :=
  let '(args, replaced, converted) := k in
  exists ps result,
    map fst (mf_params f) = map (param_text c) ps /\ mf_result f = plain_text c result /\
    Forall2 (accepts c) ps args /\
    (forall r, In r (returned f) ->
       returns result (body_yields c cpp17 (mf_access f) ps r)) /\
    stands_for result replaced converted.

(* What dredd does not ask Clang about an expression: the object that it denotes (other than
   bit-fields), and whether it is an x-value. *)
Record unseen := { the_object : object; is_xvalue : bool }.

Definition expr_operand (e : expr) (w : unseen) : operand :=
  if e_lvalue e then Place (e_ty e) (e_volatile e) (e_const e) (the_object w)
  else if is_xvalue w then Expiring (e_ty e)
  else Value (e_ty e).

Definition consistent (e : expr) (w : unseen) : Prop :=
  e_bitfield e = true <-> e_lvalue e = true /\ the_object w = BitField.

Definition ordinary : unseen := {| the_object := Ordinary; is_xvalue := false |}.

(* Assignments and prefix increments are l-values in C++, all other operators give values. *)
Definition binary_operand (c : ctx) (b : binary) : operand :=
  if is_assign (b_op b) && cpp c then Place (b_ty b) (e_volatile (b_lhs b)) false Ordinary
  else Value (b_ty b).
Definition unary_operand (u : unary) : operand :=
  if u_lvalue u then Place (u_ty u) (u_volatile u) (u_const u) Ordinary
  else Value (u_ty u).

(* The implicit conversion around an l-value *)
Definition is_converted (e : expr) : bool :=
  match e_cast_parent_lvalue e with Some lv => negb lv | None => false end.

(* The calls that are needed for a mutation, in the order of the functions; w is about the
   expression itself or its (left) operand.  In C, a logical operator is treated with three
   functions, of which only the last is needed to record coverage. *)
Definition calls_of (c : ctx) (o : options) (m : mutation) (w : unseen) : list call :=
  match m with
  | MutExpr e _ => [([expr_operand e w], expr_operand e w, is_converted e)]
  | MutBinary b _ _ _ =>
      let l := expr_operand (b_lhs b) w in
      let r := expr_operand (b_rhs b) ordinary in
      let whole := binary_operand c b in
      if negb (cpp c) && is_logical (b_op b)
      then (if track o then [] else [([l], l, true); ([r], r, true)])
           ++ [([whole], whole, true)]
      else [([l; r], whole, false)]
  | MutUnary u _ _ => [([expr_operand (u_sub u) w], unary_operand u, false)]
  | MutStmt _ _ => []
  end.

(* The original program is accepted: the original operator applies to the operands. *)
Definition original_accepted (c : ctx) (cpp17 : bool) (m : mutation) (w : unseen) : Prop :=
  match m with
  | MutBinary b _ _ _ =>
      binary_yields c (b_op b) (expr_operand (b_lhs b) w) (expr_operand (b_rhs b) ordinary)
        <> Rejected
  | MutUnary u _ _ =>
      unary_yields c cpp17 (u_op u) (expr_operand (u_sub u) w) <> Rejected
  | _ => True
  end.

(* The expression, or the (left) operand, about which w speaks *)
Definition first_operand (m : mutation) : option expr :=
  match m with
  | MutExpr e _ => Some e
  | MutBinary b _ _ _ => Some (b_lhs b)
  | MutUnary u _ _ => Some (u_sub u)
  | MutStmt _ _ => None
  end.

(* The visitor made a mutation of the operator. *)
Definition is_site (opt : bool) (m : mutation) : Prop :=
  match m with
  | MutBinary b _ _ _ => binary_site opt true true b = true
  | MutUnary u _ _ => unary_site opt true u = true
  | _ => True
  end.

(* An operator that changes a bool *)
Definition steps_bool (m : mutation) : Prop :=
  match m with
  | MutUnary u _ _ => is_incdec (u_op u) = true /\ e_ty (u_sub u) = TBool
  | _ => False
  end.

(* How an argument is written: as it is, with its address taken, or in a lambda that returns
   it, perhaps with a cast to the type that the lambda returns; perhaps in parentheses. *)
Definition opening (c : ctx) (p : param) (cast paren : bool) : string :=
  match p with
  | Direct (ByPointer _ _ _) => "&("
  | Direct _ => ""
  | Delayed q =>
      "[&]() -> " ++ plain_text c q ++ " { return "
      ++ (if cast then "static_cast<" ++ plain_text c q ++ ">(" else "")
  end ++ (if paren then "(" else "").
Definition closing (p : param) (cast paren : bool) : string :=
  (if paren then ")" else "")
  ++ match p with
     | Direct (ByPointer _ _ _) => ")"
     | Direct _ => ""
     | Delayed _ => (if cast then ")" else "") ++ "; }"
     end.

(* The edits write a call of the function in which the arguments are written as the types of
   the parameters demand. *)
Definition passed_as (c : ctx) (es : list edit) (name : string) (ps : list param) (id : nat)
  : Prop :=
  match ps with
  | [p] => exists off s off' s' cast paren,
      In (InsertBefore off (s ++ name ++ "(" ++ opening c p cast paren)) es /\
      In (InsertAfterToken off'
            (closing p cast paren ++ ", " ++ string_of_nat id ++ ")" ++ s')) es /\
      (s' = "" \/ s' = ")")
  | [p; q] => exists off1 off1' off2 off2' cast1 cast2,
      In (InsertBefore off1 (name ++ "(" ++ opening c p cast1 false)) es /\
      In (InsertAfterToken off1' (closing p cast1 false)) es /\
      In (InsertBefore off2 (opening c q cast2 false)) es /\
      In (InsertAfterToken off2' (closing q cast2 false ++ ", " ++ string_of_nat id ++ ")"))
        es /\
      (exists off n, In (ReplaceText off n ",") es)
  | _ => False
  end.
Definition passed (c : ctx) (es : list edit) (f : mfun) (id : nat) : Prop :=
  exists ps, map fst (mf_params f) = map (param_text c) ps /\
    passed_as c es (mf_name f) ps id.
