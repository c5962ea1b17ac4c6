(* What the text of a mutator function should mean (C68). *)
From Coq Require Import String Ascii List NArith ZArith Bool.
From Verif Require Import Base Clang Gen GenExpr GenBinary GenUnary Mutation GenSpec TypeSpec
  CText FunText.
Import ListNotations.
Local Open Scope string_scope.

(** * Types *)

Definition words (c : ctx) (t : ty) : list string :=
  match t with
  | TBool => [if prints_bool c then "bool" else "_Bool"]
  | TChar => ["char"] | TSChar => ["signed"; "char"] | TUChar => ["unsigned"; "char"]
  | TWChar => ["wchar_t"] | TChar8 => ["char8_t"] | TChar16 => ["char16_t"]
  | TChar32 => ["char32_t"]
  | TShort => ["short"] | TUShort => ["unsigned"; "short"]
  | TInt => ["int"] | TUInt => ["unsigned"; "int"]
  | TLong => ["long"] | TULong => ["unsigned"; "long"]
  | TLongLong => ["long"; "long"] | TULongLong => ["unsigned"; "long"; "long"]
  | TInt128 => ["__int128"] | TUInt128 => ["unsigned"; "__int128"]
  | THalf => ["__fp16"] | TFloat16 => ["_Float16"] | TBFloat16 => ["__bf16"]
  | TFloat => ["float"] | TDouble => ["double"] | TLongDouble => ["long"; "double"]
  | TFloat128 => ["__float128"] | TIbm128 => ["__ibm128"]
  end.
Definition with_qualifiers (volatile const : bool) (t : fty) : fty :=
  let t := if volatile then FVolatile t else t in if const then FConst t else t.
Definition plain_type (c : ctx) (p : plain) : fty :=
  match p with
  | ByValue t => FName (words c t)
  | ByReference t volatile const => FRef (with_qualifiers volatile const (FName (words c t)))
  | ByPointer t volatile const => FPtr (with_qualifiers volatile const (FName (words c t)))
  end.
Definition param_type (c : ctx) (p : param) : fty :=
  match p with
  | Direct p => plain_type c p
  | Delayed p => FFunction (plain_type c p)
  end.

(** * What a body does

    given whether some mutant of the file is enabled, which mutants are enabled, and the id
    the function is called with: the calls that record coverage, and the expression that it
    returns *)

Definition holds (some : bool) (enabled : nat -> bool) (id : nat) (e : cexpr) : option bool :=
  match e with
  | EUn "!" (EVar "__dredd_some_mutation_enabled") => Some (negb some)
  | ECall1 (EVar "__dredd_enabled_mutation") (EBin "+" (EVar "local_mutation_id") (ENum k)) =>
      Some (enabled (id + N.to_nat k))
  | _ => None
  end.
Fixpoint behaves (some : bool) (enabled : nat -> bool) (id : nat) (s : cstmt)
  : option (list (nat * nat) * option cexpr) :=
  match s with
  | CSkip => Some ([], None)
  | CSeq a b =>
      match behaves some enabled id a with
      | Some (l, None) =>
          match behaves some enabled id b with
          | Some (l', r) => Some ((l ++ l')%list, r)
          | None => None
          end
      | x => x
      end
  | CIf e t =>
      match holds some enabled id e with
      | Some true => behaves some enabled id t
      | Some false => Some ([], None)
      | None => None
      end
  | CReturn (Some e) => Some ([], Some e)
  | CExpr (ECall2 (EVar "__dredd_record_covered_mutants") (EVar "local_mutation_id") (ENum k)) =>
      Some ([(id, N.to_nat k)], None)
  | _ => None
  end.

(** * What it should do *)

(* The operand that a parameter stands for *)
Definition argument (p : fty * string) : cexpr :=
  match fst p with
  | FPtr _ => EUn "*" (EVar (snd p))
  | FFunction _ => ECall0 (EVar (snd p))
  | _ => EVar (snd p)
  end.
Definition first_arg (d : fdef) : cexpr :=
  match fd_params d with p :: _ => argument p | _ => ENull end.
Definition second_arg (d : fdef) : cexpr :=
  match fd_params d with _ :: p :: _ => argument p | _ => ENull end.

Definition negative (z : Z) (e : cexpr) : cexpr := if Z.ltb z 0 then EUn "-" e else e.
Definition literal (l : lit) : cexpr :=
  match l with
  | LInt z => negative z (ENum (Z.abs_N z))
  | LFloat z => negative z (EReal (Z.abs_N z) "0")
  | LBool b => EBool b
  end.
(* The signs of the operators, C11 6.5 *)
Definition sign1 (o : uop) : string :=
  match o with
  | PreInc | PostInc => "++" | PreDec | PostDec => "--"
  | Minus => "-" | Plus => "+" | Not => "~" | LNot => "!" | UExtension => "__extension__"
  end.
Definition sign2 (o : bop) : string :=
  match o with
  | Mul => "*" | Div => "/" | Rem => "%" | Add => "+" | Sub => "-" | Shl => "<<" | Shr => ">>"
  | LT => "<" | GT => ">" | LE => "<=" | GE => ">=" | EQ => "==" | NE => "!="
  | And => "&" | Xor => "^" | Or => "|" | LAnd => "&&" | LOr => "||"
  | Assign => "=" | MulAssign => "*=" | DivAssign => "/=" | RemAssign => "%="
  | AddAssign => "+=" | SubAssign => "-=" | ShlAssign => "<<=" | ShrAssign => ">>="
  | AndAssign => "&=" | XorAssign => "^=" | OrAssign => "|=" | Comma => ","
  end.
Definition assigns (o : bop) : bool :=
  match o with
  | Assign | MulAssign | DivAssign | RemAssign | AddAssign | SubAssign | ShlAssign | ShrAssign
  | AndAssign | XorAssign | OrAssign => true
  | _ => false
  end.
Definition tree (a1 a2 : cexpr) (r : rhs) : cexpr :=
  match r with
  | RArg1 => a1
  | RArg2 => a2
  | RPre o | RPreParen o => EUn (sign1 o) a1
  | RPost o => EPost (sign1 o) a1
  | RBin o => if assigns o then EAssign (sign2 o) a1 a2 else EBin (sign2 o) a1 a2
  | RLit l => literal l
  end.

(* What the instances of a group mean, and the original expression *)
Definition meanings (c : ctx) (g : group) : list (option rhs) :=
  match g with
  | GroupRemoveStmt _ _ => []
  | GroupReplaceExpr _ l => map (fun x => expr_meaning c (snd x)) l
  | GroupReplaceBinary _ _ _ _ l => map (fun x => bin_meaning (snd x)) l
  | GroupReplaceUnary _ _ _ l => map (fun x => un_meaning (snd x)) l
  end.
Definition original (g : group) : option rhs :=
  match g with
  | GroupRemoveStmt _ _ => None
  | GroupReplaceExpr _ _ => Some RArg1
  | GroupReplaceBinary _ _ _ o _ => Some (RBin o)
  | GroupReplaceUnary _ _ o _ => Some (original_unary o)
  end.
(* The first enabled instance, if there is one *)
Fixpoint chosen (enabled : nat -> bool) (id : nat) (l : list (option rhs)) (r : option rhs)
  : option rhs :=
  match l with
  | [] => r
  | m :: l => if enabled id then m else chosen enabled (S id) l r
  end.

(* A definition that does what a group describes; it is called with the id of the group's
   first mutant. *)
Definition does (c : ctx) (track : bool) (g : group) (id : nat) (d : fdef) : Prop :=
  forall some enabled, (some = false -> forall i, enabled i = false) ->
    if track
    then behaves some enabled id (fd_body d) =
         Some ([(id, List.length (meanings c g))],
               option_map (tree (first_arg d) (second_arg d)) (original g))
    else behaves some enabled id (fd_body d) =
         Some ([], option_map (tree (first_arg d) (second_arg d))
                     (chosen enabled id (meanings c g) (original g))).

(** * && and || in C

    Three functions, around the operands and around the whole. *)

Fixpoint truth (x : bool) (e : cexpr) : option bool :=
  match e with
  | EVar "arg" => Some x
  | EUn "!" e => option_map negb (truth x e)
  | ENum k => Some (negb (N.eqb k 0))
  | _ => None
  end.
(* The truth value that a function makes of one *)
Definition makes (some : bool) (enabled : nat -> bool) (id : nat) (d : fdef) (x : bool)
  : option bool :=
  match behaves some enabled id (fd_body d) with
  | Some ([], Some e) => truth x e
  | _ => None
  end.
Definition truth_of_meaning (x y : bool) (r : rhs) : option bool :=
  match r with
  | RArg1 => Some x
  | RArg2 => Some y
  | RBin LAnd => Some (x && y)
  | RBin LOr => Some (x || y)
  | _ => None
  end.
Definition bind_option {A B} (x : option A) (f : A -> option B) : option B :=
  match x with Some a => f a | None => None end.
Definition do_together (c : ctx) (g : group) (id : nat) (dl dr dw : fdef) : Prop :=
  forall some enabled x y,
    (some = false -> forall i, enabled i = false) ->
    (forall i j, enabled i = true -> enabled j = true -> i = j) ->
    bind_option (makes some enabled id dl x) (fun x' =>
    bind_option (makes some enabled id dr y) (fun y' =>
    bind_option (bind_option (original g) (truth_of_meaning x' y'))
      (makes some enabled id dw))) =
    bind_option (chosen enabled id (meanings c g) (original g)) (truth_of_meaning x y).

(* In C, && and || are treated with three functions. *)
Definition in_three (c : ctx) (m : mutation) : bool :=
  match m with MutBinary b _ _ _ => negb (cpp c) && is_logical (b_op b) | _ => false end.
(* Text around a range that makes it the first argument of a call *)
Definition surrounds (es : list edit) (r : range) (name : string) (id : nat) : Prop :=
  In (InsertBefore (r_begin r) (name ++ "(")) es /\
  In (InsertAfterToken (r_end r) (", " ++ string_of_nat id ++ ")")) es.

(** * Which definitions a compiler accepts

    as in TypeSpec.v, but of what is read from the text *)

Fixpoint all_returns (s : cstmt) : list cexpr :=
  match s with
  | CSeq a b => all_returns a ++ all_returns b
  | CIf _ s => all_returns s
  | CReturn (Some e) => [e]
  | _ => []
  end.
Definition lookup (x : string) (env : list (string * param)) : option param :=
  option_map snd (find (fun p => String.eqb x (fst p)) env).
Definition operand_of (env : list (string * param)) (e : cexpr) : option operand :=
  match e with
  | EVar x =>
      match lookup x env with
      | Some (Direct (ByValue t)) => Some (Place t false false Ordinary)
      | Some (Direct (ByReference t v k)) => Some (Place t v k Ordinary)
      | _ => None
      end
  | EUn "*" (EVar x) =>
      match lookup x env with
      | Some (Direct (ByPointer t v k)) => Some (Place t v k Ordinary)
      | _ => None
      end
  | ECall0 (EVar x) =>
      match lookup x env with
      | Some (Delayed (ByValue t)) => Some (Value t)
      | Some (Delayed (ByReference t v k)) => Some (Place t v k Ordinary)
      | _ => None
      end
  | _ => None
  end.
Definition prefix_operator (s : string) : option uop :=
  find (fun o => String.eqb s (sign1 o)) [PreInc; PreDec; Minus; Plus; Not; LNot].
Definition postfix_operator (s : string) : option uop :=
  find (fun o => String.eqb s (sign1 o)) [PostInc; PostDec].
Definition infix_operator (s : string) : option bop :=
  find (fun o => String.eqb s (sign2 o))
    [Mul; Div; Rem; Add; Sub; Shl; Shr; LT; GT; LE; GE; EQ; NE; And; Xor; Or; LAnd; LOr;
     Assign; MulAssign; DivAssign; RemAssign; AddAssign; SubAssign; ShlAssign; ShrAssign;
     AndAssign; XorAssign; OrAssign].
Definition applied_to (o : option uop) (x : option operand) (f : uop -> operand -> yields)
  : yields :=
  match o, x with Some o, Some x => f o x | _, _ => Rejected end.
Definition expr_yields (c : ctx) (cpp17 : bool) (env : list (string * param)) (e : cexpr)
  : yields :=
  match e with
  | ENum _ | EReal _ _ | EUn "-" (ENum _) | EUn "-" (EReal _ _) => TypeSpec.Number
  | EBool _ => if cpp c then TypeSpec.Number else Rejected
  | EUn "*" _ | EVar _ | ECall0 _ =>
      match operand_of env e with Some x => place_yields x | None => Rejected end
  | EUn s a => applied_to (prefix_operator s) (operand_of env a) (unary_yields c cpp17)
  | EPost s a => applied_to (postfix_operator s) (operand_of env a) (unary_yields c cpp17)
  | EBin s a b | EAssign s a b =>
      match infix_operator s, operand_of env a, operand_of env b with
      | Some o, Some x, Some y => binary_yields c o x y
      | _, _, _ => Rejected
      end
  | _ => Rejected
  end.

(* The compiler accepts the definition and the call that the edits write. *)
Definition accepted (c : ctx) (cpp17 : bool) (es : list edit) (id : nat) (d : fdef)
  (k : TypeSpec.call) : Prop :=
  let '(args, replaced, converted) := k in
  NoDup (map snd (fd_params d)) /\
  exists ps result,
    fd_result d = plain_type c result /\
    map fst (fd_params d) = (map (param_type c) ps ++ [FName ["int"]])%list /\
    Forall2 (accepts c) ps args /\
    (forall e, In e (all_returns (fd_body d)) ->
       returns result (expr_yields c cpp17 (combine (map snd (fd_params d)) ps) e)) /\
    stands_for result replaced converted /\
    passed_as c es (fd_name d) ps id.
