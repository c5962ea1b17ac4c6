(* mutation_replace_unary_operator.cc *)
From Coq Require Import String Ascii List NArith ZArith Bool.
From Verif Require Import Base Clang Gen GenExpr.
Import ListNotations.
Local Open Scope string_scope.

(* protobufs/dredd.proto MutationReplaceUnaryOperatorAction *)
Inductive un_action :=
| ReplaceWithOperand | ReplaceWithMinus | ReplaceWithNot | ReplaceWithPreDec
| ReplaceWithPostDec | ReplaceWithPreInc | ReplaceWithPostInc | ReplaceWithLNot
| UReplaceWithUnknown.   (* MutationReplaceUnaryOperatorAction_MAX *)

(* mutation_replace_unary_operator.cc:483-504 *)
Definition uop_action (o : uop) : un_action :=
  match o with
  | Minus => ReplaceWithMinus | Not => ReplaceWithNot
  | PreDec => ReplaceWithPreDec | PostDec => ReplaceWithPostDec
  | PreInc => ReplaceWithPreInc | PostInc => ReplaceWithPostInc
  | LNot => ReplaceWithLNot
  | Plus | UExtension => UReplaceWithUnknown
  end.

(* What Clang answers about a UnaryOperator node. *)
Record unary := {
  u_op : uop;                 (* getOpcode() *)
  u_ty : ty;                  (* getType() as builtin type *)
  u_lvalue : bool;            (* isLValue() *)
  u_volatile : bool;          (* getType().isVolatileQualified() *)
  u_const : bool;             (* getType().isConstQualified() *)
  u_side_effects : bool;      (* HasSideEffects() *)
  u_sub : expr;               (* getSubExpr() *)
  u_op_offset : nat;          (* getOperatorLoc() *)
  u_range : range
}.

(* mutation_replace_unary_operator.cc:47-51 *)
Definition is_prefix (o : uop) : bool :=
  negb (uop_eqb o PostInc) && negb (uop_eqb o PostDec).

(* mutation_replace_unary_operator.cc:53-95 *)
Definition valid_uop (u : unary) (o : uop) : bool :=
  if negb (e_lvalue (u_sub u)) && is_incdec o then false
  else if (uop_eqb (u_op u) PostDec || uop_eqb (u_op u) PostInc) &&
          (uop_eqb o PreDec || uop_eqb o PreInc) then false
  else if (uop_eqb (u_op u) PreDec || uop_eqb (u_op u) PreInc) &&
          (uop_eqb o PostDec || uop_eqb o PostInc) then false
  else if u_lvalue u && negb (uop_eqb o PreInc || uop_eqb o PreDec) then false
  else if uop_eqb o Not && is_float (e_ty (u_sub u)) then false
  else true.

(* mutation_replace_unary_operator.cc:254-283 *)
Definition redundant_uop (u : unary) (o : uop) : bool :=
  let e := u_sub u in
  if (equivalent_to_int e 0 || equivalent_to_float e 0 ||
      equivalent_to_int e 1 || equivalent_to_float e 1) &&
     (uop_eqb o Minus || uop_eqb o LNot) then true
  else if (equivalent_to_int e (-1) || equivalent_to_float e (-1)) && uop_eqb o Minus
  then true
  else false.

(* mutation_replace_unary_operator.cc:530-539 *)
Definition self_inverse (u : unary) : bool :=
  match u_op u with LNot | Minus | Not => true | _ => false end.

(* mutation_replace_unary_operator.cc:292-299 *)
Definition candidate_uops : list uop :=
  [PreInc; PostInc; PreDec; PostDec; Not; Minus; LNot].

Definition replacement_uops (opt : bool) (u : unary) : list uop :=
  filter (fun o => negb (uop_eqb o (u_op u) || negb (valid_uop u o) ||
                         (opt && redundant_uop u o)))
    candidate_uops.

Definition apply_uop (o : uop) : rhs := if is_prefix o then RPre o else RPost o.

(* mutation_replace_unary_operator.cc:285-337 *)
Definition unary_mutants (opt : bool) (u : unary) : list (un_action * rhs) :=
  map (fun o => (uop_action o, apply_uop o)) (replacement_uops opt u)
  ++ when (negb opt || negb (self_inverse u)) [(ReplaceWithOperand, RArg1)].

Definition uop_name (o : uop) : string :=
  match o with
  | Minus => "Minus" | Not => "Not" | PreDec => "PreDec" | PostDec => "PostDec"
  | PreInc => "PreInc" | PostInc => "PostInc" | LNot => "LNot"
  | Plus | UExtension => ""
  end.

(* mutation_replace_unary_operator.cc:97-180 *)
Definition unary_function_name (c : ctx) (opt : bool) (u : unary) : string :=
  let e := u_sub u in
  "__dredd_replace_unary_operator_" ++ uop_name (u_op u)
  ++ (if e_lvalue e && e_volatile e then "_volatile" else "")
  ++ "_" ++ space_to_underscore (ty_name c (e_ty e))
  ++ (if opt then
        (if equivalent_to_int e 0 || equivalent_to_float e 0 then "_zero" else "")
        ++ (if equivalent_to_int e 1 || equivalent_to_float e 1 then "_one" else "")
        ++ (if equivalent_to_int e (-1) || equivalent_to_float e (-1) then "_minus_one"
            else "")
      else "").

(* mutation_replace_unary_operator.cc:371-390; ApplyCppTypeModifiers on the operator
   expression itself reads its own value category and qualifiers *)
Definition unary_input_type (c : ctx) (u : unary) : string := input_type c (u_sub u).
Definition unary_result_type (c : ctx) (u : unary) : string :=
  let t := ty_name c (u_ty u) in
  if cpp c && u_lvalue u then
    if u_volatile u then "volatile " ++ t ++ "&"
    else if u_const u then "const " ++ t ++ "&"
    else t ++ "&"
  else t.

Definition unary_delayed (c : ctx) (u : unary) : bool := cpp c && u_side_effects u.

(* mutation_replace_unary_operator.cc:182-252 *)
Definition unary_function (c : ctx) (o : options) (u : unary) : mfun :=
  {| mf_result := unary_result_type c u;
     mf_name := unary_function_name c (optimise o) u;
     mf_params := [(wrap_function (unary_delayed c u) (unary_input_type c u), "arg")];
     mf_access := (if negb (cpp c) && is_incdec (u_op u) then APtr
                   else if unary_delayed c u then ALam else AVal, AVal);
     mf_fast := negb (track o);
     mf_lines := when (negb (track o))
                   (number_from 0 (map snd (unary_mutants (optimise o) u)));
     mf_track := if track o then Some (List.length (unary_mutants (optimise o) u)) else None;
     mf_orig := apply_uop (u_op u);
     mf_close := "}" ++ nl ++ nl |}.

(* mutation_replace_unary_operator.cc:392-458 *)
Definition unary_edits (c : ctx) (o : options) (u : unary) (local_id : nat) : list edit :=
  let t := unary_input_type c u in
  let cast := negb (e_cxx11_constant (u_sub u)) in
  let prefix :=
    unary_function_name c (optimise o) u ++ "("
    ++ (if unary_delayed c u
        then "[&]() -> " ++ t ++ " { return "
             ++ (if cast then "static_cast<" ++ t ++ ">(" else "")
        else "")
    ++ (if negb (cpp c) && is_incdec (u_op u) then "&(" else "") in
  let suffix :=
    (if unary_delayed c u then (if cast then ")" else "") ++ "; }" else "")
    ++ (if negb (cpp c) && is_incdec (u_op u) then ")" else "")
    ++ ", " ++ string_of_nat local_id ++ ")" in
  [ReplaceText (u_op_offset u) (String.length (uop_str (u_op u))) "";
   InsertBefore (r_begin (u_range u)) prefix;
   InsertAfterToken (r_end (u_range u)) suffix].
