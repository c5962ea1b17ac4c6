(* mutation_replace_expr.cc *)
From Coq Require Import String Ascii List NArith ZArith Bool.
From Verif Require Import Base Clang Gen.
Import ListNotations.
Local Open Scope string_scope.

(* protobufs/dredd.proto MutationReplaceExprAction *)
Inductive expr_action :=
| InsertPreInc | InsertPreDec | InsertLNot | InsertNot | InsertMinus
| ReplaceWithZeroFloat | ReplaceWithOneFloat | ReplaceWithMinusOneFloat
| ReplaceWithZeroInt | ReplaceWithOneInt | ReplaceWithMinusOneInt
| ReplaceWithTrue | ReplaceWithFalse.

(* mutation_replace_expr.cc:142-153.  APSInt::isSameValue compares mathematical values. *)
Definition equivalent_to_int (e : expr) (k : Z) : bool :=
  is_integer (e_ty e) &&
  match e_int e with Some v => Z.eqb v k | None => false end.

Definition fconst_of (k : Z) : fconst :=
  match k with 0%Z => FZero | 1%Z => FOne | (-1)%Z => FMinusOne | _ => FOther end.
Definition fconst_eqb (a b : fconst) : bool :=
  match a, b with
  | FZero, FZero | FOne, FOne | FMinusOne, FMinusOne => true
  | _, _ => false
  end.

(* mutation_replace_expr.cc:155-165, for the constants 0.0, 1.0, -1.0 *)
Definition equivalent_to_float (e : expr) (k : Z) : bool :=
  is_float (e_ty e) &&
  match e_float e with Some v => fconst_eqb v (fconst_of k) | None => false end.

(* mutation_replace_expr.cc:167-177 *)
Definition equivalent_to_bool (e : expr) (b : bool) : bool :=
  is_bool (e_ty e) &&
  match e_boolval e with Some v => Bool.eqb v b | None => false end.

(* The combination that occurs throughout the callers. *)
Definition equivalent_to (e : expr) (k : Z) : bool :=
  equivalent_to_int e k || equivalent_to_float e k.

(* mutation_replace_expr.cc:728-759 *)
Definition boolean_replacement_redundant (c : ctx) (e : expr) (replacement : bool)
  : bool :=
  match e_binop e with
  | Some LAnd => cpp c && replacement
  | Some LOr => cpp c && negb replacement
  | Some (GT | LT | EQ) => replacement
  | Some (GE | LE | NE) => negb replacement
  | _ => false
  end.

(* mutation_replace_expr.cc:761-784 *)
Definition redundant_minus (c : ctx) (e : expr) : bool :=
  if equivalent_to_int e 0 || equivalent_to_float e 0 then true
  else if is_signed c (e_ty e) && (equivalent_to_int e 1 || equivalent_to_int e (-1))
  then true
  else if equivalent_to_float e 1 || equivalent_to_float e (-1) then true
  else false.

(* mutation_replace_expr.cc:786-797 *)
Definition redundant_not (c : ctx) (e : expr) : bool :=
  is_signed c (e_ty e) && (equivalent_to_int e 0 || equivalent_to_int e (-1)).

(* mutation_replace_expr.cc:799-826 *)
Definition redundant_lnot (e : expr) : bool :=
  if is_bool (e_ty e) && match e_boolval e with Some _ => true | None => false end
  then true
  else match e_int e with Some _ => true | None => false end.

(* mutation_replace_expr.cc:828-862 *)
Definition redundant_before_binary (c : ctx) (e : expr) : bool :=
  match e_binop e with
  | Some (LAnd | LOr) => cpp c
  | Some (EQ | NE | GT | GE | LT | LE) => true
  | _ => false
  end.

(* mutation_replace_expr.cc:864-887 *)
Definition redundant_before_logical_operand (c : ctx) (e : expr) : bool :=
  if negb (cpp c) then false else e_logical_operand e.

(* mutation_replace_expr.cc:179-201; only called with -, ~ and ! *)
Definition redundant_insertion (c : ctx) (e : expr) (o : uop) : bool :=
  if redundant_before_binary c e then true
  else if redundant_before_logical_operand c e then true
  else match o with
       | Minus => redundant_minus c e
       | Not => redundant_not c e
       | LNot => redundant_lnot e
       | _ => false
       end.

(* mutation_replace_expr.cc:695-716 *)
Definition can_mutate_lvalue (e : expr) : bool :=
  if e_const e || is_bool (e_ty e) then false
  else if e_bitfield e then false
  else match e_cast_parent_lvalue e with
       | None => false
       | Some lv => negb lv
       end.

Definition when {A} (b : bool) (l : list A) : list A := if b then l else [].

(* mutation_replace_expr.cc:203-228 *)
Definition lvalue_insertions (e : expr) : list (expr_action * rhs) :=
  if negb (e_lvalue e) || negb (can_mutate_lvalue e) then []
  else [(InsertPreInc, RPreParen PreInc); (InsertPreDec, RPreParen PreDec)].

(* mutation_replace_expr.cc:230-285 *)
Definition nonlvalue_insertions (c : ctx) (opt : bool) (e : expr)
  : list (expr_action * rhs) :=
  if e_lvalue e then []
  else
    let t := e_ty e in
    when (is_bool t || is_integer t)
      (when (negb opt || negb (redundant_insertion c e LNot))
         [(InsertLNot, RPreParen LNot)])
    ++ when (is_integer t && negb (is_bool t))
         (when (negb opt || negb (redundant_insertion c e Not))
            [(InsertNot, RPreParen Not)])
    ++ when (is_signed c t || is_float t)
         (when (negb opt || negb (redundant_insertion c e Minus))
            [(InsertMinus, RPreParen Minus)]).

(* mutation_replace_expr.cc:416-455 *)
Definition boolean_replacements (c : ctx) (opt : bool) (e : expr)
  : list (expr_action * rhs) :=
  when (is_bool (e_ty e))
    (when (negb opt ||
           (negb (equivalent_to_bool e true) &&
            negb (boolean_replacement_redundant c e true)))
       [(ReplaceWithTrue, RLit (if cpp c then LBool true else LInt 1))]
     ++ when (negb opt ||
              (negb (equivalent_to_bool e false) &&
               negb (boolean_replacement_redundant c e false)))
          [(ReplaceWithFalse, RLit (if cpp c then LBool false else LInt 0))]).

(* mutation_replace_expr.cc:368-415 *)
Definition integer_replacements (c : ctx) (opt : bool) (e : expr)
  : list (expr_action * rhs) :=
  when (is_integer (e_ty e) && negb (is_bool (e_ty e)))
    (when (negb opt || negb (equivalent_to_int e 0)) [(ReplaceWithZeroInt, RLit (LInt 0))]
     ++ when (negb opt || negb (equivalent_to_int e 1)) [(ReplaceWithOneInt, RLit (LInt 1))])
  ++ when (is_signed c (e_ty e))
       (when (negb opt || negb (equivalent_to_int e (-1)))
          [(ReplaceWithMinusOneInt, RLit (LInt (-1)))]).

(* mutation_replace_expr.cc:320-367 *)
Definition float_replacements (opt : bool) (e : expr) : list (expr_action * rhs) :=
  when (is_float (e_ty e))
    (when (negb opt || negb (equivalent_to_float e 0))
       [(ReplaceWithZeroFloat, RLit (LFloat 0))]
     ++ when (negb opt || negb (equivalent_to_float e 1))
          [(ReplaceWithOneFloat, RLit (LFloat 1))]
     ++ when (negb opt || negb (equivalent_to_float e (-1)))
          [(ReplaceWithMinusOneFloat, RLit (LFloat (-1)))]).

(* mutation_replace_expr.cc:302-318 *)
Definition constant_replacements (c : ctx) (opt : bool) (e : expr)
  : list (expr_action * rhs) :=
  if e_lvalue e then []
  else boolean_replacements c opt e ++ integer_replacements c opt e
       ++ float_replacements opt e.

(* mutation_replace_expr.cc:287-300 and 492-498: all mutants of an expression, in order *)
Definition expr_mutants (c : ctx) (opt : bool) (e : expr) : list (expr_action * rhs) :=
  (lvalue_insertions e ++ nonlvalue_insertions c opt e)
  ++ constant_replacements c opt e.

(* mutation_replace_expr.cc:101-140 *)
Definition optimisation_specifier (c : ctx) (e : expr) : string :=
  (if (is_integer (e_ty e) && negb (is_bool (e_ty e))) || is_float (e_ty e) then
     if equivalent_to_int e 0 || equivalent_to_float e 0 then "_zero"
     else if equivalent_to_int e 1 || equivalent_to_float e 1 then "_one"
     else if equivalent_to_int e (-1) || equivalent_to_float e (-1) then "_minus_one"
     else match e_int e with Some _ => "_constant" | None => "" end
   else "")
  ++ (if is_bool (e_ty e) then
        if equivalent_to_bool e true then "_true"
        else if equivalent_to_bool e false then "_false" else ""
      else "")
  ++ (if redundant_before_logical_operand c e then "_before_logical_operator_argument"
      else "")
  ++ (if boolean_replacement_redundant c e true then "_omit_true" else "")
  ++ (if boolean_replacement_redundant c e false then "_omit_false" else "").

(* mutation_replace_expr.cc:68-99 *)
Definition expr_function_name (c : ctx) (opt : bool) (e : expr) : string :=
  "__dredd_replace_expr_"
  ++ (if e_lvalue e && e_volatile e then "volatile_" else "")
  ++ space_to_underscore (ty_name c (e_ty e))
  ++ (if e_lvalue e then "_lvalue" else "")
  ++ (if opt then optimisation_specifier c e else "").

(* mutation_replace_expr.cc:512-523 *)
Definition cpp_type_modifiers (e : expr) (t : string) : string :=
  if e_lvalue e then
    if e_volatile e then "volatile " ++ t ++ "&"
    else if e_const e then "const " ++ t ++ "&"
    else t ++ "&"
  else t.

(* mutation_replace_expr.cc:525-536; the const branch appends where it should prepend *)
Definition c_type_modifiers (e : expr) (t : string) : string :=
  if e_lvalue e then
    if e_volatile e then "volatile " ++ t ++ "*"
    else if e_const e then (t ++ "*") ++ "const " ++ (t ++ "*")
    else t ++ "*"
  else t.

Definition input_type (c : ctx) (e : expr) : string :=
  let t := ty_name c (e_ty e) in
  if cpp c then cpp_type_modifiers e t else c_type_modifiers e t.

(* mutation_replace_expr.cc:457-510 *)
Definition expr_function (c : ctx) (o : options) (e : expr) : mfun :=
  let delayed := cpp c && e_side_effects e in
  {| mf_result := ty_name c (e_ty e);
     mf_name := expr_function_name c (optimise o) e;
     mf_params := [(wrap_function delayed (input_type c e), "arg")];
     mf_access := (if negb (cpp c) && e_lvalue e then APtr
                   else if delayed then ALam else AVal, AVal);
     mf_fast := negb (track o);
     mf_lines := when (negb (track o))
                   (number_from 0 (map snd (expr_mutants c (optimise o) e)));
     mf_track := if track o then Some (List.length (expr_mutants c (optimise o) e)) else None;
     mf_orig := RArg1;
     mf_close := "}" ++ nl ++ nl |}.

(* std::string::ends_with('*') *)
Fixpoint ends_with_star (s : string) : bool :=
  match s with
  | EmptyString => false
  | String c EmptyString => Ascii.eqb c "*"%char
  | String _ s => ends_with_star s
  end.

(* mutation_replace_expr.cc:538-639, without the show-ast-node-types comments *)
Definition expr_prefix (c : ctx) (o : options) (e : expr) : string :=
  (if e_preceded_by_ident e then " " else "")
  ++ (match e_init_list_cast e with
      | Some t => "static_cast<" ++ ty_name c t ++ ">("
      | None => ""
      end)
  ++ expr_function_name c (optimise o) e ++ "("
  ++ (if cpp c && e_side_effects e
      then "[&]() -> " ++ input_type c e ++ " { return "
           ++ (if e_cxx11_constant e then "" else "static_cast<" ++ input_type c e ++ ">(")
      else "")
  ++ (if negb (cpp c) && e_lvalue e && ends_with_star (input_type c e) then "&(" else "")
  ++ (match e_binop e with Some Comma => "(" | _ => "" end).

Definition expr_suffix (c : ctx) (e : expr) (local_id : nat) : string :=
  (match e_binop e with Some Comma => ")" | _ => "" end)
  ++ (if negb (cpp c) && e_lvalue e && ends_with_star (input_type c e) then ")" else "")
  ++ (if cpp c && e_side_effects e
      then (if e_cxx11_constant e then "" else ")") ++ "; }"
      else "")
  ++ ", " ++ string_of_nat local_id ++ ")"
  ++ (match e_init_list_cast e with Some _ => ")" | None => "" end).

Definition expr_edits (c : ctx) (o : options) (e : expr) (local_id : nat) : list edit :=
  [InsertBefore (r_begin (e_range e)) (expr_prefix c o e);
   InsertAfterToken (r_end (e_range e)) (expr_suffix c e local_id)].
