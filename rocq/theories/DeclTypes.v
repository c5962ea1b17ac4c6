(* The constants in the types of declarations that are replaced by their values:
   mutate_visitor.cc:148-156, 166-190, 359-365, 864-889 and mutate_ast_consumer.cc:177-235,
   for C++. *)
From Coq Require Import String List NArith Arith Bool.
From Verif Require Import Base ConstRewrite.
Import ListNotations.
Local Open Scope list_scope.

(* A constant as it is written: its number stands for the pointer to the expression. *)
Definition constant : Type := nat * const_expr.

(* The type of a declaration as it is written.  Simplified: qualifiers are left out
   (getUnqualifiedLoc). *)
Inductive dtype :=
| TyName                                   (* a type without parts *)
| TyTemplate (args : list targ)            (* clang::TemplateSpecializationType *)
| TyArray (size : constant) (t : dtype)    (* clang::ConstantArrayType *)
| TyAlias (t : dtype)                      (* the name of a typedef, auto, parentheses: sugar
                                              to clang *)
| TyDerived (t : dtype)                    (* pointers, references, members, functions *)
with targ :=
| ArgExpr (e : constant)                   (* clang::TemplateArgument::Expression *)
| ArgType (t : dtype)                      (* clang::TemplateArgument::Type *)
| ArgOther.                                (* any other kind *)

(* type->isConstantArrayType(): of the canonical type *)
Fixpoint is_constant_array (t : dtype) : bool :=
  match t with
  | TyArray _ _ => true
  | TyAlias t => is_constant_array t
  | _ => false
  end.

(* mutate_visitor.cc:864-889 SaveConstantTemplateArgumentForRewrite: the expressions pushed.
   [saved] is for a type that may be a template specialization, which lines 167-168 and
   874-876 test with getAs<clang::TemplateSpecializationType>(), which looks through sugar. *)
Fixpoint saved (t : dtype) : list constant :=
  match t with
  | TyTemplate args =>
      (fix go (args : list targ) : list constant :=
         match args with
         | [] => []
         | ArgExpr e :: args => e :: go args
         | ArgType t :: args => saved t ++ go args
         | ArgOther :: args => go args
         end) args
  | TyAlias t => saved t
  | _ => []
  end.

(* mutate_ast_consumer.cc:197-207: the sizes in the TypeLoc, which has sugar as it is *)
Fixpoint sizes (t : dtype) : list const_expr :=
  match t with
  | TyArray e t => snd e :: sizes t
  | _ => []
  end.

(* Declarations in the main file *)
Inductive declaration :=
| DeclVar (t : dtype)          (* a variable, constexpr or not *)
| DeclField (t : dtype)        (* a non-static data member *)
| DeclParameter (t : dtype)    (* a parameter *)
| DeclTypedef (t : dtype).     (* a typedef or alias declaration *)

(* constant_arguments_to_rewrite_: mutate_visitor.cc:167-177; parameters are not traversed
   (359-365) *)
Definition arguments_of (d : declaration) : list constant :=
  match d with
  | DeclVar t => saved t
  | _ => []
  end.
(* constant_sized_arrays_to_rewrite_: mutate_visitor.cc:151-156 and 178-189, with
   mutate_ast_consumer.cc:179-208 *)
Definition sizes_of (d : declaration) : list const_expr :=
  match d with
  | DeclVar t | DeclField t => if is_constant_array t then sizes t else []
  | _ => []
  end.

(* mutate_ast_consumer.cc:177-235 without static assertions and builtin functions *)
Definition rewrites (ds : list declaration) : list (nat * nat * string) :=
  flat_map (fun d => rewrite_array_sizes (sizes_of d)) ds
  ++ rewrite_arguments [] (flat_map arguments_of ds).
