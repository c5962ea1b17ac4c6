(* Text with comments added after the names of functions that Dredd calls. *)
From Coq Require Import String Ascii List Bool.
From Verif Require Import Base Clang Gen GenBinary GenUnary Mutation MutTree TreeSpec Rewriter Run
  Visitor NestSpec GrammarSpec NodeTypes.
Import ListNotations.
Local Open Scope string_scope.

(* A comment ends where it is meant to end. *)
Definition closed (comment : string) : Prop := forall a b, comment <> a ++ "*/" ++ b.

(* The second text is the first one with these comments, in this order, each put between the
   name of a function of Dredd and the opening parenthesis of the call. *)
Inductive commented : list string -> string -> string -> Prop :=
| commented_same s : commented [] s s
| commented_call name comment :
    identifier ("__dredd_" ++ name) -> closed comment ->
    commented [comment] ("__dredd_" ++ name ++ "(")
      ("__dredd_" ++ name ++ "/*" ++ comment ++ "*/(")
| commented_app ws s t ws' s' t' :
    commented ws s t -> commented ws' s' t' -> commented (ws ++ ws') (s ++ s') (t ++ t').

(* What a comment says about a node: its class, a space and its address. *)
Definition says (t : node_type) : string := nt_class t ++ " " ++ nt_address t.

(* Names of classes and addresses consist of letters, digits and underscores. *)
Definition well_named (t : node_type) : Prop :=
  forall a, In a (list_ascii_of_string (nt_class t)) \/ In a (list_ascii_of_string (nt_address t)) ->
  alnum a = true.

(* Not && and || of C. *)
Definition described (c : ctx) (mt : mutation * node_type) : bool :=
  match fst mt with
  | MutBinary b _ _ _ => match b_op b with LAnd | LOr => cpp c | _ => true end
  | _ => true
  end.

(* Where what is mutated begins. *)
Definition place (m : mutation) : nat :=
  match m with
  | MutExpr e _ => r_begin (e_range e)
  | MutBinary b _ _ _ => r_begin (e_range (b_lhs b))
  | MutUnary u _ _ => r_begin (u_range u)
  | MutStmt s _ => r_begin (GenStmt.s_range s)
  end.

(* The same syntax trees and files without the types of nodes *)
Definition plain_unit (u : typed_unit) : unit_info :=
  {| ui_ctx := tu_ctx u; ui_tree := Visitor.map_tree fst (tu_tree u); ui_rewrites := tu_rewrites u;
     ui_prelude_offset := tu_prelude_offset u |}.
Definition plain_file (f : typed_file) : source_file :=
  {| f_name := tf_name f; f_text := tf_text f;
     f_unit := match tf_unit f with Some u => Some (plain_unit u) | None => None end |}.
