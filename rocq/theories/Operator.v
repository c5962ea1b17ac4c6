(* Operators whose token is not the usual one: they come from a macro, are alternative tokens
   of C++ such as not and bitor, or are split by a backslash and a newline. *)
From Coq Require Import String List.
From Verif Require Import Base Clang Gen GenBinary GenUnary Rewriter.
Import ListNotations.
Local Open Scope string_scope.

(* What getOperatorLoc() is: an offset in the file, or a location in a macro expansion *)
Inductive op_place := OpInFile (off : nat) | OpInMacro.

(* clang::Rewriter::ReplaceText does nothing if the location is not one in a file
   (isRewritable).  The number of characters that are replaced is the length of the usual
   spelling: mutation_replace_binary_operator.cc:657-662,
   mutation_replace_unary_operator.cc:412-417. *)
Definition replace_operator (p : op_place) (len : nat) (s : string) : list edit :=
  match p with
  | OpInFile off => [ReplaceText off len s]
  | OpInMacro => []
  end.

(* mutation_replace_unary_operator.cc:392-458; unary_edits begins with the replacement of an
   operator in the file. *)
Definition unary_edits_at (c : ctx) (o : options) (u : unary) (p : op_place) (local_id : nat)
  : list edit :=
  replace_operator p (String.length (uop_str (u_op u))) "" ++ tl (unary_edits c o u local_id).

(* mutation_replace_binary_operator.cc:634-722, likewise *)
Definition binary_edits_at (c : ctx) (o : options) (b : binary) (p : op_place) (local_id : nat)
  : list edit :=
  replace_operator p (String.length (bop_str (b_op b))) "," ++ tl (binary_edits c o b local_id).
