(* What should happen to the token of an operator. *)
From Coq Require Import String List Bool Arith.
From Verif Require Import Base Clang Operator.
Import ListNotations.
Local Open Scope string_scope.

(* The operator is spelled s and begins at offset off: in the file at that offset, and then
   not shorter than the usual spelling; or s is the use of a macro. *)
Definition spelled_at (p : op_place) (off : nat) (canon s : string) : Prop :=
  match p with
  | OpInFile i => i = off /\ String.length canon <= String.length s
  | OpInMacro => True
  end.

(* The operator is in the file, and as long as the usual spelling. *)
Definition usual (p : op_place) (canon s : string) : Prop :=
  match p with
  | OpInFile _ => String.length s = String.length canon
  | OpInMacro => False
  end.

(* What is in the file in place of the operator after rewriting *)
Fixpoint drop (n : nat) (s : string) : string :=
  match n, s with
  | S n, String _ s => drop n s
  | _, _ => s
  end.
Definition written_operator (p : op_place) (canon repl s : string) : string :=
  match p with
  | OpInFile _ => repl ++ drop (String.length canon) s
  | OpInMacro => s
  end.

(* Alternative tokens: C++ [lex.digraph]; in C they are the macros of <iso646.h>. *)
Definition alternative_bop (o : bop) : option string :=
  match o with
  | LAnd => Some "and" | LOr => Some "or" | And => Some "bitand" | Or => Some "bitor"
  | Xor => Some "xor" | NE => Some "not_eq" | AndAssign => Some "and_eq"
  | OrAssign => Some "or_eq" | XorAssign => Some "xor_eq"
  | _ => None
  end.
Definition alternative_uop (o : uop) : option string :=
  match o with Not => Some "compl" | LNot => Some "not" | _ => None end.
