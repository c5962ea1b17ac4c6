(* Specification for C88. *)
From Coq Require Import String List Arith Bool.
From Verif Require Import Base LineSpec.
Local Open Scope string_scope.

(* The line with which the definition begins of the function that tells whether a mutant is
   enabled, or that records mutants in a coverage build *)
Definition definition_line (coverage : bool) : string :=
  if coverage
  then "static void __dredd_record_covered_mutants(int local_mutation_id, int num_mutations) {"
  else "static bool __dredd_enabled_mutation(int local_mutation_id) {".

(* A whole line of a text, at an offset *)
Definition whole_line (t : string) (i : nat) (line : string) : Prop :=
  line_begins t i /\ substring i (String.length line) t = line /\
  line_ends t (i + String.length line).
