(* mutation_remove_stmt.cc *)
From Coq Require Import String Ascii List NArith ZArith Bool.
From Verif Require Import Base Clang Gen.
Import ListNotations.
Local Open Scope string_scope.

(* What is known about a removable statement once the source range has been extended
   over comments and a semicolon (mutation_remove_stmt.cc:63-99). *)
Record stmt_site := {
  s_range : range;          (* the extended range *)
  s_ext_comment : bool;     (* is_extended_with_comment *)
  s_ext_semi : bool;        (* is_extended_with_semi *)
  s_next_hash : bool        (* IsNextTokenHash, lines 163-176 *)
}.

(* mutation_remove_stmt.cc:113-154 *)
Definition stmt_open (o : options) (local_id : nat) : string :=
  if track o
  then "__dredd_record_covered_mutants(" ++ string_of_nat local_id ++ ", 1); "
  else "if (!__dredd_enabled_mutation(" ++ string_of_nat local_id ++ ")) { ".

Definition stmt_close (s : stmt_site) : string :=
  (if s_ext_comment s && negb (s_ext_semi s) then nl else "")
  ++ (if negb (s_ext_semi s) && s_next_hash s then "; " else "")
  ++ " }".

Definition stmt_edits (o : options) (s : stmt_site) (local_id : nat) : list edit :=
  InsertBefore (r_begin (s_range s)) (stmt_open o local_id)
  :: if track o then [] else [InsertAfterToken (r_end (s_range s)) (stmt_close s)].
