(* C62: what is inserted after a removed statement. *)
From Coq Require Import String Ascii List Bool Arith.
From Verif Require Import Base Clang Gen GenStmt Rewriter StmtEnd StmtEndSpec StmtEndProof.
Import ListNotations.
Local Open Scope string_scope.

(* The brace that closes the new block is code, never part of a comment; the semicolon that ends
   the statement, or one of its own if a directive comes first, is inside the block; and the code
   that follows is as it was. *)
Theorem C62_closed : forall o before stmt after id,
  track o = false -> code after <> "" -> usual (code after) ->
  exists tail,
    rewrite (before ++ stmt ++ after)
            (stmt_edits o (site_at (String.length before)
                                   (String.length before + String.length stmt) after) id) =
    before ++ "if (!__dredd_enabled_mutation(" ++ string_of_nat id ++ ")) { " ++ stmt ++ tail /\
    code tail = closing (code after) ++ behind_semicolon (code after).
Proof. exact removal_text. Qed.
Print Assumptions C62_closed.

(* When only coverage is tracked, a call is put in front and nothing behind. *)
Theorem C62_coverage : forall o before stmt after id,
  track o = true ->
  rewrite (before ++ stmt ++ after)
          (stmt_edits o (site_at (String.length before)
                                 (String.length before + String.length stmt) after) id) =
  before ++ "__dredd_record_covered_mutants(" ++ string_of_nat id ++ ", 1); " ++ stmt ++ after.
Proof. exact coverage_text. Qed.
Print Assumptions C62_coverage.

(* A semicolon behind a line comment; a comment and then a directive; a block statement with a
   comment behind it *)
Example C62_example :
  let semicolon := " // done" ++ nl ++ "  ; y = 2; }" in
  let directive := " // done" ++ nl ++ "#endif" ++ nl ++ "  ; }" in
  let block := " // done; }" ++ nl ++ "}" in
  map code [semicolon; directive; block] = [";y=2;}"; "#endif;}"; "}"] /\
  map closing (map code [semicolon; directive; block]) = [";}"; ";}"; "}"] /\
  rewrite ("{ x = 1" ++ directive)
          (stmt_edits {| optimise := true; track := false |} (site_at 2 7 directive) 3) =
  "{ if (!__dredd_enabled_mutation(3)) { x = 1 // done" ++ nl ++ ";  }" ++ nl ++ "#endif" ++ nl ++ "  ; }".
Proof. vm_compute. repeat split. Qed.
