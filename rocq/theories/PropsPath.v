(* Property C77: the query script finds the original file, however the directories are
   written. *)
From Coq Require Import String Ascii List Arith NArith ZArith Bool Lia.
From Verif Require Import Base Clang Gen GenExpr GenBinary GenUnary GenStmt Mutation MutTree
  TreeSpec Run RunSpec RunTest GenSpec SourceRange SourceRangeSpec QueryText QuerySpec
  InfoJson InfoScript InfoSpec PathText PathSpec PathTop PathExample.
Import ListNotations.
Local Open Scope string_scope.

(* C77: for each id of a run the script reports on the mutant that has the id, with the text
   of the file that has the same name below the other directory, in whatever way the two
   directories and the information file are written.
   Missing: file names in which slashes are repeated or which have dots for directories, and
   the directory in which the script is run if it is called a dot; for these the claim is
   false, see below. *)
Theorem C77_finds_the_file_partial : forall o fs opens info_file text mutated original id,
  info_file <> "" -> original <> "" ->
  (forall i, same_path info_file i -> opens i = Some text) ->
  json_file_text (json_info (rs_info (run o true fs))) text ->
  id < rs_id (run o true fs) ->
  exists n ns p g k f u m,
    In (n, ns) (rs_info (run o true fs)) /\ In p ns /\ In g (p_groups p) /\
    nth_error (group_ids g) k = Some id /\
    In f (RunSpec.distinct [] fs) /\ Run.f_name f = n /\ f_unit f = Some u /\
    In m (post (ui_tree u)) /\ describes_group (ui_ctx u) (optimise o) m g /\
    (neat n -> ~ same_path mutated "." ->
     forall d, reports_on opens info_file mutated original id n g k d).
Proof. exact paths_lemma. Qed.
Print Assumptions C77_finds_the_file_partial.

(* C77: the other answers, in whatever way the paths are written. *)
Theorem C77_largest_id : forall o fs opens info_file text prefixes show,
  info_file <> "" ->
  (forall i, same_path info_file i -> opens i = Some text) ->
  json_file_text (json_info (rs_info (run o true fs))) text ->
  query_command opens info_file prefixes true show =
  Exits 0 (string_of_Z (Z.of_nat (rs_id (run o true fs)) - 1) ++ nl).
Proof. exact paths_largest. Qed.
Print Assumptions C77_largest_id.
Theorem C77_unknown_ids : forall o fs opens info_file text mutated original id,
  info_file <> "" ->
  (forall i, same_path info_file i -> opens i = Some text) ->
  json_file_text (json_info (rs_info (run o true fs))) text ->
  ~ (0 <= id < Z.of_nat (rs_id (run o true fs)))%Z ->
  query_command opens info_file (Some (mutated, original)) false (Some id) =
  Exits 1 ("Unknown mutant id: " ++ string_of_Z id ++ nl).
Proof. exact paths_unknown. Qed.
Print Assumptions C77_unknown_ids.

(* /new/a.c, asked for with /new//./ and //old/, say *)
Example C77_example :
  exists text,
    (forall i, same_path "info.json" i -> two_files text ["old"; "a.c"] i = Some text) /\
    json_file_text (json_info (rs_info (run default_options true [one_file "/new/a.c"]))) text /\
    0 < rs_id (run default_options true [one_file "/new/a.c"]) /\
    neat "/new/a.c" /\ ~ same_path "/new//./" "." /\ same_path "/new//./" "/new" /\
    name_in "/new" "a.c" "/new/a.c" /\
    (forall o', same_path "//old/" o' ->
       two_files text ["old"; "a.c"] (o' ++ "/" ++ "a.c") = Some one_text) /\
    Forall (lines_there one_text) (places one_group) /\
    query_command (two_files text ["old"; "a.c"]) "info.json" (Some ("/new//./", "//old/"))
      false (Some 0%Z) =
    Exits 0 ("Remove statement at a.c, 2:14--3:4" ++ nl ++ nl
             ++ "This is the removed statement:" ++ nl ++ nl
             ++ "             f(" ++ nl ++ "  )" ++ nl).
Proof.
  destruct (one_written "/new/a.c" eq_refl) as (text & J). exists text.
  split. { intro i. apply info_opens. }
  split. { exact J. }
  split. { vm_compute. lia. }
  split. { exact new_neat. }
  split. { intro S. apply PathProof.same_str in S. discriminate. }
  split. { exact new_same. }
  split. { split; [discriminate|reflexivity]. }
  split. { intros o' S. now apply (source_opens text "//old/" "a.c" o'). }
  split. { exact one_lines. }
  rewrite (one_query "/new/a.c" text) by exact J. vm_compute. reflexivity.
Qed.

(* C77 is false for names without a directory, if the mutated code is in the directory where
   the script is run: the first character of the name is cut off. *)
Theorem C77_dot_refuted : exists o fs opens text mutated original n ns p g k,
  (forall i, same_path "info.json" i -> opens i = Some text) /\
  json_file_text (json_info (rs_info (run o true fs))) text /\
  In (n, ns) (rs_info (run o true fs)) /\ In p ns /\ In g (p_groups p) /\
  nth_error (group_ids g) k = Some 0 /\ neat n /\
  ~ reports_on opens "info.json" mutated original 0 n g k ".".
Proof. exact dot_refuted. Qed.
Print Assumptions C77_dot_refuted.

(* C77 is false for names with repeated slashes: the length of the directory as it is tidied
   up is cut off the name as it is. *)
Theorem C77_slashes_refuted : exists o fs opens text mutated original n ns p g k d,
  (forall i, same_path "info.json" i -> opens i = Some text) /\
  json_file_text (json_info (rs_info (run o true fs))) text /\
  In (n, ns) (rs_info (run o true fs)) /\ In p ns /\ In g (p_groups p) /\
  nth_error (group_ids g) k = Some 0 /\ ~ same_path mutated "." /\ mutated = d /\
  ~ reports_on opens "info.json" mutated original 0 n g k d.
Proof. exact slashes_refuted. Qed.
Print Assumptions C77_slashes_refuted.

(* That a file is not below the given directory goes unnoticed: a report can be about any
   other file. *)
Theorem C77_other_directory_refuted : exists o fs opens text mutated original n ns p g r,
  (forall i, same_path "info.json" i -> opens i = Some text) /\
  json_file_text (json_info (rs_info (run o true fs))) text /\
  In (n, ns) (rs_info (run o true fs)) /\ In p ns /\ In g (p_groups p) /\
  nth_error (group_ids g) 0 = Some 0 /\ neat n /\
  (forall d file, same_path mutated d -> ~ name_in d file n) /\
  query_command opens "info.json" (Some (mutated, original)) false (Some 0%Z) = Exits 0 r.
Proof. exact other_refuted. Qed.
Print Assumptions C77_other_directory_refuted.
