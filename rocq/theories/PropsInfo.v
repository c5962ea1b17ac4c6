(* Property C73: the information file, read by the query script. *)
From Coq Require Import String Ascii List NArith ZArith Bool Arith Lia.
From Verif Require Import Base Clang Gen GenExpr GenBinary GenUnary GenStmt Mutation MutTree
  TreeSpec Run RunSpec RunTest GenSpec SourceRange SourceRangeSpec QueryText Utf8Proof
  QuerySpec InfoJson InfoScript InfoSpec InfoRead InfoProof InfoLines.
Import ListNotations.
Local Open Scope string_scope.

(* C73: whatever white space and escapes are used to write a JSON value to a file, reading
   the file gives the value back. *)
Theorem C73_read_back : forall v s, json_file_text v s -> json_load s = Some v.
Proof. exact load_lemma. Qed.
Print Assumptions C73_read_back.

(* C73: the script, given the file of a run, prints the largest id. *)
Theorem C73_largest_id : forall o fs opens info_file text prefixes show,
  opens info_file = Some text ->
  json_file_text (json_info (rs_info (run o true fs))) text ->
  query_script opens info_file prefixes true show =
  Exits 0 (string_of_Z (Z.of_nat (rs_id (run o true fs)) - 1) ++ nl).
Proof. exact largest_script. Qed.
Print Assumptions C73_largest_id.

(* C73: other ids than those of the run are reported as unknown. *)
Theorem C73_unknown_ids : forall o fs opens info_file text mutated original id,
  opens info_file = Some text ->
  json_file_text (json_info (rs_info (run o true fs))) text ->
  ~ (0 <= id < Z.of_nat (rs_id (run o true fs)))%Z ->
  query_script opens info_file (Some (mutated, original)) false (Some id) =
  Exits 1 ("Unknown mutant id: " ++ string_of_Z id ++ nl).
Proof. exact unknown_script. Qed.
Print Assumptions C73_unknown_ids.

(* C73: for each id of the run the script prints the report about the mutant that has the
   id, with the text of the file below the other prefix. *)
Theorem C73_every_mutant_is_reported : forall o fs opens info_file text mutated original id,
  opens info_file = Some text ->
  json_file_text (json_info (rs_info (run o true fs))) text ->
  id < rs_id (run o true fs) ->
  exists n ns p g k f u m,
    In (n, ns) (rs_info (run o true fs)) /\ In p ns /\ In g (p_groups p) /\
    nth_error (group_ids g) k = Some id /\
    In f (RunSpec.distinct [] fs) /\ Run.f_name f = n /\ f_unit f = Some u /\
    In m (post (ui_tree u)) /\ describes_group (ui_ctx u) (optimise o) m g /\
    forall file source,
      n = mutated ++ "/" ++ file -> opens (original ++ "/" ++ file) = Some source ->
      Forall (lines_there source) (places g) ->
      exists r, report file source g k = Some r /\
        query_script opens info_file (Some (mutated, original)) false
          (Some (Z.of_nat id)) = Exits 0 r.
Proof. exact shown_script. Qed.
Print Assumptions C73_every_mutant_is_reported.

(* C73: the lines of recorded places are there, in files in UTF-8. *)
Theorem C73_lines_are_there : forall text r,
  in_file text r -> starts_with_token text r -> last_token_on_one_line text r ->
  utf8 text -> lines_there text (info_for_source_range text r).
Proof. exact lines_there_lemma. Qed.
Print Assumptions C73_lines_are_there.

(* C73: there is such a file if and only if file names and snippets are UTF-8 ... *)
Theorem C73_can_be_written : forall info,
  (exists t, json_file_text (json_info info) t) <-> Forall utf8 (info_strings info).
Proof. exact info_written. Qed.
Print Assumptions C73_can_be_written.

(* ... which snippets of ASCII files are, and short ones. *)
Theorem C73_ascii_snippets : forall text r,
  ascii_only text -> utf8 (snippet (info_for_source_range text r)).
Proof. exact ascii_snippet_utf8. Qed.
Print Assumptions C73_ascii_snippets.
Theorem C73_short_snippets : forall text r,
  in_file text r -> utf8 (text_of text r) -> String.length (text_of text r) <= 36 ->
  utf8 (snippet (info_for_source_range text r)).
Proof. exact short_snippet_utf8. Qed.
Print Assumptions C73_short_snippets.

(* The examples: one statement, removed.  The text is laid out as the tool does. *)
Definition call_text : string := "int f();" ++ nl ++ "int main() { f(" ++ nl ++ "  ); }" ++ nl.
Definition call_range : token_range :=
  {| tr_begin := 22; tr_last := 27; tr_last_length := 1 |}.
Definition call_info : loc_info := info_for_source_range call_text call_range.
Definition call_stmt : stmt_site :=
  {| s_range := {| r_begin := 22; r_end := 29 |}; s_ext_comment := false;
     s_ext_semi := true; s_next_hash := false |}.
Definition call_file : source_file :=
  {| Run.f_name := "/new/a.c"; f_text := call_text;
     f_unit := Some {| ui_ctx := c_ctx;
       ui_tree := Node [] [Node [MutStmt call_stmt call_info] []];
       ui_rewrites := []; ui_prelude_offset := 0 |} |}.
Definition call_json : string :=
  "{" ++ nl
  ++ " ""infoForFiles"": [" ++ nl
  ++ "  {" ++ nl
  ++ "   ""filename"": ""/new/a.c""," ++ nl
  ++ "   ""mutationTree"": [" ++ nl
  ++ "    {" ++ nl
  ++ "     ""mutationGroups"": [" ++ nl
  ++ "      {" ++ nl
  ++ "       ""removeStmt"": {" ++ nl
  ++ "        ""mutationId"": 0," ++ nl
  ++ "        ""start"": {" ++ nl
  ++ "         ""line"": 2," ++ nl
  ++ "         ""column"": 14" ++ nl
  ++ "        }," ++ nl
  ++ "        ""end"": {" ++ nl
  ++ "         ""line"": 3," ++ nl
  ++ "         ""column"": 4" ++ nl
  ++ "        }," ++ nl
  ++ "        ""snippet"": ""f(\n  )""" ++ nl
  ++ "       }" ++ nl
  ++ "      }" ++ nl
  ++ "     ]," ++ nl
  ++ "     ""children"": []" ++ nl
  ++ "    }" ++ nl
  ++ "   ]" ++ nl
  ++ "  }" ++ nl
  ++ " ]" ++ nl
  ++ "}" ++ nl.
Definition call_files (path : string) : option string :=
  if String.eqb path "/old/a.c" then Some call_text
  else if String.eqb path "info.json" then Some call_json else None.
Example C73_example_text :
  json_load call_json = Some (json_info (rs_info (run default_options true [call_file]))) /\
  rs_id (run default_options true [call_file]) = 1 /\
  query_script call_files "info.json" (Some ("/new", "/old")) false (Some 0%Z) =
  Exits 0 ("Remove statement at a.c, 2:14--3:4" ++ nl ++ nl
           ++ "This is the removed statement:" ++ nl ++ nl
           ++ "             f(" ++ nl ++ "  )" ++ nl) /\
  query_script call_files "info.json" None true None = Exits 0 ("0" ++ nl).
Proof. vm_compute. repeat split. Qed.
Example C73_example :
  (exists text, json_file_text (json_info (rs_info (run default_options true [call_file]))) text) /\
  (exists text, json_file_text (json_info (rs_info (run default_options true [add_c_file]))) text) /\
  lines_there call_text call_info /\
  in_file call_text call_range /\ starts_with_token call_text call_range /\
  last_token_on_one_line call_text call_range /\ ascii_only call_text /\ utf8 call_text.
Proof.
  split; [|split; [|repeat split]].
  - apply C73_can_be_written. vm_compute info_strings.
    repeat (constructor; [apply ascii_utf8; reflexivity|]). constructor.
  - apply C73_can_be_written. vm_compute info_strings.
    repeat (constructor; [apply ascii_utf8; reflexivity|]). constructor.
  - vm_compute; lia.
  - vm_compute; lia.
  - vm_compute; lia.
  - vm_compute; lia.
  - vm_compute; lia.
  - vm_compute; lia.
  - vm_compute; lia.
  - vm_compute. discriminate.
  - now apply ascii_utf8.
Qed.

(* C73 fails if a long snippet is cut in the middle of a character: the info of a file in
   UTF-8 has a string that is not, and there is no JSON text for it. *)
Definition cut_text : string :=
  "int main() { puts(" ++ dq ++ "123" ++ encode 233
  ++ " - a text that is longer than that" ++ dq ++ "); }".
Definition cut_range : token_range :=
  {| tr_begin := 13; tr_last := 59; tr_last_length := 1 |}.
Definition cut_stmt : stmt_site :=
  {| s_range := {| r_begin := 13; r_end := 61 |}; s_ext_comment := false;
     s_ext_semi := true; s_next_hash := false |}.
Definition cut_file : source_file :=
  {| Run.f_name := "a.c"; f_text := cut_text;
     f_unit := Some {| ui_ctx := c_ctx;
       ui_tree := Node [] [Node [MutStmt cut_stmt
                                   (info_for_source_range cut_text cut_range)] []];
       ui_rewrites := []; ui_prelude_offset := 0 |} |}.
Theorem C73_cut_snippets_refuted : exists f r t,
  f_text f = t /\ utf8 t /\ in_file t r /\ utf8 (text_of t r) /\
  text_of t r = "puts(" ++ dq ++ "123" ++ encode 233
                ++ " - a text that is longer than that" ++ dq ++ ")" /\
  snippet (info_for_source_range t r)
  = "puts(" ++ dq ++ "123" ++ String "195" " ... [snip] ... han that" ++ dq ++ ")" /\
  ~ utf8 (snippet (info_for_source_range t r)) /\
  ~ exists text, json_file_text (json_info (rs_info (run default_options true [f]))) text.
Proof.
  assert (U : utf8 cut_text).
  { unfold cut_text. repeat match goal with
      | |- utf8 (encode ?n ++ _) => apply (utf8_cons n); [unfold scalar; lia|]
      | |- utf8 (_ ++ _) => apply utf8_app; [apply ascii_utf8; reflexivity|]
      end. now apply ascii_utf8. }
  assert (N : ~ utf8 (snippet (info_for_source_range cut_text cut_range))).
  { intros H. apply good_decode in H. rewrite Forall_forall in H.
    specialize (H (String "195" " ")). destruct H as [(c & E)|(_ & E)].
    - vm_compute. tauto.
    - discriminate.
    - inversion E; subst. inversion H2; subst. unfold high in *. vm_compute in H3. now apply H3. }
  exists cut_file, cut_range, cut_text. split; [reflexivity|]. split; [exact U|].
  split; [vm_compute; lia|]. split.
  { vm_compute text_of. 
    change (utf8 ("puts(" ++ dq ++ "123" ++ encode 233
                  ++ " - a text that is longer than that" ++ dq ++ ")")).
    repeat match goal with
      | |- utf8 (encode ?n ++ _) => apply (utf8_cons n); [unfold scalar; lia|]
      | |- utf8 (_ ++ _) => apply utf8_app; [apply ascii_utf8; reflexivity|]
      end. now apply ascii_utf8. }
  split; [reflexivity|]. split; [reflexivity|]. split; [exact N|].
  rewrite C73_can_be_written. intros F. rewrite Forall_forall in F. apply N, F.
  vm_compute. tauto.
Qed.
Print Assumptions C73_cut_snippets_refuted.

(* The enumerators for operators, in the order of dredd.proto:124-154 and 186-194, which the
   script does not look at *)
Example C73_operator_names :
  map binary_operator_name [Mul; Div; Rem; Add; Sub; Shl; Shr; LT; GT; LE; GE; EQ; NE; And; Xor; Or;
    LAnd; LOr; Assign; MulAssign; DivAssign; RemAssign; AddAssign; SubAssign; ShlAssign; ShrAssign;
    AndAssign; XorAssign; OrAssign] =
  ["Mul"; "Div"; "Rem"; "Add"; "Sub"; "Shl"; "Shr"; "LT"; "GT"; "LE"; "GE"; "EQ"; "NE"; "And";
   "Xor"; "Or"; "LAnd"; "LOr"; "Assign"; "MulAssign"; "DivAssign"; "RemAssign"; "AddAssign";
   "SubAssign"; "ShlAssign"; "ShrAssign"; "AndAssign"; "XorAssign"; "OrAssign"] /\
  map unary_operator_name [PostInc; PostDec; PreInc; PreDec; Minus; Not; LNot] =
  ["PostInc"; "PostDec"; "PreInc"; "PreDec"; "Minus"; "Not"; "LNot"].
Proof. split; reflexivity. Qed.
