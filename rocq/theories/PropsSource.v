(* Properties C31, C32, C36, C37: recorded source ranges and the query script. *)
From Coq Require Import String Ascii List Arith NArith ZArith Bool Permutation Lia.
From Verif Require Import Base Clang Gen GenExpr GenBinary GenUnary GenStmt Mutation MutTree
  TreeSpec Run RunSpec GenSpec RunTest SourceRange QueryText SourceRangeSpec SourceRangeProof
  Utf8Proof
  Query QuerySpec QueryProof.
Import ListNotations.

(* C31: snippets of at most 36 characters are the text itself. *)
Theorem C31_short_snippets : forall text r,
  in_file text r -> String.length (text_of text r) <= 36 ->
  snippet (info_for_source_range text r) = text_of text r.
Proof. exact snippet_short. Qed.
Print Assumptions C31_short_snippets.

(* C31: longer ones are cut to 36 characters. *)
Theorem C31_long_snippets : forall text r,
  in_file text r -> 36 < String.length (text_of text r) ->
  String.length (snippet (info_for_source_range text r)) = 36 /\
  exists first mid last, text_of text r = (first ++ mid ++ last)%string /\
    String.length first = 10 /\ String.length last = 10 /\
    snippet (info_for_source_range text r) = (first ++ " ... [snip] ... " ++ last)%string.
Proof. exact snippet_long. Qed.
Print Assumptions C31_long_snippets.

Definition long_sum : string :=
  "  y = first_operand_of_the_sum + second_operand_of_the_sum;"%string.
Definition long_range : token_range :=
  {| tr_begin := 6; tr_last := 33; tr_last_length := 25 |}.
Example C31_example :
  in_file long_sum long_range /\ 36 < String.length (text_of long_sum long_range) /\
  snippet (info_for_source_range long_sum long_range)
  = "first_oper ... [snip] ... of_the_sum"%string.
Proof. vm_compute. repeat split; lia. Qed.

(* C32, for ASCII files and ranges whose last token is on one line: the text extracted by
   the script is the text of the range, with line ends read as line feeds. *)
Theorem C32_text_recovered_partial : forall text r,
  in_file text r -> starts_with_token text r -> last_token_on_one_line text r ->
  ascii_only text ->
  text_for_source_range text (info_for_source_range text r) = with_lf (text_of text r).
Proof. exact C32_lemma. Qed.
Print Assumptions C32_text_recovered_partial.

(* ... and exactly the text of the range if the file has no carriage returns. *)
Theorem C32_text_recovered_lf_partial : forall text r,
  in_file text r -> starts_with_token text r -> last_token_on_one_line text r ->
  ascii_only text ->
  string_forall (fun c => negb (Ascii.eqb c "013"%char)) text = true ->
  text_for_source_range text (info_for_source_range text r) = text_of text r.
Proof. exact C32_lf_lemma. Qed.
Print Assumptions C32_text_recovered_lf_partial.

Definition two_lines : string := ("y =" ++ nl ++ "  a +" ++ nl ++ "   b;" ++ nl)%string.
Definition two_lines_range : token_range :=
  {| tr_begin := 6; tr_last := 13; tr_last_length := 1 |}.
Example C32_example :
  in_file two_lines two_lines_range /\ starts_with_token two_lines two_lines_range /\
  last_token_on_one_line two_lines two_lines_range /\ ascii_only two_lines /\
  text_of two_lines two_lines_range = ("a +" ++ nl ++ "   b")%string /\
  start_line (info_for_source_range two_lines two_lines_range) = 2 /\
  end_line (info_for_source_range two_lines two_lines_range) = 3.
Proof. vm_compute. repeat split; try lia. discriminate. Qed.

(* C32, for any file in UTF-8: it is enough that what precedes the beginning and the end of
   the range on their lines is ASCII. *)
Theorem C32_utf8_partial : forall text r,
  in_file text r -> starts_with_token text r -> last_token_on_one_line text r ->
  utf8 text -> ascii_before text (tr_begin r) -> ascii_before text (tr_end r) ->
  text_for_source_range text (info_for_source_range text r) = with_lf (text_of text r).
Proof. exact utf8_lemma. Qed.
Print Assumptions C32_utf8_partial.

Theorem C32_utf8_lf_partial : forall text r,
  in_file text r -> starts_with_token text r -> last_token_on_one_line text r ->
  utf8 text -> ascii_before text (tr_begin r) -> ascii_before text (tr_end r) ->
  string_forall (fun c => negb (Ascii.eqb c "013"%char)) text = true ->
  text_for_source_range text (info_for_source_range text r) = text_of text r.
Proof. exact utf8_lf_lemma. Qed.
Print Assumptions C32_utf8_lf_partial.

(* Characters of two, three and four bytes, before, in and after a range *)
Definition foreign : string :=
  ("// " ++ encode 233 ++ nl ++ "x = a + // " ++ encode 8364 ++ nl ++ " b; // "
   ++ encode 128512 ++ nl)%string.
Definition foreign_range : token_range :=
  {| tr_begin := 10; tr_last := 22; tr_last_length := 1 |}.
Example C32_utf8_example :
  in_file foreign foreign_range /\ starts_with_token foreign foreign_range /\
  last_token_on_one_line foreign foreign_range /\ utf8 foreign /\
  ascii_before foreign 10 /\ ascii_before foreign 23 /\
  String.length (encode 233) = 2 /\ String.length (encode 8364) = 3 /\
  String.length (encode 128512) = 4 /\
  text_of foreign foreign_range = ("a + // " ++ encode 8364 ++ nl ++ " b")%string.
Proof.
  split; [vm_compute; lia|]. split; [vm_compute; discriminate|].
  split; [reflexivity|]. split.
  { unfold foreign. repeat match goal with
      | |- utf8 (encode ?n ++ _) => apply (utf8_cons n); [unfold scalar; lia|]
      | |- utf8 (_ ++ _) => apply utf8_app; [apply ascii_utf8; reflexivity|]
      end. now apply ascii_utf8. }
  split; [exact (ascii_before_by foreign 10 ("// " ++ encode 233)%string "010"%char
                   "x = "%string eq_refl eq_refl eq_refl)|].
  split; [exact (ascii_before_by foreign 23
                   ("// " ++ encode 233 ++ nl ++ "x = a + // " ++ encode 8364)%string
                   "010"%char " b"%string eq_refl eq_refl eq_refl)|].
  repeat split.
Qed.

(* C32 fails if a character outside ASCII comes earlier on the line: the tool counts bytes,
   the script characters. *)
Definition accent : string := String "195" (String "169" EmptyString).
Theorem C32_refuted : exists text r,
  in_file text r /\ starts_with_token text r /\ last_token_on_one_line text r /\
  text = ("/*" ++ accent ++ "*/x+1;")%string /\ text_of text r = "x"%string /\
  text_for_source_range text (info_for_source_range text r) = "+"%string.
Proof.
  exists ("/*" ++ accent ++ "*/x+1;")%string,
    {| tr_begin := 6; tr_last := 6; tr_last_length := 1 |}.
  vm_compute. repeat split; try lia. discriminate.
Qed.
Print Assumptions C32_refuted.

(* C32 also fails if the last token of the range is spread over two lines: the recorded
   end column lies beyond the end of the line, and the script loses the rest. *)
Theorem C32_split_token_refuted : exists text r,
  in_file text r /\ starts_with_token text r /\ ascii_only text /\
  text_of text r = ("ab\" ++ nl ++ "cd")%string /\
  text_for_source_range text (info_for_source_range text r) = ("ab\" ++ nl)%string.
Proof.
  exists ("ab\" ++ nl ++ "cd = 1;")%string,
    {| tr_begin := 0; tr_last := 0; tr_last_length := 6 |}.
  vm_compute. repeat split; try lia. discriminate.
Qed.
Print Assumptions C32_split_token_refuted.

(* C36: the largest id is the number of mutants minus one. *)
Theorem C36_largest_id : forall o fs,
  largest_mutant_id (build_mapping (rs_info (run o true fs)))
  = (Z.of_nat (rs_id (run o true fs)) - 1)%Z.
Proof. exact largest_lemma. Qed.
Print Assumptions C36_largest_id.

(* C36: every id of the run can be shown; what is shown is the phrase for the action that
   the group which contains the id gives it, and the group describes a mutation of the
   file.  By C01 the group and the position are unique. *)
Theorem C36_every_mutant_is_shown : forall o fs original id,
  id < rs_id (run o true fs) ->
  exists n ns p g k f u m s,
    In (n, ns) (rs_info (run o true fs)) /\ In p ns /\ In g (p_groups p) /\
    nth_error (group_ids g) k = Some id /\
    In f (distinct [] fs) /\ f_name f = n /\ f_unit f = Some u /\
    In m (post (ui_tree u)) /\ describes_group (ui_ctx u) (optimise o) m g /\
    group_phrase (original n) g k = Some s /\
    show_info (rs_info (run o true fs)) original id = Shown s.
Proof. exact C36_show_lemma. Qed.
Print Assumptions C36_every_mutant_is_shown.

(* C36: other ids are reported as unknown. *)
Theorem C36_other_ids_unknown : forall o fs original id,
  rs_id (run o true fs) <= id ->
  show_info (rs_info (run o true fs)) original id = UnknownMutant.
Proof. exact C36_unknown_lemma. Qed.
Print Assumptions C36_other_ids_unknown.

Example C36_example :
  let info := rs_info (run default_options true [add_c_file; bad_file; add2_c_file]) in
  largest_mutant_id (build_mapping info) = 113%Z /\
  show_info info (fun _ => add_c) 24 = Shown "x / y"%string /\
  show_info info (fun _ => add_c) 113 = Shown "return x + y + x"%string /\
  show_info info (fun _ => add_c) 114 = UnknownMutant.
Proof. vm_compute. repeat split. Qed.

(* C37: a range that begins no later than its last token is accepted. *)
Theorem C37_good_ranges_accepted : forall text r,
  in_file text r -> source_range_consistency_check text r = true.
Proof. exact C37_accepts_lemma. Qed.
Print Assumptions C37_good_ranges_accepted.

(* C37: an accepted range ends after it begins, if its last token is not on an earlier
   line than its beginning. *)
Theorem C37_bad_ranges_rejected_partial : forall text r,
  tr_begin r <= String.length text -> tr_last r <= String.length text ->
  fst (position text (tr_begin r)) <= fst (position text (tr_last r)) ->
  source_range_consistency_check text r = true -> tr_begin r < tr_end r.
Proof. exact C37_rejects_lemma. Qed.
Print Assumptions C37_bad_ranges_rejected_partial.

Definition backwards : string := ("int f(); int a;" ++ nl ++ "b" ++ nl)%string.
Example C37_example :
  in_file backwards {| tr_begin := 0; tr_last := 16; tr_last_length := 1 |} /\
  fst (position backwards 4) <= fst (position backwards 0) /\
  source_range_consistency_check backwards
    {| tr_begin := 4; tr_last := 0; tr_last_length := 3 |} = false.
Proof. vm_compute. repeat split; lia. Qed.

(* C37 fails if the range ends on an earlier line but at a larger column. *)
Theorem C37_refuted : exists text r,
  tr_end r <= tr_begin r < String.length text /\
  fst (position text (tr_last r)) < fst (position text (tr_begin r)) /\
  source_range_consistency_check text r = true.
Proof.
  exists backwards, {| tr_begin := 16; tr_last := 13; tr_last_length := 1 |}.
  vm_compute. repeat split; lia.
Qed.
Print Assumptions C37_refuted.
