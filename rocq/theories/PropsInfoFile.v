(* Property C87: after a run, the information file is there and is about the mutants that are in
   the files.

   The model is that of PropsDisk.v and PropsInfo.v; main_on gives the exit status and the disk
   afterwards (InfoFile.v). *)
From Coq Require Import String List Arith ZArith Bool.
From Verif Require Import Base Clang Gen Mutation TreeSpec GenSpec Rewriter Run RunSpec RunTest Disk
  DiskSpec DiskExample SourceRange QuerySpec InfoJson InfoScript InfoSpec InfoFile InfoFileProof
  InfoFileExample.
Import ListNotations.
Local Open Scope string_scope.

(* C87: if the file can be opened and is none of the sources, and the information can be written
   as JSON (C73 says when), then this is in the file afterwards, about the files as they were
   before the run, whether or not some of them have errors; the status says whether some have;
   the mutated texts are in their files, and all other files are as before.  Missing: information
   files that cannot be opened or are sources (false, see below). *)
Theorem C87_written_partial : forall w json o path d ns text,
  reads_enough w -> reads_main w -> read_before w d ns ->
  (forall n, In n ns -> w_file w n <> w_file w path) ->
  let r := Run.run o true (map (found w d) ns) in
  json (rs_info r) = Some text ->
  exists code d', main_on w json true o (Some path) d ns = (code, d') /\
    (code = 0 <-> forall n, In n ns -> f_unit (found w d n) <> None) /\
    d' (w_file w path) = Some text /\
    (forall n t, In (n, t) (rs_written r) -> d' (w_file w n) = Some t) /\
    (forall i, i <> w_file w path -> (forall n t, In (n, t) (rs_written r) -> w_file w n <> i) ->
       d' i = d i).
Proof. exact info_written_lemma. Qed.
Print Assumptions C87_written_partial.

Example C87_written_example : exists text,
  reads_enough small_world /\ reads_main small_world /\ read_before small_world two_files both /\
  (forall n, In n both -> w_file small_world n <> w_file small_world "info.json") /\
  json_file_text (json_info (rs_info both_run)) text /\
  (forall n, In n both -> f_unit (found small_world two_files n) <> None) /\
  map fst (rs_written both_run) = ["add2.c"; "add.c"].
Proof.
  destruct both_json as (text & T). exists text.
  split; [exact small_reads_enough|]. split; [exact small_reads_main|].
  split; [exact both_read_before|]. split; [intros n [<-|[<-|[]]]; discriminate|].
  split; [exact T|]. split; [exact both_no_errors|]. vm_compute. reflexivity.
Qed.

(* The script, given that file on the disk that is left behind, prints the largest id, rejects
   all other numbers, and reports for each id the mutant that has it, with the text of the
   original in another directory. *)
Theorem C87_script : forall w json o path d ns text,
  reads_enough w -> reads_main w -> read_before w d ns ->
  (forall n, In n ns -> w_file w n <> w_file w path) ->
  let r := Run.run o true (map (found w d) ns) in
  json (rs_info r) = Some text -> json_file_text (json_info (rs_info r)) text ->
  let opens p := snd (main_on w json true o (Some path) d ns) (w_file w p) in
  (forall prefixes show, query_script opens path prefixes true show =
     Exits 0 (string_of_Z (Z.of_nat (rs_id r) - 1) ++ nl)) /\
  (forall mutated original id, ~ (0 <= id < Z.of_nat (rs_id r))%Z ->
     query_script opens path (Some (mutated, original)) false (Some id) =
     Exits 1 ("Unknown mutant id: " ++ string_of_Z id ++ nl)) /\
  (forall mutated original id, id < rs_id r ->
     exists n ps p g k f u m,
       In (n, ps) (rs_info r) /\ In p ps /\ In g (p_groups p) /\
       nth_error (group_ids g) k = Some id /\
       In f (RunSpec.distinct [] (map (found w d) ns)) /\ Run.f_name f = n /\ f_unit f = Some u /\
       In m (post (ui_tree u)) /\ describes_group (ui_ctx u) (optimise o) m g /\
       forall file source,
         n = mutated ++ "/" ++ file -> d (w_file w (original ++ "/" ++ file)) = Some source ->
         (forall n, In n (path :: ns) -> w_file w n <> w_file w (original ++ "/" ++ file)) ->
         Forall (lines_there source) (places g) ->
         exists s, report file source g k = Some s /\
           query_script opens path (Some (mutated, original)) false (Some (Z.of_nat id)) =
           Exits 0 s).
Proof. exact script_lemma. Qed.
Print Assumptions C87_script.

(* /new/add.c is mutated, /old/add.c is the original, info.json has other contents before. *)
Example C87_script_example : exists text,
  reads_enough copied /\ reads_main copied /\ read_before copied two_copies ["/new/add.c"] /\
  (forall n, In n ["/new/add.c"] -> w_file copied n <> w_file copied "info.json") /\
  json_file_text (json_info (rs_info copied_run)) text /\ rs_id copied_run = 57 /\
  "/new/add.c" = "/new" ++ "/" ++ "add.c" /\
  two_copies (w_file copied ("/old" ++ "/" ++ "add.c")) = Some add_c /\
  (forall n, In n ["info.json"; "/new/add.c"] ->
     w_file copied n <> w_file copied ("/old" ++ "/" ++ "add.c")) /\
  query_script (fun p => snd (main_on copied (fun _ => Some text) true default_options
      (Some "info.json") two_copies ["/new/add.c"]) (w_file copied p)) "info.json" None true None =
  Exits 0 ("56" ++ nl).
Proof.
  destruct copied_json as (text & T). destruct copied_reads as (A & B & C). exists text.
  assert (D : forall n, In n ["/new/add.c"] -> w_file copied n <> w_file copied "info.json")
    by (intros n [<-|[]]; discriminate).
  split; [exact A|]. split; [exact B|]. split; [exact C|]. split; [exact D|].
  split; [exact T|]. split; [exact copied_ids|]. split; [reflexivity|]. split; [reflexivity|].
  split; [intros n [<-|[<-|[]]]; discriminate|].
  pose proof (proj1 (C87_script copied (fun _ => Some text) default_options "info.json" two_copies
    ["/new/add.c"] text A B C D eq_refl T) None None) as H.
  cbv zeta in H. fold copied_run in H. rewrite copied_ids in H. exact H.
Qed.

(* The run with --only-track-mutant-coverage ends with the same status and leaves the same
   information file, and no files but the mutated ones differ afterwards: what is recorded by the
   coverage build can be looked up in the information file of either run. *)
Theorem C87_coverage_run : forall w json o b path d ns text,
  reads_enough w -> reads_main w -> read_before w d ns ->
  (forall n, In n ns -> w_file w n <> w_file w path) ->
  let r := Run.run o true (map (found w d) ns) in
  json (rs_info r) = Some text ->
  exists code d1 d2,
    main_on w json true o (Some path) d ns = (code, d1) /\
    main_on w json true (with_track o b) (Some path) d ns = (code, d2) /\
    d1 (w_file w path) = Some text /\ d2 (w_file w path) = Some text /\
    forall i, (forall n, In n (map fst (rs_written r)) -> w_file w n <> i) -> d2 i = d1 i.
Proof. exact coverage_run_lemma. Qed.
Print Assumptions C87_coverage_run.

(* The hypotheses are those of C87_written_example; the mutated files differ. *)
Example C87_coverage_run_example :
  let left_by o := snd (main_on small_world (fun _ => Some "{}") true o (Some "info.json")
                          two_files both) in
  left_by default_options (w_file small_world "info.json") = Some "{}" /\
  left_by (with_track default_options true) (w_file small_world "info.json") = Some "{}" /\
  left_by default_options (w_file small_world "add.c") <>
  left_by (with_track default_options true) (w_file small_world "add.c").
Proof.
  cbv zeta. split; [vm_compute; reflexivity|]. split; [vm_compute; reflexivity|].
  vm_compute. discriminate.
Qed.

(* If the information cannot be written as JSON, the status is not 0, but the sources have been
   mutated, and the information file is left as it was. *)
Theorem C87_json_error : forall w json opened o path d ns,
  json (rs_info (ds_run (run_on w o true d ns))) = None ->
  main_on w json opened o (Some path) d ns = (1, ds_disk (run_on w o true d ns)).
Proof. exact info_error_lemma. Qed.
Print Assumptions C87_json_error.

Example C87_json_error_example :
  main_on small_world (fun _ => None) true default_options (Some "info.json") two_files both =
    (1, ds_disk (run_on small_world default_options true two_files both)) /\
  ds_disk (run_on small_world default_options true two_files both) 1 = Some add_c_expected.
Proof. split; [apply C87_json_error; reflexivity|vm_compute; reflexivity]. Qed.

(* Without an information file *)
Theorem C87_no_file : forall w json opened o d ns,
  reads_enough w -> reads_main w -> read_before w d ns ->
  exists code d', main_on w json opened o None d ns = (code, d') /\
    (code = 0 <-> forall n, In n ns -> f_unit (found w d n) <> None) /\
    left_behind w d d' (rs_written (Run.run o false (map (found w d) ns))).
Proof. exact no_info_lemma. Qed.
Print Assumptions C87_no_file.

Example C87_no_file_example :
  read_before small_world two_files good_order /\
  fst (main_on small_world (fun _ => None) true default_options None two_files good_order) = 1 /\
  fst (main_on small_world (fun _ => None) true default_options None two_files both) = 0.
Proof. split; [exact small_read_before|]. split; vm_compute; reflexivity. Qed.

(* False if the information file cannot be opened: the sources are mutated, the status is 0, and
   there is no information file. *)
Theorem C87_unwritable_refuted : exists w json o path d ns,
  reads_enough w /\ reads_main w /\ read_before w d ns /\
  (forall n, In n ns -> w_file w n <> w_file w path) /\
  let r := Run.run o true (map (found w d) ns) in
  (exists text, json (rs_info r) = Some text /\ json_file_text (json_info (rs_info r)) text) /\
  exists d', main_on w json false o (Some path) d ns = (0, d') /\ d' (w_file w path) = None /\
    exists n t, In (n, t) (rs_written r) /\ d' (w_file w n) = Some t /\ d (w_file w n) <> Some t.
Proof. exact unwritable. Qed.
Print Assumptions C87_unwritable_refuted.

(* False if it is one of the sources: neither the mutated nor the original text is left. *)
Theorem C87_same_file_refuted : exists w json o path d ns,
  reads_enough w /\ reads_main w /\ read_before w d ns /\
  let r := Run.run o true (map (found w d) ns) in
  (exists text, json (rs_info r) = Some text /\ json_file_text (json_info (rs_info r)) text) /\
  exists d', main_on w json true o (Some path) d ns = (0, d') /\
    exists n t, In (n, t) (rs_written r) /\ d' (w_file w n) <> Some t /\ d' (w_file w n) <> d (w_file w n).
Proof. exact same_file. Qed.
Print Assumptions C87_same_file_refuted.
