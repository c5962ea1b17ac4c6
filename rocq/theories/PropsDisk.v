(* Property C83: every file is mutated from its original text, though the run overwrites
   files while it goes on.

   [reads_enough]: what Clang finds in a main file depends on the files it reads only.
   [reads_main]: the main file is one of them.  [read_before]: no name is given, for the
   first time, after a file read for it.  [left_behind]: the written texts are in their files
   and all other files are as before (DiskSpec.v). *)
From Coq Require Import String List Arith Bool.
From Verif Require Import Base Clang MutTree Rewriter Run RunTest Disk DiskSpec DiskProof
  DiskExample.
Import ListNotations.
Local Open Scope string_scope.

(* If no file is given after a file that is read for it, then the run does what it would
   do if all files were read before the first is written, and leaves that behind.  In general
   this is false: see below. *)
Theorem C83_original_partial w o build_tree d ns :
  reads_enough w -> reads_main w -> read_before w d ns ->
  ds_run (run_on w o build_tree d ns) = Run.run o build_tree (map (found w d) ns) /\
  left_behind w d (ds_disk (run_on w o build_tree d ns))
    (rs_written (Run.run o build_tree (map (found w d) ns))).
Proof. exact (run_on_original w o build_tree d ns). Qed.
Print Assumptions C83_original_partial.

(* Without any condition: files denoted by no given name are left alone. *)
Theorem C83_others w o build_tree d ns i :
  (forall n, In n ns -> w_file w n <> i) ->
  ds_disk (run_on w o build_tree d ns) i = d i.
Proof. exact (run_on_others w o build_tree d ns i). Qed.
Print Assumptions C83_others.

(* Without any condition: no files are made.  A given name that denotes no file is one which
   cannot be read, whatever Clang would find in it. *)
Theorem C83_no_new w o build_tree d ns i :
  d i = None -> ds_disk (run_on w o build_tree d ns) i = None.
Proof. exact (run_on_none w o build_tree d ns i). Qed.
Print Assumptions C83_no_new.

(* If the run is stopped after some of the files, these have what they have after the whole run,
   and all other files have what they had before. *)
Theorem C83_stopped_partial w o build_tree d ns ms :
  reads_enough w -> reads_main w -> read_before w d (ns ++ ms) ->
  (forall n, In n ns ->
     ds_disk (run_on w o build_tree d ns) (w_file w n) =
     ds_disk (run_on w o build_tree d (ns ++ ms)) (w_file w n)) /\
  (forall i, (forall n, In n ns -> w_file w n <> i) ->
     ds_disk (run_on w o build_tree d ns) i = d i).
Proof. exact (run_on_stopped w o build_tree d ns ms). Qed.
Print Assumptions C83_stopped_partial.

Example C83_stopped_example :
  read_before small_world two_files (["add2.c"] ++ ["add.c"; "missing.c"; "add2.c"]) /\
  ds_disk (run_on small_world default_options true two_files ["add2.c"]) 0 = Some add_c /\
  ds_disk (run_on small_world default_options true two_files ["add2.c"]) 1 = Some add_c_expected.
Proof. split; [exact small_read_before|]. split; vm_compute; reflexivity. Qed.

(* The including file is given first (and once more at the end); one name denotes nothing. *)
Example C83_example :
  reads_enough small_world /\ reads_main small_world /\
  read_before small_world two_files good_order /\
  map fst (rs_written (ds_run after_good)) = ["add2.c"; "add.c"] /\
  rs_id (ds_run after_good) = 114 /\
  ds_disk after_good 1 = Some add_c_expected /\
  ds_disk after_good 2 = None /\
  (forall n, In n good_order -> w_file small_world n <> 3).
Proof.
  split; [exact small_reads_enough|]. split; [exact small_reads_main|].
  split; [exact small_read_before|]. destruct good_result as (A & B & C & D).
  repeat (split; [assumption|]).
  intros n [<-|[<-|[<-|[<-|[]]]]]; discriminate.
Qed.
Print Assumptions C83_example.

(* One file given by two names: it is mutated, and then the result is mutated. *)
Theorem C83_other_name_refuted :
  exists w o d ns, reads_enough w /\ reads_main w /\
    NoDup ns /\
    (forall n, In n ns -> exists t u, d (w_file w n) = Some t /\ w_clang w d n = Some u) /\
    ds_run (run_on w o true d ns) <> Run.run o true (map (found w d) ns) /\
    exists n t, In (n, t) (rs_written (Run.run o true (map (found w d) ns))) /\
      ds_disk (run_on w o true d ns) (w_file w n) <> Some t.
Proof. exact other_name_refuted. Qed.
Print Assumptions C83_other_name_refuted.

(* A file given after a file which it includes: it had no errors before the run, but is not
   mutated. *)
Theorem C83_included_refuted :
  exists w o d ns, reads_enough w /\ reads_main w /\
    NoDup (map (w_file w) ns) /\
    (forall n, In n ns -> exists t u, d (w_file w n) = Some t /\ w_clang w d n = Some u) /\
    map fst (rs_written (Run.run o true (map (found w d) ns))) = ns /\
    map fst (rs_written (ds_run (run_on w o true d ns))) <> ns.
Proof. exact included_refuted. Qed.
Print Assumptions C83_included_refuted.
