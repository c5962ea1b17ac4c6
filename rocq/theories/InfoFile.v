(* The whole of main on a disk, with the information file: src/dredd/src/main.cc:132-193.
   Simplified: command lines are accepted and have a compile command (Diagnostics.v has the
   other cases and the assertions). *)
From Coq Require Import String List Arith Bool.
From Verif Require Import Base Clang Rewriter Run Disk.
Import ListNotations.

(* One round of ClangTool::run, and whether an error has been counted in this round or before:
   a name met before is not parsed again (new_mutate_frontend_action_factory.cc:48-68) *)
Definition process_counting (w : world) (o : options) (build_tree : bool) (s : dstate * bool)
  (n : string) : dstate * bool :=
  (process_name w o build_tree (fst s) n,
   snd s || (negb (string_mem n (rs_processed (ds_run (fst s)))) &&
             match f_unit (found w (ds_disk (fst s)) n) with None => true | Some _ => false end)).

(* main.cc:152: tool.run, whose result is 1 if there was an error and 0 otherwise *)
Definition run_counting (w : world) (o : options) (build_tree : bool) (d : disk)
  (ns : list string) : dstate * bool :=
  fold_left (process_counting w o build_tree) ns
    ({| ds_run := initial_rstate; ds_disk := d |}, false).

(* main.cc:174-193.  [json]: MessageToJsonString, None if it fails.  [opened]: the stream of
   line 184 can be opened; this is not tested, and what is written to a stream that is not open
   is lost.  Simplified: what is written to an open stream gets to the file. *)
Definition write_info (json : list (string * list pnode) -> option string) (opened : bool)
  (file : nat) (code : nat) (info : list (string * list pnode)) (d : disk) : nat * disk :=
  match json info with
  | Some text => (code, if opened then overwrite d file text else d)
  | None => (1, d)
  end.

(* main.cc:132-193: the exit status and the disk afterwards.  [info_file]: the value of
   --mutation-info-file, if there is one (lines 137-143) *)
Definition main_on (w : world) (json : list (string * list pnode) -> option string)
  (opened : bool) (o : options) (info_file : option string) (d : disk) (ns : list string)
  : nat * disk :=
  let s := run_counting w o (match info_file with Some _ => true | None => false end) d ns in
  let code := if snd s then 1 else 0 in
  match info_file with
  | Some p => write_info json opened (w_file w p) code (rs_info (ds_run (fst s))) (ds_disk (fst s))
  | None => (code, ds_disk (fst s))
  end.
