(* A run of the tool over files on a disk which the run itself changes: ClangTool::run
   called in src/dredd/src/main.cc:152, new_mutate_frontend_action_factory.cc:48-68 and
   mutate_ast_consumer.cc:76-175.  Run.v takes the text of every file and what Clang finds
   in it as given; here both are read from the disk when the turn of the file comes. *)
From Coq Require Import String List Arith Bool.
From Verif Require Import Base Clang Rewriter Run.
Import ListNotations.

(* The contents of the files, None where there is none.  Files are numbered; two names may
   denote one file. *)
Definition disk := nat -> option string.

(* rewriter_.overwriteChangedFiles(), mutate_ast_consumer.cc:171-174, for the main file,
   the only one edited.  Simplified: Clang writes a temporary file and renames it, which
   would detach the name from other names of the file; here all names see the new text. *)
Definition overwrite (d : disk) (i : nat) (t : string) : disk :=
  fun j => if Nat.eqb j i then Some t else d j.

(* What the run is given by its surroundings: the file a name denotes, and Clang, as the
   files which it reads (or looks for) for the name of a main file, and what it finds. *)
Record world := {
  w_file : string -> nat;
  w_reads : disk -> string -> list nat;
  w_clang : disk -> string -> option unit_info
}.

(* The file as BeginInvocation and HandleTranslationUnit find it: new contents are read
   for every translation unit.  A file which does not exist is an error. *)
Definition found (w : world) (d : disk) (n : string) : source_file :=
  match d (w_file w n) with
  | Some t => {| f_name := n; f_text := t; f_unit := w_clang w d n |}
  | None => {| f_name := n; f_text := ""%string; f_unit := None |}
  end.

Record dstate := { ds_run : rstate; ds_disk : disk }.

(* One round of ClangTool::run: new_mutate_frontend_action_factory.cc:48-68 (a name met
   before is skipped) and mutate_ast_consumer.cc:76-175 *)
Definition process_name (w : world) (o : options) (build_tree : bool) (s : dstate)
  (n : string) : dstate :=
  let f := found w (ds_disk s) n in
  {| ds_run := process_file o build_tree (ds_run s) f;
     ds_disk :=
       if string_mem n (rs_processed (ds_run s)) then ds_disk s
       else match f_unit f with
            | None => ds_disk s
            | Some u =>
                match h_output (handle_unit o build_tree (f_text f) u (rs_id (ds_run s))) with
                | Some t => overwrite (ds_disk s) (w_file w n) t
                | None => ds_disk s
                end
            end |}.

(* tool.run, main.cc:152 *)
Definition run_on (w : world) (o : options) (build_tree : bool) (d : disk)
  (ns : list string) : dstate :=
  fold_left (process_name w o build_tree) ns {| ds_run := initial_rstate; ds_disk := d |}.
