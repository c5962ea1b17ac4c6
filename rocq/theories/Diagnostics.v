(* Diagnostics, the list of failed files and the assertions of main:
   src/dredd/src/log_failed_files_diagnostic_consumer.cc, src/dredd/src/main.cc and
   new_mutate_frontend_action_factory.cc:48-68.  clang::tooling::ClangTool::run and
   clang::ChainedDiagnosticConsumer are not part of the repository; what is modelled of
   them is stated below. *)
From Coq Require Import String List Arith Bool.
From Verif Require Import Base Clang Run.
Import ListNotations.

(* clang::DiagnosticsEngine::Level *)
Inductive level := Ignored | Note | Remark | Warning | Error | Fatal.
Definition is_error (l : level) : bool :=
  match l with Error | Fatal => true | _ => false end.

(* A file given to the tool, with what Clang will report about it. *)
Record input := {
  in_file : source_file;           (* its unit, should it have no errors *)
  in_command : bool;               (* a compile command was found *)
  in_driver : list level;          (* diagnostics about the command line *)
  in_driver_stops : bool;          (* the driver yields no compiler job *)
  in_diags : list level            (* diagnostics about the source *)
}.

Record dstate := {
  d_chained_errors : nat;          (* NumErrors of the ChainedDiagnosticConsumer *)
  d_printer_errors : nat;          (* NumErrors of the TextDiagnosticPrinter *)
  d_failed : list string;          (* files_with_errors, a std::set *)
  d_processing_failed : bool;      (* ClangTool::run *)
  d_file_skipped : bool;           (* ClangTool::run *)
  d_run : rstate
}.
Definition initial_dstate : dstate :=
  {| d_chained_errors := 0; d_printer_errors := 0; d_failed := [];
     d_processing_failed := false; d_file_skipped := false; d_run := initial_rstate |}.

(* ChainedDiagnosticConsumer::HandleDiagnostic counts and forwards to the printer, which
   counts, and to LogFailedFilesDiagnosticConsumer::HandleDiagnostic (lines 23-33 of its
   file), which records the main file if there is one (main). *)
Definition handle_diagnostic (main : option string) (st : dstate) (l : level) : dstate :=
  if is_error l then
    {| d_chained_errors := S (d_chained_errors st);
       d_printer_errors := S (d_printer_errors st);
       d_failed := match main with
                   | Some n => insert_sorted n (d_failed st)
                   | None => d_failed st
                   end;
       d_processing_failed := d_processing_failed st;
       d_file_skipped := d_file_skipped st;
       d_run := d_run st |}
  else st.

(* new_mutate_frontend_action_factory.cc:50: clear() on the chained consumer.
   forward says that it also clears the consumers behind it; in the LLVM sources it does
   not override clear(), so only its own counter is reset. *)
Definition clear (forward : bool) (st : dstate) : dstate :=
  {| d_chained_errors := 0;
     d_printer_errors := if forward then 0 else d_printer_errors st;
     d_failed := d_failed st;
     d_processing_failed := d_processing_failed st;
     d_file_skipped := d_file_skipped st;
     d_run := d_run st |}.

Definition fail_if (b : bool) (st : dstate) : dstate :=
  {| d_chained_errors := d_chained_errors st; d_printer_errors := d_printer_errors st;
     d_failed := d_failed st;
     d_processing_failed := d_processing_failed st || b;
     d_file_skipped := d_file_skipped st;
     d_run := d_run st |}.
Definition skip (st : dstate) : dstate :=
  {| d_chained_errors := d_chained_errors st; d_printer_errors := d_printer_errors st;
     d_failed := d_failed st; d_processing_failed := d_processing_failed st;
     d_file_skipped := true; d_run := d_run st |}.
Definition with_run (r : rstate) (st : dstate) : dstate :=
  {| d_chained_errors := d_chained_errors st; d_printer_errors := d_printer_errors st;
     d_failed := d_failed st; d_processing_failed := d_processing_failed st;
     d_file_skipped := d_file_skipped st; d_run := r |}.

(* The file as HandleTranslationUnit finds it: hasErrorOccurred() after parsing,
   mutate_ast_consumer.cc:85-88 *)
Definition parsed (i : input) : source_file :=
  if existsb is_error (in_diags i)
  then {| f_name := f_name (in_file i); f_text := f_text (in_file i); f_unit := None |}
  else in_file i.

(* One round of ClangTool::run: a file without compile command is skipped; diagnostics of
   the driver come first and are about no main file; then BeginInvocation clears, a
   repeated file is left alone, any other is parsed and handled; the invocation has failed
   iff the chained consumer has counted an error. *)
Definition tool_step (o : options) (bt forward : bool) (st : dstate) (i : input) : dstate :=
  if negb (in_command i) then skip st
  else
    let st := fold_left (handle_diagnostic None) (in_driver i) st in
    if in_driver_stops i then fail_if true st
    else
      let st := clear forward st in
      let name := f_name (in_file i) in
      let st :=
        if string_mem name (rs_processed (d_run st)) then st
        else with_run (process_file o bt (d_run st) (parsed i))
               (fold_left (handle_diagnostic (Some name)) (in_diags i) st) in
      fail_if (negb (Nat.eqb (d_chained_errors st) 0)) st.

(* ClangTool::run returns 1 if processing failed, else 2 if a file was skipped, else 0. *)
Definition return_code (st : dstate) : nat :=
  if d_processing_failed st then 1 else if d_file_skipped st then 2 else 0.

Definition tool_run (o : options) (bt forward : bool) (is : list input) : dstate :=
  fold_left (tool_step o bt forward) is initial_dstate.

(* main.cc:152-193 in a build with assertions: either an assertion fails, or the list of
   failed files is printed (if there is something to report) and the info file written. *)
Inductive main_outcome :=
| AssertionFailure
| Finished (code : nat) (reported : list string) (info : option (list (string * list pnode))).

Definition main_run (o : options) (bt forward : bool) (is : list input) : main_outcome :=
  let st := tool_run o bt forward is in
  let info := if bt then Some (rs_info (d_run st)) else None in
  if Nat.eqb (return_code st) 0 then
    (* lines 154-158 *)
    if Nat.eqb (d_printer_errors st) 0 && match d_failed st with [] => true | _ => false end
    then Finished 0 [] info
    else AssertionFailure
  else
    (* lines 159-172 *)
    if Nat.ltb 0 (d_printer_errors st)
    then Finished (return_code st) (d_failed st) info
    else AssertionFailure.
