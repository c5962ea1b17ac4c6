(* Properties of diagnostics and of the assertions in main: C38, C43. *)
From Coq Require Import String List Arith Bool Lia.
From Verif Require Import Base Clang Run RunSpec RunTest Diagnostics DiagnosticsSpec
  DiagnosticsProof.
Import ListNotations.
Local Open Scope string_scope.
Local Open Scope list_scope.

Definition good_input (f : source_file) : input :=
  {| in_file := f; in_command := true; in_driver := [Warning]; in_driver_stops := false;
     in_diags := [Note; Warning] |}.
Definition bad_input (f : source_file) : input :=
  {| in_file := f; in_command := true; in_driver := []; in_driver_stops := false;
     in_diags := [Warning; Error; Note; Fatal] |}.
Definition mixed_inputs : list input :=
  [bad_input bad_file; good_input add_c_file; bad_input bad_file; good_input add2_c_file].

(* C38: whenever main reports at all, it reports exactly the files with errors, once. *)
Theorem C38_failed_files_exact : forall o bt is code reported info,
  main_run o bt false is = Finished code reported info ->
  NoDup reported /\
  forall n, In n reported <->
    exists i, In i (attempted [] is) /\ f_name (in_file i) = n /\ erroneous i.
Proof. exact C38_lemma. Qed.
Print Assumptions C38_failed_files_exact.

Example C38_example :
  main_run default_options false false mixed_inputs = Finished 1 [f_name bad_file] None.
Proof. vm_compute. reflexivity. Qed.

(* C43: with accepted command lines, no assertion fails whatever files have errors, the
   exit code tells whether there were any, and the info is that of the mutated files. *)
Theorem C43_errors_do_not_stop_others_partial : forall o bt is,
  Forall good_command is ->
  exists code reported,
    main_run o bt false is
    = Finished code reported
        (if bt then Some (rs_info (run o bt (map parsed is))) else None) /\
    (code = 0 <-> forall i, In i (attempted [] is) -> ~ erroneous i).
Proof. exact C43_lemma. Qed.
Print Assumptions C43_errors_do_not_stop_others_partial.

Example C43_example :
  Forall good_command mixed_inputs /\
  exists i, In i (attempted [] mixed_inputs) /\ erroneous i.
Proof.
  split.
  - repeat (apply Forall_cons || apply Forall_nil); repeat split; auto; simpl in *;
    intuition (subst; discriminate).
  - exists (bad_input bad_file). split; [left; reflexivity|].
    exists Error. split; [right; left; reflexivity|now left].
Qed.

(* C43 fails if the driver reports an error but goes on, such as about an unknown argument:
   the tool returns 0 while the printer has counted the error. *)
Theorem C43_driver_error_refuted : exists is,
  (forall i, In i is -> in_command i = true /\ in_driver_stops i = false /\ in_diags i = []) /\
  main_run default_options true false is = AssertionFailure.
Proof.
  exists [{| in_file := add_c_file; in_command := true; in_driver := [Error];
             in_driver_stops := false; in_diags := [] |}].
  split; [|vm_compute; reflexivity].
  intros i [<-|[]]. repeat split.
Qed.
Print Assumptions C43_driver_error_refuted.

(* C43 fails if a file has no compile command: the tool returns 2 and nothing has been
   counted. *)
Theorem C43_missing_command_refuted : exists is,
  (forall i, In i is -> in_driver i = [] /\ in_diags i = []) /\
  main_run default_options true false is = AssertionFailure.
Proof.
  exists [{| in_file := add_c_file; in_command := false; in_driver := [];
             in_driver_stops := false; in_diags := [] |}].
  split; [|vm_compute; reflexivity].
  intros i [<-|[]]. repeat split.
Qed.
Print Assumptions C43_missing_command_refuted.

(* C43 relies on the chained consumer not passing clear() on: if it did, an erroneous file
   before a good one would trip an assertion. *)
Theorem C43_forwarded_clear_refuted : exists is,
  Forall good_command is /\ main_run default_options true true is = AssertionFailure.
Proof.
  exists [bad_input bad_file; good_input add_c_file].
  split; [|vm_compute; reflexivity].
  repeat (apply Forall_cons || apply Forall_nil); repeat split; auto; simpl in *;
  intuition (subst; discriminate).
Qed.
Print Assumptions C43_forwarded_clear_refuted.
