(* Examples and counterexamples for C87. *)
From Coq Require Import String List Arith ZArith Bool Lia.
From Verif Require Import Base Clang Gen Mutation TreeSpec Rewriter Run RunSpec RunTest Disk DiskSpec DiskProof
  DiskExample SourceRange SourceRangeSpec QueryText QuerySpec Utf8Proof InfoJson InfoScript InfoSpec
  InfoRead InfoProof InfoLines InfoFile InfoFileProof.
Import ListNotations.
Local Open Scope string_scope.

(* The files of C83, the including one first; info.json is file 2. *)
Definition both : list string := ["add2.c"; "add.c"].
Lemma both_read_before : read_before small_world two_files both.
Proof.
  intros before n rest m E N I H. unfold both in E.
  destruct before as [|b1 [|b2 before]]; simpl in E; injection E; clear E; intros; subst; simpl in *.
  - contradiction.
  - destruct I as [<-|[]]. cbn in H. intuition discriminate.
  - destruct before; discriminate.
Qed.
Definition both_run : rstate := Run.run default_options true (map (found small_world two_files) both).
Lemma both_json : exists text, json_file_text (json_info (rs_info both_run)) text.
Proof.
  apply info_written. vm_compute info_strings.
  repeat (constructor; [apply ascii_utf8; reflexivity|]). constructor.
Qed.
Lemma both_no_errors n : In n both -> f_unit (found small_world two_files n) <> None.
Proof. intros [<-|[<-|[]]]; discriminate. Qed.

(* The information file cannot be opened: the sources are mutated, and the status is 0. *)
Lemma unwritable : exists w json o path d ns,
  reads_enough w /\ reads_main w /\ read_before w d ns /\
  (forall n, In n ns -> w_file w n <> w_file w path) /\
  let r := Run.run o true (map (found w d) ns) in
  (exists text, json (rs_info r) = Some text /\ json_file_text (json_info (rs_info r)) text) /\
  exists d', main_on w json false o (Some path) d ns = (0, d') /\ d' (w_file w path) = None /\
    exists n t, In (n, t) (rs_written r) /\ d' (w_file w n) = Some t /\ d (w_file w n) <> Some t.
Proof.
  destruct both_json as (text & T).
  exists small_world, (fun _ => Some text), default_options, "info.json", two_files, both.
  split; [exact small_reads_enough|]. split; [exact small_reads_main|].
  split; [exact both_read_before|]. split; [intros n [<-|[<-|[]]]; discriminate|].
  cbv zeta. split; [exists text; split; [reflexivity|exact T]|].
  eexists. split; [reflexivity|]. split; [vm_compute; reflexivity|].
  exists "add.c". eexists. split; [|split].
  - vm_compute. right. left. reflexivity.
  - vm_compute. reflexivity.
  - vm_compute. discriminate.
Qed.

(* The information is to go to one of the sources: the mutated source is lost. *)
Lemma same_file : exists w json o path d ns,
  reads_enough w /\ reads_main w /\ read_before w d ns /\
  let r := Run.run o true (map (found w d) ns) in
  (exists text, json (rs_info r) = Some text /\ json_file_text (json_info (rs_info r)) text) /\
  exists d', main_on w json true o (Some path) d ns = (0, d') /\
    exists n t, In (n, t) (rs_written r) /\ d' (w_file w n) <> Some t /\ d' (w_file w n) <> d (w_file w n).
Proof.
  destruct both_json as (text & T).
  exists small_world, (fun _ => Some text), default_options, "add.c", two_files, both.
  split; [exact small_reads_enough|]. split; [exact small_reads_main|].
  split; [exact both_read_before|].
  cbv zeta. split; [exists text; split; [reflexivity|exact T]|].
  eexists. split; [reflexivity|].
  assert (X : forall t, json_load t = None -> Some text <> Some t).
  { intros t N E. injection E; clear E; intro E. subst t. apply load_lemma in T. congruence. }
  exists "add.c". eexists. split; [|split].
  - vm_compute. right. left. reflexivity.
  - apply X. vm_compute. reflexivity.
  - apply X. vm_compute. reflexivity.
Qed.

(* One file below /new, its original below /old *)
Definition where_is (n : string) : nat :=
  if String.eqb n "/new/add.c" then 0 else if String.eqb n "/old/add.c" then 1 else 2.
Definition copied : world :=
  {| w_file := where_is; w_reads := fun _ n => [where_is n];
     w_clang := fun d n => match d (where_is n) with Some _ => Some add_c_unit | None => None end |}.
Definition two_copies : disk := fun i => match i with 0 | 1 => Some add_c | _ => Some "old" end.
Definition copied_run : rstate :=
  Run.run default_options true (map (found copied two_copies) ["/new/add.c"]).
Lemma copied_reads : reads_enough copied /\ reads_main copied /\
  read_before copied two_copies ["/new/add.c"].
Proof.
  split; [|split].
  - intros d d' n H. cbn in *. rewrite <- (H (where_is n)) by auto. reflexivity.
  - intros d n. left. reflexivity.
  - intros before n rest m E N I. destruct before as [|b [|b' before]]; try discriminate. destruct I.
Qed.
Lemma copied_json : exists text, json_file_text (json_info (rs_info copied_run)) text.
Proof.
  apply info_written. vm_compute info_strings.
  repeat (constructor; [apply ascii_utf8; reflexivity|]). constructor.
Qed.
Lemma copied_ids : rs_id copied_run = 57.
Proof. vm_compute. reflexivity. Qed.
