(* Property C81: in a program with several threads, mutants that the coverage build does not
   record make no difference.

   [threads_unrecorded]: in no interleaving does a thread of the program mutated for coverage
   write the id of an enabled mutant to the tracking file; [threads_finish]: wherever that
   program has got to, it can end; [threads_no_more]: whatever the first program can do - ending
   with some memory, undefined behaviour, getting to some memory, running for ever, also with
   each thread having its turns - the second one can do (ThreadsCoverSpec.v). *)
From Coq Require Import String List ZArith Bool.
From Verif Require Import Base Clang Gen GenExpr GenBinary GenUnary GenStmt Mutation GenSpec
  PreludeSpec Prelude Tracking Lang Cst Runtime SimSpec SimRel SimTop MutantSpec SimExample
  SimRefute CoverSpec CoverExample Linked LinkedSpec LinkedExample LinkedCoverSpec
  LinkedCoverExample Threads ThreadsSpec ThreadsExample ThreadsCoverSpec ThreadsCoverProof
  ThreadsCoverExample.
Import ListNotations.
Local Open Scope string_scope.

(* Compared with the original program.  Missing: mutants of && and || in C if the program may
   not end, and files in which a site has no mutant. *)
Theorem C81_unrecorded_partial : forall L c cpp17 sys oM oC files v zs m calls,
  track oM = false -> track oC = true -> optimise oM = optimise oC ->
  enables_in L files v zs -> well_formed_files L c files -> productive_files L c oC files ->
  (cpp17 = true -> sequenced_files L c files) ->
  no_logical L c (optimise oC) files zs ->
  threads_unrecorded L c cpp17 sys oC files m calls zs ->
  threads_no_more L c cpp17 sys (linked_selecting L c oM files v) no_runtime own shared m calls
    (linked_initial L c oM files v) (linked_body L c oM files 0) tt (body_of L c (whole L files)).
Proof.
  exact (fun L c cpp17 sys oM oC files v zs m calls TM TC OO En Wf Pr Sq Lo Un =>
    threads_cover_original L c cpp17 sys oM oC TM TC OO False files v zs m calls En Wf Pr Sq
      (fun s i Is => proj1 (Forall_forall _ _) Lo s Is i) (False_ind _) Un).
Qed.
Print Assumptions C81_unrecorded_partial.

(* All mutants, if the program can always end *)
Theorem C81_finishing : forall L c cpp17 sys oM oC files v zs m calls,
  track oM = false -> track oC = true -> optimise oM = optimise oC ->
  enables_in L files v zs -> well_formed_files L c files -> productive_files L c oC files ->
  (cpp17 = true -> sequenced_files L c files) ->
  threads_finish L c cpp17 sys oC files m calls ->
  threads_unrecorded L c cpp17 sys oC files m calls zs ->
  threads_no_more L c cpp17 sys (linked_selecting L c oM files v) no_runtime own shared m calls
    (linked_initial L c oM files v) (linked_body L c oM files 0) tt (body_of L c (whole L files)).
Proof.
  exact (fun L c cpp17 sys oM oC files v zs m calls TM TC OO En Wf Pr Sq Fi Un =>
    threads_cover_original L c cpp17 sys oM oC TM TC OO True files v zs m calls En Wf Pr Sq
      (fun _ _ _ _ _ => Logic.I) (fun _ => Fi) Un).
Qed.
Print Assumptions C81_finishing.

(* Compared with the program mutated for coverage itself, whatever the order of evaluation *)
Theorem C81_like_coverage : forall L c cpp17 sys oM oC files v zs m calls,
  track oM = false -> track oC = true -> optimise oM = optimise oC ->
  enables_in L files v zs -> well_formed_files L c files -> productive_files L c oC files ->
  no_logical L c (optimise oC) files zs ->
  threads_unrecorded L c cpp17 sys oC files m calls zs ->
  threads_no_more L c cpp17 sys (linked_selecting L c oM files v)
    (linked_recording L c oC files true true) own shared m calls
    (linked_initial L c oM files v) (linked_body L c oM files 0)
    (linked_track L c oC files true true) (linked_body L c oC files 0).
Proof.
  exact (fun L c cpp17 sys oM oC files v zs m calls TM TC OO En Wf Pr Lo Un =>
    threads_cover L c cpp17 sys oM oC TM TC OO False files v zs m calls En Wf Pr
      (fun s i Is => proj1 (Forall_forall _ _) Lo s Is i) (False_ind _) Un).
Qed.
Print Assumptions C81_like_coverage.

(* void f() { if (x) g(); }  void h() { }  in one C file, void g() { b && y; } in the other; f is
   called with x = 0, and a thread is started that calls h.  No mutant of the second file is
   recorded; if the thread calls g, some are. *)
Example C81_example :
  enables_in toy asked_more (Some "18") [18%Z] /\ well_formed_files toy c_ctx asked_more /\
  productive_files toy c_ctx coverage asked_more /\
  no_logical toy c_ctx true asked_more [18%Z] /\
  threads_unrecorded toy c_ctx false starts_h coverage asked_more guard_waits [(tt, "f", [])] [18%Z] /\
  ~ threads_unrecorded toy c_ctx false starts coverage asked_more guard_waits [(tt, "f", [])] [20%Z] /\
  threads_no_more toy c_ctx false starts_h (linked_selecting toy c_ctx optimised asked_more (Some "18"))
    no_runtime own shared guard_waits [(tt, "f", [])]
    (linked_initial toy c_ctx optimised asked_more (Some "18"))
    (linked_body toy c_ctx optimised asked_more 0) tt (body_of toy c_ctx (whole toy asked_more)).
Proof.
  assert (W : well_formed_files toy c_ctx asked_more) by (repeat constructor).
  assert (Pr : productive_files toy c_ctx coverage asked_more) by (repeat constructor).
  assert (U : threads_unrecorded toy c_ctx false starts_h coverage asked_more guard_waits
                [(tt, "f", [])] [18%Z])
    by (apply asked_more_fewer; intros z [<-|[]]; left; reflexivity).
  split; [exact enables_asked_18|]. split; [exact W|]. split; [exact Pr|].
  split; [exact asked_more_logical|]. split; [exact U|]. split; [exact asked_more_recorded|].
  exact (C81_unrecorded_partial toy c_ctx false starts_h optimised coverage asked_more (Some "18")
    [18%Z] guard_waits [(tt, "f", [])] eq_refl eq_refl eq_refl enables_asked_18 W Pr
    (fun Q => False_ind _ (Bool.diff_false_true Q)) asked_more_logical U).
Qed.
Example C81_finishing_example :
  enables_in toy asked_more (Some "20,22") [20%Z; 22%Z] /\
  threads_finish toy c_ctx false starts_h coverage asked_more guard_waits [(tt, "f", [])] /\
  threads_unrecorded toy c_ctx false starts_h coverage asked_more guard_waits [(tt, "f", [])]
    [20%Z; 22%Z] /\
  threads_no_more toy c_ctx false starts_h
    (linked_selecting toy c_ctx optimised asked_more (Some "20,22")) no_runtime own shared
    guard_waits [(tt, "f", [])] (linked_initial toy c_ctx optimised asked_more (Some "20,22"))
    (linked_body toy c_ctx optimised asked_more 0) tt (body_of toy c_ctx (whole toy asked_more)).
Proof.
  assert (U : threads_unrecorded toy c_ctx false starts_h coverage asked_more guard_waits
                [(tt, "f", [])] [20%Z; 22%Z])
    by (apply asked_more_fewer; intros z H; right; exact H).
  split; [exact enables_asked_more|]. split; [exact asked_more_finish|]. split; [exact U|].
  exact (C81_finishing toy c_ctx false starts_h optimised coverage asked_more (Some "20,22")
    [20%Z; 22%Z] guard_waits [(tt, "f", [])] eq_refl eq_refl eq_refl enables_asked_more
    ltac:(repeat constructor) ltac:(repeat constructor)
    (fun Q => False_ind _ (Bool.diff_false_true Q)) asked_more_finish U).
Qed.

(* False for && and || in C, as in C76 and C79 *)
Theorem C81_logical_refuted : exists L c sys oM oC files v zs m calls,
  track oM = false /\ track oC = true /\ optimise oM = optimise oC /\
  enables_in L files v zs /\ well_formed_files L c files /\ productive_files L c oC files /\
  threads_unrecorded L c false sys oC files m calls zs /\
  ~ threads_no_more L c false sys (linked_selecting L c oM files v) no_runtime own shared m calls
      (linked_initial L c oM files v) (linked_body L c oM files 0) tt (body_of L c (whole L files)).
Proof.
  exact (ex_intro _ toy (ex_intro _ c_ctx (ex_intro _ starts_none (ex_intro _ optimised
    (ex_intro _ coverage (ex_intro _ divided (ex_intro _ (Some "30") (ex_intro _ [30%Z]
      (ex_intro _ by_zero (ex_intro _ [(tt, "f", [])]
        (conj eq_refl (conj eq_refl (conj eq_refl (conj enables_divided
          (conj divided_well_formed (conj divided_productive
            (conj divided_threads divided_threads_noticed))))))))))))))))).
Qed.
Print Assumptions C81_logical_refuted.

(* False if there are sites without mutants *)
Theorem C81_shadowed_refuted : exists L c sys oM oC files v zs m calls,
  track oM = false /\ track oC = true /\ optimise oM = optimise oC /\
  enables_in L files v zs /\ well_formed_files L c files /\
  no_logical L c (optimise oC) files zs /\
  threads_unrecorded L c false sys oC files m calls zs /\
  ~ threads_no_more L c false sys (linked_selecting L c oM files v) no_runtime own shared m calls
      (linked_initial L c oM files v) (linked_body L c oM files 0) tt (body_of L c (whole L files)).
Proof.
  exact (ex_intro _ toy (ex_intro _ cpp_ctx (ex_intro _ starts_none (ex_intro _ optimised
    (ex_intro _ coverage (ex_intro _ hidden (ex_intro _ (Some "8") (ex_intro _ [8%Z]
      (ex_intro _ zero (ex_intro _ [(tt, "f", [])]
        (conj eq_refl (conj eq_refl (conj eq_refl (conj enables_hidden
          (conj hidden_well_formed (conj hidden_logical
            (conj hidden_threads hidden_threads_noticed))))))))))))))))).
Qed.
Print Assumptions C81_shadowed_refuted.
