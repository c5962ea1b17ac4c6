(* Property C79: in a program linked from several files, mutants that the coverage builds of the
   files do not record make no difference.

   [linked_unrecorded]: no execution of the program linked from the files mutated for coverage,
   called like that, writes the id of an enabled mutant to the tracking file, from whichever
   file; [linked_finishes]: from every state that it can get to, that program can finish;
   [no_more] as in C76 (LinkedCoverSpec.v, CoverSpec.v). *)
From Coq Require Import String List ZArith Bool.
From Verif Require Import Base Clang Gen GenExpr GenBinary GenUnary GenStmt Mutation GenSpec
  PreludeSpec Prelude Tracking Lang Cst Runtime SimSpec SimRel SimTop MutantSpec SimExample
  SimRefute CoverSpec CoverExample Linked LinkedSpec LinkedExample LinkedCoverSpec
  LinkedCoverProof LinkedCoverExample.
Import ListNotations.
Local Open Scope string_scope.

(* Compared with the original program.  Missing: mutants of && and || in C if the program may
   not finish, and files in which a site has no mutant. *)
Theorem C79_unrecorded_partial : forall L c cpp17 oM oC files v zs g args e m,
  track oM = false -> track oC = true -> optimise oM = optimise oC ->
  enables_in L files v zs -> well_formed_files L c files -> productive_files L c oC files ->
  (cpp17 = true -> sequenced_files L c files) ->
  no_logical L c (optimise oC) files zs ->
  linked_unrecorded L c cpp17 oC files e m g args zs ->
  no_more L c cpp17 (linked_selecting L c oM files v) no_runtime e m
    (linked_initial L c oM files v) (linked_body L c oM files 0) (call L g args)
    tt (body_of L c (whole L files)) (call L g args).
Proof.
  exact (fun L c cpp17 oM oC files v zs g args e m TM TC OO En Wf Pr Sq Lo Un =>
    linked_cover_original L c cpp17 oM oC TM TC OO False files v zs g args e m En Wf Pr Sq
      (fun s i Is => proj1 (Forall_forall _ _) Lo s Is i) (False_ind _) Un).
Qed.
Print Assumptions C79_unrecorded_partial.

(* All mutants, if the program mutated for coverage can always finish *)
Theorem C79_finishing : forall L c cpp17 oM oC files v zs g args e m,
  track oM = false -> track oC = true -> optimise oM = optimise oC ->
  enables_in L files v zs -> well_formed_files L c files -> productive_files L c oC files ->
  (cpp17 = true -> sequenced_files L c files) ->
  linked_finishes L c cpp17 oC files e m g args ->
  linked_unrecorded L c cpp17 oC files e m g args zs ->
  no_more L c cpp17 (linked_selecting L c oM files v) no_runtime e m
    (linked_initial L c oM files v) (linked_body L c oM files 0) (call L g args)
    tt (body_of L c (whole L files)) (call L g args).
Proof.
  exact (fun L c cpp17 oM oC files v zs g args e m TM TC OO En Wf Pr Sq Fi Un =>
    linked_cover_original L c cpp17 oM oC TM TC OO True files v zs g args e m En Wf Pr Sq
      (fun _ _ _ _ _ => Logic.I) (fun _ => Fi) Un).
Qed.
Print Assumptions C79_finishing.

(* Compared with the program mutated for coverage itself, whatever the order of evaluation *)
Theorem C79_like_coverage : forall L c cpp17 oM oC files v zs g args e m,
  track oM = false -> track oC = true -> optimise oM = optimise oC ->
  enables_in L files v zs -> well_formed_files L c files -> productive_files L c oC files ->
  no_logical L c (optimise oC) files zs ->
  linked_unrecorded L c cpp17 oC files e m g args zs ->
  no_more L c cpp17 (linked_selecting L c oM files v) (linked_recording L c oC files true true) e m
    (linked_initial L c oM files v) (linked_body L c oM files 0) (call L g args)
    (linked_track L c oC files true true) (linked_body L c oC files 0) (call L g args).
Proof.
  exact (fun L c cpp17 oM oC files v zs g args e m TM TC OO En Wf Pr Lo Un =>
    linked_cover L c cpp17 oM oC TM TC OO False files v zs g args e m En Wf Pr
      (fun s i Is => proj1 (Forall_forall _ _) Lo s Is i) (False_ind _) Un).
Qed.
Print Assumptions C79_like_coverage.

(* void f() { if (x) g(); }  in one C file, void g() { b && y; } in the other.  With x = 0, no
   mutant of the second file is recorded; with x = 1, those of && are. *)
Example C79_example :
  map fst asked = [0; 8] /\ counts toy c_ctx coverage asked = [8; 16] /\
  enables_in toy asked (Some "18") [18%Z] /\ well_formed_files toy c_ctx asked /\
  productive_files toy c_ctx coverage asked /\ no_logical toy c_ctx true asked [18%Z] /\
  linked_unrecorded toy c_ctx false coverage asked tt guard_off "f" [] [18%Z] /\
  ~ linked_unrecorded toy c_ctx false coverage asked tt guard_on "f" [] [20%Z] /\
  no_more toy c_ctx false (linked_selecting toy c_ctx optimised asked (Some "18")) no_runtime tt
    guard_off (linked_initial toy c_ctx optimised asked (Some "18"))
    (linked_body toy c_ctx optimised asked 0) (call toy "f" [])
    tt (body_of toy c_ctx (whole toy asked)) (call toy "f" []).
Proof.
  assert (W : well_formed_files toy c_ctx asked) by (repeat constructor).
  assert (P : productive_files toy c_ctx coverage asked) by (repeat constructor).
  assert (U : linked_unrecorded toy c_ctx false coverage asked tt guard_off "f" [] [18%Z])
    by (apply asked_fewer; intros z [<-|[]]; left; reflexivity).
  split; [reflexivity|]. split; [vm_compute; reflexivity|]. split; [exact enables_asked|].
  split; [exact W|]. split; [exact P|]. split; [exact asked_logical|]. split; [exact U|].
  split; [exact asked_recorded|].
  exact (C79_unrecorded_partial toy c_ctx false optimised coverage asked (Some "18") [18%Z] "f" []
    tt guard_off eq_refl eq_refl eq_refl enables_asked W P
    (fun Q => False_ind _ (Bool.diff_false_true Q)) asked_logical U).
Qed.
Example C79_finishing_example :
  enables_in toy asked (Some "20,22") [20%Z; 22%Z] /\
  linked_finishes toy c_ctx false coverage asked tt guard_off "f" [] /\
  linked_unrecorded toy c_ctx false coverage asked tt guard_off "f" [] [20%Z; 22%Z] /\
  no_more toy c_ctx false (linked_selecting toy c_ctx optimised asked (Some "20,22")) no_runtime tt
    guard_off (linked_initial toy c_ctx optimised asked (Some "20,22"))
    (linked_body toy c_ctx optimised asked 0) (call toy "f" [])
    tt (body_of toy c_ctx (whole toy asked)) (call toy "f" []).
Proof.
  assert (U : linked_unrecorded toy c_ctx false coverage asked tt guard_off "f" [] [20%Z; 22%Z])
    by (apply asked_fewer; intros z H; right; exact H).
  split; [exact enables_asked_2|]. split; [exact asked_finishes|]. split; [exact U|].
  exact (C79_finishing toy c_ctx false optimised coverage asked (Some "20,22") [20%Z; 22%Z] "f" []
    tt guard_off eq_refl eq_refl eq_refl enables_asked_2 ltac:(repeat constructor)
    ltac:(repeat constructor) (fun Q => False_ind _ (Bool.diff_false_true Q)) asked_finishes U).
Qed.

(* False for && and || in C, as in C76, with another file before the one with && *)
Theorem C79_logical_refuted : exists L c oM oC files v zs g args e m,
  track oM = false /\ track oC = true /\ optimise oM = optimise oC /\
  enables_in L files v zs /\ well_formed_files L c files /\ productive_files L c oC files /\
  List.length files = 2 /\
  linked_unrecorded L c false oC files e m g args zs /\
  ~ no_more L c false (linked_selecting L c oM files v) no_runtime e m
      (linked_initial L c oM files v) (linked_body L c oM files 0) (call L g args)
      tt (body_of L c (whole L files)) (call L g args).
Proof.
  exact (ex_intro _ toy (ex_intro _ c_ctx (ex_intro _ optimised (ex_intro _ coverage
    (ex_intro _ divided (ex_intro _ (Some "30") (ex_intro _ [30%Z]
      (ex_intro _ "f" (ex_intro _ [] (ex_intro _ tt (ex_intro _ by_zero
        (conj eq_refl (conj eq_refl (conj eq_refl (conj enables_divided
          (conj divided_well_formed (conj divided_productive (conj eq_refl
            (conj divided_unrecorded divided_noticed))))))))))))))))))).
Qed.
Print Assumptions C79_logical_refuted.

(* False if there are sites without mutants *)
Theorem C79_shadowed_refuted : exists L c oM oC files v zs g args e m,
  track oM = false /\ track oC = true /\ optimise oM = optimise oC /\
  enables_in L files v zs /\ well_formed_files L c files /\
  no_logical L c (optimise oC) files zs /\ List.length files = 2 /\
  linked_unrecorded L c false oC files e m g args zs /\
  ~ no_more L c false (linked_selecting L c oM files v) no_runtime e m
      (linked_initial L c oM files v) (linked_body L c oM files 0) (call L g args)
      tt (body_of L c (whole L files)) (call L g args).
Proof.
  exact (ex_intro _ toy (ex_intro _ cpp_ctx (ex_intro _ optimised (ex_intro _ coverage
    (ex_intro _ hidden (ex_intro _ (Some "8") (ex_intro _ [8%Z]
      (ex_intro _ "f" (ex_intro _ [] (ex_intro _ tt (ex_intro _ zero
        (conj eq_refl (conj eq_refl (conj eq_refl (conj enables_hidden
          (conj hidden_well_formed (conj hidden_logical (conj eq_refl
            (conj hidden_unrecorded hidden_noticed))))))))))))))))))).
Qed.
Print Assumptions C79_shadowed_refuted.
