(* Property C86: coverage of removed statements in functions with jumps.

   [recording s']: the coverage build of the function whose statements have tests around them in
   s' (JumpCover.v).  [records]: some execution of it records the id.  [seen]: what can be
   observed of it, but for what it records (JumpCoverSpec.v). *)
From Coq Require Import ZArith List Bool.
From Verif Require Import Jump JumpSpec JumpExample JumpCover JumpCoverSpec JumpCoverProof
  JumpCoverExample.
Import ListNotations.

(* If no execution of the coverage build, called with this memory, records an enabled mutant,
   the mutated function does exactly what the original one does: whatever it jumps to. *)
Theorem C86_unrecorded : forall (M : machine) (s s' : stmt M) on on' m o, mutated s s' ->
  (forall id, records (recording s') m id -> on id = false) ->
  observed s' on m o <-> observed s on' m o.
Proof. exact unrecorded_same. Qed.
Print Assumptions C86_unrecorded.

(* But for what it records, the coverage build does exactly what the original function does. *)
Theorem C86_coverage_build : forall (M : machine) (s s' : stmt M) on' m o, mutated s s' ->
  seen (recording s') m o <-> observed s on' m o.
Proof. exact coverage_same. Qed.
Print Assumptions C86_coverage_build.

(* The coverage build records exactly the mutants whose tests are made in the mutated function
   with no mutant enabled. *)
Theorem C86_recorded : forall (M : machine) (s s' : stmt M) m id, mutated s s' ->
  records (recording s') m id <->
  exists t x k m', steps s' (fun _ => false) (Running s' KStop m) t (Running (Unless id x) k m').
Proof. exact recorded_tests. Qed.
Print Assumptions C86_recorded.

Example C86_recorded_example : mutated device device_mutated.
Proof. exact device_is_mutated. Qed.

(* A switch statement jumps into a loop, which is therefore executed but not recorded; removing
   the loop has no effect. *)
Example C86_example : mutated device device_mutated /\
  recording device_mutated = device_recording /\
  (forall id, records (recording device_mutated) tt id -> everything id = false) /\
  exists st, steps device_recording (fun _ => false)
    (@Running (recorder printer) device_recording KStop tt) [inl 0; inl 1] st.
Proof.
  split; [exact device_is_mutated|]. split; [exact device_is_recording|].
  split; [intros id H; destruct (device_unrecorded id H)|].
  eexists. refine (@steps_step (recorder printer) _ _ _ [inl 0] _ [inl 1] _ _ _).
  { eapply s_switch. exists [0]. repeat split; reflexivity. }
  refine (@steps_step (recorder printer) _ _ _ [inl 1] _ [] _ _ _).
  { eapply s_do. exists [1]. repeat split; reflexivity. }
  apply steps_refl.
Qed.
(* The calls of a function with case labels *)
Example C86_calls : recording usual_mutated = usual_recording.
Proof. exact usual_is_recording. Qed.
