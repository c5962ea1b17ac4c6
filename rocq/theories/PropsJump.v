(* C61: removed statements and jumps. *)
From Coq Require Import ZArith List Bool Arith Lia.
From Verif Require Import Jump JumpSpec JumpProof JumpExample.
Import ListNotations.

(* With no mutant enabled, the tests around statements do not change anything, wherever the
   program jumps to. *)
Theorem C61_no_mutant : forall (M : machine) on (s s' : stmt M) on' m o,
  mutated s s' -> (forall id, on id = false) ->
  observed s' on m o <-> observed s on' m o.
Proof. exact @no_mutant. Qed.
Print Assumptions C61_no_mutant.

(* With mutants enabled, their statements are not executed, provided that no goto goes into a
   component of a block from outside and that case labels are before components of the body of
   their switch statement. *)
Theorem C61_removed_partial : forall (M : machine) on (s s' : stmt M) on' m o,
  mutated s s' -> sealed [] s -> orderly s ->
  observed s' on m o <-> observed (without on s') on' m o.
Proof. exact @source_removal. Qed.
Print Assumptions C61_removed_partial.

(* The same for one set of mutants: nothing that is left jumps into what is removed. *)
Theorem C61_removed_exact : forall (M : machine) on (s : stmt M), not_entered on s ->
  forall on' m o, observed s on m o <-> observed (without on s) on' m o.
Proof. exact @removal. Qed.
Print Assumptions C61_removed_exact.

(* Of the function below, the statement after the first case label and the goto statement. *)
Example C61_removed_exact_example :
  not_entered (fun id => Nat.eqb id 0 || Nat.eqb id 4) usual_mutated /\
  without (fun id => Nat.eqb id 0 || Nat.eqb id 4) usual_mutated <> usual_mutated /\
  ~ not_entered everything device_mutated.
Proof.
  split; [|split; [discriminate|]].
  - intros r H. cbn in H. destruct H as [<-|[<-|[]]]; split; cbn; auto.
  - intro H. destruct (H _ (or_introl eq_refl)) as (E & _). discriminate E.
Qed.

Example C61_example : mutated usual usual_mutated /\ sealed [] usual /\ orderly usual.
Proof.
  split; [|cbn; intuition (discriminate || eauto)].
  repeat first [apply m_then | apply c_wrap; [reflexivity|] | apply m_switch].
  - apply c_case, c_wrap; [reflexivity|constructor].
  - constructor.
  - apply c_case, c_wrap; [reflexivity|constructor].
  - constructor.
  - constructor.
  - apply c_keep. repeat constructor.
  - constructor.
Qed.

(* Tests of the flow of control: which branch is taken, and where a switch statement goes for a
   value with a label, one without, and one without when there is no default. *)
Example C61_flow :
  branch 0 (p 1) (p 2) = p 2 /\ branch 5 (p 1) (p 2) = p 1 /\ branch (-1) (p 1) (p 2) = p 1 /\
  let b := Then (Case (Some 1%Z) (p 1)) (Then Break (Then (Case None (p 2)) Skip)) in
  switch_target 1 b KStop =
    (p 1, KThen (Then Break (Then (Case None (p 2)) Skip)) (KSwitch KStop)) /\
  switch_target 0 b KStop = (p 2, KThen Skip (KSwitch KStop)) /\
  switch_target 0 (Then (Case (Some 1%Z) (p 1)) Skip) (KThen (p 3) KStop) =
    (Skip, KThen (p 3) KStop).
Proof. repeat split. Qed.

(* A switch statement can jump into a loop that is removed: the device of Duff. *)
Theorem C61_switch_refuted : exists (M : machine) (s s' : stmt M) m o,
  mutated s s' /\ observed s' everything m o /\ ~ observed (without everything s') everything m o.
Proof.
  exists printer, device, device_mutated, tt, (@Performs printer [0; 1]).
  split; [|split].
  - apply m_switch, m_then; [|constructor]. apply c_wrap; [reflexivity|].
    apply m_do_while, m_then; [apply c_keep; repeat constructor|].
    apply m_then; [apply c_keep|]; constructor.
  - exists (@Running printer Skip (KThen (Then (Return None) Skip)
      (KDoWhile (Then (Case (Some 1%Z) (p 1)) (Then (Return None) Skip)) 2
        (KThen Skip (KSwitch KStop)))) tt).
    refine (@steps_step printer _ _ _ [0] _ [1] _ _ _); [eapply s_switch; repeat split; reflexivity|].
    refine (@steps_step printer _ _ _ [1] _ [] _ _ _); [eapply s_do; repeat split; reflexivity|].
    apply steps_refl.
  - intros (st & H). apply device_quiet in H. destruct H as [H|H]; discriminate.
Qed.
Print Assumptions C61_switch_refuted.

(* So can a goto statement. *)
Theorem C61_goto_refuted : exists (M : machine) (s s' : stmt M) m o,
  mutated s s' /\ observed s' everything m o /\ ~ observed (without everything s') everything m o.
Proof.
  exists printer, entered, entered_mutated, tt, (@Returns printer [1] None tt).
  split; [|split].
  - apply m_then; [apply c_keep; constructor|]. apply m_then; [|constructor].
    apply c_wrap; [reflexivity|]. apply m_for, m_then; [apply c_keep; repeat constructor|].
    apply m_then; [apply c_keep|]; constructor.
  - refine (@steps_step printer _ _ _ [] _ [1] _ _ _); [apply s_then|].
    refine (@steps_step printer _ _ _ [] _ [1] _ _ _); [eapply s_goto; reflexivity|].
    refine (@steps_step printer _ _ _ [1] _ [] _ _ _); [eapply s_do; repeat split; reflexivity|].
    refine (@steps_step printer _ _ _ [] _ [] _ _ _); [apply s_next|].
    refine (@steps_step printer _ _ _ [] _ [] _ _ _); [apply s_then|].
    refine (@steps_step printer _ _ _ [] _ [] _ _ _); [apply s_return|].
    apply steps_refl.
  - cbn. intro H. inversion H as [|? t1 st1 t2 ? S R]; subst. inversion S; subst.
    inversion R as [|? t3 st3 t4 ? S' R']; subst. inversion S'; subst.
    match goal with E : find_label _ _ _ = _ |- _ => cbn in E; discriminate E end.
Qed.
Print Assumptions C61_goto_refuted.
