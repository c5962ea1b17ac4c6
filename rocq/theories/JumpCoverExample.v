(* The coverage builds of the functions of JumpExample.v *)
From Coq Require Import ZArith List Bool Arith Lia.
From Verif Require Import Jump JumpSpec JumpExample JumpCover JumpCoverSpec.
Import ListNotations.

Definition print (n : nat) : stmt (recorder printer) := @Do (recorder printer) (inl n).
Definition record (id : nat) : stmt (recorder printer) := @Do (recorder printer) (inr id).

(* { record 3; switch (0) { case 1: record 0; print 1; record 1; break; default: record 2; print 2; }
     record 4; goto 7; 7: print 3; } *)
Definition usual_recording : stmt (recorder printer) :=
  Then (record 3)
  (Then (@Switch (recorder printer) (inl 0)
           (Then (Case (Some 1%Z) (record 0)) (Then (print 1)
           (Then (record 1) (Then Break
           (Then (Case None (record 2)) (Then (print 2) Skip)))))))
  (Then (record 4) (Then (Goto 7)
  (Then (Label 7 (print 3)) Skip)))).
Lemma usual_is_recording : recording usual_mutated = usual_recording.
Proof. reflexivity. Qed.

(* switch (0) { record 0; do { case 1: print 1; return; } while (print 2); } *)
Definition device_recording : stmt (recorder printer) :=
  @Switch (recorder printer) (inl 0)
    (Then (record 0)
    (Then (DoWhile (Then (Case (Some 1%Z) (print 1)) (Then (Return None) Skip))
             (inl 2 : expression (recorder printer))) Skip)).
Lemma device_is_recording : recording device_mutated = device_recording.
Proof. reflexivity. Qed.

(* The loop is entered by a jump, so its mutant is not recorded. *)
Lemma device_unrecorded id : ~ records (recording device_mutated) tt id.
Proof.
  rewrite device_is_recording. intros (t & st & H & J). unfold device_recording in H.
  inversion H as [|? ? ? ? ? S T]; subst; [destruct J|].
  inversion S; subst. match goal with E : evaluates _ _ _ _ _ _ |- _ => destruct E as (u & (-> & -> & ->) & ->) end.
  cbn in T. destruct J as [J|J]; [discriminate J|].
  inversion T as [|? ? ? ? ? S1 T1]; subst; [destruct J|].
  inversion S1; subst. match goal with E : evaluates _ _ _ _ _ _ |- _ => destruct E as (u & (-> & -> & ->) & ->) end.
  cbn in J. destruct J as [J|J]; [discriminate J|].
  inversion T1 as [|? ? ? ? ? S2 T2]; subst; [destruct J|]. inversion S2; subst. cbn in J.
  inversion T2 as [|? ? ? ? ? S3 T3]; subst; [destruct J|]. inversion S3; subst. cbn in J.
  inversion T3 as [|? ? ? ? ? S4 T4]; subst; [destruct J|]. inversion S4; subst. cbn in J.
  inversion T4 as [|? ? ? ? ? S5 T5]; subst; [destruct J|]. inversion S5.
Qed.

Lemma device_is_mutated : mutated device device_mutated.
Proof.
  apply m_switch, m_then; [|constructor]. apply c_wrap; [reflexivity|].
  apply m_do_while, m_then; [apply c_keep; repeat constructor|].
  apply m_then; [apply c_keep|]; constructor.
Qed.
