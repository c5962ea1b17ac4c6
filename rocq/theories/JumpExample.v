(* Programs for PropsJump.v *)
From Coq Require Import ZArith List Bool Arith Lia.
From Verif Require Import Jump JumpSpec.
Import ListNotations.

(* A machine in which an expression is an event, with value 1. *)
Definition printer : machine :=
  {| memory := unit; event := nat; expression := nat;
     evaluates := fun e m t v m' => t = [e] /\ v = 1%Z /\ m' = m |}.
Definition p (n : nat) : stmt printer := @Do printer n.

(* { switch (0) { case 1: print 1; break; default: print 2; } goto 7; 7: print 3; }, with the
   switch statement and the statements after the case labels wrapped *)
Definition usual : stmt printer :=
  Then (@Switch printer 0 (Then (Case (Some 1%Z) (p 1)) (Then Break (Then (Case None (p 2)) Skip))))
       (Then (Goto 7) (Then (Label 7 (p 3)) Skip)).
Definition usual_mutated : stmt printer :=
  Then (Unless 3 (@Switch printer 0 (Then (Case (Some 1%Z) (Unless 0 (p 1)))
                    (Then (Unless 1 Break) (Then (Case None (Unless 2 (p 2))) Skip)))))
       (Then (Unless 4 (Goto 7)) (Then (Label 7 (p 3)) Skip)).
(* switch (0) { do { case 1: print 1; } while (print 2, and stop) }: the loop is executed although
   the mutant that removes it is enabled, since the switch statement jumps into it. *)
Definition device : stmt printer :=
  @Switch printer 0 (Then (DoWhile (Then (Case (Some 1%Z) (p 1)) (Then (Return None) Skip)) 2) Skip).
Definition device_mutated : stmt printer :=
  @Switch printer 0
    (Then (Unless 0 (DoWhile (Then (Case (Some 1%Z) (p 1)) (Then (Return None) Skip)) 2)) Skip).
Definition everything (id : nat) : bool := true.

(* Without the loop there is nothing to jump to. *)
Lemma quiet on st t st' : @steps printer (without everything device_mutated) on st t st' ->
  (exists k m, st = Running Skip k m /\ (k = KStop \/ k = KSwitch KStop)) \/
  (exists v m, st = Returned v m) -> t = [].
Proof.
  induction 1 as [|st t st1 t' st2 S _ IH]; intro Q; [reflexivity|].
  destruct Q as [(k & m & -> & [-> | ->])|(v & m & ->)]; inversion S; subst; apply IH; eauto 6.
Qed.
Lemma device_quiet t st : @steps printer (without everything device_mutated) everything
  (Running (without everything device_mutated) KStop tt) t st -> t = [] \/ t = [0].
Proof.
  intro H. inversion H as [|? t1 st1 t2 ? S R]; [now left|]. right. subst.
  inversion S; subst. match goal with E : evaluates _ _ _ _ _ _ |- _ => destruct E as (-> & -> & ->) end.
  apply quiet in R; [subst; reflexivity|]. left. cbn. eauto 6.
Qed.

(* goto 7; while (1) { 7: print 1; return; }: the same with a goto. *)
Definition entered : stmt printer :=
  Then (Goto 7) (Then (@For printer (Some 1) None (Then (Label 7 (p 1)) (Then (Return None) Skip)))
                   Skip).
Definition entered_mutated : stmt printer :=
  Then (Goto 7) (Then (Unless 0 (@For printer (Some 1) None
                                   (Then (Label 7 (p 1)) (Then (Return None) Skip)))) Skip).
