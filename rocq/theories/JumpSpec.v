(* Removal of statements, independently of how it is done. *)
From Coq Require Import ZArith List Bool.
From Verif Require Import Jump.
Import ListNotations.

Section Machine.
Context {M : machine}.

(* The program in which the statements of the enabled mutants are null statements *)
Fixpoint without (on : nat -> bool) (s : stmt M) : stmt M :=
  match s with
  | Then a b => Then (without on a) (without on b)
  | If e a b => If e (without on a) (without on b)
  | For e i a => For e i (without on a)
  | DoWhile a e => DoWhile (without on a) e
  | Switch e a => Switch e (without on a)
  | Case v a => Case v (without on a)
  | Label l a => Label l (without on a)
  | Unless id a => if on id then Skip else without on a
  | _ => s
  end.

(* Labels and jumps in a statement *)
Fixpoint labels (s : stmt M) : list nat :=
  match s with
  | Then a b | If _ a b => labels a ++ labels b
  | For _ _ a | DoWhile a _ | Switch _ a | Case _ a | Unless _ a => labels a
  | Label l a => l :: labels a
  | _ => []
  end.
Fixpoint jumps (s : stmt M) : list nat :=
  match s with
  | Then a b | If _ a b => jumps a ++ jumps b
  | For _ _ a | DoWhile a _ | Switch _ a | Case _ a | Label _ a | Unless _ a => jumps a
  | Goto l => [l]
  | _ => []
  end.
(* A case label that belongs to a switch statement around the statement *)
Fixpoint open_case (s : stmt M) : bool :=
  match s with
  | Then a b | If _ a b => open_case a || open_case b
  | For _ _ a | DoWhile a _ | Label _ a | Unless _ a => open_case a
  | Case _ _ => true
  | _ => false
  end.

(* The statements that are null statements in that program *)
Fixpoint removed (on : nat -> bool) (s : stmt M) : list (stmt M) :=
  match s with
  | Then a b | If _ a b => removed on a ++ removed on b
  | For _ _ a | DoWhile a _ | Switch _ a | Case _ a | Label _ a => removed on a
  | Unless id a => if on id then [a] else removed on a
  | _ => []
  end.
(* Nothing jumps into them: no goto that is left, and no switch statement around them. *)
Definition not_entered (on : nat -> bool) (body : stmt M) : Prop :=
  forall r, In r (removed on body) ->
  open_case r = false /\ forall l, In l (labels r) -> ~ In l (jumps (without on body)).

(* The statement after case labels *)
Fixpoint after_cases (s : stmt M) : stmt M :=
  match s with Case _ a => after_cases a | _ => s end.
Definition is_label (s : stmt M) : bool := match s with Label _ _ => true | _ => false end.

(* No jump from outside (outer: the jumps there) goes into a component of a compound statement. *)
Fixpoint sealed (outer : list nat) (s : stmt M) : Prop :=
  match s with
  | Then a b =>
      (is_label (after_cases a) = false ->
       forall l, In l (labels a) -> ~ In l (outer ++ jumps b)) /\
      sealed (outer ++ jumps b) a /\ sealed (outer ++ jumps a) b
  | If _ a b => sealed (outer ++ jumps b) a /\ sealed (outer ++ jumps a) b
  | For _ _ a | DoWhile a _ | Switch _ a | Case _ a | Label _ a | Unless _ a => sealed outer a
  | _ => True
  end.
(* The case labels of a switch statement are before components of its body. *)
Fixpoint orderly (s : stmt M) : Prop :=
  match s with
  | Then a b => open_case (after_cases a) = false /\ orderly a /\ orderly b
  | If _ a b => orderly a /\ orderly b
  | For _ _ a | DoWhile a _ | Switch _ a | Case _ a | Label _ a | Unless _ a => orderly a
  | _ => True
  end.

End Machine.
