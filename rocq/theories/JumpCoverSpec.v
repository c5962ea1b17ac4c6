(* What a coverage build of a function does and records. *)
From Coq Require Import ZArith List Bool.
From Verif Require Import Jump JumpCover.
Import ListNotations.

Section Machine.
Context {M : machine}.
Notation step body := (step (body : stmt (recorder M)) (fun _ => false)).
Notation steps body := (steps (body : stmt (recorder M)) (fun _ => false)).

(* The events of the function itself *)
Definition own_events (t : list (event (recorder M))) : list (event M) :=
  flat_map (fun e => match e with inl x => [x] | inr _ => [] end) t.

(* An execution of a coverage build with this body, which may be stopped anywhere, records the
   id. *)
Definition records (body : stmt (recorder M)) (m : memory M) (id : nat) : Prop :=
  exists t st, steps body (@Running (recorder M) body KStop m) t st /\ In (inr id) t.

(* Running for ever without further events of the function itself *)
CoInductive idle (body : stmt (recorder M)) : state (recorder M) -> Prop :=
| idle_step st t st' : step body st t st' -> own_events t = [] -> idle body st' -> idle body st.

(* What can be observed of a call of the coverage build, but for what is recorded *)
Definition seen (body : stmt (recorder M)) (m : memory M) (o : outcome M) : Prop :=
  let start := @Running (recorder M) body KStop m in
  match o with
  | Performs t => exists u st, steps body start u st /\ own_events u = t
  | Returns t v m' => exists u, steps body start u (@Returned (recorder M) v m') /\ own_events u = t
  | Hangs t => exists u st, steps body start u st /\ own_events u = t /\ idle body st
  | Fails t => exists u s k m', steps body start u (@Running (recorder M) s k m') /\ own_events u = t /\
                 forall t' st, ~ step body (@Running (recorder M) s k m') t' st
  end.
End Machine.
