(* Coverage builds of functions with labels, goto, switch, break, continue and return. *)
From Coq Require Import ZArith List Bool.
From Verif Require Import Jump.
Import ListNotations.

(* Expressions and events of a coverage build: those of the function, and calls that record ids.
   A call records its id each time here; in the prelude, only the first call for an id in a
   process writes it to the tracking file (CRunTrack.v), which makes no difference to which ids
   are in the file. *)
Definition recorder (M : machine) : machine :=
  {| memory := memory M;
     event := event M + nat;
     expression := expression M + nat;
     evaluates := fun e m t v m' =>
       match e with
       | inl e => exists u, evaluates M e m u v m' /\ t = map inl u
       | inr id => t = [inr id] /\ v = 0%Z /\ m' = m
       end |}.

Section Machine.
Context {M : machine}.
Definition usual_expression (e : expression M) : expression (recorder M) := inl e.
Definition record_call (id : nat) : expression (recorder M) := inr id.

(* A function with tests around statements, as the tool writes it without coverage tracking, is
   mutated at the same places when it tracks coverage: __dredd_record_covered_mutants(id, 1);
   is inserted in front of the statement (mutation_remove_stmt.cc:111-117) where otherwise the
   test is.  So case labels before the statement are case labels of the call then, and the
   statement comes next.  First the call with its case labels, if there is a test after case
   labels here, then the statement. *)
Fixpoint split (s : stmt M) : option (stmt (recorder M)) * stmt (recorder M) :=
  match s with
  | Skip => (None, Skip)
  | Do e => (None, Do (usual_expression e))
  | Declare e => (None, Declare (usual_expression e))
  | Then a b =>
      (None, match fst (split a) with
             | Some call => Then call (Then (snd (split a)) (snd (split b)))
             | None => Then (snd (split a)) (snd (split b))
             end)
  | If e a b => (None, If (usual_expression e) (snd (split a)) (snd (split b)))
  | For e i a => (None, For (option_map usual_expression e) (option_map usual_expression i) (snd (split a)))
  | DoWhile a e => (None, DoWhile (snd (split a)) (usual_expression e))
  | Switch e a => (None, Switch (usual_expression e) (snd (split a)))
  | Case v a =>
      match fst (split a) with
      | Some call => (Some (Case v call), snd (split a))
      | None => (None, Case v (snd (split a)))
      end
  | Label l a => (None, Label l (snd (split a)))
  | Goto l => (None, Goto l)
  | Break => (None, Break)
  | Continue => (None, Continue)
  | Return e => (None, Return (option_map usual_expression e))
  | Unless id a => (Some (Do (record_call id)), snd (split a))
  end.

(* The body of the function in the coverage build *)
Definition recording (s : stmt M) : stmt (recorder M) := snd (split s).
End Machine.
