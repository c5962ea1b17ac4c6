(* Vocabulary for stating properties of diagnostics. *)
From Coq Require Import String List Bool.
From Verif Require Import Base Clang Run Diagnostics.
Import ListNotations.

(* The inputs that are parsed: those with a compiler job, each name once. *)
Fixpoint attempted (seen : list string) (is : list input) : list input :=
  match is with
  | [] => []
  | i :: is =>
      if in_command i && negb (in_driver_stops i)
      then if in_dec string_dec (f_name (in_file i)) seen then attempted seen is
           else i :: attempted (f_name (in_file i) :: seen) is
      else attempted seen is
  end.

(* Some error was reported about the source. *)
Definition erroneous (i : input) : Prop := exists l, In l (in_diags i) /\ (l = Error \/ l = Fatal).

(* The command line is known and accepted without errors. *)
Definition good_command (i : input) : Prop :=
  in_command i = true /\ in_driver_stops i = false /\
  forall l, In l (in_driver i) -> l <> Error /\ l <> Fatal.
