(* The preludes as runtimes of mutated programs.  One thread is considered; Prelude.v and
   Tracking.v have the machines for several. *)
From Coq Require Import String List NArith ZArith Bool.
From Verif Require Import Base Rewriter PreludeText Prelude Tracking Lang.
Import ListNotations.

(* The prelude of a file with first id [initial] and [num] mutants, the variable
   DREDD_ENABLED_MUTATION having the value v: mutate_ast_consumer.cc:253-345 (C++), 383-440
   (C).  The flag is __dredd_some_mutation_enabled.  An exception is not distinguished from
   undefined behaviour (simplification).  Such a build has no function for recording. *)
Definition selecting (initial num : nat) (cpp : bool) (v : option string) : runtime :=
  {| rt_state := tls;
     rt_flag := fun _ => some_enabled;
     rt_query := fun id s => match query initial num cpp v id s with
                             | (s, Ok b) => Some (s, b)
                             | _ => None
                             end;
     rt_record := fun _ _ _ => None |}.

(* The coverage prelude: mutate_ast_consumer.cc:347-373 (C++), 442-466 (C).  The state is
   the array __dredd_already_recorded and the lines of the tracking file.  Such a build
   has no function for queries. *)
Record tracked := { t_recorded : list bool; t_lines : list nat }.
Definition track_start (num : nat) : tracked :=
  {| t_recorded := repeat false num; t_lines := [] |}.
Definition recording (initial : nat) (cpp tracking can_open : bool) : runtime :=
  {| rt_state := tracked;
     rt_flag := fun _ _ => true;
     rt_query := fun _ _ => None;
     rt_record := fun local n s =>
       match nth_error (t_recorded s) local with
       | None => None
       | Some true => Some s
       | Some false =>
           if tracking && negb can_open && negb cpp then None
           else Some {| t_recorded := update_nth local (fun _ => true) (t_recorded s);
                        t_lines := if tracking && can_open
                                   then (t_lines s ++ map (fun i => initial + local + i) (seq 0 n))%list
                                   else t_lines s |}
       end |}.
