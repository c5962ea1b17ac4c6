(* What the coverage preludes do at run time: mutate_ast_consumer.cc:347-373 (C++) and
   442-466 (C). *)
From Coq Require Import List Arith Bool.
From Verif Require Import Rewriter.
Import ListNotations.

(* A call __dredd_record_covered_mutants(local_mutation_id, num_mutations) made in file
   number c_file *)
Record call := { c_file : nat; c_local : nat; c_num : nat }.

(* A thread: the lines it has still to write for its current call, and the calls that it
   goes on to make *)
Record tthread := { pending : list nat; todo : list call }.

(* The arrays already_recorded of all files, the lines of the tracking file, the threads,
   and whether undefined behaviour has occurred *)
Record tproc := {
  recorded : nat -> list bool;
  out : list nat;
  tthreads : list tthread;
  bad : bool
}.

Section Process.
Variable initial num : nat -> nat.  (* first id and number of mutants of each file *)
Variable cpp : bool.                (* language of the files *)
Variable tracking : bool.           (* DREDD_MUTANT_TRACKING_FILE is set *)
Variable can_open : bool.           (* the file can be opened for appending *)

(* The ids written for a call: lines 366-369, 460-463 *)
Definition call_ids (c : call) : list nat :=
  map (fun i => initial (c_file c) + c_local c + i) (seq 0 (c_num c)).

Definition set_recorded (k l : nat) (r : nat -> list bool) : nat -> list bool :=
  fun k' => if Nat.eqb k' k then update_nth l (fun _ => true) (r k') else r k'.

(* A step of thread t: write one line, or begin the next call up to the point where the
   file has been opened.  The array element is exchanged atomically (lines 358, 452).  The
   lines of several threads may be interleaved, but a line is written in one go
   (simplification: streams are assumed to append whole lines).  If the file cannot be
   opened, the C++ stream ignores the output, and C writes to a null FILE*. *)
Definition tstep (t : nat) (p : tproc) : tproc :=
  match nth_error (tthreads p) t with
  | None => p
  | Some th =>
      let set th' := update_nth t (fun _ => th') (tthreads p) in
      match pending th, todo th with
      | x :: pending', _ =>
          {| recorded := recorded p; out := out p ++ [x];
             tthreads := set {| pending := pending'; todo := todo th |}; bad := bad p |}
      | [], [] => p
      | [], c :: todo' =>
          match nth_error (recorded p (c_file c)) (c_local c) with
          | None => {| recorded := recorded p; out := out p; tthreads := tthreads p;
                       bad := true |}
          | Some true =>
              {| recorded := recorded p; out := out p;
                 tthreads := set {| pending := []; todo := todo' |}; bad := bad p |}
          | Some false =>
              {| recorded := set_recorded (c_file c) (c_local c) (recorded p); out := out p;
                 tthreads := set {| pending := if tracking && can_open then call_ids c else [];
                                    todo := todo' |};
                 bad := bad p || (tracking && negb can_open && negb cpp) |}
          end
      end
  end.

Definition texecute (schedule : list nat) (p : tproc) : tproc :=
  fold_left (fun p t => tstep t p) schedule p.

Definition tstart (calls : list (list call)) : tproc :=
  {| recorded := fun k => repeat false (num k); out := [];
     tthreads := map (fun l => {| pending := []; todo := l |}) calls; bad := false |}.
End Process.
