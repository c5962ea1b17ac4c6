(* Programs with several threads. *)
From Coq Require Import String List Bool Arith.
From Verif Require Import Base Clang Gen Lang SimSpec Linked.
Import ListNotations.

(* How a program starts threads and waits for them is not dredd's business.  The functions of
   the library that start a thread leave a request in memory; [sys_start] takes it out and says
   which function is called in the new thread, and [sys_end] leaves the result of a thread in
   memory when the thread has ended.  Waiting is repeated looking. *)
Record system (L : lang) := {
  sys_start : mem L -> option (env L * string * list (val L + loc L) * mem L);
  sys_end : nat -> tm L -> mem L -> mem L
}.
Arguments sys_start {L}. Arguments sys_end {L}.

(* A thread: where its variables live, what is left to be executed, and whether it has ended *)
Record thread (L : lang) := { th_env : env L; th_tm : tm L; th_ended : bool }.
Arguments th_env {L}. Arguments th_tm {L}. Arguments th_ended {L}.

Section Threads.
Variable L : lang.
Variable R : runtime.
Variable c : ctx.
Variable bodies : string -> option (tm L).
Variable cpp17 : bool.
Variable sys : system L.
(* The number of the state of the prelude that thread k uses.  The variables of a prelude are
   thread_local, each thread has its own (mutate_ast_consumer.cc:278-284, 403-407); the array
   of a coverage prelude is shared (355-356, 450). *)
Variable slot : nat -> nat.

Definition state : Type := mem L * (nat -> rt_state R) * list (thread L).

Definition with_state (k : nat) (d : rt_state R) (ds : nat -> rt_state R) : nat -> rt_state R :=
  fun j => if Nat.eqb j (slot k) then d else ds j.

Definition new_thread (x : env L * string * list (val L + loc L)) : thread L :=
  {| th_env := fst (fst x); th_tm := call L (snd (fst x)) (snd x); th_ended := false |}.

(* Threads take turns, in any order, after any step.  Simplified: memory is sequentially
   consistent, the steps of Lang.v are atomic, and races are not undefined; one query and one
   recording are atomic.  The latter is so in C++, where a query uses variables of its thread
   only and the array has atomic elements; in C it is so if no two threads make their first
   query at the same time (strtok, 415-429).  The label is the thread that makes the step. *)
Inductive move : state -> option nat -> option state -> Prop :=
| move_step m ds pre a post x :
    th_ended a = false ->
    step L R c bodies cpp17 (th_env a) m (ds (slot (length pre))) (th_tm a) x ->
    move (m, ds, pre ++ a :: post) (Some (length pre))
      match x with
      | Some (m', d', t') =>
          Some (m', with_state (length pre) d' ds,
                pre ++ {| th_env := th_env a; th_tm := t'; th_ended := false |} :: post)
      | None => None
      end
| move_end m ds pre a post :
    th_ended a = false -> final (th_tm a) = true ->
    move (m, ds, pre ++ a :: post) (Some (length pre))
      (Some (sys_end sys (length pre) (th_tm a) m, ds,
             pre ++ {| th_env := th_env a; th_tm := th_tm a; th_ended := true |} :: post))
| move_start m ds ts x m' :
    sys_start sys m = Some (x, m') ->
    move (m, ds, ts) None (Some (m', ds, ts ++ [new_thread x])).

Inductive moves : state -> list (option nat) -> state -> Prop :=
| moves_refl x : moves x [] x
| moves_more x k y l z : move x k (Some y) -> moves y l z -> moves x (k :: l) z.

(* What a program can do: end, that is, all threads have ended and no more are to be started;
   run into undefined behaviour; get to a state of memory; run for ever. *)
Definition ends (x : state) (m : mem L) : Prop :=
  exists l ds ts, moves x l (m, ds, ts) /\ forallb th_ended ts = true /\ sys_start sys m = None.
Definition goes_wrong (x : state) : Prop :=
  exists l y k, moves x l y /\ move y k None.
Definition gets_to (x : state) (m : mem L) : Prop :=
  exists l ds ts, moves x l (m, ds, ts).
CoInductive goes_on (x : state) : Prop :=
| goes_on_more k y : move x k (Some y) -> goes_on y -> goes_on x.

(* Running for ever so that every thread gets its turn: there are always finitely many moves,
   and at least one, after which each thread has made a step or has ended.  [threads_of] is
   the number of threads in the beginning. *)
Definition threads_of (x : state) : nat := length (snd x).
Definition has_ended (k : nat) (x : state) : Prop :=
  exists a, nth_error (snd x) k = Some a /\ th_ended a = true.
Definition round (x : state) (l : list (option nat)) (y : state) : Prop :=
  moves x l y /\ l <> [] /\
  forall k, k < threads_of x -> In (Some k) l \/ has_ended k y.
CoInductive goes_on_fairly (x : state) : Prop :=
| goes_on_fairly_round l y : round x l y -> goes_on_fairly y -> goes_on_fairly x.

(* A program that begins with calls in some threads *)
Definition begin (m : mem L) (d : rt_state R) (calls : list (env L * string * list (val L + loc L)))
  : state := (m, fun _ => d, map new_thread calls).
End Threads.
