(* What is to be expected of mutated programs with several threads. *)
From Coq Require Import String List Bool ZArith.
From Verif Require Import Base Clang Gen Lang Cst Runtime SimSpec Linked LinkedSpec Threads.
Import ListNotations.

Section Spec.
Variable L : lang.
Variable c : ctx.
Variable cpp17 : bool.

(* Whatever the program with the runtime R can do, the other one can do: from every memory,
   with every way of starting threads. *)
Record threads_behave (R : runtime) (slot : nat -> nat) (d : rt_state R)
  (bt bs : string -> option (tm L)) (calls : list (env L * string * list (val L + loc L)))
  : Prop := {
  threads_results : forall sys m m',
    ends L R c bt cpp17 sys slot (begin L R m d calls) m' ->
    ends L no_runtime c bs cpp17 sys slot (begin L no_runtime m tt calls) m';
  threads_undefined : forall sys m,
    goes_wrong L R c bt cpp17 sys slot (begin L R m d calls) ->
    goes_wrong L no_runtime c bs cpp17 sys slot (begin L no_runtime m tt calls);
  threads_memories : forall sys m m',
    gets_to L R c bt cpp17 sys slot (begin L R m d calls) m' ->
    gets_to L no_runtime c bs cpp17 sys slot (begin L no_runtime m tt calls) m';
  threads_divergence : forall sys m,
    goes_on L R c bt cpp17 sys slot (begin L R m d calls) ->
    goes_on L no_runtime c bs cpp17 sys slot (begin L no_runtime m tt calls);
  threads_fair_divergence : forall sys m,
    goes_on_fairly L R c bt cpp17 sys slot (begin L R m d calls) ->
    goes_on_fairly L no_runtime c bs cpp17 sys slot (begin L no_runtime m tt calls)
}.

(* In every state that the program can get to, each thread has ended or can go on. *)
Definition threads_never_stuck (R : runtime) (slot : nat -> nat) (d : rt_state R)
  (bodies : string -> option (tm L)) (calls : list (env L * string * list (val L + loc L)))
  : Prop :=
  forall sys m l y k,
    moves L R c bodies cpp17 sys slot (begin L R m d calls) l y -> k < threads_of L R y ->
    has_ended L R k y \/ exists z, move L R c bodies cpp17 sys slot y (Some k) z.

(* The mutated files linked: each thread has its own state; for coverage there is one state. *)
Definition own (k : nat) : nat := k.
Definition shared (k : nat) : nat := 0.
Definition linked_threads_behave (o : options) (v : option string) (files : list (source L))
  (calls : list (env L * string * list (val L + loc L))) (bodies : string -> option (tm L))
  : Prop :=
  threads_behave (linked_selecting L c o files v) own (linked_initial L c o files v)
    (linked_body L c o files 0) bodies calls.
Definition linked_threads_coverage (o : options) (tracking can_open : bool)
  (files : list (source L)) (calls : list (env L * string * list (val L + loc L)))
  (bodies : string -> option (tm L)) : Prop :=
  threads_behave (linked_recording L c o files tracking can_open) shared
    (linked_track L c o files tracking can_open) (linked_body L c o files 0) bodies calls.
End Spec.
