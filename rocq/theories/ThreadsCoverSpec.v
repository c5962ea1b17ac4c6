(* What the coverage builds say about the mutants of a program with several threads: vocabulary
   for property C81. *)
From Coq Require Import String List ZArith Bool.
From Verif Require Import Base Clang Gen Lang Cst Runtime SimSpec Linked LinkedSpec LinkedCoverSpec
  Threads ThreadsSpec.
Import ListNotations.

Section Spec.
Variable L : lang.
Variable c : ctx.
Variable cpp17 : bool.
Variable sys : system L.

(* Whatever the first program can do when it begins with these calls in this memory, the other
   one can do. *)
Record threads_no_more (R R' : runtime) (slot slot' : nat -> nat) (m : mem L)
  (calls : list (env L * string * list (val L + loc L)))
  (d : rt_state R) (bt : string -> option (tm L))
  (d' : rt_state R') (bs : string -> option (tm L)) : Prop := {
  more_results : forall m',
    ends L R c bt cpp17 sys slot (begin L R m d calls) m' ->
    ends L R' c bs cpp17 sys slot' (begin L R' m d' calls) m';
  more_undefined :
    goes_wrong L R c bt cpp17 sys slot (begin L R m d calls) ->
    goes_wrong L R' c bs cpp17 sys slot' (begin L R' m d' calls);
  more_memories : forall m',
    gets_to L R c bt cpp17 sys slot (begin L R m d calls) m' ->
    gets_to L R' c bs cpp17 sys slot' (begin L R' m d' calls) m';
  more_divergence :
    goes_on L R c bt cpp17 sys slot (begin L R m d calls) ->
    goes_on L R' c bs cpp17 sys slot' (begin L R' m d' calls);
  more_fair_divergence :
    goes_on_fairly L R c bt cpp17 sys slot (begin L R m d calls) ->
    goes_on_fairly L R' c bs cpp17 sys slot' (begin L R' m d' calls)
}.

(* The program linked from the files mutated for coverage, beginning with these calls, gets to
   the state y.  The tracking file can be opened. *)
Definition covering_run (o : options) (files : list (source L)) (m : mem L)
  (calls : list (env L * string * list (val L + loc L)))
  (y : state L (linked_recording L c o files true true)) : Prop :=
  exists l, moves L (linked_recording L c o files true true) c (linked_body L c o files 0) cpp17
    sys shared (begin L (linked_recording L c o files true true) m
                  (linked_track L c o files true true) calls) l y.

(* No thread ever writes a line with one of these ids to the tracking file. *)
Definition threads_unrecorded (o : options) (files : list (source L)) (m : mem L)
  (calls : list (env L * string * list (val L + loc L))) (zs : list Z) : Prop :=
  forall m' ds ts, covering_run o files m calls (m', ds, ts) ->
  forall k x, written L c o files (ds (shared k)) x -> ~ In (Z.of_nat x) zs.

(* Wherever it has got to, that program can end. *)
Definition threads_finish (o : options) (files : list (source L)) (m : mem L)
  (calls : list (env L * string * list (val L + loc L))) : Prop :=
  forall y, covering_run o files m calls y ->
  exists m', ends L (linked_recording L c o files true true) c (linked_body L c o files 0) cpp17
    sys shared y m'.
End Spec.
