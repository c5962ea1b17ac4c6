(* What the coverage builds of several files say about the mutants of the program linked from
   them: vocabulary for property C79. *)
From Coq Require Import String List ZArith Bool.
From Verif Require Import Base Clang Gen Lang Cst Runtime SimSpec MutantSpec CoverSpec Linked
  LinkedSpec.
Import ListNotations.

Section Cover.
Variable L : lang.
Variable c : ctx.
Variable cpp17 : bool.

(* A call of a function in the program linked from the files, mutated for coverage.  The tracking
   file can be opened. *)
Definition linked_run (o : options) (files : list (source L)) (e : env L) (m : mem L)
  (g : string) (args : list (val L + loc L)) (m' : mem L)
  (d' : rt_state (linked_recording L c o files true true)) (t' : tm L) : Prop :=
  steps L (linked_recording L c o files true true) c (linked_body L c o files 0) cpp17 e
    (m, linked_track L c o files true true, call L g args) (m', d', t').

(* The code of some file has written this line to the tracking file. *)
Definition written (o : options) (files : list (source L))
  (d : rt_state (linked_recording L c o files true true)) (x : nat) : Prop :=
  exists k, k < List.length files /\ In x (t_lines (d k)).

Definition linked_finishes (o : options) (files : list (source L)) (e : env L) (m : mem L)
  (g : string) (args : list (val L + loc L)) : Prop :=
  forall m' d' t', linked_run o files e m g args m' d' t' ->
  exists m2 r, finishes L (linked_recording L c o files true true) c
                 (linked_body L c o files 0) cpp17 e m' d' t' m2 r.

Definition linked_unrecorded (o : options) (files : list (source L)) (e : env L) (m : mem L)
  (g : string) (args : list (val L + loc L)) (zs : list Z) : Prop :=
  forall m' d' t', linked_run o files e m g args m' d' t' ->
  forall x, written o files d' x -> ~ In (Z.of_nat x) zs.

(* No mutant of && and || in C is listed. *)
Definition no_logical (opt : bool) (files : list (source L)) (zs : list Z) : Prop :=
  Forall (fun s => forall i, In i (logical_of L c opt (snd s) 0) ->
                             ~ In (Z.of_nat (fst s + i)) zs) files.
End Cover.
