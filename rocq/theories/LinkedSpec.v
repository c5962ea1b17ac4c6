(* What is to be expected of programs linked from several mutated files. *)
From Coq Require Import String List Arith ZArith Bool.
From Verif Require Import Base Clang Gen PreludeSpec Lang Cst Runtime SimSpec SimRel SimTop Linked.
Import ListNotations.

Section Spec.
Variable L : lang.
Variable c : ctx.
Variable o : options.
Variable cpp17 : bool.

(* In every file, the mutants with listed ids are made, as described for one file (SimSpec.v). *)
Definition made (zs : list Z) (files : list (source L)) : list (string * tm L) :=
  flat_map (fun s => fst (spec_program L c (optimise o) true (listed (fst s) zs) (snd s) 0)) files.

(* The functions of all files *)
Definition whole (files : list (source L)) : list (string * cst L) := flat_map snd files.

(* The variable lists the numbers zs, which the preludes of all files can deal with. *)
Definition enables_in (files : list (source L)) (v : option string) (zs : list Z) : Prop :=
  variable_lists v zs /\ Forall (fun s => Forall (int_safe (fst s)) zs) files.

(* No mutant of the file is listed. *)
Definition unlisted (zs : list Z) (s : source L) : Prop :=
  forall i, i < count L c o s -> ~ In (Z.of_nat (fst s + i)) zs.

Definition well_formed_files (files : list (source L)) : Prop :=
  Forall (fun s => well_formed_program L c (snd s) = true) files.
Definition productive_files (files : list (source L)) : Prop :=
  Forall (fun s => productive_program L c o (snd s) = true) files.
Definition sequenced_files (files : list (source L)) : Prop :=
  Forall (fun s => sequenced_program L c (snd s) = true) files.

(* The program linked from the mutated files behaves like the program with these functions. *)
Definition linked_behaves (v : option string) (files : list (source L)) (g : string)
  (args : list (val L + loc L)) (bodies : string -> option (tm L)) : Prop :=
  behaves_like L c cpp17 (linked_selecting L c o files v) (linked_initial L c o files v)
    (linked_body L c o files 0) (call L g args) bodies (call L g args).
Definition linked_coverage_behaves (tracking can_open : bool) (files : list (source L))
  (g : string) (args : list (val L + loc L)) (bodies : string -> option (tm L)) : Prop :=
  behaves_like L c cpp17 (linked_recording L c o files tracking can_open)
    (linked_track L c o files tracking can_open)
    (linked_body L c o files 0) (call L g args) bodies (call L g args).
End Spec.
