(* Specification for C83. *)
From Coq Require Import String List Arith Bool.
From Verif Require Import Base Clang Rewriter Run Disk.
Import ListNotations.

(* Clang finds the same in a main file if the files it reads are the same. *)
Definition reads_enough (w : world) : Prop :=
  forall d d' n,
    (forall i, In i (w_reads w d n) -> d i = d' i) -> w_clang w d n = w_clang w d' n.

(* A main file is among the files read for it. *)
Definition reads_main (w : world) : Prop := forall d n, In (w_file w n) (w_reads w d n).

(* No name is given (for the first time) after a file which is read for it: neither an
   included file nor the same file by another name. *)
Definition read_before (w : world) (d : disk) (ns : list string) : Prop :=
  forall before n rest m, ns = (before ++ n :: rest)%list -> ~ In n before -> In m before ->
    ~ In (w_file w m) (w_reads w d n).

(* The disk after the files of a list have been written. *)
Definition left_behind (w : world) (d d' : disk) (written : list (string * string)) : Prop :=
  (forall n t, In (n, t) written -> d' (w_file w n) = Some t) /\
  (forall i, (forall n t, In (n, t) written -> w_file w n <> i) -> d' i = d i).
