(* Written files of a run with and of a run without coverage tracking, read and executed:
   vocabulary for property C82. *)
From Coq Require Import String List ZArith Bool.
From Verif Require Import Base Clang CText FunText Lang Cst SimSpec TextSpec TextLang.
Import ListNotations.
Local Open Scope string_scope.

(* One of the lines of a file is the number. *)
Definition has_line (s : string) (x : nat) : Prop :=
  exists before after,
    s = before ++ string_of_nat x ++ nl ++ after /\
    (before = "" \/ exists b, before = b ++ nl).

(* A process that has not recorded anything yet: none of the marks is set, the environment
   names a tracking file, which can be opened and has no lines. *)
Record fresh (num : nat) (d : disk) : Prop := {
  fresh_marks : marks d = repeat false num;
  fresh_variable : variable d <> None;
  fresh_openable : openable d = true;
  fresh_file : written d = ""
}.

Section Cover.
Variable L : lang.
Variable c : ctx.
Variable cpp17 : bool.
Variable ds : list fdef.
Variable R : runtime.
Variable bt : string -> option (tm L).

(* From the environment e and memory m, everything that t can do in the program read, s can
   do in the program with bodies bs and without runtime. *)
Record text_no_more (e : env L) (m : mem L) (d : rt_state R) (t : tm L)
  (bs : string -> option (tm L)) (s : tm L) : Prop := {
  more_results : forall m' d' r,
    text_steps L R c ds bt cpp17 e (m, d, t) (m', d', r) -> final r = true ->
    finishes L no_runtime c bs cpp17 e m tt s m' r;
  more_undefined : forall m' d' t',
    text_steps L R c ds bt cpp17 e (m, d, t) (m', d', t') ->
    text_step L R c ds bt cpp17 e m' d' t' None ->
    undefined L no_runtime c bs cpp17 e m tt s;
  more_memories : forall m' d' t',
    text_steps L R c ds bt cpp17 e (m, d, t) (m', d', t') ->
    reaches L no_runtime c bs cpp17 e m tt s m';
  more_divergence : text_diverges L R c ds bt cpp17 e m d t ->
    diverges L no_runtime c bs cpp17 e m tt s
}.

(* Wherever the program read has got to, it can finish. *)
Definition text_finishes (e : env L) (m : mem L) (d : rt_state R) (t : tm L) : Prop :=
  forall m' d' t', text_steps L R c ds bt cpp17 e (m, d, t) (m', d', t') ->
  exists m2 d2 r, text_steps L R c ds bt cpp17 e (m', d', t') (m2, d2, r) /\ final r = true.
End Cover.

(* No execution of the program read from a coverage build writes a line for a number of the
   list. *)
Definition text_unrecorded (L : lang) (c : ctx) (cpp17 : bool) (ds : list fdef)
  (items : list item) (fuel : nat) (bt : string -> option (tm L)) (e : env L) (m : mem L)
  (d : disk) (t : tm L) (zs : list Z) : Prop :=
  forall m' d' t',
    text_steps L (text_recording items fuel) c ds bt cpp17 e (m, d, t) (m', d', t') ->
    forall x, has_line (written d') x -> ~ In (Z.of_nat x) zs.
