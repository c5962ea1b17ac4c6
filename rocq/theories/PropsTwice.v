(* Property C88: files that have been mutated already. *)
From Coq Require Import String Ascii List Arith ZArith Bool Lia.
From Verif Require Import Base Clang Gen GenExpr GenBinary GenUnary GenStmt Mutation MutTree TreeSpec
  Run RunSpec RunTest LineSpec TwiceSpec TwiceProof TwiceExample.
Import ListNotations.
Local Open Scope string_scope.

(* Every file that is written has a line that begins the definition of the function that tells
   whether a mutant is enabled or, in a coverage build, records mutants. *)
Theorem C88_defined : forall o bt fs n t,
  (forall f, In f fs -> well_placed f) ->
  In (n, t) (rs_written (run o bt fs)) -> exists i, whole_line t i (definition_line (track o)).
Proof. exact defined_lemma. Qed.
Print Assumptions C88_defined.

Example C88_defined_example :
  (forall f, In f [add_c_file] -> well_placed f) /\
  In ("add.c", add_c_expected) (rs_written (run default_options true [add_c_file])) /\
  whole_line add_c_expected 570 (definition_line false).
Proof.
  split; [|split].
  - intros f [<-|[]] u; simpl; intros [= <-]; simpl; lia.
  - rewrite add_c_reproduced. left. reflexivity.
  - exact again_line.
Qed.

(* If there is such a line in a given file already, nothing in it is mutated and the block is not
   put inside it, and the file is written, then the line is in the written file twice: C and C++
   have no programs in which a function is defined twice. *)
Theorem C88_defined_twice : forall o bt fs n t,
  (forall f, In f fs -> well_placed f) ->
  (forall f u, In f fs -> f_name f = n -> f_unit f = Some u ->
     in_one_line u (f_text f) /\
     exists i, let j := i + String.length (definition_line (track o)) in
       whole_line (f_text f) i (definition_line (track o)) /\ j <= String.length (f_text f) /\
       untouched u i j /\ (ui_prelude_offset u <= i \/ j < ui_prelude_offset u)) ->
  In (n, t) (rs_written (run o bt fs)) ->
  exists p q, p < q /\
    whole_line t p (definition_line (track o)) /\ whole_line t q (definition_line (track o)).
Proof. exact twice_lemma. Qed.
Print Assumptions C88_defined_twice.

(* The text that the tool makes of add.c, given to the tool *)
Example C88_defined_twice_example :
  (forall f, In f [again_file] -> well_placed f) /\
  (forall f u, In f [again_file] -> f_name f = "add.c" -> f_unit f = Some u ->
     in_one_line u (f_text f) /\
     exists i, let j := i + String.length (definition_line false) in
       whole_line (f_text f) i (definition_line false) /\ j <= String.length (f_text f) /\
       untouched u i j /\ (ui_prelude_offset u <= i \/ j < ui_prelude_offset u)) /\
  exists t, In ("add.c", t) (rs_written (run default_options true [again_file])).
Proof. split; [exact again_placed|]. split; [exact again_meets|exact again_written]. Qed.

(* C88 is false: a file that one run has written is not left alone by the next, which makes a
   text of it with two definitions of one function. *)
Theorem C88_again_refuted : exists o fs fs' n t t',
  (forall f, In f fs -> well_placed f) /\ (forall f, In f fs' -> well_placed f) /\
  In (n, t) (rs_written (run o true fs)) /\
  (forall f, In f fs' -> f_name f = n /\ f_text f = t) /\
  In (n, t') (rs_written (run o true fs')) /\
  exists p q, p < q /\
    whole_line t' p (definition_line false) /\ whole_line t' q (definition_line false).
Proof.
  destruct again_written as (t' & W).
  exists default_options, [add_c_file], [again_file], "add.c", add_c_expected, t'.
  split; [intros f [<-|[]] u; simpl; intros [= <-]; simpl; lia|].
  split; [exact again_placed|]. split; [rewrite add_c_reproduced; left; reflexivity|].
  split; [intros f [<-|[]]; split; reflexivity|]. split; [exact W|].
  exact (C88_defined_twice default_options true [again_file] "add.c" t' again_placed again_meets W).
Qed.
Print Assumptions C88_again_refuted.
