(* Property C80: mutated programs with several threads.

   The model is that of PropsLinked.v, with threads that take turns after any step and share
   memory (Threads.v).  [threads_behave]: with every way of starting and ending threads, from
   every memory, whatever the first program can do - ending with some memory, undefined
   behaviour, getting to some memory, running for ever, running for ever with each thread
   having its turns - the second one can do (ThreadsSpec.v). *)
From Coq Require Import String List ZArith Bool.
From Verif Require Import Base Clang Gen GenExpr GenBinary GenUnary GenStmt Mutation GenSpec
  PreludeSpec Prelude Tracking Lang Cst Runtime SimSpec SimRel SimTop MutantSpec SimExample
  SimRefute Linked LinkedSpec LinkedExample Threads ThreadsSpec ThreadsProof ThreadsExample.
Import ListNotations.
Local Open Scope string_scope.

(* C80: each thread with preludes of its own, the program behaves like the one in which, in
   every file, the listed mutants are made. *)
Theorem C80_every_thread : forall L c cpp17 o files v zs calls,
  track o = false -> enables_in L files v zs -> well_formed_files L c files ->
  (cpp17 = true -> sequenced_files L c files) ->
  linked_threads_behave L c cpp17 o v files calls (lookup_body L (made L c o zs files)).
Proof.
  exact (fun L c cpp17 o files v zs calls => threads_linked L c o cpp17 files v zs calls).
Qed.
Print Assumptions C80_every_thread.

(* With no listed mutant it behaves like the original program. *)
Theorem C80_none : forall L c cpp17 o files v zs calls,
  track o = false -> enables_in L files v zs -> well_formed_files L c files ->
  (cpp17 = true -> sequenced_files L c files) -> Forall (unlisted L c o zs) files ->
  linked_threads_behave L c cpp17 o v files calls (body_of L c (whole L files)).
Proof.
  exact (fun L c cpp17 o files v zs calls => threads_none L c o cpp17 files v zs calls).
Qed.
Print Assumptions C80_none.

Example C80_none_example :
  enables_in toy files None [] /\ Forall (unlisted toy cpp_ctx optimised []) files /\
  linked_threads_behave toy cpp_ctx true optimised None files [(tt, "f", []); (tt, "g", [])]
    (body_of toy cpp_ctx (whole toy files)).
Proof.
  assert (E : enables_in toy files None [])
    by (split; [left; split; reflexivity|repeat constructor]).
  assert (U : Forall (unlisted toy cpp_ctx optimised []) files)
    by (repeat constructor; intros i _ []).
  split; [exact E|]. split; [exact U|].
  exact (C80_none toy cpp_ctx true optimised files None [] [(tt, "f", []); (tt, "g", [])] eq_refl E
           ltac:(repeat constructor) (fun _ => ltac:(repeat constructor)) U).
Qed.

(* So does the program mutated for coverage, in which all threads share the arrays, if each
   site has a mutant and the tracking file can be opened (in C++: or not). *)
Theorem C80_coverage : forall L c cpp17 o tracking can_open files calls,
  track o = true -> cpp c || negb tracking || can_open = true ->
  well_formed_files L c files -> productive_files L c o files ->
  (cpp17 = true -> sequenced_files L c files) ->
  linked_threads_coverage L c cpp17 o tracking can_open files calls (body_of L c (whole L files)).
Proof.
  exact (fun L c cpp17 o tracking can_open files calls =>
    threads_coverage L c o cpp17 files tracking can_open calls).
Qed.
Print Assumptions C80_coverage.

(* No thread gets stuck. *)
Theorem C80_never_stuck : forall L c cpp17 o files R slot d calls,
  well_formed_files L c files ->
  threads_never_stuck L c cpp17 R slot d (linked_body L c o files 0) calls.
Proof.
  exact (fun L c cpp17 o files R slot d calls =>
    threads_linked_never_stuck L c o cpp17 files R slot d calls).
Qed.
Print Assumptions C80_never_stuck.

Example C80_never_stuck_example : well_formed_files toy cpp_ctx files.
Proof. repeat constructor. Qed.

(* The files of C78: void f() { g(); print(x); } and void g() { x--; }, f called in one thread
   and g in a thread that is started.  With no mutant x goes from 5 to 3; with x--; removed it
   stays. *)
Example C80_example :
  enables_in toy files (Some "13") [13%Z] /\ well_formed_files toy cpp_ctx files /\
  sequenced_files toy cpp_ctx files /\
  linked_threads_behave toy cpp_ctx true optimised (Some "13") files [(tt, "f", [])]
    (lookup_body toy (made toy cpp_ctx optimised [13%Z] files)) /\
  Forall (fun x => ends toy (selected (fst x)) cpp_ctx (linked_body toy cpp_ctx optimised files 0)
      false starts own
      (begin toy (selected (fst x)) started (linked_initial toy cpp_ctx optimised files (fst x))
         [(tt, "f", [])]) ([I 0; I 0; P 0; I (snd x); I 0], [snd x]))
    [(None, 3); (Some "13", 5)]%Z.
Proof.
  assert (W : well_formed_files toy cpp_ctx files) by (repeat constructor).
  assert (S : sequenced_files toy cpp_ctx files) by (repeat constructor).
  split; [exact enables_files|]. split; [exact W|]. split; [exact S|]. split.
  - exact (C80_every_thread toy cpp_ctx true optimised files (Some "13") [13%Z] [(tt, "f", [])]
             eq_refl enables_files W (fun _ => S)).
  - repeat constructor; apply (threads_end _ _ [None]); vm_compute; reflexivity.
Qed.
Example C80_coverage_example :
  productive_files toy cpp_ctx coverage files_covered /\
  linked_threads_coverage toy cpp_ctx true coverage true true files_covered [(tt, "f", []); (tt, "g", [])]
    (body_of toy cpp_ctx (whole toy files_covered)).
Proof.
  assert (Pr : productive_files toy cpp_ctx coverage files_covered) by (repeat constructor).
  split; [exact Pr|].
  exact (C80_coverage toy cpp_ctx true coverage true true files_covered
           [(tt, "f", []); (tt, "g", [])] eq_refl eq_refl
           ltac:(repeat constructor) Pr (fun _ => ltac:(repeat constructor))).
Qed.
