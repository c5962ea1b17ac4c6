(* C74.  Mutants of expression statements without side effects. *)
From Coq Require Import String List ZArith Bool.
From Verif Require Import Base Clang Gen Mutation Prelude Lang Cst Runtime SimSpec SimRel SimTop MutantSpec
  SimExample SimRefute QuietSpec QuietTop QuietExample.
Import ListNotations.
Local Open Scope string_scope.

(* C74: if all enabled mutants are in, or remove, expression statements without side effects,
   the mutated program ends with the results, reaches the states of memory and runs for ever
   as the original program does, unless the behaviour of the original program is undefined.
   Missing: mutants that insert ++ or --; and the behaviour of the mutated program may be
   undefined where that of the original program is not.  Both are false in general, see
   below. *)
Theorem C74_unnoticed_partial : forall L c o cpp17 f v zs p g args,
  track o = false -> enables f v zs -> well_formed_program L c p = true ->
  (cpp17 = true -> sequenced_program L c p = true) -> as_written_program L p = true ->
  reads_are_quiet L -> quiet_only_program L c (optimise o) (listed f zs) p 0 ->
  unnoticed L c o cpp17 f v p g args.
Proof. exact quiet_lemma. Qed.
Print Assumptions C74_unnoticed_partial.

(* int f() { x + y; return next(); } with x replaced by ~x, x + y by x, and the statement
   removed *)
Example C74_unnoticed_example :
  unnoticed toy cpp_ctx unoptimised true 0 (Some "3,20,28") idle_first "f" [].
Proof.
  apply (C74_unnoticed_partial toy cpp_ctx unoptimised true 0 (Some "3,20,28") [3%Z; 20%Z; 28%Z]);
    try reflexivity; [exact enables_3_20_28|exact toy_reads|exact idle_quiet].
Qed.
(* and it does finish *)
Example C74_finishes_example :
  finishes toy (selecting 0 35 true (Some "3,20,28")) cpp_ctx
    (body_of toy cpp_ctx (fst (mutate_program toy cpp_ctx unoptimised idle_first 0))) true tt zero
    (initial_tls 35) (call toy "f" []) (start (I 0) (I 0) (P 0) (I 1) (I 0)) (@RV toy (I 0)).
Proof. exact idle_finishes. Qed.

(* x + y; with x replaced by ++x: what is left out can be noticed. *)
Theorem C74_increment_refuted : exists L c o f v i t g args,
  track o = false /\ enables f v [Z.of_nat (f + i)] /\
  i < snd (mutate_program L c o [(g, t)] 0) /\
  well_formed_program L c [(g, t)] = true /\ as_written_program L [(g, t)] = true /\
  reads_are_quiet L /\ quiet_statement L t = true /\
  ~ unnoticed L c o false f v [(g, t)] g args.
Proof.
  exact (ex_intro _ toy (ex_intro _ cpp_ctx (ex_intro _ unoptimised (ex_intro _ 0 (ex_intro _ (Some "0")
    (ex_intro _ 0 (ex_intro _ idle (ex_intro _ "f" (ex_intro _ []
      (conj eq_refl (conj enables_0 (conj idle_has_0 (conj eq_refl (conj eq_refl
        (conj toy_reads (conj eq_refl increment_noticed)))))))))))))))).
Qed.
Print Assumptions C74_increment_refuted.

(* x + y; with + replaced by /: the behaviour is undefined if y is 0. *)
Theorem C74_division_refuted : exists L c o f v i t g args e m,
  track o = false /\ enables f v [Z.of_nat (f + i)] /\
  well_formed_program L c [(g, t)] = true /\ as_written_program L [(g, t)] = true /\
  reads_are_quiet L /\
  quiet_only_program L c (optimise o) (listed f [Z.of_nat (f + i)]) [(g, t)] 0 /\
  quiet_statement L t = true /\
  let n := snd (mutate_program L c o [(g, t)] 0) in
  undefined L (selecting f n (cpp c) v) c (body_of L c (fst (mutate_program L c o [(g, t)] 0))) false
    e m (initial_tls n) (call L g args) /\
  ~ undefined L no_runtime c (body_of L c [(g, t)]) false e m tt (call L g args).
Proof.
  exact (ex_intro _ toy (ex_intro _ cpp_ctx (ex_intro _ unoptimised (ex_intro _ 0 (ex_intro _ (Some "16")
    (ex_intro _ 16 (ex_intro _ idle (ex_intro _ "f" (ex_intro _ [] (ex_intro _ tt (ex_intro _ zero
      (conj eq_refl (conj enables_16 (conj eq_refl (conj eq_refl (conj toy_reads
        (conj idle_16_quiet (conj eq_refl division_noticed)))))))))))))))))).
Qed.
Print Assumptions C74_division_refuted.
