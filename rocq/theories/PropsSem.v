(* Properties C11 - C13, C15 - C17, C22, C48: what mutated programs do.

   Programs are syntax trees of the functions of a file (Cst.v), the language is a
   parameter (Lang.v), and so is the order in which unsequenced operands are evaluated.  The
   mutated program is what apply_mutations writes (Cst.v, mutate_program), and it runs with the
   runtime of the prelude (Runtime.v).  "A behaves like B" (SimSpec.v, behaves_like): each
   final memory and result, each intermediate memory, undefined behaviour and
   divergence of A is possible in B.  Memory includes input and output. *)
From Coq Require Import String List ZArith Bool Lia.
From Verif Require Import Base Clang Gen GenExpr GenBinary GenUnary GenStmt Mutation GenSpec
  PreludeSpec Prelude Tracking TrackingSpec Lang Cst Runtime SimSpec SimRel SimTop SimProgress
  LangRun MutantSpec MutantProof SimExample SimRefute SimLogic.
Import ListNotations.
Local Open Scope string_scope.

(* C11: with no mutant of the file enabled, in C and C++ (operands of assignments and
   shifts unsequenced). *)
Theorem C11_same_behaviour : forall L c o f v zs p g args,
  track o = false -> enables f v zs -> well_formed_program L c p = true ->
  (forall i, i < snd (mutate_program L c o p 0) -> ~ In (Z.of_nat (f + i)) zs) ->
  mutated_behaves L c o false f v p g args (body_of L c p).
Proof.
  exact (fun L c o f v zs p g args T En Wf No =>
    none_lemma L c o false f v zs p g args T (proj1 En) (proj2 En) Wf
      (fun Q => False_ind _ (Bool.diff_false_true Q)) No).
Qed.
Print Assumptions C11_same_behaviour.

(* ... and the mutated program never gets stuck: unless an execution has finished or
   run into undefined behaviour, it goes on. *)
Theorem C11_never_stuck : forall L c o cpp17 f v p g args,
  well_formed_program L c p = true ->
  let n := snd (mutate_program L c o p 0) in
  never_stuck L c cpp17 (selecting f n (cpp c) v) (body_of L c (fst (mutate_program L c o p 0)))
    (initial_tls n) (call L g args).
Proof. exact (fun L c o cpp17 f v p g args => mutated_never_stuck L c o cpp17 _ p _ g args). Qed.
Print Assumptions C11_never_stuck.

(* while (x > y) { print(x); x--; if (x == a) break; } has 57 mutants; with a = 3, x = 5 and
   y = 0 it prints 5 and 4. *)
Example C11_example :
  well_formed_program toy cpp_ctx loop = true /\
  snd (mutate_program toy cpp_ctx optimised loop 0) = 57 /\
  enables 0 None [] /\
  mutated_behaves toy cpp_ctx optimised false 0 None loop "f" [] (body_of toy cpp_ctx loop) /\
  finishes toy (selecting 0 57 true None) cpp_ctx
    (body_of toy cpp_ctx (fst (mutate_program toy cpp_ctx optimised loop 0))) false tt
    (start (I 3) (I 0) (P 0) (I 5) (I 0)) (initial_tls 57) (call toy "f" [])
    (([I 3; I 0; P 0; I 3; I 0], [5; 4])%Z) (RV (L := toy) (I 0)).
Proof.
  split; [reflexivity|]. split; [vm_compute; reflexivity|]. split; [exact enables_none|]. split.
  - apply C11_same_behaviour with (zs := []); auto using enables_none.
  - apply (first_run_finishes _ _ _ _ _ 400). vm_compute. reflexivity.
Qed.

(* C12: the same with the operand order of C++17, if the operand that comes second is
   delayed at each assignment and shift, i.e. has side effects according to Clang.
   Missing: the other assignments and shifts. *)
Theorem C12_sequenced_partial : forall L c o f v zs p g args,
  track o = false -> enables f v zs -> well_formed_program L c p = true ->
  sequenced_program L c p = true ->
  (forall i, i < snd (mutate_program L c o p 0) -> ~ In (Z.of_nat (f + i)) zs) ->
  mutated_behaves L c o true f v p g args (body_of L c p).
Proof.
  exact (fun L c o f v zs p g args T En Wf Sq No =>
    none_lemma L c o true f v zs p g args T (proj1 En) (proj2 En) Wf (fun _ => Sq) No).
Qed.
Print Assumptions C12_sequenced_partial.

Example C12_example :
  sequenced_program toy cpp_ctx loop = true /\
  mutated_behaves toy cpp_ctx optimised true 0 None loop "f" [] (body_of toy cpp_ctx loop).
Proof.
  split; [reflexivity|].
  apply C12_sequenced_partial with (zs := []); auto using enables_none.
Qed.

(* C12 is false otherwise: *p = redirect(); where redirect changes p. *)
Theorem C12_refuted : exists L c o f p g args,
  track o = false /\ enables f None [] /\ well_formed_program L c p = true /\
  ~ mutated_behaves L c o true f None p g args (body_of L c p).
Proof.
  exact (ex_intro _ toy (ex_intro _ cpp_ctx (ex_intro _ optimised (ex_intro _ 0
    (ex_intro _ through_pointer (ex_intro _ "f" (ex_intro _ []
      (conj eq_refl (conj enables_none (conj eq_refl through_pointer_differs)))))))))).
Qed.
Print Assumptions C12_refuted.

(* C13: with exactly the mutant i of the file enabled, the program is one in which the one
   site of i is changed as described, if the operands that the mutant does not need but
   that are evaluated before the call of the generated function are harmless.
   Missing: mutants that drop operands with effects (in C) or undefined behaviour. *)
Theorem C13_one_mutant_partial : forall L c o cpp17 f v i p g args,
  track o = false -> enables f v [Z.of_nat (f + i)] -> well_formed_program L c p = true ->
  i < snd (mutate_program L c o p 0) -> (cpp17 = true -> sequenced_program L c p = true) ->
  exists q, one_change_program L c (optimise o) p i q /\
    (drops_program L c (optimise o) no_runtime (lookup_body L q) cpp17 (Nat.eqb i) p 0 ->
     mutated_behaves L c o cpp17 f v p g args (lookup_body L q)).
Proof.
  exact (fun L c o cpp17 f v i p g args T En Wf Li Sq =>
    one_lemma L c o cpp17 f v i p g args T (proj1 En) (Forall_inv (proj2 En)) Wf Li Sq).
Qed.
Print Assumptions C13_one_mutant_partial.

(* ... and without this condition, if the mutant needs all operands that are not delayed. *)
Theorem C13_operands_needed : forall L c o cpp17 f v i p g args,
  track o = false -> enables f v [Z.of_nat (f + i)] -> well_formed_program L c p = true ->
  i < snd (mutate_program L c o p 0) -> (cpp17 = true -> sequenced_program L c p = true) ->
  keeps_program L c (optimise o) (Nat.eqb i) p 0 = true ->
  exists q, one_change_program L c (optimise o) p i q /\
    mutated_behaves L c o cpp17 f v p g args (lookup_body L q).
Proof.
  exact (fun L c o cpp17 f v i p g args T En Wf Li Sq =>
    one_kept_lemma L c o cpp17 f v i p g args T (proj1 En) (Forall_inv (proj2 En)) Wf Li Sq).
Qed.
Print Assumptions C13_operands_needed.

(* The change is unique. *)
Theorem C13_unique : forall L c o p i q q',
  well_formed_program L c p = true ->
  one_change_program L c (optimise o) p i q -> one_change_program L c (optimise o) p i q' -> q = q'.
Proof.
  exact (fun L c o p i q q' Wf H H' =>
    eq_trans (one_change_program_spec L c o p i q H Wf)
      (eq_sym (one_change_program_spec L c o p i q' H' Wf))).
Qed.
Print Assumptions C13_unique.

(* a = x / y;  Mutant 3 replaces x by 0; mutant 12 replaces / by another operator. *)
Example C13_example :
  (exists q, one_change_program toy cpp_ctx true divides 3 q /\
     mutated_behaves toy cpp_ctx optimised false 0 (Some "3") divides "f" [] (lookup_body toy q)) /\
  keeps_program toy cpp_ctx true (Nat.eqb 12) divides 0 = true /\
  snd (mutate_program toy cpp_ctx optimised divides 0) = 35.
Proof.
  split; [|split; vm_compute; reflexivity].
  destruct (C13_one_mutant_partial toy cpp_ctx optimised false 0 (Some "3") 3 divides "f" [])
    as (q & Ch & B);
    [reflexivity|exact enables_3|reflexivity|vm_compute; lia|discriminate|].
  exists q. split; [exact Ch|apply B, divides_harmless].
Qed.

(* C13 is false in general.  In C: a = next(); where next has an effect, and the call
   is replaced by 0. *)
Theorem C13_c_refuted : exists L c o f v i p g args,
  cpp c = false /\ track o = false /\ enables f v [Z.of_nat (f + i)] /\
  well_formed_program L c p = true /\
  (exists q, one_change_program L c (optimise o) p i q) /\
  forall q, one_change_program L c (optimise o) p i q ->
    ~ mutated_behaves L c o false f v p g args (lookup_body L q).
Proof.
  exact (ex_intro _ toy (ex_intro _ c_ctx (ex_intro _ optimised (ex_intro _ 0 (ex_intro _ (Some "3")
    (ex_intro _ 3 (ex_intro _ calls_next (ex_intro _ "f" (ex_intro _ []
      (conj eq_refl (conj eq_refl (conj enables_3 (conj eq_refl
        (conj calls_next_change calls_next_differs)))))))))))))).
Qed.
Print Assumptions C13_c_refuted.

(* In C++: a = x / y; with y = 0, where x / y is replaced by 0: the division takes place all
   the same. *)
Theorem C13_undefined_refuted : exists L c o f v i p g args e m,
  cpp c = true /\ track o = false /\ enables f v [Z.of_nat (f + i)] /\
  well_formed_program L c p = true /\
  (exists q, one_change_program L c (optimise o) p i q) /\
  let n := snd (mutate_program L c o p 0) in
  forall q, one_change_program L c (optimise o) p i q ->
    undefined L (selecting f n (cpp c) v) c (body_of L c (fst (mutate_program L c o p 0))) false
      e m (initial_tls n) (call L g args) /\
    ~ undefined L no_runtime c (lookup_body L q) false e m tt (call L g args).
Proof.
  exact (ex_intro _ toy (ex_intro _ cpp_ctx (ex_intro _ optimised (ex_intro _ 0 (ex_intro _ (Some "21")
    (ex_intro _ 21 (ex_intro _ divides (ex_intro _ "f" (ex_intro _ [] (ex_intro _ tt (ex_intro _ zero
      (conj eq_refl (conj eq_refl (conj enables_21 (conj eq_refl
        (conj divides_change divides_goes_wrong)))))))))))))))).
Qed.
Print Assumptions C13_undefined_refuted.

(* C48: for every set of enabled mutants: at each site the enabled mutant with the smallest id
   replaces the operation, enabled removals remove the statement, and the operands that
   are not needed but not delayed are evaluated all the same (spec_program L c opt true). *)
Theorem C48_exact : forall L c o cpp17 f v zs p g args,
  track o = false -> enables f v zs -> well_formed_program L c p = true ->
  (cpp17 = true -> sequenced_program L c p = true) ->
  mutated_behaves L c o cpp17 f v p g args
    (lookup_body L (fst (spec_program L c (optimise o) true (listed f zs) p 0))).
Proof.
  exact (fun L c o cpp17 f v zs p g args T En Wf Sq =>
    exact_lemma L c o cpp17 f v zs p g args T (proj1 En) (proj2 En) Wf Sq).
Qed.
Print Assumptions C48_exact.

Example C48_example :
  mutated_behaves toy c_ctx optimised false 0 (Some "3") calls_next "f" []
    (lookup_body toy [("f", N KExpr [N (KAt TInt) [N (KAssign Assign) [N KLv [N (KVar "a") []];
       N (KAt TInt) [N (KAt TInt) [N KComma [N (KAt TInt) [N (KCall "next") []];
         RV (L := toy) (I 0)]]]]]])]).
Proof.
  exact (C48_exact toy c_ctx optimised false 0 (Some "3") [3%Z] calls_next "f" [] eq_refl enables_3
           eq_refl (fun Q => False_ind _ (Bool.diff_false_true Q))).
Qed.

(* C15: if two sets of mutants have the same smallest element at each site, then the
   program with the one set enabled behaves like the program described by the other: always
   in C++; in C if the second and third mutant of a && or || are not enabled
   together without the first. *)
Theorem C15_smallest : forall L c o cpp17 f v zs zs' p g args,
  track o = false -> enables f v zs -> well_formed_program L c p = true ->
  (cpp17 = true -> sequenced_program L c p = true) ->
  (forall s, In s (sites_of L c (optimise o) p 0) ->
     smallest (listed f zs) s = smallest (listed f zs') s) ->
  cpp c = true \/
  apart_program L c (optimise o) (listed f zs) p 0 = true /\
  apart_program L c (optimise o) (listed f zs') p 0 = true ->
  mutated_behaves L c o cpp17 f v p g args
    (lookup_body L (fst (spec_program L c (optimise o) true (listed f zs') p 0))).
Proof.
  exact (fun L c o cpp17 f v zs zs' p g args T En =>
    smallest_exact_lemma L c o cpp17 f v zs zs' p g args T (proj1 En) (proj2 En)).
Qed.
Print Assumptions C15_smallest.

(* ... and like the source-level mutants, if dropped operands are harmless (see C13). *)
Theorem C15_source_partial : forall L c o cpp17 f v zs zs' p g args,
  track o = false -> enables f v zs -> well_formed_program L c p = true ->
  (cpp17 = true -> sequenced_program L c p = true) ->
  (forall s, In s (sites_of L c (optimise o) p 0) ->
     smallest (listed f zs) s = smallest (listed f zs') s) ->
  let bs := lookup_body L (fst (spec_program L c (optimise o) false (listed f zs') p 0)) in
  drops_program L c (optimise o) no_runtime bs cpp17 (listed f zs) p 0 ->
  mutated_behaves L c o cpp17 f v p g args bs.
Proof.
  exact (fun L c o cpp17 f v zs zs' p g args T En =>
    smallest_lemma L c o cpp17 f v zs zs' p g args T (proj1 En) (proj2 En)).
Qed.
Print Assumptions C15_source_partial.

Example C15_example :
  let zs := [13%Z; 14%Z] in let zs' := [13%Z] in
  Forall (fun s => smallest (listed 0 zs) s = smallest (listed 0 zs') s)
    (sites_of toy cpp_ctx true divides 0) /\
  sites_of toy cpp_ctx true divides 0 = [(0, 6); (6, 6); (12, 6); (18, 6); (24, 10); (34, 1)] /\
  mutated_behaves toy cpp_ctx optimised false 0 (Some "13,14") divides "f" []
    (lookup_body toy (fst (spec_program toy cpp_ctx true true (listed 0 zs') divides 0))).
Proof.
  assert (F : Forall (fun s => smallest (listed 0 [13%Z; 14%Z]) s = smallest (listed 0 [13%Z]) s)
    (sites_of toy cpp_ctx true divides 0)) by (vm_compute; repeat constructor).
  split; [exact F|]. split; [vm_compute; reflexivity|].
  apply (C15_smallest toy cpp_ctx optimised false 0 (Some "13,14") [13%Z; 14%Z] [13%Z]);
    [reflexivity|exact enables_13_14|reflexivity|discriminate|apply Forall_forall; exact F|auto].
Qed.

(* C15 is false for && and || in C: with the second and third mutant enabled, a program can
   end in a way in which it cannot end with the second one enabled only. *)
Theorem C15_refuted : exists L c o f v zs v' zs' p g args e,
  cpp c = false /\ track o = false /\ enables f v zs /\ enables f v' zs' /\
  well_formed_program L c p = true /\
  Forall (fun s => smallest (listed f zs) s = smallest (listed f zs') s)
    (sites_of L c (optimise o) p 0) /\
  let n := snd (mutate_program L c o p 0) in
  let bodies := body_of L c (fst (mutate_program L c o p 0)) in
  exists m m' r,
    finishes L (selecting f n (cpp c) v) c bodies false e m (initial_tls n) (call L g args) m' r /\
    ~ finishes L (selecting f n (cpp c) v') c bodies false e m (initial_tls n) (call L g args) m' r.
Proof.
  exact (ex_intro _ toy (ex_intro _ c_ctx (ex_intro _ optimised (ex_intro _ 0
    (ex_intro _ (Some "13,14") (ex_intro _ [13%Z; 14%Z] (ex_intro _ (Some "13") (ex_intro _ [13%Z]
    (ex_intro _ conjunction (ex_intro _ "f" (ex_intro _ [] (ex_intro _ tt
      (conj eq_refl (conj eq_refl (conj enables_13_14 (conj enables_13 (conj eq_refl
        (conj conjunction_smallest conjunction_differs)))))))))))))))))).
Qed.
Print Assumptions C15_refuted.

(* C16: the first mutant of a && or || in C is exactly the other operator. *)
Theorem C16_first : forall L c o f v i p g args,
  track o = false -> enables f v [Z.of_nat (f + i)] -> well_formed_program L c p = true ->
  c_logical_first_program L c (optimise o) p 0 i = true ->
  i < snd (mutate_program L c o p 0) ->
  exists q, one_change_program L c (optimise o) p i q /\
    mutated_behaves L c o false f v p g args (lookup_body L q).
Proof.
  exact (fun L c o f v i p g args T En Wf Fi Li =>
    one_kept_lemma L c o false f v i p g args T (proj1 En) (Forall_inv (proj2 En)) Wf Li
      (fun Q => False_ind _ (Bool.diff_false_true Q))
      (keeps_first_program L c o (Nat.eqb i) p i (fun j => eq_refl) 0 Fi)).
Qed.
Print Assumptions C16_first.

(* The second and third mutant, in the programs of C48: evaluation of the && or || gives the
   truth value of the left operand (as the original does, the right one is evaluated if the left
   one does not decide) or of the right operand (the left one is evaluated first). *)
Theorem C16_second : forall L R c bodies cpp17 b E id x y e m d m' r,
  is_logical (b_op b) = true -> E id = false -> E (S id) = true -> E (S (S id)) = false ->
  finishes L R c bodies cpp17 e m d (c_logical_with_rest L c E b id x y) m' r ->
  exists v m1 d1,
    steps L R c bodies cpp17 e (m, d, N (KAt (e_ty (b_lhs b))) [x]) (m1, d1, RV v) /\
    r = RV (conv L (b_ty b) (boolean L (truth L v))) /\
    if Bool.eqb (truth L v) (bop_eqb (b_op b) LAnd)
    then exists w, finishes L R c bodies cpp17 e m1 d1 (N (KAt (e_ty (b_rhs b))) [y]) m' w
    else m' = m1.
Proof.
  exact (fun L R c bodies cpp17 b E id x y e m d m' r Lo F S T =>
    second_lemma L R c bodies cpp17 b E id Lo F e m d x y m' r S T).
Qed.
Print Assumptions C16_second.
Theorem C16_third : forall L R c bodies cpp17 b E id x y e m d m' r,
  is_logical (b_op b) = true -> E id = false -> E (S id) = false -> E (S (S id)) = true ->
  finishes L R c bodies cpp17 e m d (c_logical_with_rest L c E b id x y) m' r ->
  exists w m1 d1 v,
    steps L R c bodies cpp17 e (m, d, N (KAt (e_ty (b_lhs b))) [x]) (m1, d1, w) /\
    final w = true /\
    finishes L R c bodies cpp17 e m1 d1 (N (KAt (e_ty (b_rhs b))) [y]) m' (RV v) /\
    r = RV (conv L (b_ty b) (boolean L (truth L v))).
Proof.
  exact (fun L R c bodies cpp17 b E id x y e m d m' r Lo F S T =>
    third_lemma L R c bodies cpp17 b E id Lo F e m d x y m' r S T).
Qed.
Print Assumptions C16_third.

(* a = b && next(); with the mutants 12, 13 and 14 of && *)
Example C16_example :
  c_logical_first_program toy c_ctx true conjunction_call 0 12 = true /\
  (exists q, one_change_program toy c_ctx true conjunction_call 12 q /\
     mutated_behaves toy c_ctx optimised false 0 (Some "12") conjunction_call "f" []
       (lookup_body toy q)) /\
  finishes toy no_runtime c_ctx (fun _ => None) false tt (start (I 0) (I 7) (P 0) (I 0) (I 0)) tt
    (c_logical_with_rest toy c_ctx (Nat.eqb 13)
       (binary_of LAnd TInt (value TInt false None) (value TInt true None)) 12
       (N KLoad [N (KVar "b") []]) (N (KCall "next") []))
    (start (I 0) (I 7) (P 0) (I 1) (I 0)) (RV (L := toy) (I 1)) /\
  finishes toy no_runtime c_ctx (fun _ => None) false tt (start (I 0) (I 0) (P 0) (I 7) (I 0)) tt
    (c_logical_with_rest toy c_ctx (Nat.eqb 14)
       (binary_of LAnd TInt (value TInt false None) (value TInt true None)) 12
       (N KLoad [N (KVar "b") []]) (N (KCall "next") []))
    (start (I 0) (I 0) (P 0) (I 8) (I 0)) (RV (L := toy) (I 1)).
Proof.
  split; [vm_compute; reflexivity|]. split; [|split].
  - apply (C16_first toy c_ctx optimised 0 (Some "12") 12);
      [reflexivity|exact enables_12|reflexivity|vm_compute; reflexivity|vm_compute; lia].
  - apply (first_run_finishes _ _ _ _ _ 100). vm_compute. reflexivity.
  - apply (first_run_finishes _ _ _ _ _ 100). vm_compute. reflexivity.
Qed.

(* C17: if only removals are enabled, the program behaves like the one without these
   statements. *)
Theorem C17_removed : forall L c o cpp17 f v zs p g args,
  track o = false -> enables f v zs -> well_formed_program L c p = true ->
  (cpp17 = true -> sequenced_program L c p = true) ->
  removals_only_program L c (optimise o) (listed f zs) p 0 ->
  mutated_behaves L c o cpp17 f v p g args
    (lookup_body L (fst (spec_program L c (optimise o) false (listed f zs) p 0))).
Proof.
  exact (fun L c o cpp17 f v zs p g args T En =>
    removed_lemma L c o cpp17 f v zs p g args T (proj1 En) (proj2 En)).
Qed.
Print Assumptions C17_removed.

(* With one removal enabled, the program behaves like the one with this one change. *)
Theorem C17_one_removed : forall L c o cpp17 f v i p g args,
  track o = false -> enables f v [Z.of_nat (f + i)] -> well_formed_program L c p = true ->
  i < snd (mutate_program L c o p 0) -> (cpp17 = true -> sequenced_program L c p = true) ->
  removals_only_program L c (optimise o) (Nat.eqb i) p 0 ->
  exists q, one_change_program L c (optimise o) p i q /\
    mutated_behaves L c o cpp17 f v p g args (lookup_body L q).
Proof. exact one_removed. Qed.
Print Assumptions C17_one_removed.

(* Mutant 39 of the loop removes x--; *)
Example C17_example :
  removals_only_program toy cpp_ctx true (Nat.eqb 39) loop 0 /\
  exists q, one_change_program toy cpp_ctx true loop 39 q /\
    mutated_behaves toy cpp_ctx optimised false 0 (Some "39") loop "f" [] (lookup_body toy q).
Proof.
  assert (R : removals_only_program toy cpp_ctx true (Nat.eqb 39) loop 0)
    by (cbn -[Nat.eqb]; unfold off; repeat split; intros i Hi; apply Nat.eqb_neq; vm_compute in Hi; lia).
  split; [exact R|].
  apply (C17_one_removed toy cpp_ctx optimised false 0 (Some "39") 39);
    [reflexivity|exact enables_39|reflexivity|vm_compute; lia|discriminate|exact R].
Qed.

(* C22: a coverage build behaves like the original if every site has a mutant and, in C, the
   tracking file can be opened. *)
Theorem C22_coverage_partial : forall L c o f tracking can_open p g args,
  track o = true -> cpp c || negb tracking || can_open = true ->
  well_formed_program L c p = true -> productive_program L c o p = true ->
  recorded_behaves L c o false f tracking can_open p g args (body_of L c p).
Proof.
  exact (fun L c o f tracking can_open p g args T Co Wf Pr =>
    coverage_lemma L c o false f tracking can_open p g args T Co Wf Pr
      (fun Q => False_ind _ (Bool.diff_false_true Q))).
Qed.
Print Assumptions C22_coverage_partial.

(* Every site has a mutant if the optimisations are off. *)
Theorem C22_coverage_unoptimised : forall L c o f tracking can_open p g args,
  track o = true -> optimise o = false -> cpp c || negb tracking || can_open = true ->
  well_formed_program L c p = true ->
  recorded_behaves L c o false f tracking can_open p g args (body_of L c p).
Proof.
  exact (fun L c o f tracking can_open p g args T Op Co Wf =>
    coverage_lemma L c o false f tracking can_open p g args T Co Wf
      (productive_noopt_program L c o p Op Wf)
      (fun Q => False_ind _ (Bool.diff_false_true Q))).
Qed.
Print Assumptions C22_coverage_unoptimised.

Example C22_example :
  productive_program toy cpp_ctx coverage loop = true /\
  recorded_behaves toy cpp_ctx coverage false 7 true false loop "f" [] (body_of toy cpp_ctx loop).
Proof.
  split; [vm_compute; reflexivity|]. apply C22_coverage_partial; vm_compute; reflexivity.
Qed.

(* With optimisations there are sites without mutants.  If such a site is the last one of the
   file, recording it is out of bounds: bool b = 2 != 1; *)
Theorem C22_refuted : exists L c o f p g args,
  track o = true /\ well_formed_program L c p = true /\
  ~ recorded_behaves L c o false f true true p g args (body_of L c p).
Proof.
  exact (ex_intro _ toy (ex_intro _ cpp_ctx (ex_intro _ coverage (ex_intro _ 0
    (ex_intro _ no_mutants_left (ex_intro _ "f" (ex_intro _ []
      (conj eq_refl (conj eq_refl no_mutants_goes_wrong))))))))).
Qed.
Print Assumptions C22_refuted.
