(* Property C78: programs linked from several mutated files.

   The model is that of PropsSem.v; every file has its own prelude (Linked.v). *)
From Coq Require Import String List ZArith Bool Lia.
From Verif Require Import Base Clang Gen GenExpr GenBinary GenUnary GenStmt Mutation GenSpec
  PreludeSpec Prelude Lang Cst Runtime SimSpec SimRel SimTop SimProgress LangRun MutantSpec
  SimExample SimRefute Linked LinkedSpec LinkedProof LinkedExample.
Import ListNotations.
Local Open Scope string_scope.

(* C78: whatever the first ids of the files are, the program behaves like the one in which, in
   every file, the listed mutants are made, as described for one file in C48. *)
Theorem C78_every_file : forall L c o cpp17 files v zs g args,
  track o = false -> enables_in L files v zs -> well_formed_files L c files ->
  (cpp17 = true -> sequenced_files L c files) ->
  linked_behaves L c o cpp17 v files g args (lookup_body L (made L c o zs files)).
Proof.
  exact (fun L c o cpp17 files v zs g args T En Wf Sq =>
    linked_lemma L c o cpp17 files v zs g args T (proj1 En) (proj2 En) Wf Sq).
Qed.
Print Assumptions C78_every_file.

(* For the files of one run, these are the mutants that one gets by numbering the mutants
   through all files, in the order in which the files were mutated. *)
Theorem C78_one_run : forall L c o cpp17 ps v zs g args,
  track o = false -> enables_in L (one_run L c o ps 0) v zs ->
  Forall (fun p => well_formed_program L c p = true) ps ->
  (cpp17 = true -> Forall (fun p => sequenced_program L c p = true) ps) ->
  linked_behaves L c o cpp17 v (one_run L c o ps 0) g args
    (lookup_body L (fst (spec_program L c (optimise o) true (listed 0 zs) (List.concat ps) 0))).
Proof.
  exact (fun L c o cpp17 ps v zs g args T En Wf Sq =>
    one_run_lemma L c o cpp17 ps v zs g args T (proj1 En) (proj2 En) Wf Sq).
Qed.
Print Assumptions C78_one_run.

Example C78_one_run_example :
  files = one_run toy cpp_ctx optimised [caller; callee] 0 /\
  linked_behaves toy cpp_ctx optimised true (Some "13") files "f" []
    (lookup_body toy (fst (spec_program toy cpp_ctx true true (listed 0 [13%Z]) (caller ++ callee) 0))).
Proof.
  split; [reflexivity|].
  exact (C78_one_run toy cpp_ctx optimised true [caller; callee] (Some "13") [13%Z] "f" [] eq_refl
           enables_files ltac:(repeat constructor) (fun _ => ltac:(repeat constructor))).
Qed.

(* The functions of files of which no mutant is listed are the original ones. *)
Theorem C78_other_files : forall L c o zs before one after g,
  well_formed_files L c (before ++ after) -> Forall (unlisted L c o zs) (before ++ after) ->
  lookup_body L (made L c o zs (before ++ one :: after)) g =
  match body_of L c (whole L before) g with
  | Some t => Some t
  | None => match lookup_body L (made L c o zs [one]) g with
            | Some t => Some t
            | None => body_of L c (whole L after) g
            end
  end.
Proof. exact only_one_lemma. Qed.
Print Assumptions C78_other_files.

(* Mutant 13 is in the second file: f is the function of the first file, as it was. *)
Example C78_other_files_example :
  unlisted toy cpp_ctx optimised [13%Z] (0, caller) /\
  lookup_body toy (made toy cpp_ctx optimised [13%Z] ([(0, caller)] ++ [(8, callee)])) "f" =
  body_of toy cpp_ctx (whole toy [(0, caller)]) "f".
Proof.
  split; [exact caller_unlisted|].
  exact (C78_other_files toy cpp_ctx optimised [13%Z] [(0, caller)] (8, callee) [] "f"
           ltac:(repeat constructor) (Forall_cons _ caller_unlisted (Forall_nil _))).
Qed.

(* With no listed mutant at all, the program behaves like the original one. *)
Theorem C78_none : forall L c o cpp17 files v zs g args,
  track o = false -> enables_in L files v zs -> well_formed_files L c files ->
  (cpp17 = true -> sequenced_files L c files) -> Forall (unlisted L c o zs) files ->
  linked_behaves L c o cpp17 v files g args (body_of L c (whole L files)).
Proof.
  exact (fun L c o cpp17 files v zs g args T En Wf Sq =>
    LinkedProof.none_lemma L c o cpp17 files v zs g args T (proj1 En) (proj2 En) Wf Sq).
Qed.
Print Assumptions C78_none.

(* The variable is not set. *)
Example C78_none_example :
  enables_in toy files None [] /\ Forall (unlisted toy cpp_ctx optimised []) files /\
  linked_behaves toy cpp_ctx optimised true None files "f" [] (body_of toy cpp_ctx (whole toy files)).
Proof.
  assert (E : enables_in toy files None [])
    by (split; [left; split; reflexivity|repeat constructor]).
  assert (U : Forall (unlisted toy cpp_ctx optimised []) files)
    by (repeat constructor; intros i _ []).
  split; [exact E|]. split; [exact U|].
  exact (C78_none toy cpp_ctx optimised true files None [] "f" [] eq_refl E
           ltac:(repeat constructor) (fun _ => ltac:(repeat constructor)) U).
Qed.

(* So does the program linked from files mutated for coverage, if each site has a mutant and
   the tracking file can be opened (in C++: or not). *)
Theorem C78_coverage : forall L c o cpp17 tracking can_open files g args,
  track o = true -> cpp c || negb tracking || can_open = true ->
  well_formed_files L c files -> productive_files L c o files ->
  (cpp17 = true -> sequenced_files L c files) ->
  linked_coverage_behaves L c o cpp17 tracking can_open files g args (body_of L c (whole L files)).
Proof.
  exact (fun L c o cpp17 tracking can_open files g args T Co Wf Pr Sq =>
    linked_coverage_lemma L c o cpp17 files tracking can_open g args T Co Wf Pr Sq).
Qed.
Print Assumptions C78_coverage.

(* In all cases the linked program gets stuck nowhere. *)
Theorem C78_never_stuck : forall L c o cpp17 files R d g args,
  well_formed_files L c files ->
  never_stuck L c cpp17 R (linked_body L c o files 0) d (call L g args).
Proof.
  exact (fun L c o cpp17 files R d g args => linked_never_stuck L c o cpp17 files R d g args).
Qed.
Print Assumptions C78_never_stuck.

(* f() { g(); print(x); } in one file, with the mutants 0 to 7, and g() { x--; } in another,
   with the mutants 8 to 13.  With x = 5, the program prints 4; with mutant 13, which removes
   x--; it prints 5. *)
Example C78_example :
  map fst files = [0; 8] /\ counts toy cpp_ctx optimised files = [8; 6] /\
  enables_in toy files (Some "13") [13%Z] /\ well_formed_files toy cpp_ctx files /\
  sequenced_files toy cpp_ctx files /\
  unlisted toy cpp_ctx optimised [13%Z] (0, caller) /\
  linked_behaves toy cpp_ctx optimised true (Some "13") files "f" []
    (lookup_body toy (app (fst (spec_program toy cpp_ctx true true (listed 0 [13%Z]) caller 0))
                          [("g", @skip toy)])) /\
  Forall (fun x => finishes toy (linked_selecting toy cpp_ctx optimised files (fst x)) cpp_ctx
      (linked_body toy cpp_ctx optimised files 0) false tt
      (start (I 0) (I 0) (P 0) (I 5) (I 0)) (linked_initial toy cpp_ctx optimised files (fst x))
      (call toy "f" []) ([I 0; I 0; P 0; I (snd x); I 0], [snd x]) (RV (L := toy) (I 0)))
    [(None, 4); (Some "13", 5)]%Z.
Proof.
  assert (W : well_formed_files toy cpp_ctx files) by (repeat constructor).
  assert (S : sequenced_files toy cpp_ctx files) by (repeat constructor).
  split; [reflexivity|]. split; [vm_compute; reflexivity|]. split; [exact enables_files|].
  split; [exact W|]. split; [exact S|]. split; [exact caller_unlisted|]. split.
  - exact (C78_every_file toy cpp_ctx optimised true files (Some "13") [13%Z] "f" [] eq_refl
             enables_files W (fun _ => S)).
  - repeat constructor; apply (first_run_finishes _ _ _ _ _ 60); vm_compute; reflexivity.
Qed.

(* Files of two runs have the same ids: 0 removes g(); in the one file and changes x--; in the
   other. *)
Example C78_two_runs_example :
  enables_in toy files_apart (Some "0") [0%Z] /\
  ~ unlisted toy cpp_ctx optimised [0%Z] (0, caller) /\
  ~ unlisted toy cpp_ctx optimised [0%Z] (0, callee) /\
  linked_behaves toy cpp_ctx optimised false (Some "0") files_apart "f" []
    (lookup_body toy (made toy cpp_ctx optimised [0%Z] files_apart)) /\
  (forall g, lookup_body toy (made toy cpp_ctx optimised [0%Z] files_apart) g <>
             body_of toy cpp_ctx (whole toy files_apart) g <-> g = "f" \/ g = "g").
Proof.
  split; [exact enables_files_apart|]. split; [exact caller_listed|]. split; [exact callee_listed|].
  split; [|exact both_change].
  apply C78_every_file; [reflexivity|exact enables_files_apart|repeat constructor|discriminate].
Qed.

Example C78_coverage_example :
  productive_files toy cpp_ctx coverage files_covered /\
  linked_coverage_behaves toy cpp_ctx coverage true true true files_covered "f" []
    (body_of toy cpp_ctx (whole toy files_covered)).
Proof.
  assert (Pr : productive_files toy cpp_ctx coverage files_covered) by (repeat constructor).
  split; [exact Pr|].
  exact (C78_coverage toy cpp_ctx coverage true true true files_covered "f" [] eq_refl eq_refl
           ltac:(repeat constructor) Pr (fun _ => ltac:(repeat constructor))).
Qed.
