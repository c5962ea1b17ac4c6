(* Property C76: a mutant that the coverage build does not record makes no difference.

   The two builds of a file with first id f differ in coverage tracking only.  [unrecorded]:
   no execution of the coverage build, called like that, writes the id of an enabled mutant to
   the tracking file, which can be opened.  [no_more]: every result, memory, undefined
   behaviour and divergence of the mutated program is possible in the other one.
   [always_finishes]: from every state that it can get to, the coverage build can finish
   (CoverSpec.v). *)
From Coq Require Import String List ZArith Bool.
From Verif Require Import Base Clang Gen GenExpr GenBinary GenUnary GenStmt Mutation GenSpec
  PreludeSpec Prelude Tracking Lang Cst Runtime SimSpec SimRel SimTop MutantSpec MutantProof
  SimExample SimRefute CoverSpec CoverTop CoverExample.
Import ListNotations.
Local Open Scope string_scope.

(* Compared with the original program.  Missing: mutants of && and || in C if the coverage build
   may not finish, and files in which a site has no mutant (operands of assignments and shifts
   are unsequenced; for C++17 see below). *)
Theorem C76_unrecorded_partial : forall L c oM oC f v zs p g args e m,
  track oM = false -> track oC = true -> optimise oM = optimise oC ->
  enables f v zs -> well_formed_program L c p = true -> productive_program L c oC p = true ->
  (forall i, In i (logical_of L c (optimise oC) p 0) -> ~ In (Z.of_nat (f + i)) zs) ->
  unrecorded L c false oC f p e m g args zs ->
  let n := snd (mutate_program L c oM p 0) in
  no_more L c false (selecting f n (cpp c) v) no_runtime e m
    (initial_tls n) (body_of L c (fst (mutate_program L c oM p 0))) (call L g args)
    tt (body_of L c p) (call L g args).
Proof.
  exact (fun L c oM oC f v zs p g args e m TM TC OO En Wf Pr Lo Un =>
    cover_original L c false oM oC TM TC OO False f v zs p g args e m (proj1 En) (proj2 En) Wf Pr
      (fun Q => False_ind _ (Bool.diff_false_true Q)) Lo (False_ind _) Un).
Qed.
Print Assumptions C76_unrecorded_partial.

(* Without optimisations every site has a mutant. *)
Theorem C76_unrecorded_unoptimised : forall L c oM oC f v zs p g args e m,
  track oM = false -> track oC = true -> optimise oM = false -> optimise oC = false ->
  enables f v zs -> well_formed_program L c p = true ->
  (forall i, In i (logical_of L c false p 0) -> ~ In (Z.of_nat (f + i)) zs) ->
  unrecorded L c false oC f p e m g args zs ->
  let n := snd (mutate_program L c oM p 0) in
  no_more L c false (selecting f n (cpp c) v) no_runtime e m
    (initial_tls n) (body_of L c (fst (mutate_program L c oM p 0))) (call L g args)
    tt (body_of L c p) (call L g args).
Proof.
  exact (fun L c oM oC f v zs p g args e m TM TC ON OC En Wf Lo Un =>
    cover_original L c false oM oC TM TC (eq_trans ON (eq_sym OC)) False f v zs p g args e m
      (proj1 En) (proj2 En) Wf (productive_noopt_program L c oC p OC Wf)
      (fun Q => False_ind _ (Bool.diff_false_true Q))
      (eq_ind_r (fun b => forall i, In i (logical_of L c b p 0) -> ~ In (Z.of_nat (f + i)) zs) Lo OC)
      (False_ind _) Un).
Qed.
Print Assumptions C76_unrecorded_unoptimised.

(* Compared with the coverage build itself, whatever the order of evaluation. *)
Theorem C76_like_coverage : forall L c cpp17 oM oC f v zs p g args e m,
  track oM = false -> track oC = true -> optimise oM = optimise oC ->
  enables f v zs -> well_formed_program L c p = true -> productive_program L c oC p = true ->
  (forall i, In i (logical_of L c (optimise oC) p 0) -> ~ In (Z.of_nat (f + i)) zs) ->
  unrecorded L c cpp17 oC f p e m g args zs ->
  let n := snd (mutate_program L c oM p 0) in
  no_more L c cpp17 (selecting f n (cpp c) v) (recording f (cpp c) true true) e m
    (initial_tls n) (body_of L c (fst (mutate_program L c oM p 0))) (call L g args)
    (track_start n) (body_of L c (fst (mutate_program L c oC p 0))) (call L g args).
Proof.
  exact (fun L c cpp17 oM oC f v zs p g args e m TM TC OO En Wf Pr Lo Un =>
    cover_lemma L c cpp17 oM oC TM TC OO False f v zs p g args e m (proj1 En) (proj2 En) Wf Pr Lo
      (False_ind _) Un).
Qed.
Print Assumptions C76_like_coverage.

(* All mutants, those of && and || in C among them, if the coverage build can always finish. *)
Theorem C76_finishing : forall L c oM oC f v zs p g args e m,
  track oM = false -> track oC = true -> optimise oM = optimise oC ->
  enables f v zs -> well_formed_program L c p = true -> productive_program L c oC p = true ->
  always_finishes L c false oC f p e m g args ->
  unrecorded L c false oC f p e m g args zs ->
  let n := snd (mutate_program L c oM p 0) in
  no_more L c false (selecting f n (cpp c) v) no_runtime e m
    (initial_tls n) (body_of L c (fst (mutate_program L c oM p 0))) (call L g args)
    tt (body_of L c p) (call L g args).
Proof.
  exact (fun L c oM oC f v zs p g args e m TM TC OO En Wf Pr Fi Un =>
    cover_original L c false oM oC TM TC OO True f v zs p g args e m (proj1 En) (proj2 En) Wf Pr
      (fun Q => False_ind _ (Bool.diff_false_true Q)) (fun _ _ _ => Logic.I) (fun _ => Fi) Un).
Qed.
Print Assumptions C76_finishing.

(* The same, compared with the coverage build itself, whatever the order of evaluation *)
Theorem C76_finishing_like_coverage : forall L c cpp17 oM oC f v zs p g args e m,
  track oM = false -> track oC = true -> optimise oM = optimise oC ->
  enables f v zs -> well_formed_program L c p = true -> productive_program L c oC p = true ->
  always_finishes L c cpp17 oC f p e m g args ->
  unrecorded L c cpp17 oC f p e m g args zs ->
  let n := snd (mutate_program L c oM p 0) in
  no_more L c cpp17 (selecting f n (cpp c) v) (recording f (cpp c) true true) e m
    (initial_tls n) (body_of L c (fst (mutate_program L c oM p 0))) (call L g args)
    (track_start n) (body_of L c (fst (mutate_program L c oC p 0))) (call L g args).
Proof.
  exact (fun L c cpp17 oM oC f v zs p g args e m TM TC OO En Wf Pr Fi Un =>
    cover_lemma L c cpp17 oM oC TM TC OO True f v zs p g args e m (proj1 En) (proj2 En) Wf Pr
      (fun _ _ _ => Logic.I) (fun _ => Fi) Un).
Qed.
Print Assumptions C76_finishing_like_coverage.

(* if (x) b && y;  in C, x being 0, with two mutants of && enabled *)
Example C76_finishing_example :
  enables 0 (Some "18,20") [18%Z; 20%Z] /\ well_formed_program toy c_ctx guards = true /\
  productive_program toy c_ctx coverage guards = true /\
  logical_of toy c_ctx true guards 0 = [18; 19; 20] /\
  always_finishes toy c_ctx false coverage 0 guards tt guard_off "f" [] /\
  unrecorded toy c_ctx false coverage 0 guards tt guard_off "f" [] [18%Z; 20%Z].
Proof.
  split; [exact enables_18_20|]. split; [reflexivity|]. split; [vm_compute; reflexivity|].
  split; [vm_compute; reflexivity|]. split; [exact guards_finishes|exact guards_unrecorded].
Qed.

(* if (x && y) print(a);  in C, x being 0: the mutants of the condition are recorded, the
   removal of the call of print (21) is not. *)
Example C76_example :
  enables 0 (Some "21") [21%Z] /\ well_formed_program toy c_ctx guarded = true /\
  productive_program toy c_ctx coverage guarded = true /\
  logical_of toy c_ctx true guarded 0 = [12; 13; 14] /\
  unrecorded toy c_ctx false coverage 0 guarded tt guard_off "f" [] [21%Z] /\
  ~ unrecorded toy c_ctx false coverage 0 guarded tt guard_off "f" [] [12%Z] /\
  let n := snd (mutate_program toy c_ctx optimised guarded 0) in
  no_more toy c_ctx false (selecting 0 n (cpp c_ctx) (Some "21")) no_runtime tt guard_off
    (initial_tls n) (body_of toy c_ctx (fst (mutate_program toy c_ctx optimised guarded 0)))
    (call toy "f" []) tt (body_of toy c_ctx guarded) (call toy "f" []).
Proof.
  split; [exact enables_21|]. split; [reflexivity|]. split; [vm_compute; reflexivity|].
  split; [vm_compute; reflexivity|]. split; [exact guarded_unrecorded|].
  split; [exact guarded_recorded|].
  apply (C76_unrecorded_partial toy c_ctx optimised coverage 0 (Some "21") [21%Z] guarded "f" [] tt
           guard_off); try reflexivity.
  - exact enables_21.
  - assert (Q : logical_of toy c_ctx (optimise coverage) guarded 0 = [12; 13; 14]) by (vm_compute; reflexivity).
    rewrite Q. intros i [<-|[<-|[<-|[]]]] [H|[]]; discriminate H.
  - exact guarded_unrecorded.
Qed.

(* False for && and || in C: the mutants are recorded after both operands have been evaluated,
   but act before the right one is.  b && x / y; with b = 1 and y = 0: the coverage build
   divides by zero before it records the operator; with || for && nothing is divided. *)
Theorem C76_logical_refuted : exists L c oM oC f v zs p g args e m,
  track oM = false /\ track oC = true /\ optimise oM = optimise oC /\ enables f v zs /\
  well_formed_program L c p = true /\ productive_program L c oC p = true /\
  unrecorded L c false oC f p e m g args zs /\
  let n := snd (mutate_program L c oM p 0) in
  ~ no_more L c false (selecting f n (cpp c) v) no_runtime e m
      (initial_tls n) (body_of L c (fst (mutate_program L c oM p 0))) (call L g args)
      tt (body_of L c p) (call L g args).
Proof.
  exact (ex_intro _ toy (ex_intro _ c_ctx (ex_intro _ optimised (ex_intro _ coverage
    (ex_intro _ 0 (ex_intro _ (Some "24") (ex_intro _ [24%Z] (ex_intro _ divides_later
      (ex_intro _ "f" (ex_intro _ [] (ex_intro _ tt (ex_intro _ by_zero
        (conj eq_refl (conj eq_refl (conj eq_refl (conj enables_24 (conj eq_refl (conj eq_refl
          (conj divides_unrecorded divides_noticed))))))))))))))))))).
Qed.
Print Assumptions C76_logical_refuted.

(* False if there are sites without mutants, which share their id with the next site:
   bool b = 2 != 1; print(a);  the removal of print(a) is not recorded. *)
Theorem C76_shadowed_refuted : exists L c oM oC f v zs p g args e m,
  track oM = false /\ track oC = true /\ optimise oM = optimise oC /\ enables f v zs /\
  well_formed_program L c p = true /\
  (forall i, In i (logical_of L c (optimise oC) p 0) -> ~ In (Z.of_nat (f + i)) zs) /\
  unrecorded L c false oC f p e m g args zs /\
  let n := snd (mutate_program L c oM p 0) in
  ~ no_more L c false (selecting f n (cpp c) v) no_runtime e m
      (initial_tls n) (body_of L c (fst (mutate_program L c oM p 0))) (call L g args)
      tt (body_of L c p) (call L g args).
Proof.
  exact (ex_intro _ toy (ex_intro _ cpp_ctx (ex_intro _ optimised (ex_intro _ coverage
    (ex_intro _ 0 (ex_intro _ (Some "2") (ex_intro _ [2%Z] (ex_intro _ shadowed
      (ex_intro _ "f" (ex_intro _ [] (ex_intro _ tt (ex_intro _ zero
        (conj eq_refl (conj eq_refl (conj eq_refl (conj enables_2 (conj eq_refl
          (conj (fun i (H : False) => False_ind _ H)
            (conj shadowed_unrecorded shadowed_noticed))))))))))))))))))).
Qed.
Print Assumptions C76_shadowed_refuted.
