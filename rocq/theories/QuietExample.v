(* Example programs with an expression statement without side effects. *)
From Coq Require Import String List ZArith Bool Lia.
From Verif Require Import Base Clang Gen GenExpr GenBinary GenUnary GenStmt Mutation GenSpec
  PreludeSpec Prelude Lang Cst Runtime SimSpec SimRel SimTop LangRun MutantSpec MutantProof
  SimExample SimRefute QuietSpec.
Import ListNotations.
Local Open Scope string_scope.

(* x + y; *)
Definition idle : cst toy :=
  statement (CExpr (value TInt false (Some Add))
    (CBin (binary_of Add TInt (value TInt false None) (value TInt false None))
       (use "x") " " " " (use "y"))).
(* int f() { x + y; return next(); } *)
Definition idle_first : list (string * cst toy) :=
  [("f", CNode KSeq [("{ ", idle); (" ", CNode KReturn [("return ", call_of "next")] ";")] " }")].

Lemma enables_0 : enables 0 (Some "0") [0%Z].
Proof. split; [numbers [[0]]|safe]. Qed.
Lemma enables_16 : enables 0 (Some "16") [16%Z].
Proof. split; [numbers [[1; 6]]|safe]. Qed.
Lemma enables_3_20_28 : enables 0 (Some "3,20,28") [3%Z; 20%Z; 28%Z].
Proof. split; [numbers [[3]; [2; 0]; [2; 8]]|safe]. Qed.

Lemma toy_reads : reads_are_quiet toy.
Proof. intros l m v m' H. cbn in H. congruence. Qed.

Ltac inserts_nothing :=
  let a := fresh in let F := fresh in let I := fresh in
  intros (a & F & I); vm_compute in F; try discriminate F; injection F as <-; discriminate I.

Lemma idle_quiet : quiet_only_program toy cpp_ctx false (listed 0 [3%Z; 20%Z; 28%Z]) idle_first 0.
Proof.
  split; [|exact Logic.I]. right. cbn [quiet_only idle_first]. split; [|split; [|exact Logic.I]].
  - left. split; [reflexivity|]. split; [reflexivity|]. cbn [no_increment].
    repeat split; inserts_nothing.
  - right. split; [|exact Logic.I]. right. split.
    + right. exact Logic.I.
    + unfold none_of. intros i Hi. vm_compute in Hi. unfold listed. cbn [existsb].
      rewrite !orb_false_iff, !Z.eqb_neq. lia.
Qed.

Lemma idle_16_quiet : quiet_only_program toy cpp_ctx false (listed 0 [16%Z]) [("f", idle)] 0.
Proof.
  split; [|exact Logic.I]. left. split; [reflexivity|]. split; [reflexivity|]. cbn [no_increment idle].
  repeat split; inserts_nothing.
Qed.

(* x + y; with x replaced by ++x *)
Lemma increment_noticed : ~ unnoticed toy cpp_ctx unoptimised false 0 (Some "0") [("f", idle)] "f" [].
Proof.
  intro U.
  destruct (unnoticed_results _ _ _ _ _ _ _ _ _ U tt zero (start (I 0) (I 0) (P 0) (I 1) (I 0)) (@RV toy (I 0)))
    as [W|W].
  - apply (first_run_finishes _ _ _ _ _ 200). vm_compute. reflexivity.
  - revert W. apply (never_wrong _ _ _ _ _ _ 200). vm_compute. reflexivity.
  - revert W. apply (never_ends _ _ _ _ _ _ 200). vm_compute. reflexivity.
Qed.

(* x + y; with + replaced by / *)
Lemma division_noticed :
  undefined toy (selecting 0 29 true (Some "16")) cpp_ctx
    (body_of toy cpp_ctx (fst (mutate_program toy cpp_ctx unoptimised [("f", idle)] 0))) false tt zero
    (initial_tls 29) (call toy "f" []) /\
  ~ undefined toy no_runtime cpp_ctx (body_of toy cpp_ctx [("f", idle)]) false tt zero tt
      (call toy "f" []).
Proof.
  split.
  - apply (first_run_undefined _ _ _ _ _ 200). vm_compute. reflexivity.
  - apply (never_wrong _ _ _ _ _ _ 200). vm_compute. reflexivity.
Qed.

Lemma idle_has_0 : 0 < snd (mutate_program toy cpp_ctx unoptimised [("f", idle)] 0).
Proof. vm_compute. lia. Qed.
Lemma idle_finishes :
  finishes toy (selecting 0 35 true (Some "3,20,28")) cpp_ctx
    (body_of toy cpp_ctx (fst (mutate_program toy cpp_ctx unoptimised idle_first 0))) true tt zero
    (initial_tls 35) (call toy "f" []) (start (I 0) (I 0) (P 0) (I 1) (I 0)) (@RV toy (I 0)).
Proof. apply (first_run_finishes _ _ _ _ _ 300). vm_compute. reflexivity. Qed.
