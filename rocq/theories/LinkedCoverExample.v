(* Files for property C79. *)
From Coq Require Import String List ZArith Bool Lia.
From Verif Require Import Base Clang Gen GenExpr GenBinary GenUnary GenStmt Mutation GenSpec
  PreludeSpec Prelude Tracking Lang Cst Runtime SimSpec SimRel SimTop LangRun MutantSpec SimExample
  SimRefute CoverSpec CoverExample Linked LinkedSpec LinkedExample LinkedCoverSpec.
Import ListNotations.
Local Open Scope string_scope.

Definition none_written (k : nat) (zs : list Z) (d : nat -> tracked) : bool :=
  forallb (fun j => none_of zs (d j)) (seq 0 k).
Lemma linked_unrecorded_by c cpp17 o files m g args zs n :
  all_states toy (linked_recording toy c o files true true) c (linked_body toy c o files 0)
    cpp17 (none_written (List.length files) zs) n tt m (linked_track toy c o files true true)
    (call toy g args) = true ->
  linked_unrecorded toy c cpp17 o files tt m g args zs.
Proof.
  intros H m' d' t' St x (k & Lt & I) J.
  pose proof (all_states_steps _ _ _ _ _ _ _ _ _ St _ _ _ _ _ _ _ eq_refl eq_refl H) as Q.
  unfold none_written in Q. rewrite forallb_forall in Q.
  assert (K : In k (seq 0 (List.length files))) by (apply in_seq; lia). specialize (Q _ K).
  unfold none_of in Q. rewrite forallb_forall in Q. specialize (Q _ I). apply negb_true_iff in Q.
  rewrite <- not_true_iff_false in Q. apply Q. apply existsb_exists. exists (Z.of_nat x).
  split; auto. apply Z.eqb_refl.
Qed.
Lemma linked_finishes_by c cpp17 o files m g args n :
  all_finish toy (linked_recording toy c o files true true) c (linked_body toy c o files 0)
    cpp17 n tt m (linked_track toy c o files true true) (call toy g args) = true ->
  linked_finishes toy c cpp17 o files tt m g args.
Proof.
  intros H m' d' t' St. exact (all_finish_steps _ _ _ _ _ _ _ _ St _ _ _ _ _ _ _ eq_refl eq_refl H).
Qed.

(* void f() { if (x) g(); } *)
Definition asks : list (string * cst toy) :=
  [("f", CStmt some_stmt (CNode KIf
      [("if (", read "x");
       (") ", CStmt some_stmt (CNode KExpr [("", CNode (KCall "g") [] "g()")] ";"));
       ("", CNode KSkip [] "")] ""))].
(* void g() { b && y; } *)
Definition answers : list (string * cst toy) :=
  [("g", statement (CBin (binary_of LAnd TInt (value TInt false None) (value TInt false None))
                  (read "b") " " " " (read "y")))].
Definition asked : list (source toy) := one_run toy c_ctx coverage [asks; answers] 0.
(* void g() { x--; } in one file, divides_later or shadowed in the other *)
Definition divided : list (source toy) := one_run toy c_ctx coverage [callee; divides_later] 0.
Definition hidden : list (source toy) := one_run toy cpp_ctx coverage [callee; shadowed] 0.

Lemma enables_asked : enables_in toy asked (Some "18") [18%Z].
Proof.
  split; [numbers [[1; 8]]|]. assert (Q : map fst asked = [0; 8]) by reflexivity.
  apply Forall_forall. intros s I. apply (in_map fst) in I. rewrite Q in I.
  destruct I as [<-|[<-|[]]]; safe.
Qed.
Lemma enables_asked_2 : enables_in toy asked (Some "20,22") [20%Z; 22%Z].
Proof.
  split; [numbers [[2; 0]; [2; 2]]|]. assert (Q : map fst asked = [0; 8]) by reflexivity.
  apply Forall_forall. intros s I. apply (in_map fst) in I. rewrite Q in I.
  destruct I as [<-|[<-|[]]]; safe.
Qed.
Lemma enables_divided : enables_in toy divided (Some "30") [30%Z].
Proof.
  split; [numbers [[3; 0]]|]. assert (Q : map fst divided = [0; 6]) by reflexivity.
  apply Forall_forall. intros s I. apply (in_map fst) in I. rewrite Q in I.
  destruct I as [<-|[<-|[]]]; safe.
Qed.
Lemma enables_hidden : enables_in toy hidden (Some "8") [8%Z].
Proof.
  split; [numbers [[8]]|]. assert (Q : map fst hidden = [0; 6]) by reflexivity.
  apply Forall_forall. intros s I. apply (in_map fst) in I. rewrite Q in I.
  destruct I as [<-|[<-|[]]]; safe.
Qed.

(* x being 0: g is not called, and no mutant of its file is recorded. *)
Lemma asked_finishes : linked_finishes toy c_ctx false coverage asked tt guard_off "f" [].
Proof. apply (linked_finishes_by _ _ _ _ _ _ _ 200). vm_compute. reflexivity. Qed.
Lemma asked_unrecorded :
  linked_unrecorded toy c_ctx false coverage asked tt guard_off "f" [] [18%Z; 20%Z; 22%Z].
Proof. apply (linked_unrecorded_by _ _ _ _ _ _ _ _ 200). vm_compute. reflexivity. Qed.
Lemma asked_fewer zs : incl zs [18%Z; 20%Z; 22%Z] ->
  linked_unrecorded toy c_ctx false coverage asked tt guard_off "f" [] zs.
Proof. intros In m' d' t' St x W H. exact (asked_unrecorded m' d' t' St x W (In _ H)). Qed.
(* x being 1: it is called. *)
Definition guard_on : tmem := start (I 7) (I 0) (P 0) (I 1) (I 1).
Lemma asked_recorded :
  ~ linked_unrecorded toy c_ctx false coverage asked tt guard_on "f" [] [20%Z].
Proof.
  intro U.
  destruct (follow toy (linked_recording toy c_ctx coverage asked true true) c_ctx
    (linked_body toy c_ctx coverage asked 0) false 60 tt guard_on
    (linked_track toy c_ctx coverage asked true true) (call toy "f" [])) as [[m' d'] t'] eqn:Q.
  pose proof (follow_steps _ _ _ _ _ _ _ _ _ _ _ Q) as St.
  refine (U m' d' t' St 20 _ (or_introl eq_refl)).
  assert (L : existsb (Nat.eqb 20) (t_lines (snd (fst (follow toy
    (linked_recording toy c_ctx coverage asked true true) c_ctx
    (linked_body toy c_ctx coverage asked 0) false 60 tt guard_on
    (linked_track toy c_ctx coverage asked true true) (call toy "f" []))) 1)) = true)
    by (vm_compute; reflexivity).
  rewrite Q in L. apply existsb_exists in L as (x & I & E). apply Nat.eqb_eq in E. subst x.
  exists 1. split; [cbn; lia|exact I].
Qed.
Lemma asked_logical : no_logical toy c_ctx true asked [18%Z].
Proof.
  assert (Q : map (fun s => map (Nat.add (fst s)) (logical_of toy c_ctx true (snd s) 0)) asked
              = [[]; [20; 21; 22]]) by (vm_compute; reflexivity).
  apply Forall_forall. intros s Is i Ii [H|[]].
  apply (in_map (fun s => map (Nat.add (fst s)) (logical_of toy c_ctx true (snd s) 0))) in Is.
  apply (in_map (Nat.add (fst s))) in Ii. cbv beta in Is. rewrite Q in Is.
  destruct Is as [E|[E|[]]]; rewrite <- E in Ii; cbn in Ii; lia.
Qed.

(* As in CoverExample.v, with another file in front *)
Lemma divided_unrecorded :
  linked_unrecorded toy c_ctx false coverage divided tt by_zero "f" [] [30%Z].
Proof. apply (linked_unrecorded_by _ _ _ _ _ _ _ _ 200). vm_compute. reflexivity. Qed.
Lemma divided_noticed :
  ~ no_more toy c_ctx false (linked_selecting toy c_ctx optimised divided (Some "30")) no_runtime
      tt by_zero (linked_initial toy c_ctx optimised divided (Some "30"))
      (linked_body toy c_ctx optimised divided 0) (call toy "f" []) tt
      (body_of toy c_ctx (whole toy divided)) (call toy "f" []).
Proof.
  intros [F _ _ _].
  refine (never_ends _ _ _ _ _ _ 200 _ _ _ _ (F by_zero (@RV toy (I 0)) _)).
  - vm_compute. reflexivity.
  - apply (first_run_finishes _ _ _ _ _ 200). vm_compute. reflexivity.
Qed.
Lemma hidden_unrecorded :
  linked_unrecorded toy cpp_ctx false coverage hidden tt zero "f" [] [8%Z].
Proof. apply (linked_unrecorded_by _ _ _ _ _ _ _ _ 200). vm_compute. reflexivity. Qed.
Lemma hidden_logical : no_logical toy cpp_ctx true hidden [8%Z].
Proof.
  assert (Q : map (fun s => logical_of toy cpp_ctx true (snd s) 0) hidden = [[]; []])
    by (vm_compute; reflexivity).
  apply Forall_forall. intros s Is i Ii.
  apply (in_map (fun s => logical_of toy cpp_ctx true (snd s) 0)) in Is. cbv beta in Is.
  rewrite Q in Is. destruct Is as [E|[E|[]]]; rewrite <- E in Ii; destruct Ii.
Qed.
Lemma hidden_noticed :
  ~ no_more toy cpp_ctx false (linked_selecting toy cpp_ctx optimised hidden (Some "8")) no_runtime
      tt zero (linked_initial toy cpp_ctx optimised hidden (Some "8"))
      (linked_body toy cpp_ctx optimised hidden 0) (call toy "f" []) tt
      (body_of toy cpp_ctx (whole toy hidden)) (call toy "f" []).
Proof.
  intros [F _ _ _].
  refine (never_ends _ _ _ _ _ _ 200 _ _ _ _ (F (start (I 0) (I 1) (P 0) (I 0) (I 0)) (@RV toy (I 0)) _)).
  - vm_compute. reflexivity.
  - apply (first_run_finishes _ _ _ _ _ 200). vm_compute. reflexivity.
Qed.

Lemma divided_well_formed : well_formed_files toy c_ctx divided.
Proof. repeat constructor. Qed.
Lemma divided_productive : productive_files toy c_ctx coverage divided.
Proof. repeat constructor. Qed.
Lemma hidden_well_formed : well_formed_files toy cpp_ctx hidden.
Proof. repeat constructor. Qed.
