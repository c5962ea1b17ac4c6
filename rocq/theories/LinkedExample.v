(* Two files: the function f of the first calls g of the second. *)
From Coq Require Import String List ZArith Bool Lia.
From Verif Require Import Base Clang Gen GenExpr GenBinary GenUnary GenStmt Mutation GenSpec
  PreludeSpec Prelude Lang Cst Runtime SimSpec SimRel SimTop LangRun MutantSpec SimExample SimRefute
  Linked LinkedSpec.
Import ListNotations.
Local Open Scope string_scope.

(* void f() { g(); print(x); } *)
Definition caller : list (string * cst toy) :=
  [("f", CNode KSeq [("", CStmt some_stmt (CNode KExpr [("", CNode (KCall "g") [] "g()")] ";"));
     (" ", statement (CNode (KCall "print") [("print(", read "x")] ")"))] "")].
(* void g() { x--; } *)
Definition callee : list (string * cst toy) :=
  [("g", statement (CUn {| u_op := PostDec; u_ty := TInt; u_lvalue := false;
     u_volatile := false; u_const := false; u_side_effects := true;
     u_sub := place TInt false; u_op_offset := 0; u_range := at_zero |} "" (var "x")))].

Definition files : list (source toy) := one_run toy cpp_ctx optimised [caller; callee] 0.
(* the files of two runs *)
Definition files_apart : list (source toy) := [(0, caller); (0, callee)].
Definition files_covered : list (source toy) := one_run toy cpp_ctx coverage [caller; callee] 0.

Lemma enables_files : enables_in toy files (Some "13") [13%Z].
Proof.
  split; [numbers [[1; 3]]|].
  assert (Q : map fst files = [0; 8]) by reflexivity.
  apply Forall_forall. intros s I. apply (in_map fst) in I. rewrite Q in I.
  destruct I as [<-|[<-|[]]]; safe.
Qed.
Lemma enables_files_apart : enables_in toy files_apart (Some "0") [0%Z].
Proof.
  split; [numbers [[0]]|]. apply Forall_forall. intros s [<-|[<-|[]]]; (constructor; [unfold int_safe; cbn; lia|constructor]).
Qed.
Lemma caller_unlisted : unlisted toy cpp_ctx optimised [13%Z] (0, caller).
Proof.
  intros i H [Q|[]]. assert (N : count toy cpp_ctx optimised (0, caller) = 8) by (vm_compute; reflexivity).
  rewrite N in H. cbn [fst] in Q. lia.
Qed.
Lemma caller_listed : ~ unlisted toy cpp_ctx optimised [0%Z] (0, caller).
Proof. intro H. apply (H 0); [vm_compute; lia|left; reflexivity]. Qed.
Lemma callee_listed : ~ unlisted toy cpp_ctx optimised [0%Z] (0, callee).
Proof. intro H. apply (H 0); [vm_compute; lia|left; reflexivity]. Qed.
Lemma both_change : forall g,
  lookup_body toy (made toy cpp_ctx optimised [0%Z] files_apart) g <>
  body_of toy cpp_ctx (whole toy files_apart) g <-> g = "f" \/ g = "g".
Proof.
  intro g. split.
  - intro H. destruct (String.eqb_spec g "f") as [->|Nf]; [auto|].
    destruct (String.eqb_spec g "g") as [->|Ng]; [auto|]. destruct H.
    cbn. apply String.eqb_neq in Nf, Ng. rewrite Nf, Ng. reflexivity.
  - intros [->| ->]; vm_compute; discriminate.
Qed.
