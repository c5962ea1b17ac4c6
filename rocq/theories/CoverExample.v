(* Programs for property C76. *)
From Coq Require Import String List ZArith Bool Lia.
From Verif Require Import Base Clang Gen GenExpr GenBinary GenUnary GenStmt Mutation GenSpec
  PreludeSpec Prelude Tracking Lang Cst Runtime SimSpec SimRel SimTop LangRun MutantSpec SimExample
  SimRefute CoverSpec.
Import ListNotations.
Local Open Scope string_scope.

(** * All states of all executions *)

Section All.
Variable L : lang.
Variable R : runtime.
Variable c : ctx.
Variable bodies : string -> option (tm L).
Variable cpp17 : bool.
Variable P : rt_state R -> bool.
Fixpoint all_states (n : nat) (e : env L) (m : mem L) (d : rt_state R) (t : tm L) : bool :=
  P d && match n with
         | 0 => false
         | S n => forallb (fun x => match x with
                                    | Some (m, d, t) => all_states n e m d t
                                    | None => true
                                    end) (succs L R c bodies cpp17 e m d t)
         end.
Lemma all_states_here n e m d t : all_states n e m d t = true -> P d = true.
Proof. destruct n; cbn; intro H; apply andb_true_iff in H; tauto. Qed.
Lemma all_states_steps e x y : steps L R c bodies cpp17 e x y ->
  forall n m d t m' d' t', x = (m, d, t) -> y = (m', d', t') ->
  all_states n e m d t = true -> P d' = true.
Proof.
  induction 1 as [x|m d t [[m1 d1] t1] y St Ss IH]; intros n m0 d0 t0 m2 d2 t2 Qx Qy H.
  - subst x. injection Qy as <- <- <-. eapply all_states_here; eauto.
  - injection Qx as <- <- <-. destruct n as [|n]; cbn in H; apply andb_true_iff in H as [_ H]; [discriminate|].
    rewrite forallb_forall in H. apply succs_complete in St. specialize (H _ St). cbn in H.
    exact (IH n _ _ _ _ _ _ eq_refl Qy H).
Qed.

(* One execution *)
Fixpoint follow (n : nat) (e : env L) (m : mem L) (d : rt_state R) (t : tm L)
  : mem L * rt_state R * tm L :=
  match n with
  | 0 => (m, d, t)
  | S n => match succs L R c bodies cpp17 e m d t with
           | Some (m, d, t) :: _ => follow n e m d t
           | _ => (m, d, t)
           end
  end.
Lemma follow_steps n e : forall m d t x, follow n e m d t = x ->
  steps L R c bodies cpp17 e (m, d, t) x.
Proof.
  induction n as [|n IH]; intros m d t x Q; cbn in Q.
  - subst x. constructor.
  - destruct (succs L R c bodies cpp17 e m d t) as [|[[[m1 d1] t1]|] rest] eqn:Qs;
      try (subst x; constructor).
    econstructor; [|apply IH; exact Q]. apply succs_sound. rewrite Qs. left. reflexivity.
Qed.

(* Every execution finishes within n steps. *)
Fixpoint all_finish (n : nat) (e : env L) (m : mem L) (d : rt_state R) (t : tm L) : bool :=
  match n, succs L R c bodies cpp17 e m d t with
  | _, [] => final t
  | 0, _ => false
  | S n, l => forallb (fun x => match x with
                                | Some (m, d, t) => all_finish n e m d t
                                | None => false
                                end) l
  end.
Lemma all_finish_here n e : forall m d t, all_finish n e m d t = true ->
  exists m' r, finishes L R c bodies cpp17 e m d t m' r.
Proof.
  induction n as [|n IH]; intros m d t H; cbn in H;
    destruct (succs L R c bodies cpp17 e m d t) as [|x l] eqn:Q; try discriminate.
  - exists m, t, d. split; [constructor|exact H].
  - exists m, t, d. split; [constructor|exact H].
  - cbn in H. destruct x as [[[m1 d1] t1]|]; [|discriminate]. apply andb_true_iff in H as [H _].
    destruct (IH _ _ _ H) as (m2 & r & d2 & Ss & F). exists m2, r, d2. split; auto.
    econstructor; [|exact Ss]. apply succs_sound. rewrite Q. left. reflexivity.
Qed.
Lemma all_finish_steps e x y : steps L R c bodies cpp17 e x y ->
  forall n m d t m' d' t', x = (m, d, t) -> y = (m', d', t') ->
  all_finish n e m d t = true -> exists m2 r, finishes L R c bodies cpp17 e m' d' t' m2 r.
Proof.
  induction 1 as [x|m d t [[m1 d1] t1] y St Ss IH]; intros n m0 d0 t0 m2 d2 t2 Qx Qy H.
  - subst x. injection Qy as <- <- <-. eapply all_finish_here; eauto.
  - injection Qx as <- <- <-. apply succs_complete in St.
    destruct n as [|n]; cbn [all_finish] in H; destruct (succs L R c bodies cpp17 e m d t) as [|z l];
      try discriminate; try tauto; try (destruct St; fail).
    rewrite forallb_forall in H. specialize (H _ St). cbn in H.
    exact (IH n _ _ _ _ _ _ eq_refl Qy H).
Qed.
End All.

(* The tracking file has none of the ids zs. *)
Definition none_of (zs : list Z) (d : tracked) : bool :=
  forallb (fun x => negb (existsb (Z.eqb (Z.of_nat x)) zs)) (t_lines d).
Lemma unrecorded_by c cpp17 o f p m g args zs n :
  all_states toy (recording f (cpp c) true true) c (body_of toy c (fst (mutate_program toy c o p 0)))
    cpp17 (none_of zs) n tt m (track_start (snd (mutate_program toy c o p 0))) (call toy g args) = true ->
  unrecorded toy c cpp17 o f p tt m g args zs.
Proof.
  intros H m' d' t' St x I J.
  pose proof (all_states_steps _ _ _ _ _ _ _ _ _ St _ _ _ _ _ _ _ eq_refl eq_refl H) as Q.
  unfold none_of in Q. rewrite forallb_forall in Q. specialize (Q _ I). apply negb_true_iff in Q.
  rewrite <- not_true_iff_false in Q. apply Q. apply existsb_exists. exists (Z.of_nat x).
  split; auto. apply Z.eqb_refl.
Qed.

Lemma finishes_by c cpp17 o f p m g args n :
  all_finish toy (recording f (cpp c) true true) c (body_of toy c (fst (mutate_program toy c o p 0)))
    cpp17 n tt m (track_start (snd (mutate_program toy c o p 0))) (call toy g args) = true ->
  always_finishes toy c cpp17 o f p tt m g args.
Proof.
  intros H m' d' t' St. exact (all_finish_steps _ _ _ _ _ _ _ _ St _ _ _ _ _ _ _ eq_refl eq_refl H).
Qed.

(** * Programs *)

Definition number (s : string) (z : Z) : cst toy := CExpr (constant z) (CVal (L := toy) s (I z)).

(* if (x && y) print(a);  in C *)
Definition guarded : list (string * cst toy) :=
  [("f", CStmt some_stmt (CNode KIf
      [("if (", CBin (binary_of LAnd TInt (value TInt false None) (value TInt false None))
                  (read "x") " " " " (read "y"));
       (") ", statement (CNode (KCall "print") [("print(", read "a")] ")"));
       ("", CNode KSkip [] "")] ""))].

(* if (x) b && y;  in C *)
Definition guards : list (string * cst toy) :=
  [("f", CStmt some_stmt (CNode KIf
      [("if (", read "x");
       (") ", statement (CBin (binary_of LAnd TInt (value TInt false None) (value TInt false None))
                  (read "b") " " " " (read "y")));
       ("", CNode KSkip [] "")] ""))].

(* b && x / y;  in C *)
Definition divides_later : list (string * cst toy) :=
  [("f", statement
      (CBin (binary_of LAnd TInt (value TInt false None) (value TInt false (Some Div)))
         (read "b") " " " "
         (CBin (binary_of Div TInt (value TInt false None) (value TInt false None))
            (read "x") " " " " (read "y"))))].

(* bool b = 2 != 1; print(a);  in C++ *)
Definition shadowed : list (string * cst toy) :=
  [("f", CNode KSeq
     [("", CNode KExpr [("", CNode (KAssign Assign) [("bool ", var "b"); (" = ",
        CExpr constant_ne (CBin (binary_of NE TBool (constant 2) (constant 1))
          (CVal (L := toy) "2" (I 2)) " " " " (CVal (L := toy) "1" (I 1))))] "")] ";");
      (" ", statement (CNode (KCall "print") [("print(", CNode KLoad [("", var "a")] "")] ")"))] "")].


Lemma enables_24 : enables 0 (Some "24") [24%Z].
Proof. split; [numbers [[2; 4]]|safe]. Qed.
Lemma enables_2 : enables 0 (Some "2") [2%Z].
Proof. split; [numbers [[2]]|safe]. Qed.

(* guarded, x being 0: the call of print and its operand are not reached. *)
Definition guard_off : tmem := start (I 7) (I 0) (P 0) (I 0) (I 1).
Lemma guarded_unrecorded : unrecorded toy c_ctx false coverage 0 guarded tt guard_off "f" [] [21%Z].
Proof. apply (unrecorded_by _ _ _ _ _ _ _ _ _ 200). vm_compute. reflexivity. Qed.
Lemma guarded_recorded : ~ unrecorded toy c_ctx false coverage 0 guarded tt guard_off "f" [] [12%Z].
Proof.
  intro U.
  destruct (follow toy (recording 0 false true true) c_ctx
    (body_of toy c_ctx (fst (mutate_program toy c_ctx coverage guarded 0))) false 30 tt guard_off
    (track_start 23) (call toy "f" [])) as [[m' d'] t'] eqn:Q.
  pose proof (follow_steps _ _ _ _ _ _ _ _ _ _ _ Q) as St.
  refine (U m' d' t' St 12 _ (or_introl eq_refl)).
  assert (L : existsb (Nat.eqb 12) (t_lines (snd (fst (follow toy (recording 0 false true true) c_ctx
    (body_of toy c_ctx (fst (mutate_program toy c_ctx coverage guarded 0))) false 30 tt guard_off
    (track_start 23) (call toy "f" []))))) = true) by (vm_compute; reflexivity).
  rewrite Q in L. apply existsb_exists in L as (x & I & E). apply Nat.eqb_eq in E. subst x. exact I.
Qed.

(* b && x / y, b being 1 and y being 0: the coverage build does not get to the end of the right
   operand.  With || for && that operand is not evaluated. *)
Definition by_zero : tmem := start (I 0) (I 1) (P 0) (I 7) (I 0).
Lemma divides_unrecorded : unrecorded toy c_ctx false coverage 0 divides_later tt by_zero "f" [] [24%Z].
Proof. apply (unrecorded_by _ _ _ _ _ _ _ _ _ 200). vm_compute. reflexivity. Qed.
Lemma divides_noticed : let n := snd (mutate_program toy c_ctx optimised divides_later 0) in
  ~ no_more toy c_ctx false (selecting 0 n (cpp c_ctx) (Some "24")) no_runtime tt by_zero
      (initial_tls n) (body_of toy c_ctx (fst (mutate_program toy c_ctx optimised divides_later 0)))
      (call toy "f" []) tt (body_of toy c_ctx divides_later) (call toy "f" []).
Proof.
  intros n [F _ _ _].
  refine (never_ends _ _ _ _ _ _ 200 _ _ _ _ (F by_zero (@RV toy (I 0)) _)).
  - vm_compute. reflexivity.
  - apply (first_run_finishes _ _ _ _ _ 200). vm_compute. reflexivity.
Qed.

(* bool b = 2 != 1; print(a);  the replacement of 2 != 1 has no mutants but the id of the removal
   of print(a), which is taken as recorded. *)
Lemma shadowed_unrecorded : unrecorded toy cpp_ctx false coverage 0 shadowed tt zero "f" [] [2%Z].
Proof. apply (unrecorded_by _ _ _ _ _ _ _ _ _ 200). vm_compute. reflexivity. Qed.
Lemma shadowed_noticed : let n := snd (mutate_program toy cpp_ctx optimised shadowed 0) in
  ~ no_more toy cpp_ctx false (selecting 0 n (cpp cpp_ctx) (Some "2")) no_runtime tt zero
      (initial_tls n) (body_of toy cpp_ctx (fst (mutate_program toy cpp_ctx optimised shadowed 0)))
      (call toy "f" []) tt (body_of toy cpp_ctx shadowed) (call toy "f" []).
Proof.
  intros n [F _ _ _].
  refine (never_ends _ _ _ _ _ _ 200 _ _ _ _ (F (start (I 0) (I 1) (P 0) (I 0) (I 0)) (@RV toy (I 0)) _)).
  - vm_compute. reflexivity.
  - apply (first_run_finishes _ _ _ _ _ 200). vm_compute. reflexivity.
Qed.

(* if (x) b && y;  x being 0: the mutants of && are not recorded. *)
Lemma enables_18_20 : enables 0 (Some "18,20") [18%Z; 20%Z].
Proof. split; [numbers [[1; 8]; [2; 0]]|safe]. Qed.
Lemma guards_finishes : always_finishes toy c_ctx false coverage 0 guards tt guard_off "f" [].
Proof. apply (finishes_by _ _ _ _ _ _ _ _ 200). vm_compute. reflexivity. Qed.
Lemma guards_unrecorded :
  unrecorded toy c_ctx false coverage 0 guards tt guard_off "f" [] [18%Z; 20%Z].
Proof. apply (unrecorded_by _ _ _ _ _ _ _ _ _ 200). vm_compute. reflexivity. Qed.
