(* Executions of the example programs that show what mutated programs do differently, and facts
   about the example programs. *)
From Coq Require Import String List ZArith Bool Lia.
From Verif Require Import Base Clang Gen GenExpr GenBinary GenUnary GenStmt Mutation GenSpec
  PreludeSpec Prelude Tracking TrackingSpec Lang Cst Runtime SimSpec SimRel SimTop LangRun MutantSpec
  MutantProof SimExample.
Import ListNotations.
Local Open Scope string_scope.

(* The variable lists numbers. *)
Lemma lists_numbers (l : list (list nat)) :
  Forall (fun ds => ds <> [] /\ Forall (fun d => d < 10) ds) l ->
  variable_lists (Some (String.concat "," (map digits_text l)))
    (map (fun ds => number (rev ds)) l).
Proof.
  intro H. replace (map (fun ds => number (rev ds)) l)
    with (List.concat (map (fun ds => [number (rev ds)]) l))
    by (clear H; induction l; cbn; congruence).
  constructor. induction H as [|ds l [N F] H IH]; cbn; constructor; auto.
  assert (D : denotes ("" ++ sign_text NoSign ++ digits_text ds ++ "") (number (rev ds))).
  { apply (denotes_intro "" NoSign ds ""); auto; [constructor|intros []|].
    intros d _. discriminate. }
  cbn in D.
  replace (digits_text ds ++ "")%string with (digits_text ds) in D.
  - constructor. exact D.
  - clear. induction (digits_text ds); cbn; congruence.
Qed.
Ltac numbers l :=
  apply (lists_numbers l); repeat constructor; try discriminate; lia.
Ltac safe := repeat constructor; unfold int_safe; lia.

Lemma enables_none : enables 0 None [].
Proof. split; constructor. Qed.
Lemma enables_3 : enables 0 (Some "3") [3%Z].
Proof. split; [numbers [[3]]|safe]. Qed.
Lemma enables_21 : enables 0 (Some "21") [21%Z].
Proof. split; [numbers [[2; 1]]|safe]. Qed.
Lemma enables_12 : enables 0 (Some "12") [12%Z].
Proof. split; [numbers [[1; 2]]|safe]. Qed.
Lemma enables_13 : enables 0 (Some "13") [13%Z].
Proof. split; [numbers [[1; 3]]|safe]. Qed.
Lemma enables_39 : enables 0 (Some "39") [39%Z].
Proof. split; [numbers [[3; 9]]|safe]. Qed.
Lemma enables_13_14 : enables 0 (Some "13,14") [13%Z; 14%Z].
Proof. split; [numbers [[1; 3]; [1; 4]]|safe]. Qed.

(* Whether memory can end up like this, and whether something undefined can happen *)
Definition tval_eqb (v w : tval) : bool :=
  match v, w with
  | I a, I b => Z.eqb a b
  | P a, P b => Nat.eqb a b
  | _, _ => false
  end.
Fixpoint equal {A} (eqb : A -> A -> bool) (l l' : list A) : bool :=
  match l, l' with
  | [], [] => true
  | x :: l, y :: l' => eqb x y && equal eqb l l'
  | _, _ => false
  end.
Definition tmem_eqb (m m' : tmem) : bool :=
  equal tval_eqb (fst m) (fst m') && equal Z.eqb (snd m) (snd m').
Definition lacks (m : tmem) (l : option (list (option (tmem * tm toy)))) : bool :=
  match l with
  | Some l => forallb (fun x => match x with Some (m', _) => negb (tmem_eqb m m') | None => true end) l
  | None => false
  end.
Definition all_defined (l : option (list (option (tmem * tm toy)))) : bool :=
  match l with
  | Some l => forallb (fun x => match x with Some _ => true | None => false end) l
  | None => false
  end.

Lemma equal_refl {A} (eqb : A -> A -> bool) l : (forall x, eqb x x = true) -> equal eqb l l = true.
Proof. intro H. induction l as [|x l IH]; cbn; auto. rewrite H. exact IH. Qed.
Lemma tmem_refl m : tmem_eqb m m = true.
Proof.
  unfold tmem_eqb. rewrite !equal_refl; auto using Z.eqb_refl.
  intros [z|l]; cbn; auto using Z.eqb_refl, Nat.eqb_refl.
Qed.

Section Refute.
Variables (c : ctx) (cpp17 : bool) (R : runtime) (d : rt_state R).
Variables (b : string -> option (tm toy)) (t : tm toy).

Lemma never_ends n m m' r :
  lacks m' (results_of toy R c b cpp17 n tt m d t) = true ->
  ~ finishes toy R c b cpp17 tt m d t m' r.
Proof.
  intros Q F. destruct (results_of toy R c b cpp17 n tt m d t) as [l|] eqn:Ql; [|discriminate].
  pose proof (results_finishes _ _ _ _ _ _ _ _ _ _ _ _ _ Ql F) as I.
  unfold lacks in Q. rewrite forallb_forall in Q. specialize (Q _ I). cbn in Q.
  rewrite tmem_refl in Q. discriminate.
Qed.
Lemma never_wrong n m :
  all_defined (results_of toy R c b cpp17 n tt m d t) = true ->
  ~ undefined toy R c b cpp17 tt m d t.
Proof.
  intros Q U. destruct (results_of toy R c b cpp17 n tt m d t) as [l|] eqn:Ql; [|discriminate].
  pose proof (results_undefined _ _ _ _ _ _ _ _ _ _ _ Ql U) as I.
  unfold all_defined in Q. rewrite forallb_forall in Q. specialize (Q _ I). discriminate.
Qed.
End Refute.

Definition zero : tmem := start (I 0) (I 0) (P 0) (I 0) (I 0).

(* C12 *)
Lemma through_pointer_differs :
  ~ mutated_behaves toy cpp_ctx optimised true 0 None through_pointer "f" []
      (body_of toy cpp_ctx through_pointer).
Proof.
  unfold mutated_behaves. intro B.
  eapply (never_ends _ _ _ _ _ _ 200 zero (start (I 5) (I 0) (P 1) (I 0) (I 0)));
    [|eapply (same_results _ _ _ _ _ _ _ _ _ B), (first_run_finishes _ _ _ _ _ 200)];
    vm_compute; reflexivity.
Qed.

(* C13 *)
Lemma calls_next_change : exists q, one_change_program toy c_ctx true calls_next 3 q.
Proof.
  destruct (one_lemma toy c_ctx optimised false 0 (Some "3") 3 calls_next "f" []) as (q & Ch & _);
    try (apply enables_3); eauto; try discriminate; try reflexivity.
  - apply (Forall_inv (proj2 enables_3)).
  - vm_compute. lia.
Qed.
Lemma divides_change : exists q, one_change_program toy cpp_ctx true divides 21 q.
Proof.
  destruct (one_lemma toy cpp_ctx optimised false 0 (Some "21") 21 divides "f" []) as (q & Ch & _);
    try (apply enables_21); eauto; try discriminate; try reflexivity.
  - apply (Forall_inv (proj2 enables_21)).
  - vm_compute. lia.
Qed.
Lemma calls_next_differs q :
  one_change_program toy c_ctx true calls_next 3 q ->
  ~ mutated_behaves toy c_ctx optimised false 0 (Some "3") calls_next "f" [] (lookup_body toy q).
Proof.
  intro Ch. apply (one_change_program_spec toy c_ctx optimised) in Ch; [|reflexivity]. subst q.
  unfold mutated_behaves. intro B.
  eapply (never_ends _ _ _ _ _ _ 200 zero (start (I 0) (I 0) (P 0) (I 1) (I 0)));
    [|eapply (same_results _ _ _ _ _ _ _ _ _ B), (first_run_finishes _ _ _ _ _ 200)];
    vm_compute; reflexivity.
Qed.
Lemma divides_goes_wrong q :
  one_change_program toy cpp_ctx true divides 21 q ->
  undefined toy (selecting 0 35 true (Some "21")) cpp_ctx
    (body_of toy cpp_ctx (fst (mutate_program toy cpp_ctx optimised divides 0))) false tt zero
    (initial_tls 35) (call toy "f" []) /\
  ~ undefined toy no_runtime cpp_ctx (lookup_body toy q) false tt zero tt (call toy "f" []).
Proof.
  intro Ch. apply (one_change_program_spec toy cpp_ctx optimised) in Ch; [|reflexivity]. subst q. split.
  - apply (first_run_undefined _ _ _ _ _ 200). vm_compute. reflexivity.
  - apply (never_wrong _ _ _ _ _ _ 200). vm_compute. reflexivity.
Qed.

(* C15 *)
Lemma conjunction_smallest :
  Forall (fun s => smallest (listed 0 [13%Z; 14%Z]) s = smallest (listed 0 [13%Z]) s)
    (sites_of toy c_ctx true conjunction 0).
Proof. vm_compute. repeat constructor. Qed.
Lemma conjunction_differs :
  exists m m' r,
    finishes toy (selecting 0 32 false (Some "13,14")) c_ctx
      (body_of toy c_ctx (fst (mutate_program toy c_ctx optimised conjunction 0))) false tt m
      (initial_tls 32) (call toy "f" []) m' r /\
    ~ finishes toy (selecting 0 32 false (Some "13")) c_ctx
      (body_of toy c_ctx (fst (mutate_program toy c_ctx optimised conjunction 0))) false tt m
      (initial_tls 32) (call toy "f" []) m' r.
Proof.
  exists zero, (start (I 1) (I 0) (P 0) (I 0) (I 0)). eexists. split.
  - apply (first_run_finishes _ _ _ _ _ 200). vm_compute. reflexivity.
  - apply (never_ends _ _ _ _ _ _ 200). vm_compute. reflexivity.
Qed.

(* C22 *)
Lemma no_mutants_goes_wrong :
  ~ recorded_behaves toy cpp_ctx coverage false 0 true true no_mutants_left "f" []
      (body_of toy cpp_ctx no_mutants_left).
Proof.
  unfold recorded_behaves. intro B.
  eapply (never_wrong _ _ _ _ _ _ 200 zero);
    [|eapply (same_undefined _ _ _ _ _ _ _ _ _ B), (first_run_undefined _ _ _ _ _ 200)];
    vm_compute; reflexivity.
Qed.

(** * Facts for examples *)

Ltac gentle :=
  constructor; intros ? ? ? ? ?S; apply succs_complete in S; cbn in S;
  repeat (destruct S as [<-|S]; [do 2 eexists; split; [reflexivity|gentle]|]); destruct S.

(* a = x / y; with x replaced by 0: the value of x is not needed. *)
Lemma divides_harmless bs :
  drops_program toy cpp_ctx true no_runtime bs false (Nat.eqb 3) divides 0.
Proof.
  cbn -[Nat.eqb]. unfold expr_drops, binary_drops, c_logical_apart.
  repeat split; try exact Logic.I; try (intro Q; discriminate Q); intros;
    match goal with Q : _ = Some _ |- _ => vm_compute in Q; injection Q as <- end;
    try (left; reflexivity).
  right. right. split; [reflexivity|]. gentle.
Qed.

