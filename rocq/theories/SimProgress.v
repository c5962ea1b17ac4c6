(* Executions do not get stuck: the evaluation of unsequenced operands can always go on. *)
From Coq Require Import String List ZArith Bool Lia.
From Verif Require Import Base Clang Gen GenExpr GenBinary GenUnary GenStmt Mutation GenSpec
  Lang Cst SimSpec SimRel SimMutate SimTop.
Import ListNotations.

Section Progress.
Variable L : lang.
Variable c : ctx.
Variable R : runtime.
Variable bodies : string -> option (tm L).
Hypothesis Bodies : forall g s, bodies g = Some s -> active s = false.
Notation tm := (tm L).
Variable cpp17 : bool.
Notation stp := (step L R c bodies cpp17).

(* At most one operand of a node has a call in progress, and it is one to be evaluated. *)
Inductive tidy : tm -> Prop :=
| tidy_inactive t : active t = false -> tidy t
| tidy_node k pre a post :
    evaluated k (length pre) = true -> its_turn cpp17 k pre post = true ->
    existsb active pre = false -> existsb active post = false -> tidy a -> tidy (N k (pre ++ a :: post)).

Lemma inactive_args k (args : list tm) : active (N k args) = false -> existsb active args = false.
Proof. destruct k; cbn; auto. discriminate. Qed.

Lemma existsb_middle (pre : list tm) a post :
  existsb active pre = false -> existsb active post = false -> active a = false ->
  existsb active (pre ++ a :: post) = false.
Proof. intros A B C. rewrite existsb_app. cbn. rewrite A, B, C. reflexivity. Qed.

Lemma final_tidy t : tidy t -> final t = true -> active t = false.
Proof.
  intros T F. destruct T as [t A|k pre a post Ev Tu A B T]; auto.
  destruct k; try discriminate; try (destruct pre; discriminate).
  destruct pre as [|x [|y pre]]; [|discriminate|discriminate].
  destruct post; [|discriminate]. cbn in F. destruct a; try discriminate; reflexivity.
Qed.

Lemma tidy_args k args : tidy (N k args) -> Forall tidy args.
Proof.
  intro T. remember (N k args) as t eqn:Q.
  assert (In1 : forall l : list tm, existsb active l = false -> Forall tidy l).
  { induction l as [|a l IH]; cbn; auto. intro H. apply orb_false_iff in H as [H1 H2].
    constructor; auto. apply tidy_inactive. exact H1. }
  destruct T as [t A|k' pre a post Ev Tu A B T].
  - subst. apply In1. eapply inactive_args. exact A.
  - injection Q as -> <-. apply Forall_app. split; auto.
Qed.

(** * Progress *)

Lemma last_operand (args : list tm) :
  forallb final args = true \/
  exists pre a post, args = pre ++ a :: post /\ final a = false /\ forallb final post = true.
Proof.
  induction args as [|a args [IH|(pre & b & post & -> & Fb & Fp)]]; auto.
  - destruct (final a) eqn:Fa; cbn.
    + left. rewrite Fa. exact IH.
    + right. exists [], a, args. auto.
  - right. exists (a :: pre), b, post. auto.
Qed.
Lemma first_operand (k : kind L) (args : list tm) : forall n,
  (forall i a, nth_error args i = Some a -> evaluated k (n + i) = true -> final a = true) \/
  exists pre a post, args = pre ++ a :: post /\ evaluated k (n + length pre) = true /\
    final a = false /\
    (forall i a, nth_error pre i = Some a -> evaluated k (n + i) = true -> final a = true).
Proof.
  induction args as [|a args IH]; intro n.
  - left. intros [|i] a Q; discriminate.
  - destruct (evaluated k n && negb (final a)) eqn:Qa.
    + right. exists [], a, args. cbn. rewrite Nat.add_0_r. apply andb_true_iff in Qa as [Q1 Q2].
      apply negb_true_iff in Q2. repeat split; auto. intros [|i] b Q; discriminate.
    + assert (Fa : evaluated k n = true -> final a = true).
      { intro Ev. rewrite Ev in Qa. destruct (final a); auto. }
      destruct (IH (S n)) as [H|(pre & b & post & -> & Ev & Fb & H)].
      * left. intros [|i] b Q Ev.
        -- injection Q as <-. rewrite Nat.add_0_r in Ev. auto.
        -- apply (H i b Q). replace (S n + i) with (n + S i) by lia. exact Ev.
      * right. exists (a :: pre), b, post. cbn. replace (n + S (length pre)) with (S n + length pre) by lia.
        repeat split; auto. intros [|i] b' Q Ev'.
        -- injection Q as <-. rewrite Nat.add_0_r in Ev'. auto.
        -- apply (H i b' Q). replace (S n + i) with (n + S i) by lia. exact Ev'.
Qed.
Lemma forallb_nth (l : list tm) : (forall i a, nth_error l i = Some a -> final a = true) ->
  forallb final l = true.
Proof.
  intro H. apply forallb_forall. intros a I. apply In_nth_error in I as [i Q]. eauto.
Qed.

Lemma node_progress k args :
  existsb active args = false ->
  Forall (fun a => final a = true \/ forall e m d, exists x, stp e m d a x) args ->
  final (N k args) = true \/ forall e m d, exists x, stp e m d (N k args) x.
Proof.
  intros A F. destruct (final (N k args)) eqn:Fi; auto. right. intros e m d.
  assert (Search : (forall i a, nth_error args i = Some a -> evaluated k i = true -> final a = true)
    \/ exists pre a post, args = pre ++ a :: post /\ evaluated k (length pre) = true /\
       final a = false /\ its_turn cpp17 k pre post = true).
  { destruct (match k with KAssign _ => true | _ => false end) eqn:Ka.
    - destruct k; try discriminate.
      destruct (last_operand args) as [H|(pre & a & post & -> & Fa & Fp)].
      + left. intros i a Q _. rewrite forallb_forall in H. apply H. eapply nth_error_In; eauto.
      + right. exists pre, a, post. repeat split; auto. unfold its_turn. destruct cpp17; auto.
    - destruct (first_operand k args 0) as [H|(pre & a & post & -> & Ev & Fa & H)]; auto.
      right. exists pre, a, post. repeat split; auto. unfold its_turn. destruct cpp17; auto.
      destruct k; auto; try discriminate. destruct o; auto; apply forallb_nth; intros i b Q;
        apply (H i b Q); reflexivity. }
  destruct Search as [H|(pre & a & post & -> & Ev & Fa & T)].
  - eexists. apply step_head; auto.
  - rewrite existsb_app in A. cbn in A. apply orb_false_iff in A as [A1 A2].
    apply orb_false_iff in A2 as [A2 A3].
    apply Forall_app in F as [_ F]. inversion F as [|? ? [Fb|St] _]; subst; [congruence|].
    destruct (St (child_env k e) m d) as [x Sx]. eexists. apply step_operand; eauto.
Qed.

Lemma inactive_progress t : active t = false ->
  final t = true \/ forall e m d, exists x, stp e m d t x.
Proof.
  induction t as [v|l|k args IH] using tm_induction; intro A; auto.
  apply inactive_args in A. apply node_progress; auto.
  clear - IH A. induction IH as [|a args Ha F IHF]; constructor; cbn in A;
    apply orb_false_iff in A as [A1 A2]; auto.
Qed.

Lemma tidy_progress t : tidy t -> final t = true \/ forall e m d, exists x, stp e m d t x.
Proof.
  induction 1 as [t A|k pre a post Ev Tu A B T IH]; [apply inactive_progress; exact A|].
  destruct IH as [F|St].
  - assert (In1 : forall l : list tm, existsb active l = false ->
      Forall (fun a => final a = true \/ forall e m d, exists x, stp e m d a x) l).
    { induction l as [|b l IH]; intro H; constructor; cbn in H; apply orb_false_iff in H as [H1 H2];
        auto. apply inactive_progress. exact H1. }
    apply node_progress.
    + apply existsb_middle; auto. apply final_tidy; auto.
    + apply Forall_app. split; auto.
  - right. intros e m d. destruct (St (child_env k e) m d) as [x Sx].
    eexists. apply step_operand; eauto.
Qed.

(** * Preservation *)

Lemma inactive_accessed p a t : active t = false -> active (snd (accessed L c p a t)) = false.
Proof.
  intro A. unfold accessed.
  destruct (declared c p) as [[[| |] T|[| |] T]|], a, t as [v|l|[] [|b [|]]]; cbn in *; auto;
    rewrite orb_false_r in A; auto.
Qed.
Lemma inactive_argument args i : existsb active args = false -> active (argument (L:=L) args i) = false.
Proof.
  revert i. induction args as [|a args IH]; intros [|i] A; cbn in *; auto;
    apply orb_false_iff in A as [A1 A2]; auto. apply IH. exact A2.
Qed.
Lemma inactive_body f args r : existsb active args = false ->
  active (mutator_body L c f args r) = false.
Proof.
  intro A. unfold mutator_body. destruct (active _) eqn:H; auto. exfalso.
  apply active_returned in H; try exact (fun _ => None).
  apply active_expression in H as [H|H]; try exact (fun _ => None);
    rewrite inactive_accessed in H; try discriminate; apply inactive_argument; exact A.
Qed.
Lemma inactive_call_mutator f id args d d' t : existsb active args = false ->
  call_mutator L R c f id args d = Some (d', t) -> active t = false.
Proof.
  intros A. unfold call_mutator. destruct (tested R f id d) as [[d1 [r|]]|]; [| |discriminate].
  - intro Q. injection Q as <- <-. apply inactive_body. exact A.
  - destruct (recorded_call R f id d1); [|discriminate]. intro Q. injection Q as <- <-.
    apply inactive_body. exact A.
Qed.

Lemma inactive_sequence l : existsb active l = false -> active (sequence (L:=L) l) = false.
Proof.
  induction l as [|a l IH]; cbn; auto. intro A. apply orb_false_iff in A as [A1 A2].
  rewrite A1. cbn. rewrite IH; auto.
Qed.
Lemma inactive_from_label p labels : forall l l',
  existsb active l = false -> from_label L p labels l = Some l' -> existsb active l' = false.
Proof.
  induction labels as [|ls labels IH]; intros [|a l] l' A; cbn; try discriminate.
  destruct (has_label p ls).
  - intro Q. injection Q as <-. exact A.
  - cbn in A. apply orb_false_iff in A as [A1 A2]. apply IH. exact A2.
Qed.
Lemma inactive_switch labels v l :
  existsb active l = false -> existsb active (switch_body L labels v l) = false.
Proof.
  intro A. unfold switch_body.
  destruct (from_label _ _ labels l) eqn:Q; [eapply inactive_from_label; eauto|].
  destruct (from_label L (fun x => match x with None => true | _ => false end) labels l) eqn:Q2;
    [eapply inactive_from_label; eauto|]. reflexivity.
Qed.

Ltac crunch H A :=
  repeat match type of H with
  | (match ?x with _ => _ end) = _ => destruct x eqn:?; try discriminate H
  end;
  try (injection H as <- <- <-); cbn in *;
  repeat (apply orb_false_iff in A as [? A]); subst;
  repeat match goal with
  | H : _ || _ = false |- _ => apply orb_false_iff in H as [? ?]
  | H : active _ = false |- _ => rewrite H
  | |- context [match ?b with _ => _ end] => destruct b; cbn
  end; auto.

Lemma head_tidy e m d k args m' d' t : existsb active args = false ->
  head L R c bodies e m d k args = Some (m', d', t) ->
  active t = false \/ exists e' s, t = N (KInCall e') [s] /\ active s = false.
Proof.
  intros A H.
  destruct k; try discriminate H; try (left; cbn in H; crunch H A; fail).
  - (* KCall *)
    cbn in H. destruct (forallb is_result args); [|discriminate].
    destruct (bodies f) as [s|] eqn:Bf.
    + destruct (enter L f (results args) m) as [[e1 m1]|]; [|discriminate]. injection H as <- <- <-.
      right. eauto.
    + destruct (library L f (results args) m) as [[v m1]|]; [|discriminate]. injection H as <- <- <-. auto.
  - (* KSwitch *)
    left. cbn in H. destruct args as [|[v|l|] ss]; try discriminate. injection H as <- <- <-.
    cbn in A. cbn. rewrite inactive_sequence; auto. apply inactive_switch. exact A.
  - (* KM *)
    left. cbn [head] in H. destruct (call_mutator L R c f id args d) as [[d1 t1]|] eqn:Q; [|discriminate].
    injection H as <- <- <-. eapply inactive_call_mutator; eauto.
Qed.

Lemma tidy_step e m d t x : stp e m d t x -> tidy t ->
  forall m' d' t', x = Some (m', d', t') -> tidy t'.
Proof.
  induction 1 as [e m d k args F Ev|e m d k pre a post x Ev T A1 A2 S IH]; intros Ti m' d' t' Q.
  - assert (A : existsb active args = false).
    { pose proof (tidy_args _ _ Ti) as Ta. remember (N k args) as n eqn:Qn.
      destruct Ti as [n A|k' pre a post Ev' Tu A B Ti].
      - subst n. eapply inactive_args. exact A.
      - injection Qn as -> <-. apply existsb_middle; auto. apply final_tidy; auto.
        apply (Ev (length pre)); auto. rewrite nth_error_app2, Nat.sub_diag; auto. }
    destruct (head_tidy _ _ _ _ _ _ _ _ A Q) as [I|(e' & s & -> & I)].
    + apply tidy_inactive. exact I.
    + apply (tidy_node (KInCall e') [] s []); auto; [destruct cpp17; reflexivity|]. apply tidy_inactive. exact I.
  - destruct x as [[[m1 d1] t1]|]; [|discriminate]. cbn in Q. injection Q as <- <- <-.
    apply tidy_node; auto. apply (IH) with (m' := m1) (d' := d1); auto.
    apply tidy_args in Ti. apply Forall_app in Ti as [_ Ti]. inversion Ti; auto.
Qed.

Lemma tidy_steps e x y : steps L R c bodies cpp17 e x y -> tidy (snd x) -> tidy (snd y).
Proof.
  induction 1 as [x|m d t [[m1 d1] t1] y St Ss IH]; auto. intro T. apply IH. cbn.
  eapply tidy_step; eauto.
Qed.

Lemma never_stuck_lemma d t : active t = false -> never_stuck L c cpp17 R bodies d t.
Proof.
  intros A e m m' d' t' St.
  destruct (tidy_progress t') as [F|P]; auto.
  apply (tidy_steps _ _ _ St). apply tidy_inactive. exact A.
Qed.
End Progress.

Lemma call_inactive (L : lang) g args : active (call L g args) = false.
Proof. cbn. induction args as [|[v|l] args IH]; cbn; auto. Qed.

Lemma mutated_inactive L c o p : forall id g s, well_formed_program L c p = true ->
  body_of L c (fst (mutate_program L c o p id)) g = Some s -> active s = false.
Proof.
  induction p as [|[f t] p IH]; intros id g s Wf; cbn; [discriminate|].
  cbn in Wf. apply andb_true_iff in Wf as [W1 W2].
  pose proof (inactive_mutate L c o t W1 id) as A.
  destruct (mutate L c o t id) as [t' i]. specialize (IH i g s W2).
  destruct (mutate_program L c o p i) as [p' j]. cbn in *.
  destruct (String.eqb g f); auto. intro Q. injection Q as <-. exact A.
Qed.

Lemma mutated_never_stuck L c o cpp17 R p d g args :
  well_formed_program L c p = true ->
  never_stuck L c cpp17 R (body_of L c (fst (mutate_program L c o p 0))) d (call L g args).
Proof.
  intro Wf. apply never_stuck_lemma; [|apply call_inactive].
  intros h s H. eapply mutated_inactive; eauto.
Qed.
