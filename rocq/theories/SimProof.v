(* The mutated program is simulated by the program that it is to behave like. *)
From Coq Require Import String List ZArith Bool Lia.
From Verif Require Import Base Clang Gen GenExpr GenBinary GenUnary GenStmt Mutation GenSpec
  Lang Cst SimSpec SimRel.
Import ListNotations.

(* Number of steps in which generated code does not contribute anything, at most. *)
Fixpoint weight {L} (t : tm L) : nat :=
  match t with
  | RV _ | RL _ => 1
  | N k args => list_sum (map weight args) + match k with KM _ _ => 20 | _ => 2 end
  end.
Definition weights {L} (l : list (tm L)) : nat := list_sum (map weight l).

Lemma weights_cons {L} (a : tm L) l : weights (a :: l) = weight a + weights l.
Proof. reflexivity. Qed.
Lemma weights_nil {L} : weights (@nil (tm L)) = 0.
Proof. reflexivity. Qed.
Lemma weight_n {L} (k : kind L) args :
  weight (N k args) = weights args + match k with KM _ _ => 20 | _ => 2 end.
Proof. reflexivity. Qed.
Lemma weights_app {L} (l l' : list (tm L)) : weights (l ++ l') = weights l + weights l'.
Proof. unfold weights. rewrite map_app, list_sum_app. reflexivity. Qed.

Section Sim.
Variable L : lang.
Variable c : ctx.
Variable R : runtime.      (* of the mutated program *)
Variable R' : runtime.     (* of the other program, which does not use it *)
Variable E : nat -> bool.
Variable num : limits.
Variable Inv : rt_state R -> Prop.
Hypothesis W : working R E num Inv.
Variable bt bs : string -> option (tm L).
Variable cpp17 : bool.

Notation tm := (tm L).
Notation step_t := (step L R c bt cpp17).
Notation step_s := (step L R' c bs cpp17).
Notation rel := (rel L c R' E num bs cpp17).
Notation arg := (arg L c R' E num bs cpp17).

Definition final_same := @final_same L c R' E num bs cpp17.
Definition typed_final := @typed_final L c R' E num bs cpp17.
Definition placed_final := @placed_final L c R' E num bs cpp17.
Definition active_rel := @active_rel L c R' E num bs cpp17.

(** * Harmless operands *)

Lemma weight_rvalue x : weight (rvalue (L:=L) x) <= weight (snd x) + 2.
Proof. destruct x as [[|] t]; cbn; lia. Qed.
Lemma weight_pos (t : tm) : 1 <= weight t.
Proof. destruct t as [v|l|k args]; [cbn; lia|cbn; lia|]. rewrite weight_n. destruct k; lia. Qed.
Lemma weight_lvalue x : weight (lvalue (L:=L) x) <= weight (snd x) + 1.
Proof. destruct x as [[|] t]; cbn; try lia. pose proof (weight_pos t). lia. Qed.
Lemma weight_unary_expression o x :
  weight (snd (unary_expression L c o x)) <= weight (snd x) + 4.
Proof.
  unfold unary_expression. destruct (is_incdec o); cbn [snd]; rewrite weight_n; rewrite ?weights_cons, ?weights_nil.
  - pose proof (weight_lvalue x). lia.
  - pose proof (weight_rvalue x). lia.
Qed.
Lemma weight_expression r x1 x2 :
  weight (snd (expression L c r x1 x2)) <= weight (snd x1) + weight (snd x2) + 6.
Proof.
  pose proof (weight_pos (snd x1)). pose proof (weight_pos (snd x2)).
  pose proof (weight_rvalue x1). pose proof (weight_rvalue x2). pose proof (weight_lvalue x1).
  destruct r as [| |o|o|o|o|l]; cbn [expression snd]; try lia.
  - pose proof (weight_unary_expression (as_prefix o) x1). lia.
  - destruct (is_incdec o); cbn [snd]; rewrite weight_n; rewrite ?weights_cons, ?weights_nil; lia.
  - pose proof (weight_unary_expression (as_prefix o) x1). lia.
  - destruct (is_logical o); [|destruct (is_assign o); [|destruct (bop_eqb o Comma)]];
      cbn [snd]; rewrite weight_n; rewrite ?weights_cons, ?weights_nil; lia.
  - cbn; lia.
Qed.
Lemma weight_accessed p a t : weight (snd (accessed L c p a t)) <= weight t + 2.
Proof.
  pose proof (weight_pos t).
  unfold accessed. destruct (declared c p) as [[[| |] T|[| |] T]|], a, t as [v|l|[] [|b [|]]];
    cbn; lia.
Qed.
Lemma weight_returned res x : weight (returned L c res x) <= weight (snd x) + 4.
Proof.
  pose proof (weight_rvalue x). pose proof (weight_lvalue x). pose proof (weight_pos (snd x)).
  unfold returned. destruct (declared c res) as [[[| |] T|]|]; rewrite ?weight_n;
    rewrite ?weights_cons, ?weights_nil; lia.
Qed.
Lemma weight_argument01 args :
  weight (argument (L:=L) args 0) + weight (argument args 1) <= weights args + 4.
Proof. destruct args as [|a [|b args]]; cbn; lia. Qed.
Lemma weight_mutator_body f args r :
  weight (mutator_body L c f args r) < weights args + 20.
Proof.
  unfold mutator_body.
  pose proof (weight_argument01 args).
  set (x1 := accessed L c (parameter f 0) _ _). set (x2 := accessed L c (parameter f 1) _ _).
  pose proof (weight_returned (mf_result f) (expression L c r x1 x2)).
  pose proof (weight_expression r x1 x2).
  assert (weight (snd x1) <= weight (argument args 0) + 2) by apply weight_accessed.
  assert (weight (snd x2) <= weight (argument args 1) + 2) by apply weight_accessed.
  lia.
Qed.

Notation calm := (calm L).
Lemma calm_rvalue x : calm (rvalue x) = calm (snd x).
Proof. destruct x as [[|] t]; cbn; auto. apply andb_true_r. Qed.
Lemma calm_lvalue x : calm (snd x) = true -> calm (lvalue x) = true.
Proof. destruct x as [[|] t]; cbn; auto. Qed.
Lemma calm_unary_expression o x :
  calm (snd x) = true -> calm (snd (unary_expression L c o x)) = true.
Proof.
  intro C. unfold unary_expression. destruct (is_incdec o); cbn; rewrite andb_true_r.
  - apply calm_lvalue. exact C.
  - rewrite calm_rvalue. exact C.
Qed.
Lemma calm_expression r x1 x2 :
  calm (snd x1) = true -> calm (snd x2) = true -> calm (snd (expression L c r x1 x2)) = true.
Proof.
  intros C1 C2. pose proof (calm_lvalue x1 C1).
  destruct r as [| |o|o|o|o|l]; cbn [expression snd]; auto using calm_unary_expression.
  - destruct (is_incdec o); cbn; auto. rewrite andb_true_r. auto.
  - destruct (is_logical o); [|destruct (is_assign o); [|destruct (bop_eqb o Comma)]];
      cbn; rewrite ?calm_rvalue, ?C1, ?C2, ?H; auto.
Qed.
Lemma calm_accessed p a t : calm t = true -> calm (snd (accessed L c p a t)) = true.
Proof.
  intro C. unfold accessed.
  destruct (declared c p) as [[[| |] T|[| |] T]|], a, t as [v|l|[] [|b [|]]]; cbn in *; auto;
    rewrite andb_true_r in C; auto.
Qed.
Lemma calm_returned res x : calm (snd x) = true -> calm (returned L c res x) = true.
Proof.
  intro C. unfold returned. destruct (declared c res) as [[[| |] T|]|]; cbn; auto.
  - rewrite calm_rvalue, C. reflexivity.
  - apply calm_lvalue. exact C.
Qed.
Lemma calm_argument args i : forallb calm args = true -> calm (argument args i) = true.
Proof.
  revert i. induction args as [|a args IH]; intros [|i] C; cbn in *; auto;
    apply andb_true_iff in C as [C1 C2]; auto. apply IH. exact C2.
Qed.
Lemma calm_mutator_body f args r :
  forallb calm args = true -> calm (mutator_body L c f args r) = true.
Proof.
  intro C. unfold mutator_body. apply calm_returned, calm_expression;
    apply calm_accessed, calm_argument, C.
Qed.

Lemma calm_step bodies e m d t x :
  step L R c bodies cpp17 e m d t x -> calm t = true ->
  match x with None => True | Some (_, _, t') => calm t' = true /\ weight t' < weight t end.
Proof.
  induction 1 as [e m d k args F Fin|e m d k pre a post x Ev Tn A1 A2 S IH]; intro C.
  - cbn in C. apply andb_true_iff in C as [K C].
    destruct (head L R c bodies e m d k args) as [[[m' d'] t']|] eqn:H; auto.
    assert (Wt : forall a, In a args -> calm a = true /\ weight a <= weights args).
    { intros a Ia. split; [rewrite forallb_forall in C; auto|].
      clear - Ia. induction args as [|b args IH]; [destruct Ia|]. rewrite weights_cons.
      destruct Ia as [->|Ia]; [lia|]. specialize (IH Ia). lia. }
    rewrite weight_n.
    destruct k; try discriminate K.
    all: try (cbn in H; discriminate H).
    all: try (cbn in H;
      repeat match type of H with
             | context [match ?x with _ => _ end] => destruct x eqn:?; try discriminate
             end;
      try (injection H as <- <- <-);
      subst; cbn; split; try reflexivity; cbn in C |- *; lia).
    + (* KLogic *)
      cbn in H.
      destruct args as [|[v|l|] [|b [|]]]; try discriminate.
      destruct (Bool.eqb _ _); injection H as <- <- <-; cbn in *; split; auto; lia.
    + (* KCond *)
      cbn in H.
      destruct args as [|[v|l|] [|b [|b' [|]]]]; try discriminate.
      injection H as <- <- <-. cbn in C.
      apply andb_true_iff in C as [C1 C2]. apply andb_true_iff in C2 as [C2 _].
      destruct (truth L v); split; auto; cbn; pose proof (weight_pos b);
        pose proof (weight_pos b'); lia.
    + (* KComma *)
      cbn in H.
      destruct args as [|a [|b [|]]]; try discriminate.
      destruct (is_result a); try discriminate. injection H as <- <- <-.
      cbn in C. apply andb_true_iff in C as [C1 C2]. rewrite andb_true_r in C2.
      split; auto. cbn. lia.
    + (* KM *)
      cbn [head] in H.
      destruct (call_mutator L R c f id args d) as [[d1 t1]|] eqn:Cm; try discriminate.
      injection H as <- <- <-.
      assert (exists r, t1 = mutator_body L c f args r) as [r ->].
      { unfold call_mutator in Cm. destruct (tested R f id d) as [[d2 [r|]]|]; try discriminate.
        - injection Cm as _ <-. eauto.
        - destruct (recorded_call R f id d2); try discriminate. injection Cm as _ <-. eauto. }
      split; [apply calm_mutator_body; exact C|apply weight_mutator_body].
  - destruct x as [[[m' d'] t']|]; cbn [put]; auto.
    cbn in C. apply andb_true_iff in C as [K C]. rewrite forallb_app in C. cbn in C.
    apply andb_true_iff in C as [C1 C]. apply andb_true_iff in C as [C2 C3].
    destruct (IH C2) as [C4 Wt]. split.
    + cbn. rewrite forallb_app. cbn. rewrite K, C1, C3, C4. reflexivity.
    + rewrite !weight_n, !weights_app, !weights_cons. lia.
Qed.

(** * One construct *)

Definition same_bodies : Prop := forall f,
  match bt f, bs f with
  | Some t, Some s => rel Same t s
  | None, None => True
  | _, _ => False
  end.
Hypothesis B : same_bodies.

Lemma rel_results ts ss : Forall2 (rel Same) ts ss ->
  Forall (fun t => final t = true) ts -> ss = ts.
Proof.
  induction 1 as [|t s ts ss Hr F IH]; intro Fin; auto. inversion Fin; subst.
  f_equal; auto. eapply final_same; eauto.
Qed.

Lemma rel_skip : rel Same skip skip.
Proof. apply rel_n; auto. Qed.

Lemma rel_sequence ts ss : Forall2 (rel Same) ts ss ->
  rel Same (sequence ts) (sequence ss).
Proof.
  induction 1; cbn; [apply rel_skip|]. apply rel_n; auto.
Qed.

Lemma rel_from_label p labels ts ss : Forall2 (rel Same) ts ss ->
  match from_label L p labels ts, from_label L p labels ss with
  | Some ts, Some ss => Forall2 (rel Same) ts ss
  | None, None => True
  | _, _ => False
  end.
Proof.
  intro F. revert labels. induction F as [|t s ts ss Hr F IH]; intros [|l labels]; cbn; auto.
  destruct (has_label p l); [constructor; auto|]. apply IH.
Qed.
Lemma rel_switch_body labels v ts ss : Forall2 (rel Same) ts ss ->
  Forall2 (rel Same) (switch_body L labels v ts) (switch_body L labels v ss).
Proof.
  intro F. unfold switch_body.
  set (p := fun x => match x with Some z => label_matches L z v | None => false end).
  set (q := fun x : option Z => match x with Some _ => false | None => true end).
  pose proof (rel_from_label p labels ts ss F) as H1.
  pose proof (rel_from_label q labels ts ss F) as H2.
  destruct (from_label L p labels ts), (from_label L p labels ss); try tauto.
  destruct (from_label L q labels ts), (from_label L q labels ss); try tauto. constructor.
Qed.

Lemma rel_refl_result t : is_result t = true -> rel Same t t.
Proof. destruct t; try discriminate; constructor. Qed.
(* First components of the outcomes agree and the terms are related. *)
Definition same_outcome (d : rt_state R) (d0 : rt_state R') (x : outcome L R) (y : outcome L R')
  : Prop :=
  match x, y with
  | None, None => True
  | Some (m, d', t), Some (m', d0', s) => m = m' /\ d' = d /\ d0' = d0 /\ rel Same t s
  | _, _ => False
  end.

Ltac split_F2 :=
  repeat match goal with
         | H : Forall2 _ (_ :: _) _ |- _ => inversion H; subst; clear H
         | H : Forall2 _ [] _ |- _ => inversion H; subst; clear H
         end.

Lemma all_final k ts ss :
  (forall i, evaluated (L:=L) k i = true) ->
  (forall i a, nth_error ts i = Some a -> evaluated k i = true -> final a = true) ->
  Forall2 (rel Same) ts ss -> ss = ts.
Proof.
  intros Ev Fin F. eapply rel_results; eauto. apply Forall_forall. intros t I.
  apply In_nth_error in I as [i I]. eauto.
Qed.
Lemma first_final k t ts s :
  evaluated (L:=L) k 0 = true ->
  (forall i a, nth_error (t :: ts) i = Some a -> evaluated k i = true -> final a = true) ->
  rel Same t s -> s = t.
Proof. intros Ev Fin Hr. eapply final_same; eauto. apply (Fin 0); auto. Qed.

Ltac all_same :=
  match goal with
  | F : Forall2 (rel Same) ?ts ?ss, Fin : forall i a, _ -> evaluated ?k i = true -> _ |- _ =>
      let Q := fresh in
      assert (Q : ss = ts) by (apply (all_final k); auto); subst ss
  end.
Ltac first_same :=
  match goal with
  | H : rel Same ?t ?s, Fin : forall i a, nth_error (?t :: _) i = Some a -> evaluated ?k i = true -> _ |- _ =>
      let Q := fresh in
      assert (Q : s = t) by (exact (first_final k t _ s eq_refl Fin H)); subst s
  end.
Ltac crunch :=
  repeat match goal with
         | |- context [match ?x with _ => _ end] => destruct x eqn:?
         end; cbn; auto; repeat split; auto; try constructor.

Lemma head_rel e m d d0 k ts ss :
  relatable L k = true -> Forall2 (rel Same) ts ss ->
  (forall i a, nth_error ts i = Some a -> evaluated k i = true -> final a = true) ->
  same_outcome d d0 (head L R c bt e m d k ts) (head L R' c bs e m d0 k ss).
Proof.
  intros Rk F Fin.
  destruct k; try discriminate Rk; cbn [head].
  - (* KVar *) inversion F; subst; crunch.
  - all_same. crunch.
  - all_same. crunch.
  - all_same. crunch.
  - all_same. crunch.
  - all_same. crunch.
  - all_same. crunch.
  - all_same. crunch.
  - all_same. crunch.
  - all_same. crunch.
  - (* KLogic *)
    inversion F as [|t s ts' ss' Hr F']; subst; [exact I|]. first_same.
    destruct t; try exact I. inversion F' as [|t1 s1 ts1 ss1 Hr1 F1]; subst; [exact I|].
    inversion F1; subst; [|exact I]. crunch; auto.
  - all_same. crunch.
  - all_same. crunch.
  - (* KCond *)
    inversion F as [|t s ts' ss' Hr F']; subst; [exact I|]. first_same.
    destruct t; try exact I. inversion F' as [|t1 s1 ts1 ss1 Hr1 F1]; subst; [exact I|].
    inversion F1 as [|t2 s2 ts2 ss2 Hr2 F2]; subst; [exact I|].
    inversion F2; subst; [|exact I]. crunch.
  - (* KComma *)
    inversion F as [|t s ts' ss' Hr F']; subst; [exact I|]. first_same.
    inversion F' as [|t1 s1 ts1 ss1 Hr1 F1]; subst; [exact I|].
    inversion F1; subst; [|exact I]. crunch.
  - (* KFirst *)
    all_same. destruct ts as [|a ts]; [exact I|]. destruct (forallb is_result (a :: ts)); [|exact I].
    inversion F; subst. cbn. repeat split; auto.
  - (* KCall *)
    all_same. destruct (forallb is_result ts); [|exact I].
    pose proof (B f) as Bf. destruct (bt f), (bs f); try tauto.
    + destruct (enter L f (results ts) m) as [[e' m']|]; cbn; auto. repeat split; auto.
      apply rel_n; auto.
    + destruct (library L f (results ts) m) as [[v m']|]; cbn; auto. repeat split; auto.
      constructor.
  - (* KInCall *)
    all_same. destruct ts as [|t [|]]; try exact I.
    + destruct t as [v|l|[] []]; cbn; auto; repeat split; auto; try constructor.
      destruct l; cbn; auto. repeat split; auto.
      inversion F as [|? ? ? ? Hr]; subst. clear F. inversion Hr; subst.
      match goal with H : Forall2 _ [_] [_] |- _ => inversion H; subst; auto end.
    + destruct t as [v|l0|[] [|? []]]; exact I.
  - (* KSkip *) inversion F; exact I.
  - (* KExpr *) all_same. crunch; auto.
  - (* KSeq *)
    inversion F as [|t s ts' ss' Hr F']; subst; [exact I|]. first_same.
    inversion F' as [|t1 s1 ts1 ss1 Hr1 F1]; subst; [destruct t as [| |[] []]; exact I|].
    inversion F1; subst; destruct t as [| |[] []]; try exact I; cbn; auto 10.
  - (* KIf *)
    inversion F as [|t s ts' ss' Hr F']; subst; [exact I|]. first_same.
    destruct t; try exact I. inversion F' as [|t1 s1 ts1 ss1 Hr1 F1]; subst; [exact I|].
    inversion F1 as [|t2 s2 ts2 ss2 Hr2 F2]; subst; [exact I|].
    inversion F2; subst; [|exact I]. crunch.
  - (* KWhile *)
    inversion F as [|t s ts' ss' Hr F']; subst; [exact I|].
    inversion F' as [|t1 s1 ts1 ss1 Hr1 F1]; subst; [exact I|].
    inversion F1; subst; [|exact I]. cbn. repeat split; auto.
    apply rel_n; auto. repeat constructor; auto.
  - (* KDo *)
    inversion F as [|t s ts' ss' Hr F']; subst; [exact I|].
    inversion F' as [|t1 s1 ts1 ss1 Hr1 F1]; subst; [exact I|].
    inversion F1; subst; [|exact I]. cbn. repeat split; auto.
    repeat constructor; auto.
  - (* KFor *)
    inversion F as [|t s ts' ss' Hr F']; subst; [exact I|].
    inversion F' as [|t1 s1 ts1 ss1 Hr1 F1]; subst; [exact I|].
    inversion F1 as [|t2 s2 ts2 ss2 Hr2 F2]; subst; [exact I|].
    inversion F2; subst; [|exact I]. cbn. repeat split; auto.
    repeat constructor; auto.
  - (* KLoop *)
    inversion F as [|t s ts' ss' Hr F']; subst; [exact I|]. first_same.
    inversion F' as [|t1 s1 ts1 ss1 Hr1 F1]; subst; [destruct t as [| |[] []]; exact I|].
    inversion F1; subst; destruct t as [| |[] []]; try exact I; cbn; auto 10 using rel_skip.
  - (* KSwitch *)
    inversion F as [|t s ts' ss' Hr F']; subst; [exact I|]. first_same.
    destruct t; try exact I. cbn. repeat split; auto. apply rel_n; auto.
    constructor; auto. apply rel_sequence, rel_switch_body. exact F'.
  - (* KSwitched *)
    all_same. destruct ts as [|t [|]]; try exact I.
    + inversion F; subst. destruct t as [v|l|[] []]; cbn; auto 10 using rel_skip.
    + destruct t as [v|l0|[] []]; exact I.
  - inversion F; exact I.
  - inversion F; exact I.
  - inversion F; exact I.
  - inversion F; exact I.
Qed.

(** * Calls of generated functions *)

Lemma rel_wrong : rel Same (N KWrong []) (N KWrong []).
Proof. apply rel_n; auto. Qed.

Definition rel_operand (x y : operand L) : Prop := fst x = fst y /\ rel Same (snd x) (snd y).
Lemma rel_rvalue x y : rel_operand x y -> rel Same (rvalue x) (rvalue y).
Proof.
  destruct x as [lx tx], y as [ly ty]. intros [Q H]. cbn in *. subst ly.
  destruct lx; cbn; auto. apply rel_n; auto.
Qed.
Lemma rel_lvalue x y : rel_operand x y -> rel Same (lvalue x) (lvalue y).
Proof.
  destruct x as [lx tx], y as [ly ty]. intros [Q H]. cbn in *. subst ly.
  destruct lx; cbn; auto. apply rel_wrong.
Qed.
Lemma rel_unary_expression o x y : rel_operand x y ->
  rel_operand (unary_expression L c o x) (unary_expression L c o y).
Proof.
  intro H. unfold unary_expression. destruct (is_incdec o); split; cbn; auto; apply rel_n; auto.
  - constructor; auto. apply rel_lvalue. exact H.
  - constructor; auto. apply rel_rvalue. exact H.
Qed.
Lemma rel_expression r x1 x2 y1 y2 : rel_operand x1 y1 -> rel_operand x2 y2 ->
  rel_operand (expression L c r x1 x2) (expression L c r y1 y2).
Proof.
  intros H1 H2. pose proof (rel_rvalue _ _ H1). pose proof (rel_rvalue _ _ H2).
  pose proof (rel_lvalue _ _ H1).
  destruct r as [| |o|o|o|o|l]; cbn [expression]; auto using rel_unary_expression.
  - destruct (is_incdec o); split; cbn; auto using rel_wrong. apply rel_n; auto.
  - destruct (is_logical o); [|destruct (is_assign o); [|destruct (bop_eqb o Comma)]];
      split; cbn; auto using rel_wrong; apply rel_n; auto.
  - split; cbn; auto. constructor.
Qed.
Lemma rel_returned res x y : rel_operand x y ->
  rel Same (returned L c res x) (returned L c res y).
Proof.
  intro H. unfold returned. destruct (declared c res) as [[[| |] T|]|]; auto using rel_wrong.
  - apply rel_n; auto. constructor; auto. apply rel_rvalue. exact H.
  - apply rel_lvalue. exact H.
Qed.
Lemma rel_no_operand : rel_operand no_operand no_operand.
Proof. split; auto. apply rel_wrong. Qed.

Lemma arg_accessed p a u t x : arg p a u t x -> final t = true ->
  rel_operand (accessed L c p a t) x.
Proof.
  intros Ha F. inversion Ha as [p' T u' t' s D Ty Hr _|p' T u' t' s D Pl Hr _
    |p' T u' t' s D Hr _|p' T u' w t' s D Hr _|p' T u' w t' s D Hr _]; subst; unfold accessed;
    rewrite D.
  - destruct (typed_final _ _ _ Ty Hr F) as (v & -> & -> & _).
    split; auto.
  - destruct (placed_final _ _ Pl Hr F) as (l & -> & ->). split; auto.
  - inversion Hr; subst; [discriminate|]. split; auto. constructor.
  - split; auto.
  - split; auto.
Qed.

Lemma declared_empty : declared c "" = None.
Proof. destruct c as [[] [] a b]; reflexivity. Qed.

Lemma unit_body f T v r : unit_fun c f T ->
  mutator_body L c f [RV v] r = N (KAt T) [rvalue (expression L c r (false, RV v) no_operand)].
Proof.
  intros (p & P & D & Dr & A). unfold mutator_body, returned, parameter. rewrite P, Dr, A. cbn.
  unfold accessed. rewrite D, declared_empty. reflexivity.
Qed.

Lemma unused1 r lv a a' x2 : uses1 r = false ->
  expression L c r (lv, a) x2 = expression L c r (lv, a') x2.
Proof. destruct r; try discriminate; reflexivity. Qed.
Lemma unused2 r lv a a' x1 : uses2 r = false ->
  (forall o, r = RBin o -> is_logical o = false) ->
  expression L c r x1 (lv, a) = expression L c r x1 (lv, a').
Proof.
  intros U NL. destruct r as [| |o|o|o|o|l]; try discriminate; try reflexivity.
  cbn in U. rewrite (NL o eq_refl) in U. discriminate.
Qed.

(** * Simulation *)

Definition simulated g e m (d0 : rt_state R') (t s : tm) (x : outcome L R) : Prop :=
  match x with
  | None => step_s e m d0 s None
  | Some (m', d', t') =>
      Inv d' /\
      ((exists s', step_s e m d0 s (Some (m', d0, s')) /\ rel g t' s') \/
       (m' = m /\ rel g t' s /\ weight t' < weight t))
  end.

(* An operand of a call. *)
Definition arg_simulated p a u e m (d0 : rt_state R') (t : tm) (y : operand L) (x : outcome L R)
  : Prop :=
  match x with
  | None => u = true /\ step_s e m d0 (snd y) None
  | Some (m', d', t') =>
      Inv d' /\
      ((u = true /\ exists s', step_s e m d0 (snd y) (Some (m', d0, s')) /\
                               arg p a u t' (fst y, s')) \/
       (m' = m /\ weight t' < weight t /\ a <> ALam /\
        exists s', (u = true -> s' = snd y) /\ arg p a u t' (fst y, s')))
  end.

Lemma no_step_rv {Rt} bodies e m d v x : ~ step L Rt c bodies cpp17 e m d (RV v) x.
Proof. intro S. inversion S. Qed.
Lemma no_step_rl {Rt} bodies e m d l x : ~ step L Rt c bodies cpp17 e m d (RL l) x.
Proof. intro S. inversion S. Qed.

Lemma ptr_step s t e m d m' d' s' :
  rel Ptr t s -> step_s e m d s (Some (m', d', s')) -> placed L s'.
Proof.
  intros Hr S. inversion Hr; subst; [|inversion S].
  eapply placed_step; eauto. left. eauto.
Qed.

Lemma arg_step p a u e m d d0 t y x :
  (forall g s, rel g t s -> simulated g e m d0 t s x) ->
  step_t e m d t x -> arg p a u t y -> arg_simulated p a u e m d0 t y x.
Proof.
  intros IH S Ha.
  assert (Main : forall lv s g, rel g t s -> y = (lv, s) -> a <> ALam ->
    u = true \/ (calm t = true /\ harmless L c R' bs cpp17 s) ->
    (forall t' s', rel g t' s' ->
       u = true \/ (calm t' = true /\ harmless L c R' bs cpp17 s') ->
       (s' = s \/ exists m m' d d', step_s e m d s (Some (m', d', s'))) ->
       arg p a u t' (lv, s')) ->
    arg_simulated p a u e m d0 t y x).
  { intros lv s g Hr -> NL U Build. specialize (IH g s Hr). destruct x as [[[m' d'] t']|]; cbn in *.
    - destruct IH as [I [(s' & St & Hr')|(Q & Hr' & Wt)]]; split; auto.
      + destruct U as [->|[C H]].
        * left. split; auto. exists s'. split; auto. apply Build; auto. right. eauto 8.
        * destruct (calm_step _ _ _ _ _ _ S C) as [C' Wt].
          destruct H as [H]. destruct (H _ _ _ _ St) as (d1 & s1 & Q & H1).
          injection Q as -> -> ->. destruct u eqn:Uu.
          -- left. split; auto. exists s1. split; auto. apply Build; auto. right. eauto 8.
          -- right. repeat split; auto. exists s1. split; [discriminate|].
             apply Build; auto. right. eauto 8.
      + right. repeat split; auto. exists s. split; auto. apply Build; auto.
        destruct U as [U|[C H]]; auto. right. split; auto.
        destruct (calm_step _ _ _ _ _ _ S C) as [C' _]. exact C'.
    - destruct U as [->|[C H]]; auto. destruct H as [H].
      destruct (H _ _ _ _ IH) as (d1 & s1 & Q & H1). discriminate. }
  inversion Ha as [p' T u' t' s D Ty Hr U|p' T u' t' s D Pl Hr U
    |p' T u' t' s D Hr U|p' T u' w t' s D Hr _|p' T u' w t' s D Hr _]; subst.
  - apply (Main false s Same); auto; [discriminate|]. intros t' s' Hr' U' Q.
    eapply arg_val; eauto. destruct Q as [->|(? & ? & ? & ? & Q)]; auto.
    eapply typed_step; eauto.
  - apply (Main true s Same); auto; [discriminate|]. intros t' s' Hr' U' Q.
    eapply arg_ref; eauto. destruct Q as [->|(? & ? & ? & ? & Q)]; auto.
    eapply placed_step; eauto.
  - apply (Main true s Ptr); auto; [discriminate|]. intros t' s' Hr' U' Q.
    eapply arg_ptr; eauto.
  - inversion S; subst; discriminate.
  - inversion S; subst; discriminate.
Qed.

Lemma single_split {A} (pre post : list A) a t :
  pre ++ a :: post = [t] -> pre = [] /\ a = t /\ post = [].
Proof.
  destruct pre as [|b [|]]; cbn; intro H; try discriminate. injection H as -> ->. auto.
Qed.
Lemma double_split {A} (pre post : list A) a t1 t2 :
  pre ++ a :: post = [t1; t2] ->
  (pre = [] /\ a = t1 /\ post = [t2]) \/ (pre = [t1] /\ a = t2 /\ post = []).
Proof.
  destruct pre as [|b [|b' [|]]]; cbn; intro H; try discriminate; injection H as -> ->; auto.
Qed.

Lemma final_transfer k ts ss :
  Forall2 (rel Same) ts ss ->
  (forall i a, nth_error ts i = Some a -> evaluated k i = true -> final a = true) ->
  final (N k ts) = false -> final (N k ss) = false.
Proof.
  intros F Fin NF. destruct (final (N k ss)) eqn:Fs; auto. exfalso.
  destruct k; try discriminate; cbn in *.
  - destruct ss; try discriminate. inversion F; subst. discriminate.
  - destruct ss; try discriminate. inversion F; subst. discriminate.
  - destruct ss; try discriminate. inversion F; subst. discriminate.
  - destruct ss as [|s [|]]; try discriminate; inversion F as [|t s' ts' ss' Hr F']; subst;
      try discriminate. inversion F'; subst.
    pose proof (final_same _ _ Hr (Fin 0 t eq_refl eq_refl)) as Q. congruence.
Qed.

Lemma final_transfer_args k ts ss :
  Forall2 (rel Same) ts ss ->
  (forall i a, nth_error ts i = Some a -> evaluated (L:=L) k i = true -> final a = true) ->
  forall i a, nth_error ss i = Some a -> evaluated k i = true -> final a = true.
Proof.
  intros F Fin i s Ns Ev.
  assert (exists t, nth_error ts i = Some t /\ rel Same t s) as (t & Nt & Hr).
  { clear Fin Ev. revert i Ns. induction F as [|t0 s0 ts ss H F IHF]; intros [|i] Ns;
      try discriminate; cbn in *.
    - injection Ns as <-. eauto.
    - auto. }
  pose proof (Fin i t Nt Ev) as Ft.
  rewrite (final_same _ _ Hr Ft). exact Ft.
Qed.

Lemma existsb_active_rel ts ss : Forall2 (rel Same) ts ss ->
  existsb active ts = false -> existsb active ss = false.
Proof.
  induction 1 as [|t s ts ss Hr F IH]; auto. cbn. intro A. apply orb_false_iff in A as [A1 A2].
  rewrite IH; auto. destruct (active s) eqn:As; auto.
  rewrite (active_rel _ _ _ Hr As) in A1. discriminate.
Qed.

Lemma const_final T b t s : rel (Const T b) t s -> final t = true ->
  exists w, t = RV w /\ settled L T w /\ truth L w = b.
Proof. intros Hr F. inversion Hr; subst; try discriminate. eauto. Qed.
Lemma neg_final T t s : rel (Neg T) t s -> final t = true ->
  exists w v, t = RV w /\ s = RV v /\ settled L T w /\ truth L w = negb (truth L v).
Proof. intros Hr F. inversion Hr; subst; try discriminate. eauto 6. Qed.
Lemma opp_final T t s : rel (Opp T) t s -> final t = true ->
  exists w b, t = RV w /\ s = RV (boolean L b) /\ settled L T w /\ truth L w = negb b.
Proof. intros Hr F. inversion Hr; subst; try discriminate. eauto 6. Qed.

(* Operands that are evaluated but not needed *)
Lemma arg_result p a u t x : arg p a u t x -> final t = true -> a <> ALam ->
  is_result (snd x) = true.
Proof.
  intros Ha F Nl. inversion Ha as [p' T u' t' s D Ty Hr _|p' T u' t' s D Pl Hr _
    |p' T u' t' s D Hr _|p' T u' w t' s D Hr _|p' T u' w t' s D Hr _]; subst; cbn [snd];
    try congruence.
  - destruct (typed_final _ _ _ Ty Hr F) as (v & -> & -> & _). reflexivity.
  - destruct (placed_final _ _ Pl Hr F) as (l & -> & ->). reflexivity.
  - inversion Hr; subst; [discriminate|reflexivity].
Qed.
Lemma result_final (t : tm) : is_result t = true -> final t = true.
Proof. destruct t; auto; discriminate. Qed.

Lemma step_value e m d0 res lv a y :
  match declared c res with
  | Some (Direct ByValue _) => True
  | Some (Direct ByReference _) => lv = true
  | _ => False
  end ->
  step_s e m d0 a y ->
  step_s e m d0 (returned L c res (lv, a)) (put L R' y (fun a => returned L c res (lv, a))).
Proof.
  intros D S. apply (step_returned L c R' bs bs cpp17 bs e m d0 res (fun a => (lv, a)) a y); auto.
  cbn [snd]. replace (put L R' y (fun a => a)) with y; auto.
  destruct y as [[[? ?] ?]|]; reflexivity.
Qed.

Lemma step_rest_done e m d0 delayed x rest :
  is_result (snd rest) = true -> (delayed = false -> is_result (snd x) = true) ->
  step_s e m d0 (snd (with_rest L delayed x rest)) (Some (m, d0, snd x)).
Proof.
  intros Re Rx. unfold with_rest. destruct delayed; cbn [snd].
  - assert (Q : Some (m, d0, snd x) = head L R' c bs e m d0 KComma [snd rest; snd x])
      by (cbn; rewrite Re; reflexivity).
    rewrite Q. apply step_head; [reflexivity|]. intros [|[|[|]]] a H Ev; try discriminate.
    injection H as <-. apply result_final. exact Re.
  - assert (Q : Some (m, d0, snd x) = head L R' c bs e m d0 KFirst [snd x; snd rest])
      by (cbn; rewrite Re, Rx; reflexivity).
    rewrite Q. apply step_head; [reflexivity|]. intros [|[|[|]]] a H Ev; try discriminate;
      injection H as <-; apply result_final; auto.
Qed.
Lemma turn_comma pre post : its_turn (L:=L) cpp17 KComma pre post = true.
Proof. unfold its_turn. destruct cpp17; reflexivity. Qed.
Lemma turn_either pre post : its_turn (L:=L) cpp17 KFirst pre post = true.
Proof. unfold its_turn. destruct cpp17; reflexivity. Qed.
Lemma step_rest e m d0 delayed x lv a y :
  active (snd x) = false -> step_s e m d0 a y ->
  step_s e m d0 (snd (with_rest L delayed x (lv, a)))
    (put L R' y (fun a => snd (with_rest L delayed x (lv, a)))).
Proof.
  intros A S. unfold with_rest. destruct delayed; cbn [snd].
  - apply step_first; auto; [discriminate|apply turn_comma].
  - apply step_second; auto; [discriminate|apply turn_either].
Qed.
Lemma step_needed e m d0 lv a rest y :
  active (snd rest) = false -> step_s e m d0 a y ->
  step_s e m d0 (snd (with_rest L false (lv, a) rest))
    (put L R' y (fun a => snd (with_rest L false (lv, a) rest))).
Proof.
  intros A S. unfold with_rest. cbn [snd].
  apply step_first; auto; [discriminate|apply turn_either].
Qed.

Lemma arg_lift p a e m d0 t y x (F G : tm -> tm) :
  arg_simulated p a true e m d0 t y x ->
  (forall z, step_s e m d0 (snd y) z -> step_s e m d0 (G (snd y)) (put L R' z G)) ->
  (forall t' s', arg p a true t' (fst y, s') -> rel Same (F t') (G s')) ->
  (forall t', weight t' < weight t -> weight (F t') < weight (F t)) ->
  simulated Same e m d0 (F t) (G (snd y)) (put L R x F).
Proof.
  intros Si St Re We. destruct x as [[[m' d'] t']|]; cbn in *.
  - destruct Si as [I [(_ & s' & S & Ha)|(Q & Wt & _ & s' & Qs & Ha)]]; (split; [exact I|]).
    + left. exists (G s'). split; [exact (St _ S)|auto].
    + right. rewrite <- (Qs eq_refl). auto.
  - exact (St _ (proj2 Si)).
Qed.

Lemma fits_declared res r (b : bool) lv1 lv2 :
  fits L c res r lv1 lv2 = true ->
  b = fst (expression L c r (lv1, skip) (lv2, skip)) ->
  match declared c res with
  | Some (Direct ByValue _) => True
  | Some (Direct ByReference _) => b = true
  | _ => False
  end.
Proof.
  unfold fits. intros Fi Q. apply andb_true_iff in Fi as [_ Fi].
  destruct (declared c res) as [[[| |] T|]|]; auto; try discriminate; rewrite Q; exact Fi.
Qed.

Lemma head_case e m d d0 k ts g s :
  Inv d -> final (N k ts) = false ->
  (forall i a, nth_error ts i = Some a -> evaluated k i = true -> final a = true) ->
  rel g (N k ts) s ->
  simulated g e m d0 (N k ts) s (head L R c bt e m d k ts).
Proof.
  intros Id NF Fin Hr. remember (N k ts) as t eqn:Qt.
  destruct Hr as [v|l|k' ts' ss Rk F|T t s Ty Hr|l|f id T t s U Ch Ok Ty Hr
    |f id p t x r P Ch Ok Fi U2 Ha|f id p1 p2 t1 t2 x1 x2 r P Ch Ok Fi La Io Ha1 Ha2
    |f id p t x1 l P Ch Ok Fi Ha Nl|f id p1 p2 t1 t2 x1 x2 P Ch Ok Fi Ha1 Ha2 Nl
    |f id p1 p2 t1 t2 x1 x2 P Ch Ok Fi Ha1 Ha2 Nl
    |id t s En Nu Hr|id t En Nu|id n t s Np Nu Hr
    |o T t r s Lo Hr Ac Hc|o T l t s Lo Hr Hc|T t b Hc
    |f id T t s U Ch Ok Ho|w b Tw
    |t s Hr|l
    |T w b St Tw|T t s Ho|T o T1 T2 t1 t2 s1 s2 Lo Hn1 Hn2|T T1 t s Hn
    |T w v St Tw|T t s Hn|T v|f id T t s U Ch Ok Ty Hr
    |T w b St Tw|T t b s Hc|T b|f id T b t s U Ch Ok Ty Hr Ca Ha];
    try discriminate Qt; injection Qt as <- <-.
  - (* rel_n *)
    pose proof (head_rel e m d d0 k' ts' ss Rk F Fin) as H.
    pose proof (step_head L R' c bs cpp17 e m d0 k' ss (final_transfer _ _ _ F Fin NF)
                  (final_transfer_args _ _ _ F Fin)) as St.
    unfold same_outcome in H.
    destruct (head L R c bt e m d k' ts') as [[[m' d'] t']|],
      (head L R' c bs e m d0 k' ss) as [[[m1 d1] s']|]; try tauto; cbn.
    destruct H as (-> & -> & -> & Hr). split; auto. left. eauto.
  - (* rel_at *)
    destruct (typed_final _ _ _ Ty Hr (Fin 0 t eq_refl eq_refl))
      as (v & -> & -> & C).
    cbn. split; auto. right. rewrite C. repeat split; try constructor. lia.
  - (* rel_deref *)
    cbn. rewrite pointee_pointer. cbn. split; auto. right. repeat split; try constructor. lia.
  - (* rel_same *)
    destruct (typed_final _ _ _ Ty Hr (Fin 0 t eq_refl eq_refl))
      as (v & -> & -> & C).
    cbn [head]. destruct (call_mutator_ok L c R E num Inv W f id [RV v] d Id Ok) as (d' & -> & Id').
    cbn [simulated]. split; auto. right. split; auto. split.
    + rewrite Ch, (unit_body f T); auto. cbn. apply rel_at; [|constructor]. right. eauto.
    + apply weight_mutator_body.
  - (* rel_call1 *)
    cbn [head]. destruct (call_mutator_ok L c R E num Inv W f id [t] d Id Ok) as (d' & -> & Id').
    cbn [simulated]. split; auto. right. split; auto. split; [|apply weight_mutator_body].
    rewrite Ch. unfold mutator_body. apply rel_returned, rel_expression.
    + unfold parameter. rewrite P. cbn. eapply arg_accessed; eauto. apply (Fin 0); auto.
    + unfold parameter. rewrite P. cbn. unfold accessed. rewrite declared_empty.
      apply rel_no_operand.
  - (* rel_call2 *)
    cbn [head]. destruct (call_mutator_ok L c R E num Inv W f id [t1; t2] d Id Ok) as (d' & -> & Id').
    cbn [simulated]. split; auto. right. split; auto. split; [|apply weight_mutator_body].
    rewrite Ch. unfold mutator_body, parameter. rewrite P. cbn.
    apply rel_returned, rel_expression; eapply arg_accessed; eauto.
    + apply (Fin 0); auto.
    + apply (Fin 1); auto.
  - (* rel_rest1 *)
    cbn [head]. destruct (call_mutator_ok L c R E num Inv W f id [t] d Id Ok) as (d' & -> & Id').
    cbn [simulated]. split; auto. left.
    exists (returned L c (mf_result f) (false, RV (literal L l))). split.
    + apply (step_value e m d0 (mf_result f) false _ (Some (m, d0, RV (literal L l)))).
      * exact (fits_declared _ _ _ _ _ Fi eq_refl).
      * assert (Ft : final t = true) by (apply (Fin 0); auto).
        pose proof (arg_result _ _ _ _ _ Ha Ft Nl) as Re.
        exact (step_rest_done e m d0 true (false, RV (literal L l)) x1 Re (fun _ => eq_refl)).
    + rewrite Ch. unfold mutator_body. apply rel_returned.
      split; [reflexivity|constructor].
  - (* rel_rest_right *)
    cbn [head]. destruct (call_mutator_ok L c R E num Inv W f id [t1; t2] d Id Ok) as (d' & -> & Id').
    assert (F1 : final t1 = true) by (apply (Fin 0); auto).
    assert (F2 : final t2 = true) by (apply (Fin 1); auto).
    cbn [simulated]. split; auto. left.
    exists (returned L c (mf_result f) x1). split.
    + rewrite (surjective_pairing x1) at 2.
      apply (step_value e m d0 (mf_result f) (fst x1) _ (Some (m, d0, snd x1))).
      * exact (fits_declared _ _ _ _ _ Fi eq_refl).
      * apply step_rest_done; [exact (arg_result _ _ _ _ _ Ha2 F2 Nl)|].
        intro Nd. apply (arg_result _ _ _ _ _ Ha1 F1). intro Q. rewrite Q in Nd. discriminate.
    + rewrite Ch. unfold mutator_body, parameter. rewrite P. cbn [nth_error expression argument nth fst].
      apply rel_returned. eapply arg_accessed; eauto.
  - (* rel_rest_left *)
    cbn [head]. destruct (call_mutator_ok L c R E num Inv W f id [t1; t2] d Id Ok) as (d' & -> & Id').
    assert (F1 : final t1 = true) by (apply (Fin 0); auto).
    assert (F2 : final t2 = true) by (apply (Fin 1); auto).
    cbn [simulated]. split; auto. left.
    exists (returned L c (mf_result f) x2). split.
    + rewrite (surjective_pairing x2) at 2.
      apply (step_value e m d0 (mf_result f) (fst x2) _ (Some (m, d0, snd x2))).
      * exact (fits_declared _ _ _ _ _ Fi eq_refl).
      * apply step_rest_done; [exact (arg_result _ _ _ _ _ Ha1 F1 Nl)|].
        intro Nd. apply (arg_result _ _ _ _ _ Ha2 F2). intro Q. rewrite Q in Nd. discriminate.
    + rewrite Ch. unfold mutator_body, parameter. rewrite P. cbn [nth_error expression argument nth fst].
      apply rel_returned. eapply arg_accessed; eauto.
  - (* rel_keep *)
    cbn [head]. destruct (working_query _ _ _ _ W d id Id Nu) as (d' & -> & Id'). rewrite En.
    cbn. split; auto. right. repeat split; auto. lia.
  - (* rel_drop *)
    cbn [head]. destruct (working_query _ _ _ _ W d id Id Nu) as (d' & -> & Id'). rewrite En.
    cbn [simulated]. split; auto. right. repeat split; auto using rel_skip.
    rewrite weight_n, weights_cons. pose proof (weight_pos t). cbn. lia.
  - (* rel_record *)
    cbn [head]. destruct (working_record _ _ _ _ W d id n Id) as (d' & -> & Id'); auto; try lia.
    cbn. split; auto. right. repeat split; auto. lia.
  - (* rel_left *)
    assert (Ft : final t = true) by (apply (Fin 0); auto).
    pose proof (final_same _ _ Hr Ft) as ->.
    pose proof (step_head L R' c bs cpp17 e m d0 KTruth [t] eq_refl) as St.
    assert (St' : step_s e m d0 (N KTruth [t]) (head L R' c bs e m d0 KTruth [t])).
    { apply St. intros [|[|]] a H _; try discriminate. injection H as <-. exact Ft. }
    clear St. cbn [head] in *. destruct t as [v|l|]; cbn; auto.
    destruct (Bool.eqb _ _) eqn:Q; cbn; split; auto; left; eexists; split; eauto.
    + apply eqb_prop in Q. rewrite Q. eapply rel_truth. exact Hc.
    + constructor.
  - (* rel_right *)
    assert (Fl : final l = true) by (apply (Fin 0); auto).
    destruct (const_final _ _ _ _ Hc Fl) as (w & -> & St & Tw).
    cbn [head]. rewrite Tw, eqb_reflx. cbn. split; auto. right. repeat split; auto.
    apply rel_n; auto.
  - (* rel_truth *)
    destruct (const_final _ _ _ _ Hc (Fin 0 t eq_refl eq_refl)) as (w & -> & St & Tw).
    cbn. rewrite Tw. split; auto. right. repeat split; try constructor. lia.
  - (* rel_not_not *)
    destruct (opp_final _ _ _ Ho (Fin 0 t eq_refl eq_refl)) as (w & b & -> & -> & St & Tw).
    cbn [head]. destruct (call_mutator_ok L c R E num Inv W f id [RV w] d Id Ok) as (d' & -> & Id').
    cbn [simulated]. split; auto. right. split; auto. split; [|apply weight_mutator_body].
    rewrite Ch, (unit_body f T); auto. cbn. apply rel_n; auto. constructor; auto.
    apply rel_not. exact Tw.
  - (* rel_not *)
    cbn. rewrite lnot_truth, Tw, negb_involutive. cbn. split; auto. right.
    repeat split; try constructor. lia.
  - (* ptr_addr *)
    assert (Ft : final t = true) by (apply (Fin 0); auto).
    pose proof (final_same _ _ Hr Ft) as ->.
    assert (St : step_s e m d0 (N KLv [t]) (head L R' c bs e m d0 KLv [t])).
    { apply step_head; [reflexivity|]. intros [|[|]] a H _; try discriminate. injection H as <-. exact Ft. }
    cbn [head] in *. destruct t as [v|l|]; cbn; auto.
    split; auto. left. eexists. split; eauto. constructor.
  - (* opp_conv *)
    destruct (opp_final _ _ _ Ho (Fin 0 t eq_refl eq_refl)) as (w & b & -> & -> & St & Tw).
    cbn. split; auto. right. repeat split; try lia. constructor; [apply settled_conv|].
    rewrite settled_truth; auto.
  - (* opp_logic *)
    destruct (neg_final _ _ _ Hn1 (Fin 0 t1 eq_refl eq_refl)) as (w & v & -> & -> & St & Tw).
    assert (Sh : step_s e m d0 (N (KLogic (dual o)) [RV v; s2])
                   (head L R' c bs e m d0 (KLogic (dual o)) [RV v; s2])).
    { apply step_head; [reflexivity|]. intros [|[|[|]]] a H Ev; try discriminate. injection H as <-. reflexivity. }
    cbn [head] in *. rewrite Tw.
    assert (Q : Bool.eqb (negb (truth L v)) (bop_eqb o LAnd)
                = Bool.eqb (truth L v) (bop_eqb (dual o) LAnd)).
    { destruct o; try discriminate; destruct (truth L v); reflexivity. }
    rewrite <- Q in Sh.
    destruct (Bool.eqb (negb (truth L v)) (bop_eqb o LAnd)); cbn; split; auto; left;
      eexists; split; eauto.
    + eapply opp_truth. exact Hn2.
    + constructor; [right; eauto|]. rewrite truth_boolean. reflexivity.
  - (* opp_truth *)
    destruct (neg_final _ _ _ Hn (Fin 0 t eq_refl eq_refl)) as (w & v & -> & -> & St & Tw).
    assert (Sh : step_s e m d0 (N KTruth [RV v]) (head L R' c bs e m d0 KTruth [RV v])).
    { apply step_head; [reflexivity|]. intros [|[|]] a H Ev; try discriminate. injection H as <-. reflexivity. }
    cbn [head] in *. cbn. split; auto. left. eexists. split; eauto.
    constructor; [right; eauto|]. rewrite truth_boolean. exact Tw.
  - (* neg_conv *)
    destruct (neg_final _ _ _ Hn (Fin 0 t eq_refl eq_refl)) as (w & v & -> & -> & St & Tw).
    cbn. split; auto. right. repeat split; try lia. constructor; [apply settled_conv|].
    rewrite settled_truth; auto.
  - (* neg_un *)
    cbn. rewrite lnot_truth. cbn. split; auto. right. repeat split; try lia.
    constructor; [right; eauto|]. apply truth_boolean.
  - (* neg_call *)
    destruct (typed_final _ _ _ Ty Hr (Fin 0 t eq_refl eq_refl))
      as (v & -> & -> & C).
    cbn [head]. destruct (call_mutator_ok L c R E num Inv W f id [RV v] d Id Ok) as (d' & -> & Id').
    cbn [simulated]. split; auto. right. split; auto. split; [|apply weight_mutator_body].
    rewrite Ch, (unit_body f T); auto. cbn. apply neg_conv, neg_un.
  - (* const_conv *)
    destruct (const_final _ _ _ _ Hc (Fin 0 t eq_refl eq_refl)) as (w & -> & St & Tw).
    assert (s = RV (boolean L b)) as -> by (inversion Hc; reflexivity).
    cbn. split; auto. right. repeat split; try lia. constructor; [apply settled_conv|].
    rewrite settled_truth; auto.
  - (* const_lit *)
    cbn. split; auto. right. repeat split; try lia. constructor; [apply settled_conv|].
    apply truth_literal.
  - (* const_call *)
    destruct (typed_final _ _ _ Ty Hr (Fin 0 t eq_refl eq_refl))
      as (v & -> & -> & C).
    cbn [head]. destruct (call_mutator_ok L c R E num Inv W f id [RV v] d Id Ok) as (d' & -> & Id').
    cbn [simulated]. split; auto. right. split; auto. split; [|apply weight_mutator_body].
    rewrite Ch, (unit_body f T); auto. cbn. apply const_lit.
Qed.

(* Operands of operands: contexts in which the source takes the same step. *)
Lemma lift_simulated g g' e m d0 t s x (F G : tm -> tm) :
  simulated g e m d0 t s x ->
  (forall y, step_s e m d0 s y -> step_s e m d0 (G s) (put L R' y G)) ->
  (forall t' s', rel g t' s' -> rel g' (F t') (G s')) ->
  (forall t', weight t' < weight t -> weight (F t') < weight (F t)) ->
  simulated g' e m d0 (F t) (G s) (put L R x F).
Proof.
  intros Si St Re We. destruct x as [[[m' d'] t']|]; cbn in *.
  - destruct Si as [I [(s' & S & Hr)|(Q & Hr & Wt)]]; (split; [exact I|]).
    + left. exists (G s'). split; [exact (St _ S)|auto].
    + right. auto.
  - exact (St _ Si).
Qed.

Lemma put_id {Rt} (x : outcome L Rt) : put L Rt x (fun a => a) = x.
Proof. destruct x as [[[? ?] ?]|]; reflexivity. Qed.

Lemma simulated_const T b e m d0 t x :
  simulated (Const T b) e m d0 t (RV (boolean L b)) x ->
  match x with
  | None => False
  | Some (m', d', t') => Inv d' /\ m' = m /\ rel (Const T b) t' (RV (boolean L b)) /\
                         weight t' < weight t
  end.
Proof.
  destruct x as [[[m' d'] t']|]; cbn.
  - intros [I [(s' & S & _)|(Q & Hr & Wt)]]; auto. destruct (no_step_rv _ _ _ _ _ _ S).
  - apply no_step_rv.
Qed.

Lemma weight_one k (a a' : tm) :
  weight a' < weight a -> weight (N k [a']) < weight (N k [a]).
Proof. rewrite !weight_n, !weights_cons. lia. Qed.
Lemma weight_first k (a a' b : tm) :
  weight a' < weight a -> weight (N k [a'; b]) < weight (N k [a; b]).
Proof. rewrite !weight_n, !weights_cons. lia. Qed.
Lemma weight_second k (a b b' : tm) :
  weight b' < weight b -> weight (N k [a; b']) < weight (N k [a; b]).
Proof. rewrite !weight_n, !weights_cons. lia. Qed.

Lemma fits_op_of res r lv1 lv2 :
  fits L c res r lv1 lv2 = true -> fits_op r lv1 = true.
Proof. unfold fits. intro Fi. apply andb_true_iff in Fi as [Fi _]. exact Fi. Qed.

Lemma forallb_final_rel ts ss : Forall2 (rel Same) ts ss ->
  forallb final ts = true -> forallb final ss = true.
Proof.
  induction 1 as [|t s ts ss Hr F IH]; auto. cbn. intro A. apply andb_true_iff in A as [A1 A2].
  rewrite (final_same _ _ Hr A1), A1. auto.
Qed.
Lemma turn_rel k ts1 ts2 ss1 ss2 :
  Forall2 (rel Same) ts1 ss1 -> Forall2 (rel Same) ts2 ss2 ->
  its_turn cpp17 k ts1 ts2 = true -> its_turn cpp17 k ss1 ss2 = true.
Proof.
  intros F1 F2.
  pose proof (forallb_final_rel _ _ F1) as Q1. pose proof (forallb_final_rel _ _ F2) as Q2.
  unfold its_turn. destruct cpp17; [|reflexivity].
  destruct k; try reflexivity; auto. destruct o; try reflexivity; auto.
Qed.
Lemma lambda_no_step p u t x e m d y : arg p ALam u t x -> ~ step_t e m d t y.
Proof. intros Ha S. inversion Ha; subst; inversion S; subst; discriminate. Qed.

Theorem simulation e m d t x :
  step_t e m d t x -> Inv d ->
  forall g s d0, rel g t s -> simulated g e m d0 t s x.
Proof.
  induction 1 as [e m d k ts NF Fin|e m d k pre a post x Ev Tn A1 A2 S IH]; intros Id g s d0 Hr.
  { apply head_case; auto. }
  specialize (IH Id).
  assert (IH' : forall g s, rel g a s -> simulated g (child_env k e) m d0 a s x) by auto.
  clear IH. rename IH' into IH.
  remember (N k (pre ++ a :: post)) as t eqn:Qt.
  destruct Hr as [v|l|k' ts' ss Rk F|T t s Ty Hr|l|f id T t s U Ch Ok Ty Hr
    |f id p t y r P Ch Ok Fi U2 Ha|f id p1 p2 t1 t2 x1 x2 r P Ch Ok Fi La Io Ha1 Ha2
    |f id p t x1 l P Ch Ok Fi Ha Nl|f id p1 p2 t1 t2 x1 x2 P Ch Ok Fi Ha1 Ha2 Nl
    |f id p1 p2 t1 t2 x1 x2 P Ch Ok Fi Ha1 Ha2 Nl
    |id t s En Nu Hr|id t En Nu|id n t s Np Nu Hr
    |o T t r s Lo Hr Ac Hc|o T l t s Lo Hr Hc|T t b Hc
    |f id T t s U Ch Ok Ho|w b Tw
    |t s Hr|l
    |T w b St Tw|T t s Ho|T o T1 T2 t1 t2 s1 s2 Lo Hn1 Hn2|T T1 t s Hn
    |T w v St Tw|T t s Hn|T v|f id T t s U Ch Ok Ty Hr
    |T w b St Tw|T t b s Hc|T b|f id T b t s U Ch Ok Ty Hr Ca Ha];
    try discriminate Qt; injection Qt as <- Qa; try discriminate Ev.
  - (* rel_n *)
    subst ts'.
    apply Forall2_app_inv_l in F as (pre_s & ss2 & F1 & F2 & ->).
    inversion F2 as [|a' b post' post_s Hab F3]; subst.
    specialize (IH Same b Hab).
    assert (Ln : length pre_s = length pre) by (clear - F1; induction F1; cbn; auto).
    pose proof (existsb_active_rel _ _ F1 A1) as B1.
    pose proof (existsb_active_rel _ _ F3 A2) as B2.
    assert (St : forall y, step_s (child_env k' e) m d0 b y ->
              step_s e m d0 (N k' (pre_s ++ b :: post_s))
                (put L R' y (fun b => N k' (pre_s ++ b :: post_s)))).
    { intros y Sy. apply step_operand; auto; [rewrite Ln; exact Ev|].
      eapply turn_rel; eauto. }
    assert (Re : forall t' s', rel Same t' s' ->
                 rel Same (N k' (pre ++ t' :: post)) (N k' (pre_s ++ s' :: post_s))).
    { intros. apply rel_n; auto. apply Forall2_app; auto. }
    destruct x as [[[m' d'] t']|]; cbn in *.
    + destruct IH as [I [(s' & Ss & Hr)|(Q & Hr & Wt)]]; (split; [exact I|]).
      * left. eexists. split; [exact (St _ Ss)|]. auto.
      * right. repeat split; auto. fold (weight (N k' (pre ++ t' :: post))).
        change (weight (N k' (pre ++ t' :: post)) < weight (N k' (pre ++ a :: post))).
        rewrite !weight_n, !weights_app, !weights_cons. lia.
    + exact (St _ IH).
  - (* rel_at *)
    apply eq_sym, single_split in Qa as (-> & -> & ->).
    specialize (IH Same s Hr). destruct x as [[[m' d'] t']|]; cbn in *; auto.
    destruct IH as [I [(s' & Ss & Hr')|(Q & Hr' & Wt)]]; (split; [exact I|]).
    + left. eexists. split; eauto. apply rel_at; auto. eapply typed_step; eauto.
    + right. repeat split; auto. apply rel_at; auto. lia.
  - (* rel_deref *)
    apply eq_sym, single_split in Qa as (-> & -> & ->). destruct (no_step_rv _ _ _ _ _ _ S).
  - (* rel_same *)
    apply eq_sym, single_split in Qa as (-> & -> & ->).
    specialize (IH Same s Hr). destruct x as [[[m' d'] t']|]; cbn in *; auto.
    destruct IH as [I [(s' & Ss & Hr')|(Q & Hr' & Wt)]]; (split; [exact I|]).
    + left. eexists. split; eauto. eapply rel_same; eauto. eapply typed_step; eauto.
    + right. repeat split; auto. eapply rel_same; eauto. lia.
  - (* rel_call1 *)
    apply eq_sym, single_split in Qa as (-> & -> & ->).
    pose proof (arg_step _ _ _ _ _ _ d0 _ _ _ IH S Ha) as As.
    destruct y as [lv s]. cbn [fst snd] in *.
    assert (St : uses1 r = true -> forall y, step_s e m d0 s y ->
       step_s e m d0 (returned L c (mf_result f) (expression L c r (lv, s) no_operand))
         (put L R' y (fun s => returned L c (mf_result f) (expression L c r (lv, s) no_operand)))).
    { intros Us y Sy.
      apply (step_returned L c R' bs bs cpp17 bs e m d0 (mf_result f)
               (fun s => expression L c r (lv, s) no_operand) s y).
      - intros. apply expression_category; reflexivity.
      - refine (fits_declared _ _ _ _ _ Fi _). apply expression_category; reflexivity.
      - apply step_expression1; auto; [eapply fits_op_of; eauto|destruct r; auto|].
        intros _. destruct r as [| | | | |o|]; auto. cbn in U2. destruct o; auto; discriminate. }
    destruct x as [[[m' d'] t']|]; cbn in As |- *.
    + destruct As as [I [(Us & s' & Ss & Ha')|(Q & Wt & NL & s' & Su & Ha')]]; (split; [exact I|]).
      * left. eexists. split; [exact (St Us _ Ss)|]. eapply rel_call1; eauto.
      * right. repeat split; auto; [|lia].
        assert (Qe : expression L c r (lv, s) no_operand = expression L c r (lv, s') no_operand).
        { destruct (uses1 r) eqn:Us; [rewrite Su; auto|]. apply unused1. exact Us. }
        rewrite Qe. eapply rel_call1; eauto.
    + destruct As as [Us Ss]. exact (St Us _ Ss).
  - (* rel_call2 *)
    apply eq_sym, double_split in Qa as [(-> & -> & ->)|(-> & -> & ->)].
    + (* first operand *)
      pose proof (arg_step _ _ _ _ _ _ d0 _ _ _ IH S Ha1) as As.
      destruct x1 as [lv s]. cbn [fst snd] in *.
      cbn in A2. rewrite orb_false_r in A2.
      assert (Ac2 : active (snd x2) = false) by (eapply active_arg; eauto).
      assert (St : uses1 r = true -> forall y, step_s e m d0 s y ->
         step_s e m d0 (returned L c (mf_result f) (expression L c r (lv, s) x2))
           (put L R' y (fun s => returned L c (mf_result f) (expression L c r (lv, s) x2)))).
      { intros Us y Sy.
        apply (step_returned L c R' bs bs cpp17 bs e m d0 (mf_result f)
                 (fun s => expression L c r (lv, s) x2) s y).
        - intros. apply expression_category; reflexivity.
        - refine (fits_declared _ _ _ _ _ Fi _). apply expression_category; reflexivity.
        - apply step_expression1; auto; [eapply fits_op_of; eauto|destruct r; auto|].
          intro Q. specialize (Io Q). destruct r as [| | | | |o|]; auto. destruct Io as [Io _].
          destruct (is_assign o); auto. rewrite (Io eq_refl) in Ha1.
          destruct (lambda_no_step _ _ _ _ _ _ _ _ Ha1 S). }
      destruct x as [[[m' d'] t']|]; cbn in As |- *.
      * destruct As as [I [(Us & s' & Ss & Ha')|(Q & Wt & NL & s' & Su & Ha')]]; (split; [exact I|]).
        -- left. eexists. split; [exact (St Us _ Ss)|]. eapply rel_call2; eauto.
        -- right. repeat split; auto; [|lia].
           assert (Qe : expression L c r (lv, s) x2 = expression L c r (lv, s') x2).
           { destruct (uses1 r) eqn:Us; [rewrite Su; auto|]. apply unused1. exact Us. }
           rewrite Qe. eapply rel_call2; eauto.
      * destruct As as [Us Ss]. exact (St Us _ Ss).
    + (* second operand *)
      pose proof (arg_step _ _ _ _ _ _ d0 _ _ _ IH S Ha2) as As.
      destruct x2 as [lv s]. cbn [fst snd] in *.
      cbn in A1. rewrite orb_false_r in A1.
      assert (Ac1 : active (snd x1) = false) by (eapply active_arg; eauto).
      assert (St : uses2 r = true -> forall y, step_s e m d0 s y ->
         step_s e m d0 (returned L c (mf_result f) (expression L c r x1 (lv, s)))
           (put L R' y (fun s => returned L c (mf_result f) (expression L c r x1 (lv, s))))).
      { intros Us y Sy.
        apply (step_returned L c R' bs bs cpp17 bs e m d0 (mf_result f)
                 (fun s => expression L c r x1 (lv, s)) s y).
        - intros. apply expression_category; reflexivity.
        - refine (fits_declared _ _ _ _ _ Fi _). apply expression_category; reflexivity.
        - apply step_expression2; auto.
          + pose proof (fits_op_of _ _ _ _ Fi) as Fo. destruct r; auto. cbn in Fo.
            apply andb_true_iff in Fo as [Fo _]. exact Fo.
          + destruct r; auto.
          + intro Q. specialize (Io Q). destruct r as [| | | | |o|]; auto. destruct Io as [_ Io].
            split; intros ->; rewrite Io in Ha2 by auto;
              destruct (lambda_no_step _ _ _ _ _ _ _ _ Ha2 S). }
      destruct x as [[[m' d'] t']|]; cbn in As |- *.
      * destruct As as [I [(Us & s' & Ss & Ha')|(Q & Wt & NL & s' & Su & Ha')]]; (split; [exact I|]).
        -- left. eexists. split; [exact (St Us _ Ss)|]. eapply rel_call2; eauto.
        -- right. repeat split; auto; [|lia].
           assert (Qe : expression L c r x1 (lv, s) = expression L c r x1 (lv, s')).
           { destruct (uses2 r) eqn:Us; [rewrite Su; auto|]. apply unused2; auto.
             intros o -> . destruct (is_logical o) eqn:Lo; auto.
             destruct NL. apply (La o); auto. }
           rewrite Qe. eapply rel_call2; eauto.
      * destruct As as [Us Ss]. exact (St Us _ Ss).
  - (* rel_rest1 *)
    apply eq_sym, single_split in Qa as (-> & -> & ->).
    pose proof (arg_step _ _ _ _ _ _ d0 _ _ _ IH S Ha) as As.
    apply (arg_lift _ _ e m d0 t x1 x (fun t => N (KM f id) [t])
             (fun s => returned L c (mf_result f) (false, N KComma [s; RV (literal L l)])) As).
    + intros z Sz.
      rewrite <- (put_put L R' z (fun s => N KComma [s; RV (literal L l)])
                    (fun a => returned L c (mf_result f) (false, a))).
      apply step_value; [exact (fits_declared _ _ _ _ _ Fi eq_refl)|].
      apply step_first; [reflexivity|discriminate|reflexivity|apply turn_comma|exact Sz].
    + intros t' s' Ha'. apply (rel_rest1 L c R' E num bs cpp17 f id p t' (fst x1, s')); auto.
    + intros. apply weight_one. auto.
  - (* rel_rest_right *)
    apply eq_sym, double_split in Qa as [(-> & -> & ->)|(-> & -> & ->)].
    + pose proof (arg_step _ _ _ _ _ _ d0 _ _ _ IH S Ha1) as As.
      destruct (is_delayed (fst (mf_access f))) eqn:Dl.
      { destruct (fst (mf_access f)); try discriminate. destruct (lambda_no_step _ _ _ _ _ _ _ _ Ha1 S). }
      cbn in A2. rewrite orb_false_r in A2. pose proof (active_arg _ _ _ _ _ _ _ _ _ _ _ _ Ha2 A2) as Ac.
      apply (arg_lift _ _ e m d0 t1 x1 x (fun t => N (KM f id) [t; t2])
               (fun s => returned L c (mf_result f) (with_rest L false (fst x1, s) x2)) As).
      * intros z Sz.
        apply (step_returned L c R' bs bs cpp17 bs e m d0 (mf_result f)
                 (fun s => with_rest L false (fst x1, s) x2) (snd x1) z); auto.
        -- exact (fits_declared _ _ _ _ _ Fi eq_refl).
        -- apply step_needed; auto.
      * intros t' s' Ha'. rewrite <- Dl.
        apply (rel_rest_right L c R' E num bs cpp17 f id p1 p2 t' t2 (fst x1, s')); auto.
      * intros. apply weight_first. auto.
    + pose proof (arg_step _ _ _ _ _ _ d0 _ _ _ IH S Ha2) as As.
      cbn in A1. rewrite orb_false_r in A1. pose proof (active_arg _ _ _ _ _ _ _ _ _ _ _ _ Ha1 A1) as Ac.
      apply (arg_lift _ _ e m d0 t2 x2 x (fun t => N (KM f id) [t1; t])
               (fun s => returned L c (mf_result f)
                 (with_rest L (is_delayed (fst (mf_access f))) x1 (fst x2, s))) As).
      * intros z Sz.
        apply (step_returned L c R' bs bs cpp17 bs e m d0 (mf_result f)
                 (fun s => with_rest L (is_delayed (fst (mf_access f))) x1 (fst x2, s)) (snd x2) z); auto.
        -- exact (fits_declared _ _ _ _ _ Fi eq_refl).
        -- apply step_rest; auto.
      * intros t' s' Ha'.
        apply (rel_rest_right L c R' E num bs cpp17 f id p1 p2 t1 t' x1 (fst x2, s')); auto.
      * intros. apply weight_second. auto.
  - (* rel_rest_left *)
    apply eq_sym, double_split in Qa as [(-> & -> & ->)|(-> & -> & ->)].
    + pose proof (arg_step _ _ _ _ _ _ d0 _ _ _ IH S Ha1) as As.
      cbn in A2. rewrite orb_false_r in A2. pose proof (active_arg _ _ _ _ _ _ _ _ _ _ _ _ Ha2 A2) as Ac.
      apply (arg_lift _ _ e m d0 t1 x1 x (fun t => N (KM f id) [t; t2])
               (fun s => returned L c (mf_result f)
                 (with_rest L (is_delayed (snd (mf_access f))) x2 (fst x1, s))) As).
      * intros z Sz.
        apply (step_returned L c R' bs bs cpp17 bs e m d0 (mf_result f)
                 (fun s => with_rest L (is_delayed (snd (mf_access f))) x2 (fst x1, s)) (snd x1) z); auto.
        -- exact (fits_declared _ _ _ _ _ Fi eq_refl).
        -- apply step_rest; auto.
      * intros t' s' Ha'.
        apply (rel_rest_left L c R' E num bs cpp17 f id p1 p2 t' t2 (fst x1, s') x2); auto.
      * intros. apply weight_first. auto.
    + pose proof (arg_step _ _ _ _ _ _ d0 _ _ _ IH S Ha2) as As.
      destruct (is_delayed (snd (mf_access f))) eqn:Dl.
      { destruct (snd (mf_access f)); try discriminate. destruct (lambda_no_step _ _ _ _ _ _ _ _ Ha2 S). }
      cbn in A1. rewrite orb_false_r in A1. pose proof (active_arg _ _ _ _ _ _ _ _ _ _ _ _ Ha1 A1) as Ac.
      apply (arg_lift _ _ e m d0 t2 x2 x (fun t => N (KM f id) [t1; t])
               (fun s => returned L c (mf_result f) (with_rest L false (fst x2, s) x1)) As).
      * intros z Sz.
        apply (step_returned L c R' bs bs cpp17 bs e m d0 (mf_result f)
                 (fun s => with_rest L false (fst x2, s) x1) (snd x2) z); auto.
        -- exact (fits_declared _ _ _ _ _ Fi eq_refl).
        -- apply step_needed; auto.
      * intros t' s' Ha'. rewrite <- Dl.
        apply (rel_rest_left L c R' E num bs cpp17 f id p1 p2 t1 t' x1 (fst x2, s')); auto.
      * intros. apply weight_second. auto.
  - (* rel_left *)
    apply eq_sym, double_split in Qa as [(-> & -> & ->)|(-> & -> & ->)]; [|discriminate Ev].
    apply (lift_simulated Same Same e m d0 t s x (fun t => N (KLogic o) [t; r])
             (fun s => N KTruth [s])); auto.
    + intros. apply step_one; auto. discriminate.
    + intros. eapply rel_left; eauto.
    + intros. apply weight_first. auto.
  - (* rel_right *)
    apply eq_sym, double_split in Qa as [(-> & -> & ->)|(-> & -> & ->)]; [|discriminate Ev].
    pose proof (simulated_const _ _ _ _ _ _ _ (IH _ _ Hc)) as Sc.
    destruct x as [[[m' d'] t']|]; [|tauto]. destruct Sc as (I & -> & Hr' & Wt).
    cbn. split; auto. right. repeat split; auto; [|lia]. eapply rel_right; eauto.
  - (* rel_truth *)
    apply eq_sym, single_split in Qa as (-> & -> & ->).
    pose proof (simulated_const _ _ _ _ _ _ _ (IH _ _ Hc)) as Sc.
    destruct x as [[[m' d'] t']|]; [|tauto]. destruct Sc as (I & -> & Hr' & Wt).
    cbn. split; auto. right. repeat split; auto; [|lia]. eapply rel_truth; eauto.
  - (* rel_not_not *)
    apply eq_sym, single_split in Qa as (-> & -> & ->).
    apply (lift_simulated (Opp T) Same e m d0 t s x (fun t => N (KM f id) [t])
             (fun s => N (KAt T) [s])); auto.
    + intros. apply step_one; auto. discriminate.
    + intros. eapply rel_not_not; eauto.
    + intros. apply weight_one. auto.
  - (* rel_not *)
    apply eq_sym, single_split in Qa as (-> & -> & ->). destruct (no_step_rv _ _ _ _ _ _ S).
  - (* ptr_addr *)
    apply eq_sym, single_split in Qa as (-> & -> & ->).
    apply (lift_simulated Same Ptr e m d0 t s x (fun t => N KAddr [t])
             (fun s => N KLv [s])); auto.
    + intros. apply step_one; auto. discriminate.
    + intros. apply ptr_addr; auto.
    + intros. apply weight_one. auto.
  - (* opp_conv *)
    apply eq_sym, single_split in Qa as (-> & -> & ->).
    apply (lift_simulated (Opp T) (Opp T) e m d0 t s x (fun t => N (KAt T) [t]) (fun s => s)); auto.
    + intros. rewrite put_id. auto.
    + intros. apply opp_conv; auto.
    + intros. apply weight_one. auto.
  - (* opp_logic *)
    apply eq_sym, double_split in Qa as [(-> & -> & ->)|(-> & -> & ->)]; [|discriminate Ev].
    apply (lift_simulated (Neg T1) (Opp T) e m d0 t1 s1 x (fun t => N (KLogic o) [t; t2])
             (fun s => N (KLogic (dual o)) [s; s2])); auto.
    + intros. apply step_first; auto; [discriminate|].
      cbn in A2. rewrite orb_false_r in A2. destruct (active s2) eqn:As; auto.
      rewrite (active_rel _ _ _ Hn2 As) in A2. discriminate.
    + intros. eapply opp_logic; eauto.
    + intros. apply weight_first. auto.
  - (* opp_truth *)
    apply eq_sym, single_split in Qa as (-> & -> & ->).
    apply (lift_simulated (Neg T1) (Opp T) e m d0 t s x (fun t => N KTruth [t])
             (fun s => N KTruth [s])); auto.
    + intros. apply step_one; auto. discriminate.
    + intros. eapply opp_truth; eauto.
    + intros. apply weight_one. auto.
  - (* neg_conv *)
    apply eq_sym, single_split in Qa as (-> & -> & ->).
    apply (lift_simulated (Neg T) (Neg T) e m d0 t s x (fun t => N (KAt T) [t]) (fun s => s)); auto.
    + intros. rewrite put_id. auto.
    + intros. apply neg_conv; auto.
    + intros. apply weight_one. auto.
  - (* neg_un *)
    apply eq_sym, single_split in Qa as (-> & -> & ->). destruct (no_step_rv _ _ _ _ _ _ S).
  - (* neg_call *)
    apply eq_sym, single_split in Qa as (-> & -> & ->).
    specialize (IH Same s Hr). destruct x as [[[m' d'] t']|]; cbn in *; auto.
    destruct IH as [I [(s' & Ss & Hr')|(Q & Hr' & Wt)]]; (split; [exact I|]).
    + left. eexists. split; eauto. eapply neg_call; eauto. eapply typed_step; eauto.
    + right. repeat split; auto. eapply neg_call; eauto. lia.
  - (* const_conv *)
    apply eq_sym, single_split in Qa as (-> & -> & ->).
    apply (lift_simulated (Const T b) (Const T b) e m d0 t s x (fun t => N (KAt T) [t])
             (fun s => s)); auto.
    + intros. rewrite put_id. auto.
    + intros. apply const_conv; auto.
    + intros. apply weight_one. auto.
  - (* const_lit *)
    apply eq_sym, single_split in Qa as (-> & -> & ->). destruct (no_step_rv _ _ _ _ _ _ S).
  - (* const_call *)
    apply eq_sym, single_split in Qa as (-> & -> & ->).
    specialize (IH Same s Hr). pose proof (calm_step _ _ _ _ _ _ S Ca) as Cs.
    destruct x as [[[m' d'] t']|]; cbn in *.
    + destruct Cs as [Ca' Wt].
      destruct IH as [I [(s' & Ss & Hr')|(Q & Hr' & _)]]; (split; [exact I|]); right.
      * destruct Ha as [Ha]. destruct (Ha _ _ _ _ Ss) as (d1 & s1 & Q & H1).
        injection Q as -> -> ->. repeat split; auto; [|lia].
        eapply const_call with (s := s1); eauto. eapply typed_step; eauto.
      * repeat split; auto; [|lia]. eapply const_call with (s := s); eauto.
    + destruct Ha as [Ha]. destruct (Ha _ _ _ _ IH) as (d1 & s1 & Q & H1). discriminate.
Qed.

(** * Consequences *)

Theorem simulation_steps e x y :
  steps L R c bt cpp17 e x y -> forall m d t m' d' t' s d0,
  x = (m, d, t) -> y = (m', d', t') -> Inv d -> rel Same t s ->
  Inv d' /\ exists s', steps L R' c bs cpp17 e (m, d0, s) (m', d0, s') /\ rel Same t' s'.
Proof.
  induction 1 as [x|m d t [[m1 d1] t1] y St Ss IH]; intros m0 d' t' m2 d2 t2 s d0 Qx Qy Id Hr.
  - subst x. injection Qy as <- <- <-. split; auto. exists s. split; auto. constructor.
  - injection Qx as <- <- <-.
    pose proof (simulation _ _ _ _ _ St Id Same s d0 Hr) as Si. cbn in Si.
    destruct Si as [I1 [(s1 & S1 & Hr1)|(-> & Hr1 & _)]].
    + destruct (IH _ _ _ _ _ _ s1 d0 eq_refl Qy I1 Hr1) as (I2 & s' & S2 & Hr2). split; auto.
      exists s'. split; auto. econstructor; eauto.
    + destruct (IH _ _ _ _ _ _ s d0 eq_refl Qy I1 Hr1) as (I2 & s' & S2 & Hr2). split; eauto.
Qed.

Theorem simulation_finishes e m d d0 t s m' r :
  rel Same t s -> Inv d -> finishes L R c bt cpp17 e m d t m' r ->
  finishes L R' c bs cpp17 e m d0 s m' r.
Proof.
  intros Hr Id (d' & St & F).
  destruct (simulation_steps e _ _ St _ _ _ _ _ _ s d0 eq_refl eq_refl Id Hr)
    as (_ & s' & Ss & Hr').
  rewrite (final_same _ _ Hr' F) in Ss. exists d0. auto.
Qed.
Theorem simulation_undefined e m d d0 t s :
  rel Same t s -> Inv d -> undefined L R c bt cpp17 e m d t ->
  undefined L R' c bs cpp17 e m d0 s.
Proof.
  intros Hr Id (m' & d' & t' & St & Su).
  destruct (simulation_steps e _ _ St _ _ _ _ _ _ s d0 eq_refl eq_refl Id Hr)
    as (Id' & s' & Ss & Hr').
  exists m', d0, s'. split; auto.
  exact (simulation _ _ _ _ _ Su Id' Same s' d0 Hr').
Qed.
Theorem simulation_reaches e m d d0 t s m' :
  rel Same t s -> Inv d -> reaches L R c bt cpp17 e m d t m' ->
  reaches L R' c bs cpp17 e m d0 s m'.
Proof.
  intros Hr Id (d' & t' & St).
  destruct (simulation_steps e _ _ St _ _ _ _ _ _ s d0 eq_refl eq_refl Id Hr)
    as (Id' & s' & Ss & Hr').
  exists d0, s'. auto.
Qed.
Theorem simulation_diverges e m d d0 t s :
  rel Same t s -> Inv d -> diverges L R c bt cpp17 e m d t ->
  diverges L R' c bs cpp17 e m d0 s.
Proof.
  assert (Next : forall n m d t s, weight t < n -> rel Same t s -> Inv d ->
    diverges L R c bt cpp17 e m d t ->
    exists m' d' t' s', step_s e m d0 s (Some (m', d0, s')) /\ rel Same t' s' /\ Inv d' /\
                        diverges L R c bt cpp17 e m' d' t').
  { induction n as [|n IH]; intros m1 d1 t1 s1 Wt Hr Id Dv; [lia|].
    inversion Dv as [m2 d2 t2 m' d' t' St Dv']; subst.
    destruct (simulation _ _ _ _ _ St Id Same s1 d0 Hr) as [I1 [(s' & S1 & Hr1)|(-> & Hr1 & Wt1)]].
    - exists m', d', t', s'. auto.
    - apply (IH m1 d' t' s1); auto. lia. }
  revert m d t s. cofix CIH. intros m d t s Hr Id Dv.
  destruct (Next (S (weight t)) m d t s (le_n _) Hr Id Dv) as (m' & d' & t' & s' & St & Hr' & Id' & Dv').
  econstructor; [exact St|]. exact (CIH m' d' t' s' Hr' Id' Dv').
Qed.
End Sim.
