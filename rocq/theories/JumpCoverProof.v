(* Coverage builds of functions with jumps follow the mutated function. *)
From Coq Require Import ZArith List Bool Arith Lia.
From Verif Require Import Jump JumpSpec JumpProof JumpCover JumpCoverSpec.
Import ListNotations.

Scheme mutated_component_ind := Minimality for mutated Sort Prop
  with component_mutated_ind := Minimality for component Sort Prop.

Section Machine.
Context {M : machine}.
Notation R := (recorder M).

Definition plain (s : stmt M) : Prop := fst (split s) = None.
(* Tests are around components of blocks, after case labels, only. *)
Fixpoint good (s : stmt M) : Prop :=
  match s with
  | Then a b => good a /\ plain b /\ good b
  | If _ a b => (plain a /\ good a) /\ plain b /\ good b
  | For _ _ a | DoWhile a _ | Switch _ a | Label _ a | Unless _ a => plain a /\ good a
  | Case _ a => good a
  | _ => True
  end.
Fixpoint goodk (k : cont M) : Prop :=
  match k with
  | KStop => True
  | KThen s k | KFor _ _ s k | KDoWhile s _ k => (plain s /\ good s) /\ goodk k
  | KSwitch k => goodk k
  end.
Fixpoint splitk (k : cont M) : cont R :=
  match k with
  | KStop => KStop
  | KThen s k => KThen (snd (split s)) (splitk k)
  | KFor e i s k => KFor (option_map usual_expression e : option (expression R))
                      (option_map usual_expression i) (snd (split s)) (splitk k)
  | KDoWhile s e k => KDoWhile (snd (split s)) (usual_expression e) (splitk k)
  | KSwitch k => KSwitch (splitk k)
  end.

Inductive corr : stmt M -> cont M -> stmt R -> cont R -> Prop :=
| corr_plain x k : plain x -> good x -> goodk k -> corr x k (snd (split x)) (splitk k)
| corr_call x call b k : fst (split x) = Some call -> good x -> goodk (KThen b k) ->
    corr x (KThen b k) call (KThen (Then (snd (split x)) (snd (split b))) (splitk k)).
Definition corro (a : option (stmt M * cont M)) (b : option (stmt R * cont R)) : Prop :=
  match a, b with
  | None, None => True
  | Some (x, k), Some (c, kc) => corr x k c kc
  | _, _ => False
  end.

Lemma corro_or a b a' b' : corro a a' -> corro b b' -> corro (or_else a b) (or_else a' b').
Proof. destruct a as [[x k]|], a' as [[c kc]|]; cbn; tauto. Qed.

Lemma mutated_good (s s' : stmt M) : mutated s s' -> plain s' /\ good s'.
Proof.
  intro H. apply (mutated_component_ind _ (fun s s' => plain s' /\ good s') (fun s s' => good s')) with (s := s);
    unfold plain; cbn [split fst good]; try tauto.
  intros v a a' _ [P G]. rewrite P. auto.
Qed.

Lemma call_label l : forall (s : stmt M) call k, fst (split s) = Some call -> find_label l call k = None.
Proof.
  induction s; intros call k E; cbn [split fst] in E; try discriminate E.
  - destruct (fst (split s)) as [f|] eqn:F; [|discriminate]. injection E as <-. cbn. apply IHs; reflexivity.
  - injection E as <-. reflexivity.
Qed.

Lemma find_label_corr l : forall s k, good s -> goodk k ->
  corro (find_label l s k) (find_label l (snd (split s)) (splitk k)).
Proof.
  induction s; intros k G K; cbn [split snd find_label good] in *; auto; try exact I.
  - destruct G as (G1 & P2 & G2). destruct (fst (split s1)) as [f|] eqn:F; cbn [find_label].
    + rewrite (call_label l s1 f _ F). cbn [or_else]. apply corro_or; [|auto].
      apply (IHs1 (KThen s2 k)); cbn; auto.
    + apply corro_or; [|auto]. apply (IHs1 (KThen s2 k)); cbn; auto.
  - destruct G as ((P1 & G1) & P2 & G2). apply corro_or; auto.
  - destruct G as [P G]. apply (IHs (KFor e step s k)); cbn; auto.
  - destruct G as [P G]. apply (IHs (KDoWhile s e k)); cbn; auto.
  - destruct G as [P G]. apply (IHs (KSwitch k)); cbn; auto.
  - destruct (fst (split s)); cbn [snd find_label]; auto.
  - destruct G as [P G]. destruct (Nat.eqb l l0); [|auto]. cbn. apply corr_plain; auto.
  - destruct G as [P G]. auto.
Qed.

Lemma find_case_corr v : forall s, good s ->
  (plain s -> forall k, goodk k -> corro (find_case v s k) (find_case v (snd (split s)) (splitk k))) /\
  (forall call, fst (split s) = Some call -> forall b k, plain b -> good b -> goodk k ->
     corro (find_case v s (KThen b k))
       (or_else (find_case v call (KThen (Then (snd (split s)) (snd (split b))) (splitk k)))
                (find_case v (snd (split s)) (splitk (KThen b k))))).
Proof.
  induction s; intro G; (split; [intros P k K|intros call E b k Pb Gb K]); unfold plain in *;
    cbn [split fst snd good] in *; try discriminate; try exact I.
  - destruct G as (G1 & P2 & G2). destruct (fst (split s1)) as [f|] eqn:F; cbn [find_case].
    + replace (or_else (find_case v f (KThen (Then (snd (split s1)) (snd (split s2))) (splitk k)))
                 (or_else (find_case v (snd (split s1)) (KThen (snd (split s2)) (splitk k)))
                    (find_case v (snd (split s2)) (splitk k))))
        with (or_else (or_else (find_case v f (KThen (Then (snd (split s1)) (snd (split s2))) (splitk k)))
                 (find_case v (snd (split s1)) (KThen (snd (split s2)) (splitk k))))
                    (find_case v (snd (split s2)) (splitk k)))
        by (destruct (find_case v f _); reflexivity).
      apply corro_or; [|apply IHs2; auto].
      apply (proj2 (IHs1 G1) f eq_refl s2 k); auto.
    + apply corro_or; [|apply IHs2; auto]. apply (proj1 (IHs1 G1) eq_refl (KThen s2 k)). cbn; auto.
  - destruct G as ((P1 & G1) & P2 & G2). cbn [find_case]. apply corro_or; [apply IHs1|apply IHs2]; auto.
  - destruct G as [P1 G]. cbn [find_case]. apply (proj1 (IHs G) P1 (KFor e step s k)). cbn; auto.
  - destruct G as [P1 G]. cbn [find_case]. apply (proj1 (IHs G) P1 (KDoWhile s e k)). cbn; auto.
  - destruct (fst (split s)) as [f|] eqn:F; [discriminate|]. cbn [snd find_case].
    destruct (same_case v v0); [|apply (proj1 (IHs G) eq_refl k K)]. cbn. apply corr_plain; auto.
  - destruct (fst (split s)) as [f|] eqn:F; [|discriminate]. injection E as <-. cbn [snd find_case].
    destruct (same_case v v0).
    + cbn. apply corr_call; auto. cbn. auto.
    + apply (proj2 (IHs G) f eq_refl); auto.
  - destruct G as [P1 G]. cbn [find_case]. apply (proj1 (IHs G) P1 k K).
  - injection E as <-. destruct G as [P1 G]. cbn [find_case or_else].
    apply (proj1 (IHs G) P1 (KThen b k)). cbn; auto.
Qed.

Lemma switch_corr v s k : plain s -> good s -> goodk k ->
  corr (fst (switch_target v s k)) (snd (switch_target v s k))
       (fst (switch_target v (snd (split s)) (splitk k)))
       (snd (switch_target v (snd (split s)) (splitk k))).
Proof.
  intros P G K. unfold switch_target.
  pose proof (corro_or _ _ _ _ (proj1 (find_case_corr (Some v) s G) P (KSwitch k) K)
                (proj1 (find_case_corr None s G) P (KSwitch k) K)) as H. cbn [splitk] in H.
  destruct (or_else _ _) as [[x kx]|], (or_else _ _) as [[c kc]|]; cbn in *; try tauto.
  apply (corr_plain Skip k); cbn; auto. reflexivity.
Qed.

Lemma break_corr k : after_break (splitk k) = option_map splitk (after_break k).
Proof. induction k; cbn; auto. Qed.
Lemma continue_corr k : after_continue (splitk k) = option_map splitk (after_continue k).
Proof. induction k; cbn; auto. Qed.
Lemma break_good k k' : goodk k -> after_break k = Some k' -> goodk k'.
Proof. induction k; cbn; intros G E; try discriminate; try (injection E as <-); tauto. Qed.
Lemma continue_good k k' : goodk k -> after_continue k = Some k' -> goodk k'.
Proof. induction k; cbn; intros G E; try discriminate; try (injection E as <-; exact G); tauto. Qed.

Inductive corrs : state M -> state R -> Prop :=
| corr_running x k c kc m : corr x k c kc -> corrs (Running x k m) (@Running R c kc m)
| corr_returned v m : corrs (Returned v m) (@Returned R v m).

Context (body : stmt M) (Gb : good body).
Notation off := (fun _ : nat => false).
Notation csteps := (steps (recording body) off).

Lemma own_inl t : own_events (map inl t : list (event R)) = t.
Proof. induction t; cbn; [reflexivity|]. f_equal. exact IHt. Qed.
Lemma own_app t t' : own_events (M := M) (t ++ t') = own_events t ++ own_events t'.
Proof. apply flat_map_app. Qed.

(* At least one step *)
Definition plus (st : state R) t st' : Prop :=
  exists t1 st1 t2, step (recording body) off st t1 st1 /\ csteps st1 t2 st' /\ t = t1 ++ t2.
Lemma one st t st' : step (recording body) off st t st' -> plus st t st'.
Proof. intro H. exists t, st', []. rewrite app_nil_r. repeat split; auto. constructor. Qed.
Lemma plus_steps st t st' : plus st t st' -> csteps st t st'.
Proof. intros (t1 & st1 & t2 & S & H & ->). econstructor; eassumption. Qed.
Lemma plain_expression e m t v m' : evaluates M e m t v m' ->
  evaluates R (usual_expression e) m (map inl t) v m'.
Proof. intro H. exists t. auto. Qed.

Lemma skip_corr k : goodk k -> corr Skip k Skip (splitk k).
Proof. intro K. apply (corr_plain Skip k); cbn; auto. reflexivity. Qed.

Lemma step_corr st t st' stC : corrs st stC -> step body off st t st' ->
  exists tC stC', plus stC tC stC' /\ own_events tC = t /\ corrs st' stC' /\
    match st with Running (Unless id _) _ _ => In (inr id) tC | _ => True end.
Proof.
  intros C S. destruct C as [x k c kc m C|v m]; [|inversion S].
  destruct C as [x k P G K|x call b k E G K].
  - destruct x; unfold plain in P; cbn [split snd fst good] in *; try discriminate P.
    + destruct k; inversion S; subst; cbn [splitk goodk] in *.
      * eexists [], _. split; [apply one; constructor|]. split; [reflexivity|]. split; [constructor|exact I].
      * eexists [], _. split; [apply one; constructor|]. split; [reflexivity|]. split; [|exact I].
        constructor. apply corr_plain; tauto.
      * eexists [], _. split; [apply one; constructor|]. split; [reflexivity|]. split; [|exact I].
        constructor. apply (corr_plain (For e None s) k); cbn; auto; tauto || reflexivity.
      * eexists (map inl t), _. split; [apply one; eapply (@s_for_step R); apply plain_expression; eassumption|].
        split; [apply own_inl|]. split; [|exact I].
        constructor. apply (corr_plain (For e (Some i0) s) k); cbn; auto; tauto || reflexivity.
      * eexists (map inl t), _.
        split; [apply one; eapply (@s_do_while_again R); apply plain_expression; eassumption|].
        split; [apply own_inl|]. split; [|exact I].
        destruct (Z.eqb v 0); constructor; [apply skip_corr; tauto|].
        apply (corr_plain (DoWhile s e) k); cbn; auto; tauto || reflexivity.
      * eexists [], _. split; [apply one; constructor|]. split; [reflexivity|]. split; [|exact I].
        constructor. apply skip_corr; auto.
    + inversion S; subst. eexists (map inl t), _.
      split; [apply one; eapply (@s_do R); apply plain_expression; eassumption|].
      split; [apply own_inl|]. split; [|exact I]. constructor. apply skip_corr; auto.
    + inversion S; subst. eexists (map inl t), _.
      split; [apply one; eapply (@s_declare R); apply plain_expression; eassumption|].
      split; [apply own_inl|]. split; [|exact I]. constructor. apply skip_corr; auto.
    + inversion S; subst. destruct G as (G1 & P2 & G2).
      destruct (fst (split x1)) as [f|] eqn:F.
      * eexists [], _. split; [apply one; constructor|]. split; [reflexivity|]. split; [|exact I].
        constructor. apply corr_call; auto. cbn; auto.
      * eexists [], _. split; [apply one; constructor|]. split; [reflexivity|]. split; [|exact I].
        constructor. apply (corr_plain x1 (KThen x2 k)); auto. cbn; auto.
    + inversion S; subst. destruct G as ((P1 & G1) & P2 & G2). eexists (map inl t), _.
      split; [apply one; eapply (@s_if R); apply plain_expression; eassumption|].
      split; [apply own_inl|]. split; [|exact I]. constructor. unfold branch.
      destruct (Z.eqb v 0); apply corr_plain; auto.
    + destruct G as [P1 G]. inversion S; subst.
      * eexists [], _. split; [apply one; constructor|]. split; [reflexivity|]. split; [|exact I].
        constructor. apply (corr_plain x (KFor None step x k)); cbn; auto.
      * eexists (map inl t), _. split; [apply one; eapply (@s_for R); apply plain_expression; eassumption|].
        split; [apply own_inl|]. split; [|exact I].
        destruct (Z.eqb v 0); constructor; [apply skip_corr; auto|].
        apply (corr_plain x (KFor (Some e0) step x k)); cbn; auto.
    + destruct G as [P1 G]. inversion S; subst.
      eexists [], _. split; [apply one; constructor|]. split; [reflexivity|]. split; [|exact I].
      constructor. apply (corr_plain x (KDoWhile x e k)); cbn; auto.
    + destruct G as [P1 G]. inversion S; subst. eexists (map inl t), _.
      split; [apply one; eapply (@s_switch R); apply plain_expression; eassumption|].
      split; [apply own_inl|]. split; [|exact I]. constructor. apply switch_corr; auto.
    + destruct (fst (split x)) as [f|] eqn:F; [discriminate|]. inversion S; subst.
      eexists [], _. split; [apply one; constructor|]. split; [reflexivity|]. split; [|exact I].
      constructor. apply corr_plain; auto.
    + destruct G as [P1 G]. inversion S; subst.
      eexists [], _. split; [apply one; constructor|]. split; [reflexivity|]. split; [|exact I].
      constructor. apply corr_plain; auto.
    + inversion S; subst.
      pose proof (find_label_corr l body KStop Gb I) as Q.
      match goal with H : find_label _ _ _ = _ |- _ => rewrite H in Q end.
      destruct (find_label l (snd (split body)) (splitk KStop)) as [[c kc]|] eqn:F; [|destruct Q].
      eexists [], _. split; [apply one; constructor; exact F|]. split; [reflexivity|]. split; [|exact I].
      constructor. exact Q.
    + inversion S; subst. match goal with H : after_break _ = _ |- _ => rename H into B end.
      eexists [], _. split; [apply one; constructor; rewrite break_corr, B; reflexivity|].
      split; [reflexivity|]. split; [|exact I]. constructor. apply skip_corr. eapply break_good; eassumption.
    + inversion S; subst. match goal with H : after_continue _ = _ |- _ => rename H into B end.
      eexists [], _. split; [apply one; constructor; rewrite continue_corr, B; reflexivity|].
      split; [reflexivity|]. split; [|exact I]. constructor. apply skip_corr. eapply continue_good; eassumption.
    + inversion S; subst.
      * eexists [], _. split; [apply one; constructor|]. split; [reflexivity|]. split; [constructor|exact I].
      * eexists (map inl t), _.
        split; [apply one; eapply (@s_return_value R); apply plain_expression; eassumption|].
        split; [apply own_inl|]. split; [constructor|exact I].
  - destruct x; cbn [split snd fst good] in *; try discriminate E.
    + destruct (fst (split x)) as [f|] eqn:F; [|discriminate]. injection E as <-. inversion S; subst.
      eexists [], _. split; [apply one; constructor|]. split; [reflexivity|]. split; [|exact I].
      constructor. cbn [snd]. apply corr_call; auto.
    + injection E as <-. inversion S; subst. destruct G as [P G].
      eexists [inr id], (@Running R _ _ m). split.
      * refine (ex_intro _ [inr id] (ex_intro _ _ (ex_intro _ [] (conj _ (conj _ eq_refl)))));
          [eapply (@s_do R); cbn; repeat split; reflexivity|].
        refine (@steps_step R _ _ _ [] _ [] _ _ _); [apply s_next|].
        refine (@steps_step R _ _ _ [] _ [] _ _ _); [apply s_then|]. apply steps_refl.
      * split; [reflexivity|]. split; [|left; reflexivity].
        constructor. apply (corr_plain x (KThen b k)); auto.
Qed.

Lemma steps_corr st t st' : steps body off st t st' -> forall stC, corrs st stC ->
  exists tC stC', csteps stC tC stC' /\ own_events tC = t /\ corrs st' stC'.
Proof.
  induction 1 as [st|st t st1 t' st2 S _ IH]; intros stC C.
  - exists [], stC. split; [constructor|]. split; [reflexivity|exact C].
  - destruct (step_corr _ _ _ _ C S) as (tC & stC1 & S1 & E1 & C1 & _). apply plus_steps in S1.
    destruct (IH stC1 C1) as (tC' & stC2 & S2 & E2 & C2).
    exists (tC ++ tC'), stC2. split; [eapply steps_app; eassumption|]. split; [|exact C2].
    rewrite own_app, E1, E2. reflexivity.
Qed.

Context (Pb : plain body).
Lemma start_corr m : corrs (Running body KStop m) (@Running R (recording body) KStop m).
Proof. constructor. apply (corr_plain body KStop); cbn; auto. Qed.

Lemma reached_records m t id s k m' :
  steps body off (Running body KStop m) t (Running (Unless id s) k m') ->
  records (recording body) m id.
Proof.
  intro H. destruct (steps_corr _ _ _ H _ (start_corr m)) as (tC & stC & S1 & _ & C).
  destruct (step_corr _ _ _ _ C (s_unless body off id s k m')) as (tC' & stC' & S2 & _ & _ & I). apply plus_steps in S2.
  exists (tC ++ tC'), stC'. split; [eapply steps_app; eassumption|]. apply in_app_iff. auto.
Qed.

(** * The coverage build does nothing else *)

(* Between the call and the statement *)
Inductive between : stmt M -> cont M -> stmt R -> cont R -> Prop :=
| between_next x b k : plain x -> good x -> goodk (KThen b k) ->
    between x (KThen b k) Skip (KThen (Then (snd (split x)) (snd (split b))) (splitk k))
| between_then x b k : plain x -> good x -> goodk (KThen b k) ->
    between x (KThen b k) (Then (snd (split x)) (snd (split b))) (splitk k).
Inductive near : state M -> state R -> Prop :=
| near_corr st stC : corrs st stC -> near st stC
| near_between x k c kc m : between x k c kc -> near (Running x k m) (@Running R c kc m).

Lemma corr_of_option l (x : stmt R) kc : find_label l (recording body) KStop = Some (x, kc) ->
  exists s k, find_label l body KStop = Some (s, k) /\ corr s k x kc.
Proof.
  intro F. pose proof (find_label_corr l body KStop Gb I) as Q. cbn [splitk] in Q.
  unfold recording in F. rewrite F in Q. destruct (find_label l body KStop) as [[s k]|]; [|destruct Q].
  exists s, k. auto.
Qed.

Lemma step_back_corr st stC tC stC' : corrs st stC -> step (recording body) off stC tC stC' ->
  exists st', step body off st (own_events tC) st' /\ near st' stC'.
Proof.
  intros C S. destruct C as [x k c kc m C|v m]; [|inversion S].
  destruct C as [x k P G K|x call b k E G K].
  - destruct x; unfold plain in P; cbn [split snd fst good] in *; try discriminate P.
    + destruct k; cbn [splitk goodk] in *.
      * inversion S; subst. eexists. split; [constructor|]. apply near_corr. constructor.
      * inversion S; subst. eexists. split; [constructor|]. apply near_corr. constructor.
        apply corr_plain; tauto.
      * destruct i; inversion S; subst.
        -- match goal with H : exists u, _ |- _ => destruct H as (u & Ev & ->) | H : evaluates R _ _ _ _ _ |- _ => destruct H as (u & Ev & ->) end.
           rewrite own_inl. eexists. split; [econstructor; eassumption|]. apply near_corr. constructor.
           apply (corr_plain (For e (Some e0) s) k); cbn; auto; tauto || reflexivity.
        -- eexists. split; [constructor|]. apply near_corr. constructor.
           apply (corr_plain (For e None s) k); cbn; auto; tauto || reflexivity.
      * inversion S; subst.
        match goal with H : evaluates R _ _ _ _ _ |- _ => destruct H as (u & Ev & ->) end.
        rewrite own_inl. eexists. split; [econstructor; eassumption|]. apply near_corr.
        destruct (Z.eqb v 0); constructor; [apply skip_corr; tauto|].
        apply (corr_plain (DoWhile s e) k); cbn; auto; tauto || reflexivity.
      * inversion S; subst. eexists. split; [constructor|]. apply near_corr. constructor.
        apply skip_corr; auto.
    + inversion S; subst. match goal with H : evaluates R _ _ _ _ _ |- _ => destruct H as (u & Ev & ->) end.
      rewrite own_inl. eexists. split; [econstructor; eassumption|]. apply near_corr. constructor.
      apply skip_corr; auto.
    + inversion S; subst. match goal with H : evaluates R _ _ _ _ _ |- _ => destruct H as (u & Ev & ->) end.
      rewrite own_inl. eexists. split; [econstructor; eassumption|]. apply near_corr. constructor.
      apply skip_corr; auto.
    + destruct G as (G1 & P2 & G2). eexists. split; [|apply near_corr].
      * destruct (fst (split x1)) as [f|] eqn:F; inversion S; subst; constructor.
      * destruct (fst (split x1)) as [f|] eqn:F; inversion S; subst; constructor.
        -- apply corr_call; auto. cbn; auto.
        -- apply (corr_plain x1 (KThen x2 k)); auto. cbn; auto.
    + destruct G as ((P1 & G1) & P2 & G2). inversion S; subst.
      match goal with H : evaluates R _ _ _ _ _ |- _ => destruct H as (u & Ev & ->) end.
      rewrite own_inl. eexists. split; [econstructor; eassumption|]. apply near_corr. constructor.
      unfold branch. destruct (Z.eqb v 0); apply corr_plain; auto.
    + destruct G as [P1 G]. destruct e as [e|]; inversion S; subst.
      * match goal with H : evaluates R _ _ _ _ _ |- _ => destruct H as (u & Ev & ->) end.
        rewrite own_inl. eexists. split; [econstructor; eassumption|]. apply near_corr.
        destruct (Z.eqb v 0); constructor; [apply skip_corr; auto|].
        apply (corr_plain x (KFor (Some e) step x k)); cbn; auto.
      * eexists. split; [constructor|]. apply near_corr. constructor.
        apply (corr_plain x (KFor None step x k)); cbn; auto.
    + destruct G as [P1 G]. inversion S; subst. eexists. split; [constructor|]. apply near_corr. constructor.
      apply (corr_plain x (KDoWhile x e k)); cbn; auto.
    + destruct G as [P1 G]. inversion S; subst.
      match goal with H : evaluates R _ _ _ _ _ |- _ => destruct H as (u & Ev & ->) end.
      rewrite own_inl. eexists. split; [econstructor; eassumption|]. apply near_corr. constructor.
      apply switch_corr; auto.
    + destruct (fst (split x)) as [f|] eqn:F; [discriminate|]. cbn [snd] in S. inversion S; subst.
      eexists. split; [constructor|]. apply near_corr. constructor. apply corr_plain; auto.
    + destruct G as [P1 G]. inversion S; subst. eexists. split; [constructor|]. apply near_corr. constructor.
      apply corr_plain; auto.
    + inversion S; subst. match goal with H : find_label _ _ _ = _ |- _ => rename H into F end.
      destruct (corr_of_option _ _ _ F) as (s & k0 & F0 & C0).
      eexists. split; [constructor; exact F0|]. apply near_corr. constructor. exact C0.
    + inversion S; subst. match goal with H : after_break _ = _ |- _ => rename H into B end.
      rewrite break_corr in B. destruct (after_break k) as [k1|] eqn:B1; [|discriminate]. injection B as <-.
      eexists. split; [constructor; exact B1|]. apply near_corr. constructor.
      apply skip_corr. eapply break_good; eassumption.
    + inversion S; subst. match goal with H : after_continue _ = _ |- _ => rename H into B end.
      rewrite continue_corr in B. destruct (after_continue k) as [k1|] eqn:B1; [|discriminate]. injection B as <-.
      eexists. split; [constructor; exact B1|]. apply near_corr. constructor.
      apply skip_corr. eapply continue_good; eassumption.
    + destruct e as [e|]; inversion S; subst.
      * match goal with H : evaluates R _ _ _ _ _ |- _ => destruct H as (u & Ev & ->) end.
        rewrite own_inl. eexists. split; [econstructor; eassumption|]. apply near_corr. constructor.
      * eexists. split; [constructor|]. apply near_corr. constructor.
  - destruct x; cbn [split snd fst good] in *; try discriminate E.
    + destruct (fst (split x)) as [f|] eqn:F; [|discriminate]. injection E as <-. cbn [snd] in *.
      inversion S; subst. eexists. split; [constructor|]. apply near_corr. constructor. apply corr_call; auto.
    + injection E as <-. destruct G as [P G]. inversion S; subst.
      match goal with H : evaluates R _ _ _ _ _ |- _ => destruct H as (-> & -> & ->) end.
      exists (Running x (KThen b k) m). split; [exact (s_unless body off id x (KThen b k) m)|].
      apply near_between. constructor; auto.
Qed.

Lemma between_step x k c kc m tC stC : between x k c kc ->
  step (recording body) off (@Running R c kc m) tC stC -> tC = [] /\
  (corrs (Running x k m) stC \/ exists c' kc', stC = @Running R c' kc' m /\
     c = Skip /\ between x k c' kc' /\ c' <> Skip).
Proof.
  intros B S. destruct B; inversion S; subst; (split; [reflexivity|]).
  - right. eexists _, _. split; [reflexivity|]. split; [reflexivity|]. split; [constructor; auto|discriminate].
  - left. constructor. apply (corr_plain x (KThen b k)); auto.
Qed.

Lemma steps_back stC tC stC' : csteps stC tC stC' -> forall st, near st stC ->
  exists st', steps body off st (own_events tC) st' /\ near st' stC'.
Proof.
  induction 1 as [stC|stC t stC1 t' stC2 S _ IH]; intros st N.
  - exists st. split; [constructor|exact N].
  - destruct N as [st stC C|x k c kc m B].
    + destruct (step_back_corr _ _ _ _ C S) as (st1 & S1 & N1).
      destruct (IH st1 N1) as (st2 & S2 & N2). exists st2. split; [|exact N2].
      rewrite own_app. econstructor; eassumption.
    + destruct (between_step _ _ _ _ _ _ _ B S) as (-> & C).
      destruct (IH (Running x k m)) as (st2 & S2 & N2); [|exists st2; auto].
      destruct C as [C|(c' & kc' & -> & _ & B' & _)]; [now apply near_corr|now apply near_between].
Qed.

Lemma near_idle st stC : near st stC -> idle (recording body) stC ->
  exists st', step body off st [] st' /\ exists stC', near st' stC' /\ idle (recording body) stC'.
Proof.
  assert (A : forall st stC, corrs st stC -> idle (recording body) stC ->
    exists st', step body off st [] st' /\ exists stC', near st' stC' /\ idle (recording body) stC').
  { intros s0 c0 C H. inversion H as [? t stC' S E H']; subst.
    destruct (step_back_corr _ _ _ _ C S) as (st' & S' & N). rewrite E in S'. eauto. }
  intros [s0 c0 C|x k c kc m B] H; [eauto|].
  inversion H as [? t stC' S E H']; subst.
  destruct (between_step _ _ _ _ _ _ _ B S) as (-> & [C|(c' & kc' & -> & _ & B' & N)]); [eauto|].
  inversion H' as [? t stC2 S2 E2 H2]; subst.
  destruct (between_step _ _ _ _ _ _ _ B' S2) as (-> & [C|(c2 & kc2 & -> & X & _)]); [eauto|].
  congruence.
Qed.
Lemma idle_silent : forall st stC, near st stC -> idle (recording body) stC -> silent body off st.
Proof.
  cofix CIH. intros st stC N H. destruct (near_idle st stC N H) as (st' & S & stC' & N' & H').
  econstructor; [exact S|]. exact (CIH st' stC' N' H').
Qed.

Lemma silent_plus st stC : corrs st stC -> silent body off st ->
  exists tC stC' st', plus stC tC stC' /\ own_events tC = [] /\ corrs st' stC' /\ silent body off st'.
Proof.
  intros C H. inversion H as [? st' S H']; subst.
  destruct (step_corr _ _ _ _ C S) as (tC & stC' & P & E & C' & _). eauto 8.
Qed.
Lemma own_split t t' : own_events (M := M) (t ++ t') = [] -> own_events t = [] /\ own_events t' = [].
Proof. rewrite own_app. apply app_eq_nil. Qed.
Lemma silent_idle : forall tC stC stC' st, csteps stC tC stC' -> own_events tC = [] -> corrs st stC' ->
  silent body off st -> idle (recording body) stC.
Proof.
  cofix CIH. intros tC stC stC' st H E C Si. destruct H as [stC|stC t1 st1 t2 stC' S H].
  - destruct (silent_plus _ _ C Si) as (u & stC1 & st1 & (u1 & c1 & u2 & S1 & H1 & ->) & E1 & C1 & Si1).
    destruct (own_split _ _ E1) as [Ea Eb].
    econstructor; [exact S1|exact Ea|]. exact (CIH u2 c1 stC1 st1 H1 Eb C1 Si1).
  - destruct (own_split _ _ E) as [Ea Eb].
    econstructor; [exact S|exact Ea|]. exact (CIH t2 st1 stC' st H Eb C Si).
Qed.

Lemma seen_off m o : seen (recording body) m o <-> observed body off m o.
Proof.
  pose proof (start_corr m) as C0. pose proof (near_corr _ _ C0) as N0.
  destruct o as [t|t v m'|t|t]; cbn.
  - split.
    + intros (u & stC & H & <-). destruct (steps_back _ _ _ H _ N0) as (st & H' & _). eauto.
    + intros (st & H). destruct (steps_corr _ _ _ H _ C0) as (u & stC & H' & E & _). eauto.
  - split.
    + intros (u & H & <-). destruct (steps_back _ _ _ H _ N0) as (st & H' & N).
      inversion N as [? ? C|]; subst. inversion C; subst. exact H'.
    + intros H. destruct (steps_corr _ _ _ H _ C0) as (u & stC & H' & E & C).
      inversion C; subst. eauto.
  - split.
    + intros (u & stC & H & <- & Id). destruct (steps_back _ _ _ H _ N0) as (st & H' & N).
      exists st. split; [exact H'|]. eapply idle_silent; eassumption.
    + intros (st & H & Si). destruct (steps_corr _ _ _ H _ C0) as (u & stC & H' & E & C).
      exists u, stC. repeat split; auto. apply (silent_idle [] stC stC st); auto. constructor.
  - split.
    + intros (u & c & kc & m' & H & <- & St). destruct (steps_back _ _ _ H _ N0) as (st & H' & N).
      inversion N as [? ? C|? ? ? ? ? B]; subst.
      * inversion C as [x k c0 kc0 m0 C1|]; subst. exists x, k, m'. split; [exact H'|].
        intros t' st' S. destruct (step_corr _ _ _ _ C S) as (u' & stC' & (u1 & c1 & u2 & S1 & _) & _).
        exact (St _ _ S1).
      * exfalso. inversion B; subst; eapply St; constructor.
    + intros (s & k & m' & H & St). destruct (steps_corr _ _ _ H _ C0) as (u & stC & H' & E & C).
      inversion C as [x k0 c kc m0 C1|]; subst. exists u, c, kc, m'. repeat split; auto.
      intros t' st' S. destruct (step_back_corr _ _ _ _ C S) as (st1 & S1 & _). exact (St _ _ S1).
Qed.

Lemma record_origin st stC tC stC' id : corrs st stC -> step (recording body) off stC tC stC' ->
  In (inr id) tC -> exists x k m, st = Running (Unless id x) k m.
Proof.
  intros C S J. destruct C as [x k c kc m C|v m]; [|inversion S].
  destruct C as [x k P G K|x call b k E G K].
  - exfalso. destruct x; unfold plain in P; cbn [split snd fst] in *; try discriminate P.
    1: destruct k as [|s k|e i s k|s e k|k]; cbn [splitk] in S; [| |destruct i| |].
    all: try match type of P with context [fst (split ?a)] => destruct (fst (split a)); [discriminate P|]; cbn [snd] in S end.
    all: try match type of S with context [match fst (split ?a) with _ => _ end] => destruct (fst (split a)) end.
    all: try match type of S with context [option_map usual_expression ?e] => destruct e end.
    all: inversion S; subst; try contradiction.
    all: match goal with H : evaluates R _ _ _ _ _ |- _ => destruct H as (u & _ & ->) end;
      apply in_map_iff in J; destruct J as (y & Y & _); discriminate Y.
  - destruct x; cbn [split fst] in E; try discriminate E.
    + destruct (fst (split x)) as [f|]; [|discriminate]. injection E as <-. inversion S; subst. contradiction.
    + injection E as <-. inversion S; subst.
      match goal with H : evaluates R _ _ _ _ _ |- _ => destruct H as (-> & _ & _) end.
      destruct J as [J|[]]. injection J as ->. eauto.
Qed.

Lemma records_reached stC tC stC' id : csteps stC tC stC' -> In (inr id) tC -> forall st, near st stC ->
  exists t x k m, steps body off st t (Running (Unless id x) k m).
Proof.
  induction 1 as [stC|stC t stC1 t' stC2 S _ IH]; intros J st N; [destruct J|].
  destruct N as [st stC C|x k c kc m B].
  - apply in_app_iff in J. destruct J as [J|J].
    + destruct (record_origin _ _ _ _ _ C S J) as (x & k & m & ->). exists [], x, k, m. constructor.
    + destruct (step_back_corr _ _ _ _ C S) as (st1 & S1 & N1).
      destruct (IH J st1 N1) as (u & x & k & m & H). exists (own_events t ++ u), x, k, m.
      econstructor; eassumption.
  - destruct (between_step _ _ _ _ _ _ _ B S) as (-> & C). apply (IH J).
    destruct C as [C|(c' & kc' & -> & _ & B' & _)]; [now apply near_corr|now apply near_between].
Qed.

(** * Mutants that are not recorded *)

Context (on : nat -> bool) (m : memory M).
Context (Un : forall id, records (recording body) m id -> on id = false).

Lemma step_same t st : steps body off (Running body KStop m) t st ->
  forall u st', step body on st u st' <-> step body off st u st'.
Proof.
  intros H u st'. split; intro S; inversion S; subst; try (econstructor; eassumption); try constructor.
  - replace (on id) with false by (symmetry; eapply Un, reached_records; exact H).
    exact (s_unless body off id s k m0).
  - assert (O : on id = false) by (eapply Un, reached_records; exact H).
    pose proof (s_unless body on id s k m0) as Q. rewrite O in Q. exact Q.
Qed.

Lemma steps_off t st : steps body on (Running body KStop m) t st <->
  steps body off (Running body KStop m) t st.
Proof.
  split.
  - assert (G : forall st0 t1 st1, steps body on st0 t1 st1 -> forall t0,
              steps body off (Running body KStop m) t0 st0 ->
              steps body off st0 t1 st1).
    { induction 1 as [|st0 t0 st1 t1 st2 S _ IH]; intros ta A; [constructor|].
      apply (step_same _ _ A) in S. econstructor; [exact S|]. apply (IH (ta ++ t0)).
      eapply steps_app; [exact A|]. rewrite <- (app_nil_r t0). econstructor; [exact S|constructor]. }
    intro H. apply (G _ _ _ H []). constructor.
  - assert (G : forall st0 t1 st1, steps body off st0 t1 st1 -> forall t0,
              steps body off (Running body KStop m) t0 st0 ->
              steps body on st0 t1 st1).
    { induction 1 as [|st0 t0 st1 t1 st2 S _ IH]; intros ta A; [constructor|].
      pose proof S as S'. apply (step_same _ _ A) in S'. econstructor; [exact S'|]. apply (IH (ta ++ t0)).
      eapply steps_app; [exact A|]. rewrite <- (app_nil_r t0). econstructor; [exact S|constructor]. }
    intro H. apply (G _ _ _ H []). constructor.
Qed.

Lemma silent_off t st : steps body off (Running body KStop m) t st ->
  (silent body on st <-> silent body off st).
Proof.
  intro H. split.
  - revert t st H. cofix CIH. intros t st H S. inversion S as [? st' S1 S2]; subst.
    apply (step_same _ _ H) in S1. econstructor; [exact S1|]. refine (CIH (t ++ []) st' _ S2).
    eapply steps_app; [exact H|]. change (@nil (event M)) with (@nil (event M) ++ []).
    econstructor; [exact S1|constructor].
  - revert t st H. cofix CIH. intros t st H S. inversion S as [? st' S1 S2]; subst.
    pose proof S1 as S1'. apply (step_same _ _ H) in S1'. econstructor; [exact S1'|].
    refine (CIH (t ++ []) st' _ S2).
    eapply steps_app; [exact H|]. change (@nil (event M)) with (@nil (event M) ++ []).
    econstructor; [exact S1|constructor].
Qed.

Lemma observed_off o : observed body on m o <-> observed body off m o.
Proof.
  destruct o as [t|t v m'|t|t]; cbn.
  - split; intros [st H]; exists st; now apply steps_off.
  - apply steps_off.
  - split; intros (st & H & S); exists st.
    + apply steps_off in H. split; [exact H|]. apply (silent_off _ _ H). exact S.
    + split; [now apply steps_off|]. apply (silent_off _ _ H). exact S.
  - split; intros (s & k & m' & H & N); exists s, k, m'.
    + apply steps_off in H. split; [exact H|]. intros t' st S. apply (N t' st). now apply (step_same _ _ H).
    + split; [now apply steps_off|]. intros t' st S. apply (N t' st). now apply (step_same _ _ H).
Qed.
End Machine.

Lemma unrecorded_same (M : machine) (s s' : stmt M) on on' m o : mutated s s' ->
  (forall id, records (recording s') m id -> on id = false) ->
  observed s' on m o <-> observed s on' m o.
Proof.
  intros H U. destruct (mutated_good s s' H) as [P G].
  rewrite (observed_off s' G P on m U o). apply no_mutant; auto.
Qed.

Lemma coverage_same (M : machine) (s s' : stmt M) on' m o : mutated s s' ->
  seen (recording s') m o <-> observed s on' m o.
Proof.
  intro H. destruct (mutated_good s s' H) as [P G].
  rewrite (seen_off s' G P m o). apply no_mutant; auto.
Qed.

Lemma recorded_tests (M : machine) (s s' : stmt M) m id : mutated s s' ->
  records (recording s') m id <->
  exists t x k m', steps s' (fun _ => false) (Running s' KStop m) t (Running (Unless id x) k m').
Proof.
  intro H. destruct (mutated_good s s' H) as [P G]. split.
  - intros (tC & stC & S & J). eapply records_reached; eauto. apply near_corr, start_corr; assumption.
  - intros (t & x & k & m' & S). exact (reached_records s' G P m t id x k m' S).
Qed.
