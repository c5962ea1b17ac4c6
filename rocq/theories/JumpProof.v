(* Removal is exact if nothing jumps into what is removed. *)
From Coq Require Import ZArith List Bool Arith Lia.
From Verif Require Import Jump JumpSpec.
Import ListNotations.

Section Machine.
Context {M : machine} (on : nat -> bool).

Fixpoint withoutk (k : cont M) : cont M :=
  match k with
  | KStop => KStop
  | KThen s k => KThen (without on s) (withoutk k)
  | KFor e i s k => KFor e i (without on s) (withoutk k)
  | KDoWhile s e k => KDoWhile (without on s) e (withoutk k)
  | KSwitch k => KSwitch (withoutk k)
  end.
Definition without_state (st : state M) : state M :=
  match st with
  | Running s k m => Running (without on s) (withoutk k) m
  | Returned v m => Returned v m
  end.
Definition without_target (t : stmt M * cont M) : stmt M * cont M :=
  (without on (fst t), withoutk (snd t)).

(** * Finding labels *)

Lemma no_label l (s : stmt M) : forall k, ~ In l (labels s) -> find_label l s k = None.
Proof.
  induction s; intros k N; cbn [find_label labels] in *; auto.
  - rewrite in_app_iff in N. rewrite IHs1, IHs2 by tauto. reflexivity.
  - rewrite in_app_iff in N. rewrite IHs1, IHs2 by tauto. reflexivity.
  - destruct (Nat.eqb_spec l l0) as [->|]; [destruct N; now left|]. apply IHs.
    intro. apply N. now right.
Qed.
Lemma no_case v (s : stmt M) : forall k, open_case s = false -> find_case v s k = None.
Proof.
  induction s; intros k N; cbn [find_case open_case] in *; auto.
  - apply orb_false_iff in N. rewrite IHs1, IHs2 by tauto. reflexivity.
  - apply orb_false_iff in N. rewrite IHs1, IHs2 by tauto. reflexivity.
  - discriminate.
Qed.

Lemma or_else_map {A B} (f : A -> B) a b :
  or_else (option_map f a) (option_map f b) = option_map f (or_else a b).
Proof. destruct a; reflexivity. Qed.

Lemma find_label_without l (s : stmt M) : forall k,
  (forall r, In r (removed on s) -> ~ In l (labels r)) ->
  find_label l (without on s) (withoutk k) = option_map without_target (find_label l s k).
Proof.
  induction s; intros k N; cbn [find_label without removed] in *; auto;
    try (rewrite <- IHs by assumption; reflexivity).
  - rewrite <- or_else_map, <- IHs1, <- IHs2 by (intros r R; apply N, in_app_iff; auto). reflexivity.
  - rewrite <- or_else_map, <- IHs1, <- IHs2 by (intros r R; apply N, in_app_iff; auto). reflexivity.
  - destruct (Nat.eqb l l0); [reflexivity|]. apply IHs, N.
  - destruct (on id); [|apply IHs, N]. rewrite (no_label l s); [reflexivity|]. apply N. now left.
Qed.

Lemma find_case_without v (s : stmt M) : forall k,
  (forall r, In r (removed on s) -> open_case r = false) ->
  find_case v (without on s) (withoutk k) = option_map without_target (find_case v s k).
Proof.
  induction s; intros k N; cbn [find_case without removed] in *; auto;
    try (rewrite <- IHs by assumption; reflexivity).
  - rewrite <- or_else_map, <- IHs1, <- IHs2 by (intros r R; apply N, in_app_iff; auto). reflexivity.
  - rewrite <- or_else_map, <- IHs1, <- IHs2 by (intros r R; apply N, in_app_iff; auto). reflexivity.
  - destruct (same_case v v0); [reflexivity|]. apply IHs, N.
  - destruct (on id); [|apply IHs, N]. rewrite (no_case v s); [reflexivity|]. apply N. now left.
Qed.

Lemma switch_without v (s : stmt M) k :
  (forall r, In r (removed on s) -> open_case r = false) ->
  switch_target v (without on s) (withoutk k) = without_target (switch_target v s k).
Proof.
  intro N. unfold switch_target.
  change (KSwitch (withoutk k)) with (withoutk (KSwitch k)).
  rewrite !find_case_without by exact N. rewrite or_else_map.
  destruct (or_else _ _); reflexivity.
Qed.

Lemma break_without k : after_break (withoutk k) = option_map withoutk (after_break k).
Proof. induction k; cbn; auto. Qed.
Lemma continue_without k : after_continue (withoutk k) = option_map withoutk (after_continue k).
Proof. induction k; cbn; auto. Qed.

(** * What holds of all statements that are executed *)

Context (body : stmt M) (not_in : not_entered on body).

Definition fine (s : stmt M) : Prop :=
  incl (jumps (without on s)) (jumps (without on body)) /\
  forall r, In r (removed on s) -> open_case r = false.
Fixpoint finek (k : cont M) : Prop :=
  match k with
  | KStop => True
  | KThen s k | KFor _ _ s k | KDoWhile s _ k => fine s /\ finek k
  | KSwitch k => finek k
  end.
Definition fine_state (st : state M) : Prop :=
  match st with
  | Running s k _ => fine s /\ finek k
  | Returned _ _ => True
  end.

Lemma fine_body : fine body.
Proof. split; [apply incl_refl|]. intros r R. apply not_in, R. Qed.
Lemma fine_skip : fine Skip.
Proof. split; [intros x []|intros r []]. Qed.
Lemma fine_two (a b : stmt M) :
  incl (jumps (without on a) ++ jumps (without on b)) (jumps (without on body)) ->
  (forall r, In r (removed on a ++ removed on b) -> open_case r = false) -> fine a /\ fine b.
Proof.
  intros J R. apply incl_app_inv in J. destruct J.
  repeat split; auto; intros r I; apply R, in_app_iff; auto.
Qed.

Lemma fine_label l s : forall k t,
  (forall r, In r (removed on s) -> ~ In l (labels r)) ->
  fine s -> finek k -> find_label l s k = Some t -> fine (fst t) /\ finek (snd t).
Proof.
  induction s; intros k t N [J R] K E; cbn [find_label without removed jumps] in *; try discriminate;
    try (eapply IHs; [exact N|split; [exact J|exact R]| |exact E]; cbn; repeat split; auto; fail).
  - destruct (fine_two _ _ J R) as [F1 F2]. unfold or_else in E.
    destruct (find_label l s1 _) eqn:E1.
    + injection E as <-. eapply IHs1; [|exact F1| |exact E1]; [|cbn; auto].
      intros r I. apply N, in_app_iff; auto.
    + eapply IHs2; eauto. intros r I. apply N, in_app_iff; auto.
  - destruct (fine_two _ _ J R) as [F1 F2]. unfold or_else in E.
    destruct (find_label l s1 _) eqn:E1.
    + injection E as <-. eapply IHs1; eauto. intros r I. apply N, in_app_iff; auto.
    + eapply IHs2; eauto. intros r I. apply N, in_app_iff; auto.
  - destruct (Nat.eqb l l0); [injection E as <-; repeat split; auto|].
    eapply IHs; [exact N|split; [exact J|exact R]| |exact E]; auto.
  - destruct (on id) eqn:O.
    + rewrite no_label in E; [discriminate|]. apply N. now left.
    + eapply IHs; [exact N|split; [exact J|exact R]| |exact E]; auto.
Qed.

Lemma fine_case v s : forall k t, fine s -> finek k -> find_case v s k = Some t ->
  fine (fst t) /\ finek (snd t).
Proof.
  induction s; intros k t [J R] K E; cbn [find_case without removed jumps] in *; try discriminate;
    try (eapply IHs; [split; [exact J|exact R]| |exact E]; cbn; repeat split; auto; fail).
  - destruct (fine_two _ _ J R) as [F1 F2]. unfold or_else in E.
    destruct (find_case v s1 _) eqn:E1.
    + injection E as <-. eapply IHs1; [exact F1| |exact E1]; cbn; auto.
    + eapply IHs2; eauto.
  - destruct (fine_two _ _ J R) as [F1 F2]. unfold or_else in E.
    destruct (find_case v s1 _) eqn:E1.
    + injection E as <-. eapply IHs1; eauto.
    + eapply IHs2; eauto.
  - destruct (same_case v v0); [injection E as <-; repeat split; auto|].
    eapply IHs; [split; [exact J|exact R]| |exact E]; auto.
  - destruct (on id) eqn:O.
    + rewrite no_case in E; [discriminate|]. apply R. now left.
    + eapply IHs; [split; [exact J|exact R]| |exact E]; auto.
Qed.

Lemma fine_break k k' : finek k -> after_break k = Some k' -> finek k'.
Proof.
  induction k; cbn; intros F E; try discriminate; try (injection E as <-); try tauto.
Qed.
Lemma fine_continue k k' : finek k -> after_continue k = Some k' -> finek k'.
Proof.
  induction k; cbn; intros F E; try discriminate; try (injection E as <-; exact F); tauto.
Qed.

Lemma label_in_body l s k : incl [l] (jumps (without on body)) ->
  find_label l (without on body) KStop = option_map without_target (find_label l body KStop) /\
  (find_label l body KStop = Some (s, k) -> fine s /\ finek k).
Proof.
  intro J.
  assert (N : forall r, In r (removed on body) -> ~ In l (labels r)).
  { intros r R I. apply (proj2 (not_in r R) l I), J. now left. }
  split; [exact (find_label_without l body KStop N)|].
  intro E. exact (fine_label l body KStop (s, k) N fine_body I E).
Qed.

(** * Steps *)

(* Tests of mutants *)
Definition test (s : stmt M) : bool := match s with Unless _ _ => true | _ => false end.
Fixpoint tests (s : stmt M) : nat := match s with Unless _ s => S (tests s) | _ => 0 end.

Lemma test_step id s k m : fine_state (Running (Unless id s) k m) ->
  let st := Running (if on id then Skip else s) k m in
  without_state st = without_state (Running (Unless id s) k m) /\ fine_state st /\
  tests (if on id then Skip else s) < tests (Unless id s).
Proof.
  intros [[J R] K]. cbn [without removed] in *. cbn. destruct (on id).
  - split; [reflexivity|]. split; [split; [exact fine_skip|exact K]|cbn; lia].
  - repeat split; auto.
Qed.

Lemma step_fine s k m t st' : test s = false -> fine_state (Running s k m) ->
  step body on (Running s k m) t st' -> fine_state st'.
Proof.
  intros T [F K] S. pose proof F as [J R]. inversion S; subst; cbn [fine_state finek] in *; auto;
    try (split; [exact fine_skip|exact K]); try (split; [exact fine_skip|tauto]); try discriminate.
  - destruct (fine_two _ _ J R). cbn. tauto.
  - destruct (fine_two _ _ J R). unfold branch. destruct (Z.eqb v 0); tauto.
  - destruct (Z.eqb v 0); (split; [first [exact fine_skip|exact F]|]); cbn; auto.
  - destruct (Z.eqb v 0); (split; [first [exact fine_skip|apply K]|]); apply K.
  - unfold switch_target. cbn [removed without jumps] in *.
    destruct (or_else _ _) eqn:E; [|split; [exact fine_skip|exact K]].
    unfold or_else in E. destruct (find_case (Some v) s0 _) eqn:E1.
    + injection E as <-. apply (fine_case (Some v) s0 (KSwitch k)); [exact (conj J R)|exact K|exact E1].
    + apply (fine_case None s0 (KSwitch k)); [exact (conj J R)|exact K|exact E].
  - eapply label_in_body; [exact J|]. eassumption.
  - split; [exact fine_skip|]. eapply fine_break; eauto.
  - split; [exact fine_skip|]. eapply fine_continue; eauto.
Qed.

Lemma step_without on' s k m t st' : test s = false -> fine_state (Running s k m) ->
  step body on (Running s k m) t st' ->
  step (without on body) on' (without_state (Running s k m)) t (without_state st').
Proof.
  intros T [F K] S. pose proof F as [J R].
  inversion S; subst; cbn [without_state without withoutk] in *; try discriminate;
    try (econstructor; eassumption); try constructor.
  - replace (without on (branch v s1 s2)) with (branch v (without on s1) (without on s2))
      by (unfold branch; destruct (Z.eqb v 0); reflexivity).
    econstructor; eassumption.
  - match goal with |- step _ _ _ _ ?x =>
      replace x with (if Z.eqb v 0 then Running Skip (withoutk k) m'
                      else Running (without on s0) (KFor (Some e) i (without on s0) (withoutk k)) m')
        by (destruct (Z.eqb v 0); reflexivity) end.
    econstructor; eassumption.
  - match goal with |- step _ _ _ _ ?x =>
      replace x with (if Z.eqb v 0 then Running Skip (withoutk k0) m'
                      else Running (DoWhile (without on s0) e) (withoutk k0) m')
        by (destruct (Z.eqb v 0); reflexivity) end.
    econstructor; eassumption.
  - pose proof (switch_without v s0 k R) as E.
    replace (without on (fst (switch_target v s0 k)))
      with (fst (switch_target v (without on s0) (withoutk k))) by (rewrite E; reflexivity).
    replace (withoutk (snd (switch_target v s0 k)))
      with (snd (switch_target v (without on s0) (withoutk k))) by (rewrite E; reflexivity).
    econstructor; eassumption.
  - match goal with H : find_label _ _ _ = _ |- _ => rename H into L end.
    destruct (label_in_body l Skip KStop J) as [E _]. rewrite E, L. reflexivity.
  - rewrite break_without. match goal with H : after_break _ = _ |- _ => rewrite H end. reflexivity.
  - rewrite continue_without. match goal with H : after_continue _ = _ |- _ => rewrite H end. reflexivity.
Qed.

Lemma step_back on' s k m t st1 : test s = false -> fine_state (Running s k m) ->
  step (without on body) on' (without_state (Running s k m)) t st1 ->
  exists st', step body on (Running s k m) t st' /\ without_state st' = st1.
Proof.
  intros T [F K] S. pose proof F as [J R]. cbn [without_state] in S.
  destruct s; cbn [without test] in *; try discriminate.
  - destruct k; cbn [withoutk] in S; inversion S; subst; eexists; (split; [econstructor; eassumption|]);
      cbn; try reflexivity. destruct (Z.eqb v 0); reflexivity.
  - inversion S; subst. eexists. split; [econstructor; eassumption|reflexivity].
  - inversion S; subst. eexists. split; [econstructor; eassumption|reflexivity].
  - inversion S; subst. eexists. split; [econstructor|reflexivity].
  - inversion S; subst. eexists. split; [econstructor; eassumption|].
    unfold branch. cbn. destruct (Z.eqb v 0); reflexivity.
  - inversion S; subst; eexists; (split; [econstructor; eassumption|]); cbn;
      try destruct (Z.eqb v 0); reflexivity.
  - inversion S; subst. eexists. split; [econstructor|reflexivity].
  - inversion S; subst. eexists. split; [econstructor; eassumption|].
    cbn [without_state]. rewrite switch_without by exact R. reflexivity.
  - inversion S; subst. eexists. split; [econstructor|reflexivity].
  - inversion S; subst. eexists. split; [econstructor|reflexivity].
  - inversion S; subst. match goal with H : find_label _ _ _ = _ |- _ => rename H into L end.
    destruct (label_in_body l Skip KStop J) as [E _]. rewrite E in L.
    destruct (find_label l body KStop) as [[s k1]|] eqn:E'; [|discriminate].
    injection L as <- <-. exists (Running s k1 m). split; [constructor; exact E'|reflexivity].
  - inversion S; subst. match goal with H : after_break _ = _ |- _ => rewrite break_without in H; rename H into L end.
    destruct (after_break k) eqn:E; [|discriminate]. injection L as <-. eexists. split; [econstructor; exact E|reflexivity].
  - inversion S; subst. match goal with H : after_continue _ = _ |- _ => rewrite continue_without in H; rename H into L end.
    destruct (after_continue k) eqn:E; [|discriminate]. injection L as <-. eexists. split; [econstructor; exact E|reflexivity].
  - inversion S; subst; eexists; (split; [econstructor; eassumption|reflexivity]).
Qed.

(** * Executions *)

Lemma steps_app b o st t st' t' st'' : @steps M b o st t st' -> steps b o st' t' st'' ->
  steps b o st (t ++ t') st''.
Proof.
  induction 1 as [|st t st' t0 st1 S _ IH]; intro H; [exact H|].
  rewrite <- app_assoc. econstructor; [exact S|auto].
Qed.

(* The tests in front of a statement are made. *)
Lemma do_tests n : forall s k m, tests s <= n -> fine_state (Running s k m) ->
  exists s', steps body on (Running s k m) [] (Running s' k m) /\ test s' = false /\
    fine_state (Running s' k m) /\
    without_state (Running s' k m) = without_state (Running s k m).
Proof.
  induction n as [|n IH]; intros s k m L F.
  - exists s. repeat split; try constructor; try apply F. now destruct s.
  - destruct (test s) eqn:T.
    + destruct s; try discriminate. destruct (test_step _ _ _ _ F) as (E & F' & D).
      destruct (IH (if on id then Skip else s) k m) as (s' & P & T' & F'' & E'); [lia|exact F'|].
      exists s'. repeat split; auto; try apply F''.
      * change (@nil (event M)) with (@nil (event M) ++ []). econstructor; [constructor|exact P].
      * now rewrite E'.
    + exists s. repeat split; try constructor; try apply F. exact T.
Qed.

Lemma forward on' st t st' : steps body on st t st' -> fine_state st ->
  steps (without on body) on' (without_state st) t (without_state st') /\ fine_state st'.
Proof.
  induction 1 as [st|st t st1 t' st2 S _ IH]; intro F; [split; [constructor|exact F]|].
  destruct st as [s k m|v m]; [|inversion S].
  destruct (test s) eqn:T.
  - destruct s; try discriminate. inversion S; subst.
    destruct (test_step _ _ _ _ F) as (E & F' & _). destruct (IH F') as [H F'']. rewrite E in H. auto.
  - pose proof (step_fine _ _ _ _ _ T F S) as F'. destruct (IH F') as [H F'']. split; [|exact F''].
    econstructor; [|exact H]. now apply step_without.
Qed.

Lemma backward on' st1 t st2 : steps (without on body) on' st1 t st2 -> forall st, fine_state st ->
  without_state st = st1 ->
  exists st', steps body on st t st' /\ without_state st' = st2 /\ fine_state st'.
Proof.
  induction 1 as [st1|st1 t st1' t' st2 S _ IH]; intros st F E.
  - exists st. split; [constructor|auto].
  - destruct st as [s k m|v m]; [|subst; inversion S].
    destruct (do_tests _ s k m (le_n _) F) as (s' & P & T & F' & E').
    rewrite <- E, <- E' in S. destruct (step_back on' s' k m t st1' T F' S) as (sta & Sa & Ea).
    destruct (IH sta (step_fine _ _ _ _ _ T F' Sa) Ea) as (stb & Pb & Eb & Fb).
    exists stb. split; [|auto]. change (t ++ t') with ([] ++ (t ++ t')).
    eapply steps_app; [exact P|]. econstructor; [exact Sa|exact Pb].
Qed.

Lemma silent_ahead n : forall s k m, tests s <= n -> fine_state (Running s k m) ->
  silent body on (Running s k m) ->
  exists s' st', test s' = false /\ fine_state (Running s' k m) /\
    without_state (Running s' k m) = without_state (Running s k m) /\
    step body on (Running s' k m) [] st' /\ silent body on st'.
Proof.
  induction n as [|n IH]; intros s k m L F Si; inversion Si as [? st' S Si' E]; subst.
  - exists s, st'. repeat split; auto; try apply F. now destruct s.
  - destruct (test s) eqn:T.
    + destruct s; try discriminate. inversion S; subst.
      destruct (test_step _ _ _ _ F) as (E & F' & D).
      destruct (IH (if on id then Skip else s) k m) as (s' & st' & T' & F'' & E' & S' & Si''); auto;
        [lia|]. exists s', st'. repeat split; auto; try apply F''. now rewrite E'.
    + exists s, st'. repeat split; auto; apply F.
Qed.

Lemma silent_without on' : forall st, fine_state st -> silent body on st ->
  silent (without on body) on' (without_state st).
Proof.
  cofix C. intros st F Si. destruct st as [s k m|v m].
  - destruct (silent_ahead _ s k m (le_n _) F Si) as (s' & st' & T & F' & E & S & Si').
    rewrite <- E. econstructor; [exact (step_without on' _ _ _ _ _ T F' S)|].
    apply C; [exact (step_fine _ _ _ _ _ T F' S)|exact Si'].
  - exfalso. inversion Si as [? ? S]; subst. inversion S.
Qed.

Lemma silent_back on' : forall st, fine_state st -> silent (without on body) on' (without_state st) ->
  silent body on st.
Proof.
  cofix C. intros st F Si. destruct st as [s k m|v m].
  - destruct (test s) eqn:T.
    + destruct s; try discriminate. destruct (test_step _ _ _ _ F) as (E & F' & _).
      econstructor; [constructor|]. apply C; [exact F'|]. rewrite E. exact Si.
    + inversion Si as [? st1 S Si' E]; subst.
      destruct (step_back on' s k m [] st1 T F S) as (st' & S' & E'). econstructor; [exact S'|].
      apply C; [exact (step_fine _ _ _ _ _ T F S')|]. rewrite E'. exact Si'.
  - exfalso. inversion Si as [? ? S]; subst. inversion S.
Qed.

Theorem removal on' m o : observed body on m o <-> observed (without on body) on' m o.
Proof.
  assert (F : fine_state (Running body KStop m)) by (split; [exact fine_body|exact I]).
  assert (W : without_state (Running body KStop m) = Running (without on body) KStop m) by reflexivity.
  unfold observed. destruct o as [t|t v m'|t|t]; split.
  - intros (st & H). destruct (forward on' _ _ _ H F) as [H' _]. rewrite W in H'. eauto.
  - intros (st & H). destruct (backward on' _ _ _ H _ F W) as (st' & H' & _). eauto.
  - intro H. apply (forward on' _ _ _ H F).
  - intro H. destruct (backward on' _ _ _ H _ F W) as (st' & H' & E & _).
    destruct st'; [discriminate|]. injection E as -> ->. exact H'.
  - intros (st & H & Si). destruct (forward on' _ _ _ H F) as [H' F']. rewrite W in H'.
    eexists. split; [exact H'|]. now apply silent_without.
  - intros (st & H & Si). destruct (backward on' _ _ _ H _ F W) as (st' & H' & <- & F').
    exists st'. split; [exact H'|]. eapply silent_back; eauto.
  - intros (s & k & m' & H & N). destruct (forward on' _ _ _ H F) as [H' F']. rewrite W in H'.
    exists (without on s), (withoutk k), m'. split; [exact H'|]. intros t' st S.
    assert (T : test s = false) by (destruct s; try reflexivity; exfalso; eapply N; constructor).
    destruct (step_back on' s k m' t' st T F' S) as (st' & S' & _). exact (N _ _ S').
  - intros (s & k & m' & H & N). destruct (backward on' _ _ _ H _ F W) as (st' & H' & E & F').
    destruct st' as [s' k' m''|]; [|discriminate].
    destruct (do_tests _ s' k' m'' (le_n _) F') as (s2 & P & T & F2 & E2).
    exists s2, k', m''. split; [rewrite <- (app_nil_r t); eapply steps_app; eauto|].
    intros t' st S. apply (step_without on') in S; [|exact T|exact F2].
    rewrite E2, E in S. exact (N _ _ S).
Qed.

End Machine.

(** * Where Dredd puts the tests *)

Section Source.
Context {M : machine}.

Scheme mutated_min := Minimality for mutated Sort Prop
  with component_min := Minimality for component Sort Prop.
Combined Scheme mutated_both from mutated_min, component_min.

Lemma none_without : (forall s s' : stmt M, mutated s s' -> without (fun _ => false) s' = s) /\
  (forall s s' : stmt M, component s s' -> without (fun _ => false) s' = s).
Proof. apply mutated_both; intros; cbn; congruence. Qed.

Lemma same_labels : (forall s s' : stmt M, mutated s s' -> labels s' = labels s) /\
  (forall s s' : stmt M, component s s' -> labels s' = labels s).
Proof. apply mutated_both; intros; cbn; congruence. Qed.
Lemma same_cases : (forall s s' : stmt M, mutated s s' -> open_case s' = open_case s) /\
  (forall s s' : stmt M, component s s' -> open_case s' = open_case s).
Proof. apply mutated_both; intros; cbn; congruence. Qed.
Lemma fewer_jumps on : (forall s s' : stmt M, mutated s s' -> incl (jumps (without on s')) (jumps s)) /\
  (forall s s' : stmt M, component s s' -> incl (jumps (without on s')) (jumps s)).
Proof.
  apply mutated_both; intros; cbn; try apply incl_refl; auto using incl_app_app.
  destruct (on id); [intros x []|assumption].
Qed.

(* Case labels before a component are not part of what is wrapped. *)
Lemma open_after (s : stmt M) : removable s = true -> after_cases s = s.
Proof. now destruct s. Qed.

Lemma orderly_removed on :
  (forall s s' : stmt M, mutated s s' -> orderly s ->
     forall r, In r (removed on s') -> open_case r = false) /\
  (forall s s' : stmt M, component s s' -> orderly s -> open_case (after_cases s) = false ->
     forall r, In r (removed on s') -> open_case r = false).
Proof.
  apply mutated_both; cbn; intros; try contradiction; auto.
  - apply in_app_iff in H4. destruct H4; [eapply H0|eapply H2]; eauto; tauto.
  - apply in_app_iff in H4. destruct H4; [eapply H0|eapply H2]; eauto; tauto.
  - destruct (on id).
    + destruct H4 as [<-|[]]. rewrite (proj1 same_cases _ _ H0). now rewrite open_after in H3.
    + eapply H1; eauto.
Qed.

Lemma sealed_removed on :
  (forall s s' : stmt M, mutated s s' -> forall outer, sealed outer s ->
     forall r l, In r (removed on s') -> In l (labels r) ->
     ~ In l (outer ++ jumps (without on s'))) /\
  (forall s s' : stmt M, component s s' -> forall outer, sealed outer s ->
     (is_label (after_cases s) = false -> forall l, In l (labels s) -> ~ In l outer) ->
     forall r l, In r (removed on s') -> In l (labels r) ->
     ~ In l (outer ++ jumps (without on s'))).
Proof.
  apply mutated_both; cbn; intros; try contradiction; eauto.
  - destruct H3 as (Q & S1 & S2). pose proof (proj2 (fewer_jumps on) _ _ H) as J1.
    pose proof (proj1 (fewer_jumps on) _ _ H1) as J2.
    apply in_app_iff in H4. intro I. destruct H4 as [R|R].
    + apply (H0 _ S1 Q _ l R H5). rewrite !in_app_iff in *. intuition auto.
    + apply (H2 _ S2 _ l R H5). rewrite !in_app_iff in *. intuition auto.
  - destruct H3 as (S1 & S2). pose proof (proj1 (fewer_jumps on) _ _ H) as J1.
    pose proof (proj1 (fewer_jumps on) _ _ H1) as J2.
    apply in_app_iff in H4. intro I. destruct H4 as [R|R].
    + apply (H0 _ S1 _ l R H5). rewrite !in_app_iff in *. intuition auto.
    + apply (H2 _ S2 _ l R H5). rewrite !in_app_iff in *. intuition auto.
  - destruct (on id).
    + destruct H4 as [<-|[]]. cbn. rewrite app_nil_r. rewrite (proj1 same_labels _ _ H0) in H5.
      apply H3; [|exact H5]. rewrite open_after by assumption. now destruct s.
    + eapply H1; eauto.
Qed.

Lemma source_not_entered on (s s' : stmt M) : mutated s s' -> sealed [] s -> orderly s ->
  not_entered on s'.
Proof.
  intros D Se Or r R. split; [exact (proj1 (orderly_removed on) _ _ D Or r R)|].
  intros l I. exact (proj1 (sealed_removed on) _ _ D [] Se r l R I).
Qed.

End Source.

Lemma without_none {M : machine} on : (forall id, on id = false) ->
  forall s : stmt M, without on s = without (fun _ => false) s /\ removed on s = [].
Proof.
  intros N. induction s; cbn; try (split; reflexivity);
    try (destruct IHs as [-> ->]; split; reflexivity);
    try (destruct IHs1 as [-> ->], IHs2 as [-> ->]; split; reflexivity).
  rewrite N. exact IHs.
Qed.

Lemma no_mutant {M : machine} on (s s' : stmt M) on' m o : mutated s s' -> (forall id, on id = false) ->
  observed s' on m o <-> observed s on' m o.
Proof.
  intros D N. destruct (without_none on N s') as [W R].
  rewrite (removal on s') with (on' := on').
  - rewrite W, (proj1 none_without _ _ D). reflexivity.
  - intros r I. rewrite R in I. destruct I.
Qed.

Lemma source_removal {M : machine} on (s s' : stmt M) on' m o :
  mutated s s' -> sealed [] s -> orderly s ->
  observed s' on m o <-> observed (without on s') on' m o.
Proof. intros. apply removal, (source_not_entered on s s'); assumption. Qed.
