(* Whole programs: the mutated functions of a file, run with its prelude, behave like the
   source-level mutants. *)
From Coq Require Import String List NArith ZArith Bool Lia.
From Verif Require Import Base Clang Gen GenExpr GenBinary GenUnary GenStmt Mutation GenSpec
  Rewriter PreludeText Prelude PreludeSpec PreludeProof PreludeProof2 Tracking Lang Cst Runtime
  SimSpec SimRel SimProof SimMutate.
Import ListNotations.

(** * The runtimes work *)

Lemma listed_memb f zs i : listed f zs i = memb f zs i.
Proof. unfold listed, memb. rewrite Nat2Z.inj_add. reflexivity. Qed.

Definition selecting_inv (f n : nat) (zs : list Z) (s : tls) : Prop :=
  s = initial_tls n \/ (answers n s (memb f zs) /\ some_enabled s = in_file f n zs).

Lemma selecting_works f n cpp v zs :
  variable_lists v zs -> Forall (int_safe f) zs ->
  working (selecting f n cpp v) (listed f zs) (one_file n 0) (selecting_inv f n zs).
Proof.
  intros V S. split; cbn [selecting rt_state rt_flag rt_query rt_record one_file lim_queried lim_recorded].
  - intros d i [->|[A Q]] F id Hid _; [discriminate|].
    rewrite listed_memb. rewrite F in Q. destruct (memb f zs id) eqn:M; auto.
    symmetry in Q. assert (in_file f n zs = true); [|congruence].
    apply in_file_spec. eauto.
  - intros d id [->|[A Q]] Hid; rewrite listed_memb.
    + destruct (query_first f n cpp v zs id V S Hid) as (s & -> & A & Q).
      exists s. split; auto. right. auto.
    + rewrite (query_initialized f n cpp v d _ id A Hid). exists d. split; auto. right. auto.
  - intros d id k _ H Le. lia.
Qed.

Lemma recording_works f n cpp tracking can_open :
  cpp || negb tracking || can_open = true ->
  working (recording f cpp tracking can_open) (fun _ => false) (one_file 0 n)
    (fun s => List.length (t_recorded s) = n).
Proof.
  intro O. split; cbn [recording rt_state rt_flag rt_query rt_record one_file lim_queried lim_recorded].
  - intros; discriminate.
  - intros; lia.
  - intros d id k Q P H _. destruct (nth_error (t_recorded d) id) as [[|]|] eqn:Ne.
    + eauto.
    + replace (tracking && negb can_open && negb cpp) with false
        by (destruct cpp, tracking, can_open; auto; discriminate).
      eexists. split; [reflexivity|]. cbn. rewrite <- Q.
      generalize (t_recorded d) as l. clear. intro l. revert id.
      induction l as [|x l IH]; intros [|id]; cbn; auto.
    + apply nth_error_None in Ne. lia.
Qed.

Section Top.
Variable L : lang.
Variable c : ctx.
Variable o : options.
Notation opt := (optimise o).
Notation tm := (tm L).
Variable cpp17 : bool.

(** * Programs *)

Lemma program_ids rest E p : forall id,
  snd (mutate_program L c o p id) = snd (spec_program L c opt rest E p id) /\
  id <= snd (spec_program L c opt rest E p id).
Proof.
  induction p as [|[f t] p IH]; intro id; cbn; auto.
  destruct (same_ids L c o rest E t id) as [Q M].
  destruct (mutate L c o t id) as [t' i1], (spec L c opt rest E t id) as [x i2]. cbn in Q, M. subst i1.
  destruct (IH i2) as [Q2 M2]. destruct (mutate_program L c o p i2), (spec_program L c opt rest E p i2).
  cbn in *. split; [exact Q2|lia].
Qed.

Definition well_formed_program (p : list (string * cst L)) : bool :=
  forallb (fun x => SimSpec.well_formed L c (snd x)) p.
Definition productive_program (p : list (string * cst L)) : bool :=
  forallb (fun x => productive L c opt (snd x)) p.

Definition sequenced_program (p : list (string * cst L)) : bool :=
  forallb (fun x => sequenced L c (snd x)) p.

Lemma program_bodies rest E file total lo num R bs p : forall id,
  num <= total -> (forall i, lo <= i -> i < num -> file i = file lo) ->
  (track o = true -> forall i, E i = false) ->
  well_formed_program p = true -> (track o = true -> productive_program p = true) ->
  (cpp17 = true -> sequenced_program p = true) ->
  (rest = false -> drops_program L c opt R bs cpp17 E p id) ->
  lo <= id -> snd (spec_program L c opt rest E p id) <= num ->
  forall g, match body_of L c (fst (mutate_program L c o p id)) g,
                  lookup_body L (fst (spec_program L c opt rest E p id)) g with
            | Some t, Some s => rel L c R E (bounds o file total) bs cpp17 Same t s
            | None, None => True
            | _, _ => False
            end.
Proof.
  induction p as [|[f t] p IH]; intros id Nt Of Tr Wf Pr Sq Dr Lo Le g; cbn; auto.
  cbn in Wf, Pr, Sq, Dr, Le. apply andb_true_iff in Wf as [W1 W2].
  pose proof (fun H => proj1 (Dr H)) as D1.
  assert (D2 : rest = false ->
    drops_program L c opt R bs cpp17 E p (snd (spec L c opt rest E t id))).
  { intro Z. pose proof (proj2 (Dr Z)) as Q. rewrite Z. exact Q. }
  assert (S1 : cpp17 = true -> sequenced L c t = true).
  { intro T. specialize (Sq T). apply andb_true_iff in Sq. tauto. }
  assert (S2 : cpp17 = true -> sequenced_program p = true).
  { intro T. specialize (Sq T). apply andb_true_iff in Sq. tauto. }
  assert (P1 : track o = true -> productive L c opt t = true).
  { intro T. specialize (Pr T). apply andb_true_iff in Pr. tauto. }
  assert (P2 : track o = true -> productive_program p = true).
  { intro T. specialize (Pr T). apply andb_true_iff in Pr. tauto. }
  pose proof (mutate_rel L c o rest E file total lo num Nt Of R bs cpp17 Tr t id W1 P1 S1 D1 Lo) as Hr.
  destruct (same_ids L c o rest E t id) as [Q M].
  destruct (mutate L c o t id) as [t' i1], (spec L c opt rest E t id) as [x i2]. cbn in Q, M, D2. subst i1.
  destruct (program_ids rest E p i2) as [Q2 M2].
  specialize (IH i2 Nt Of Tr W2 P2 S2 D2 (Nat.le_trans _ _ _ Lo M)).
  destruct (mutate_program L c o p i2) as [p' j1], (spec_program L c opt rest E p i2) as [q j2].
  cbn in *. destruct (String.eqb g f); [apply Hr; lia|apply IH; exact Le].
Qed.

Lemma call_rel R E num bs g args :
  rel L c R E num bs cpp17 Same (call L g args) (call L g args).
Proof.
  apply rel_n; auto. induction args as [|[v|l] args IH]; constructor; auto; constructor.
Qed.

(* Everything but the runtime *)
Lemma behaves_lemma rest E num R Inv d p g args :
  let bs := lookup_body L (fst (spec_program L c opt rest E p 0)) in
  working R E (bounds o (fun _ => 0) num) Inv -> Inv d ->
  (track o = true -> forall i, E i = false) ->
  well_formed_program p = true -> (track o = true -> productive_program p = true) ->
  (cpp17 = true -> sequenced_program p = true) ->
  (rest = false -> drops_program L c opt no_runtime bs cpp17 E p 0) ->
  snd (mutate_program L c o p 0) <= num ->
  behaves_like L c cpp17 R d (body_of L c (fst (mutate_program L c o p 0))) (call L g args)
    bs (call L g args).
Proof.
  intros bs W I Tr Wf Pr Sq Dr Le. rewrite (proj1 (program_ids rest E p 0)) in Le.
  pose proof (program_bodies rest E (fun _ => 0) num 0 num no_runtime bs p 0 (le_n num)
                (fun _ _ _ => eq_refl) Tr Wf Pr Sq Dr (le_n 0) Le) as B.
  pose proof (call_rel no_runtime E (bounds o (fun _ => 0) num) bs g args) as Hr.
  split; intros.
  - eapply simulation_finishes; eauto.
  - eapply simulation_undefined; eauto.
  - eapply simulation_reaches; eauto.
  - eapply simulation_diverges; eauto.
Qed.

(** * Nothing dropped *)

Lemma off_none {A} E id (l : list A) : off E id (List.length l) -> first_enabled E id l = None.
Proof.
  revert id. induction l as [|a l IH]; intros id O; cbn; auto.
  rewrite (O id) by (cbn; lia). apply IH. intros i Hi. apply O. cbn. lia.
Qed.
Lemma off_expr E e id : off E id (List.length (expr_mutants c opt e)) ->
  expr_choice c opt E e id = Some RArg1.
Proof. intro O. unfold expr_choice. rewrite off_none by (rewrite map_length; exact O). reflexivity. Qed.
Lemma off_unary E u id : off E id (List.length (unary_mutants opt u)) ->
  unary_choice opt E u id = Some (original_unary (u_op u)).
Proof. intro O. unfold unary_choice. rewrite off_none by (rewrite map_length; exact O). reflexivity. Qed.
Lemma off_binary E b id : off E id (List.length (binary_actions c opt b)) ->
  binary_choice c opt E b id = Some (RBin (b_op b)).
Proof. intro O. unfold binary_choice. rewrite off_none by exact O. reflexivity. Qed.

Lemma removals_drops E R bs t : forall id,
  removals_only L c opt E t id -> drops L c opt R bs cpp17 E t id.
Proof.
  induction t as [s v|k ps last IH|e sub IH|b l w1 w2 r IHl IHr|u w sub IH|s sub IH]
    using cst_induction; intros id H; cbn in *; auto.
  - revert id H. induction IH as [|[s p] ps Hp F IHF]; intros id H; auto.
    destruct H as [H1 H2]. split; auto. apply (IHF _ H2).
  - destruct H as [H1 H2]. split; auto. destruct (spec L c opt false E sub id) as [x i]. cbn in H2.
    intros r Q. rewrite off_expr in Q by exact H2. injection Q as <-. left. reflexivity.
  - destruct H as (H1 & H2 & H3). split; auto. split; auto.
    destruct (spec L c opt false E l id) as [x i]. cbn in H3.
    destruct (spec L c opt false E r i) as [y j]. cbn in H3. split.
    + intros op Q. rewrite off_binary in Q by exact H3. injection Q as <-.
      split; left; auto. cbn. destruct (is_logical (b_op b)); reflexivity.
    + intro Cl. right. left. apply H3. unfold binary_actions. rewrite Cl. cbn. lia.
  - destruct H as [H1 H2]. split; auto. destruct (spec L c opt false E sub id) as [x i]. cbn in H2.
    intros r Q. rewrite off_unary in Q by exact H2. injection Q as <-. left.
    destruct (u_op u); reflexivity.
Qed.
Lemma removals_drops_program E R bs p : forall id,
  removals_only_program L c opt E p id -> drops_program L c opt R bs cpp17 E p id.
Proof.
  induction p as [|[f t] p IH]; intros id H; cbn in *; auto.
  destruct H as [H1 H2]. split; auto using removals_drops.
Qed.

(** * No mutant enabled *)

Lemma unary_same u x : good_unary c u = true ->
  unary_term L c u (original_unary (u_op u)) x = unary_term L c u (written_unary (u_op u)) x.
Proof.
  intro G. unfold unary_term, written_unary. destruct (u_op u); cbn; try reflexivity.
Qed.

Lemma spec_none E t : forall id,
  SimSpec.well_formed L c t = true ->
  off E id (snd (spec L c opt false E t id) - id) ->
  fst (spec L c opt false E t id) = den L c t /\ removals_only L c opt E t id.
Proof.
  induction t as [s v|k ps last IH|e sub IH|b l w1 w2 r IHl IHr|u w sub IH|s sub IH]
    using cst_induction; intros id Wf O.
  - cbn. auto.
  - rewrite (spec_node L c o) in *. cbn [fst snd den SimSpec.well_formed] in *.
    apply andb_true_iff in Wf as [Sk Wf].
    assert (F : fst (spec_all L c o false E ps id) = map (fun p => den L c (snd p)) ps /\
                removals_only L c opt E (CNode k ps last) id).
    { cbn [removals_only]. clear Sk. revert id O. induction IH as [|[s p] ps Hp F IHF]; intros id O.
      - cbn. auto.
      - cbn in Wf. apply andb_true_iff in Wf as [W1 W2].
        cbn [spec_all map snd fst] in *.
        destruct (same_ids L c o false E p id) as [_ M].
        specialize (Hp id W1). cbn [snd] in Hp.
        assert (M2 : forall q j, j <= snd (spec_all L c o false E q j)).
        { clear. induction q as [|[s p] q IH]; intro j; cbn; auto.
          destruct (same_ids L c o false E p j) as [_ M]. destruct (spec L c opt false E p j) as [x i].
          specialize (IH i). destruct (spec_all L c o false E q i). cbn in *. lia. }
        specialize (M2 ps). specialize (IHF W2).
        destruct (spec L c opt false E p id) as [x i]. specialize (M2 i). specialize (IHF i).
        destruct (spec_all L c o false E ps i) as [xs j]. cbn [fst snd] in *.
        destruct Hp as [-> Hp]; [intros q Hq; apply O; lia|].
        destruct IHF as [-> IHF]; [intros q Hq; apply O; lia|]. auto. }
    destruct F as [-> F]. split; auto. destruct k; try discriminate; reflexivity.
  - cbn [SimSpec.well_formed den removals_only SimSpec.spec] in *. apply andb_true_iff in Wf as [Go Wf].
    destruct (same_ids L c o false E sub id) as [_ M]. specialize (IH id Wf).
    destruct (spec L c opt false E sub id) as [x i]. cbn [fst snd] in *.
    destruct IH as [-> IH]; [intros q Hq; apply O; lia|].
    assert (O' : off E i (List.length (expr_mutants c opt e))) by (intros q Hq; apply O; lia).
    rewrite off_expr by exact O'. cbn. auto.
  - cbn [SimSpec.well_formed den removals_only SimSpec.spec] in *.
    apply andb_true_iff in Wf as [Wf Wr]. apply andb_true_iff in Wf as [Go Wl].
    destruct (same_ids L c o false E l id) as [_ M]. specialize (IHl id Wl).
    destruct (spec L c opt false E l id) as [x i]. cbn [fst snd] in *.
    destruct (same_ids L c o false E r i) as [_ M2]. specialize (IHr i Wr).
    destruct (spec L c opt false E r i) as [y j]. cbn [fst snd] in *.
    destruct IHl as [-> IHl]; [intros q Hq; apply O; lia|].
    destruct IHr as [-> IHr]; [intros q Hq; apply O; lia|].
    assert (O' : off E j (List.length (binary_actions c opt b))) by (intros q Hq; apply O; lia).
    rewrite off_binary by exact O'. cbn [with_choice]. split; auto.
    destruct (c_logical c b); reflexivity.
  - cbn [SimSpec.well_formed den removals_only SimSpec.spec] in *. apply andb_true_iff in Wf as [Go Wf].
    destruct (same_ids L c o false E sub id) as [_ M]. specialize (IH id Wf).
    destruct (spec L c opt false E sub id) as [x i]. cbn [fst snd] in *.
    destruct IH as [-> IH]; [intros q Hq; apply O; lia|].
    assert (O' : off E i (List.length (unary_mutants opt u))) by (intros q Hq; apply O; lia).
    rewrite off_unary by exact O'. cbn [with_choice]. split; auto. exact (unary_same u (den L c sub) Go).
  - cbn [SimSpec.well_formed den removals_only SimSpec.spec] in *.
    destruct (same_ids L c o false E sub id) as [_ M]. specialize (IH id Wf).
    destruct (spec L c opt false E sub id) as [x i]. cbn [fst snd] in *.
    destruct IH as [-> IH]; [intros q Hq; apply O; lia|].
    rewrite (O i) by lia. auto.
Qed.

Lemma spec_none_program E p : forall id,
  well_formed_program p = true ->
  off E id (snd (spec_program L c opt false E p id) - id) ->
  (forall g, lookup_body L (fst (spec_program L c opt false E p id)) g = body_of L c p g) /\
  removals_only_program L c opt E p id.
Proof.
  induction p as [|[f t] p IH]; intros id Wf O; cbn in *; auto.
  apply andb_true_iff in Wf as [W1 W2].
  destruct (same_ids L c o false E t id) as [_ M].
  pose proof (spec_none E t id W1) as Hs.
  destruct (spec L c opt false E t id) as [x i]. cbn [fst snd] in *.
  destruct (program_ids false E p i) as [_ M2]. specialize (IH i W2).
  destruct (spec_program L c opt false E p i) as [q j]. cbn [fst snd] in *.
  destruct Hs as [-> Hs]; [intros k Hk; apply O; lia|].
  destruct IH as [Hq IH]; [intros k Hk; apply O; lia|]. split; auto.
  intro g. cbn. destruct (String.eqb g f); auto.
Qed.

(* Programs with the same bodies *)
Lemma step_ext R b1 b2 e m d t x : (forall g, b1 g = b2 g) ->
  step L R c b1 cpp17 e m d t x -> step L R c b2 cpp17 e m d t x.
Proof.
  intro Q. induction 1 as [e m d k args F Ev|e m d k pre a post x Ev T A1 A2 S IH].
  - replace (head L R c b1 e m d k args) with (head L R c b2 e m d k args);
      [apply step_head; auto|].
    destruct k; cbn; auto. rewrite Q. reflexivity.
  - apply step_operand; auto.
Qed.
Lemma steps_ext R b1 b2 e x y : (forall g, b1 g = b2 g) ->
  steps L R c b1 cpp17 e x y -> steps L R c b2 cpp17 e x y.
Proof. intros Q. induction 1; econstructor; eauto using step_ext. Qed.
Lemma behaves_like_ext R d bt t b1 b2 s : (forall g, b1 g = b2 g) ->
  behaves_like L c cpp17 R d bt t b1 s -> behaves_like L c cpp17 R d bt t b2 s.
Proof.
  intros Q [B1 B2 B3 B4]. split; intros.
  - destruct (B1 _ _ _ _ H) as (d' & St & F). exists d'. eauto using steps_ext.
  - destruct (B2 _ _ H) as (m' & d' & t' & St & F). exists m', d', t'. eauto using steps_ext, step_ext.
  - destruct (B3 _ _ _ H) as (d' & t' & St). exists d', t'. eauto using steps_ext.
  - specialize (B4 _ _ H). clear - Q B4. revert m s B4. cofix CIH. intros m s B4.
    inversion B4 as [m2 d2 t2 m' d' t' St Dv]; subst. destruct d'.
    econstructor; [exact (step_ext _ _ _ _ _ _ _ _ Q St)|]. apply CIH. exact Dv.
Qed.

(** * The theorems *)

Notation mutants p := (snd (mutate_program L c o p 0)).
Notation mutated p := (body_of L c (fst (mutate_program L c o p 0))).

Lemma selected_lemma f v zs p g args :
  track o = false ->
  variable_lists v zs -> Forall (int_safe f) zs -> well_formed_program p = true ->
  (cpp17 = true -> sequenced_program p = true) ->
  let E := listed f zs in
  let bs := lookup_body L (fst (spec_program L c opt false E p 0)) in
  drops_program L c opt no_runtime bs cpp17 E p 0 ->
  behaves_like L c cpp17 (selecting f (mutants p) (cpp c) v) (initial_tls (mutants p))
    (mutated p) (call L g args) bs (call L g args).
Proof.
  intros T V S Wf Sq E bs Dr.
  apply (behaves_lemma false E (mutants p) (selecting f (mutants p) (cpp c) v)
           (selecting_inv f (mutants p) zs)); auto.
  - unfold bounds. rewrite T. apply selecting_works; auto.
  - left. reflexivity.
  - congruence.
  - congruence.
Qed.

(* ... with the operands that are evaluated although they are not needed *)
Lemma exact_lemma f v zs p g args :
  track o = false ->
  variable_lists v zs -> Forall (int_safe f) zs -> well_formed_program p = true ->
  (cpp17 = true -> sequenced_program p = true) ->
  behaves_like L c cpp17 (selecting f (mutants p) (cpp c) v) (initial_tls (mutants p))
    (mutated p) (call L g args)
    (lookup_body L (fst (spec_program L c opt true (listed f zs) p 0))) (call L g args).
Proof.
  intros T V S Wf Sq.
  apply (behaves_lemma true (listed f zs) (mutants p) (selecting f (mutants p) (cpp c) v)
           (selecting_inv f (mutants p) zs)); auto; try congruence.
  - unfold bounds. rewrite T. apply selecting_works; auto.
  - left. reflexivity.
Qed.

Lemma removed_lemma f v zs p g args :
  track o = false ->
  variable_lists v zs -> Forall (int_safe f) zs -> well_formed_program p = true ->
  (cpp17 = true -> sequenced_program p = true) ->
  let E := listed f zs in
  removals_only_program L c opt E p 0 ->
  behaves_like L c cpp17 (selecting f (mutants p) (cpp c) v) (initial_tls (mutants p))
    (mutated p) (call L g args)
    (lookup_body L (fst (spec_program L c opt false E p 0))) (call L g args).
Proof.
  intros T V S Wf Sq E Ro. apply selected_lemma; auto. apply removals_drops_program. exact Ro.
Qed.

Lemma listed_in f zs i : listed f zs i = true <-> In (Z.of_nat (f + i)) zs.
Proof. rewrite listed_memb. apply memb_spec. Qed.

Lemma none_lemma f v zs p g args :
  track o = false ->
  variable_lists v zs -> Forall (int_safe f) zs -> well_formed_program p = true ->
  (cpp17 = true -> sequenced_program p = true) ->
  (forall i, i < mutants p -> ~ In (Z.of_nat (f + i)) zs) ->
  behaves_like L c cpp17 (selecting f (mutants p) (cpp c) v) (initial_tls (mutants p))
    (mutated p) (call L g args) (body_of L c p) (call L g args).
Proof.
  intros T V S Wf Sq No.
  assert (O : off (listed f zs) 0 (snd (spec_program L c opt false (listed f zs) p 0) - 0)).
  { intros i Hi. rewrite <- (proj1 (program_ids false (listed f zs) p 0)) in Hi.
    destruct (listed f zs i) eqn:Li; auto. apply listed_in in Li. destruct (No i); auto. lia. }
  destruct (spec_none_program _ p 0 Wf O) as [Q Ro].
  eapply behaves_like_ext; [exact Q|]. apply removed_lemma; auto.
Qed.

Lemma coverage_lemma f tracking can_open p g args :
  track o = true -> cpp c || negb tracking || can_open = true ->
  well_formed_program p = true -> productive_program p = true ->
  (cpp17 = true -> sequenced_program p = true) ->
  behaves_like L c cpp17 (recording f (cpp c) tracking can_open) (track_start (mutants p))
    (mutated p) (call L g args) (body_of L c p) (call L g args).
Proof.
  intros T Co Wf Pr Sq.
  assert (O : off (fun _ => false) 0 (snd (spec_program L c opt false (fun _ => false) p 0) - 0))
    by (intros i Hi; reflexivity).
  destruct (spec_none_program _ p 0 Wf O) as [Q Ro].
  eapply behaves_like_ext; [exact Q|].
  apply (behaves_lemma false (fun _ => false) (mutants p) (recording f (cpp c) tracking can_open)
           (fun s : tracked => List.length (t_recorded s) = mutants p)); auto.
  - unfold bounds. rewrite T. apply recording_works. exact Co.
  - cbn. apply repeat_length.
  - intros _. apply removals_drops_program. exact Ro.
Qed.
End Top.
