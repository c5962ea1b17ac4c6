(* Written files, read and executed. *)
From Coq Require Import String Ascii List Arith NArith ZArith Bool Lia.
From Verif Require Import Base Clang Gen GenExpr GenBinary GenUnary GenStmt Mutation GenSpec
  Rewriter PreludeText Prelude PreludeSpec PreludeProof PreludeProof2 MutTree MutTreeProof TreeSpec Run RunSpec RunProof
  ClashSpec CText FunText FunProof2 NameProof PreludeC CRun TextSpec TextProof.
From Verif Require Import NestSpec NestProof2 Visitor VisitorSpec Lang Cst SimSpec SimMutate SimTop MutantSpec
  EndSpec EndProof TextLang TextLangProof TextLangProof2 TextLangProof3.
Import ListNotations.
Local Open Scope string_scope.

(** * Runtimes *)

Definition text_inv (cp : bool) (f n : nat) (zs : list Z)
  (x : strtok_state * list (string * cval)) : Prop :=
  exists s, snd x = view cp s /\
    (s = initial_tls n /\ freed (fst x) 1 = false \/
     answers n s (memb f zs) /\ some_enabled s = in_file f n zs).

Lemma flag_view cp s : flag_of (view cp s) = some_enabled s.
Proof. destruct cp, (some_enabled s) eqn:E; unfold view, own, flag_of; cbn; rewrite E; reflexivity. Qed.

Lemma text_selecting_works c o f n v zs fuel items :
  track o = false -> is_int f -> is_int n -> enough v fuel ->
  parse_text (prelude_text c o f n) = Some items ->
  variable_lists v zs -> Forall (int_safe f) zs ->
  working (text_selecting items fuel v) (listed f zs) (one_file n 0) (text_inv (cpp c) f n zs).
Proof.
  intros T F N En P V S. destruct (C66_lemma c o f n T F N) as (items' & P' & _ & Q).
  rewrite P in P'. injection P' as <-.
  split; cbn [text_selecting rt_state rt_flag rt_query rt_record one_file lim_queried lim_recorded].
  - intros [w st] i (s & E & H) Fl id Hid _. cbn [fst snd] in *. rewrite E, flag_view in Fl.
    destruct H as [[-> _]|[A B]]; [discriminate|].
    rewrite listed_memb. rewrite Fl in B. destruct (memb f zs id) eqn:M; auto.
    symmetry in B. assert (in_file f n zs = true); [|congruence].
    apply in_file_spec. eauto.
  - intros [w st] id (s & E & H) Hid. cbn [fst snd] in *. subst st. rewrite listed_memb.
    assert (I : is_int id) by (unfold is_int in *; lia).
    assert (Fr : initialized s = false -> freed w 1 = false).
    { destruct H as [[-> Fr]|[[A _] _]]; [auto|congruence]. }
    specialize (Q v 0 w s id fuel I En Fr).
    destruct H as [[-> Fr']|[A B]].
    + destruct (query_first f n (cpp c) v zs id V S Hid) as (s' & E' & A & B).
      rewrite E' in Q. cbv zeta in Q. rewrite Q. eexists. split; [reflexivity|].
      exists s'. split; [reflexivity|]. right. auto.
    + rewrite (query_initialized f n (cpp c) v s _ id A Hid) in Q. cbv zeta in Q. rewrite Q.
      eexists. split; [reflexivity|]. exists s. split; [reflexivity|]. right. auto.
  - intros d id k _ H Le. lia.
Qed.

Definition disk_inv (cp : bool) (n : nat) (d : disk) : Prop :=
  List.length (marks d) = n /\ (variable d = None \/ openable d = true \/ cp = true).

Lemma update_nth_length {A} (f : A -> A) l i : List.length (update_nth i f l) = List.length l.
Proof. revert i. induction l as [|a l IH]; intros [|i]; cbn; auto. Qed.

Lemma text_recording_works c o f n fuel items :
  track o = true -> is_int (f + n) -> n < fuel ->
  parse_text (prelude_text c o f n) = Some items ->
  working (text_recording items fuel) (fun _ => false) (one_file 0 n) (disk_inv (cpp c) n).
Proof.
  intros T F Fu P. split; cbn [text_recording rt_state rt_flag rt_query rt_record one_file lim_queried lim_recorded].
  - intros; discriminate.
  - intros; lia.
  - intros d id k [Ln Op] K H _.
    destruct (C67_records_lemma c o f n id k fuel d T) as (items' & P' & Q);
      try (unfold is_int in *; lia).
    rewrite P in P'. injection P' as <-. rewrite Q. clear Q.
    unfold recorded_by.
    destruct (nth_error (marks d) id) as [[|]|] eqn:Ne.
    + exists d. split; [reflexivity|split; assumption].
    + cbn [with_mark variable with_open openable].
      destruct (variable d) as [file|] eqn:Va.
      * destruct (openable d) eqn:Od.
        -- eexists. split; [reflexivity|]. split; cbn; [now rewrite update_nth_length|].
           right. left. assumption.
        -- destruct Op as [Op|[Op|Op]]; try discriminate. rewrite Op.
           eexists. split; [reflexivity|]. split; cbn; [now rewrite update_nth_length|].
           right. right. reflexivity.
      * eexists. split; [reflexivity|]. split; cbn; [now rewrite update_nth_length|].
        left. assumption.
    + apply nth_error_None in Ne. lia.
Qed.

(** * Programs *)

Section Program.
Variable L : lang.
Variable c : ctx.
Variable o : options.
Variable cpp17 : bool.
Variable ds : list fdef.
Variable p : list (string * cst L).
Hypothesis Wf : well_formed_program L c p = true.
Hypothesis Pl : forall x, In x (source_places p) -> place_reads c o ds x.
Hypothesis Sq : cpp17 = true -> sequenced_program L c p = true.
Notation num := (snd (mutate_program L c o p 0)).
Notation q := (fst (mutate_program L c o p 0)).

Lemma text_program rest E R Inv d g args :
  let bs := lookup_body L (fst (spec_program L c (optimise o) rest E p 0)) in
  working R E (bounds o (fun _ => 0) num) Inv -> Inv d ->
  (track o = true -> forall i, E i = false) ->
  (track o = true -> productive_program L c o p = true) ->
  (rest = false -> drops_program L c (optimise o) no_runtime bs cpp17 E p 0) ->
  text_behaves_like L c cpp17 ds R d (text_body_of L c ds q) (SimSpec.call L g args)
    bs (SimSpec.call L g args).
Proof.
  intros bs W I Tr Pr Dr.
  apply (text_behaves L R c ds (text_body_of L c ds q) (body_of L c q)).
  - intros g'. apply sim_program; assumption.
  - eapply behaves_lemma; eauto.
Qed.

Lemma text_behaves_like_ext R d bt t b1 b2 s : (forall g, b1 g = b2 g) ->
  text_behaves_like L c cpp17 ds R d bt t b1 s -> text_behaves_like L c cpp17 ds R d bt t b2 s.
Proof.
  intros Q [B1 B2 B3 B4]. split; intros.
  - destruct (B1 _ _ _ _ _ H H0) as (d1 & St & F). exists d1. eauto using steps_ext.
  - destruct (B2 _ _ _ _ _ H H0) as (m1 & d1 & t1 & St & F). exists m1, d1, t1.
    eauto using steps_ext, step_ext.
  - destruct (B3 _ _ _ _ _ H) as (d1 & t1 & St). exists d1, t1. eauto using steps_ext.
  - specialize (B4 _ _ H). clear - Q B4. revert m s B4. cofix CIH. intros m s B4.
    inversion B4 as [m2 d2 t2 m' d' t' St Dv]; subst. destruct d'.
    econstructor; [exact (step_ext _ _ _ _ _ _ _ _ _ _ _ Q St)|]. apply CIH. exact Dv.
Qed.

Lemma text_selected f v zs fuel items w st g args :
  track o = false -> is_int (f + num) -> enough v fuel -> freed w 1 = false ->
  parse_text (prelude_text c o f num) = Some items -> own_statics items = Some st ->
  variable_lists v zs -> Forall (int_safe f) zs ->
  text_behaves_like L c cpp17 ds (text_selecting items fuel v) (w, st)
    (text_body_of L c ds q) (SimSpec.call L g args)
    (lookup_body L (fst (spec_program L c (optimise o) true (listed f zs) p 0)))
    (SimSpec.call L g args) /\
  ((forall i, i < num -> ~ In (Z.of_nat (f + i)) zs) ->
   text_behaves_like L c cpp17 ds (text_selecting items fuel v) (w, st)
     (text_body_of L c ds q) (SimSpec.call L g args) (body_of L c p) (SimSpec.call L g args)).
Proof.
  intros T F En Fr P St V S.
  assert (W : working (text_selecting items fuel v) (listed f zs) (bounds o (fun _ => 0) num)
                (text_inv (cpp c) f num zs)).
  { unfold bounds. rewrite T.
    apply (text_selecting_works c o); auto; unfold is_int in *; lia. }
  assert (I : text_inv (cpp c) f num zs (w, st)).
  { destruct (C66_lemma c o f num T) as (items' & P' & St' & _); try (unfold is_int in *; lia).
    rewrite P in P'. injection P' as <-. rewrite St in St'. injection St' as ->.
    exists (initial_tls num). split; [reflexivity|]. left. auto. }
  split.
  - eapply text_program; eauto; congruence.
  - intros No.
    assert (O : off (listed f zs) 0
                  (snd (spec_program L c (optimise o) false (listed f zs) p 0) - 0)).
    { intros i Hi. rewrite <- (proj1 (program_ids L c o false (listed f zs) p 0)) in Hi.
      destruct (listed f zs i) eqn:Li; auto. apply listed_in in Li. destruct (No i); auto. lia. }
    destruct (spec_none_program L c o _ p 0 Wf O) as [Q Ro].
    eapply text_behaves_like_ext; [exact Q|].
    eapply text_program; eauto; try congruence.
    intros _. apply removals_drops_program. exact Ro.
Qed.

Lemma text_recorded f fuel items d g args :
  track o = true -> is_int (f + num) -> num < fuel ->
  parse_text (prelude_text c o f num) = Some items -> disk_inv (cpp c) num d ->
  productive_program L c o p = true ->
  text_behaves_like L c cpp17 ds (text_recording items fuel) d
    (text_body_of L c ds q) (SimSpec.call L g args) (body_of L c p) (SimSpec.call L g args).
Proof.
  intros T F Fu P I Pr.
  assert (O : off (fun _ => false) 0
                (snd (spec_program L c (optimise o) false (fun _ => false) p 0) - 0))
    by (intros i Hi; reflexivity).
  destruct (spec_none_program L c o _ p 0 Wf O) as [Q Ro].
  eapply text_behaves_like_ext; [exact Q|].
  eapply text_program; eauto.
  - unfold bounds. rewrite T. eapply text_recording_works; eassumption.
  - intros _. apply removals_drops_program. exact Ro.
Qed.
End Program.

(** * The whole tool *)

Lemma whole_text o bt fs n t :
  In (n, t) (rs_written (Run.run o bt fs)) ->
  exists d1 f d2 u,
    RunSpec.distinct [] fs = (d1 ++ f :: d2)%list /\ Run.f_name f = n /\ f_unit f = Some u /\
    let c := ui_ctx u in
    let first := list_sum (map (offers o) d1) in
    forall L root ps pre gaps (p : list (string * cst L)) last,
      tidy (ui_tree u) = tidy (mutation_tree (cpp c) (optimise o) root) ->
      f_text f = pre ++ source gaps p ++ last ->
      ui_prelude_offset u = String.length pre -> ui_rewrites u = [] ->
      corresponds (cpp c) (optimise o) root ps (source_places p) ->
      source_placed gaps p (String.length pre) -> separated (source_places p) ->
      (forall m, In m (post (ui_tree u)) -> clang_node c m) ->
      well_formed_program L c p = true ->
      let q := fst (mutate_program L c o p 0) in
      let num := snd (mutate_program L c o p 0) in
      is_int (first + num) ->
      exists h functions items ds st,
        t = pre ++ h ++ functions ++ source gaps q ++ last /\
        parse_text h = Some items /\ read_functions functions = Some ds /\
        own_statics items = Some st /\
        forall cpp17 g args, (cpp17 = true -> sequenced_program L c p = true) ->
        (track o = false ->
         forall v zs w fuel, enables first v zs -> enough v fuel -> freed w 1 = false ->
           text_behaves_like L c cpp17 ds (text_selecting items fuel v) (w, st)
             (text_body_of L c ds q) (SimSpec.call L g args)
             (lookup_body L (fst (spec_program L c (optimise o) true (listed first zs) p 0)))
             (SimSpec.call L g args) /\
           ((forall i, i < num -> ~ In (Z.of_nat (first + i)) zs) ->
            text_behaves_like L c cpp17 ds (text_selecting items fuel v) (w, st)
              (text_body_of L c ds q) (SimSpec.call L g args)
              (body_of L c p) (SimSpec.call L g args))) /\
        (track o = true -> productive_program L c o p = true ->
         shared_statics items = Some [("already_recorded", VArr (repeat (VBool false) num))] /\
         forall d fuel, marks d = repeat false num -> num < fuel ->
           (variable d = None \/ openable d = true \/ cpp c = true) ->
           text_behaves_like L c cpp17 ds (text_recording items fuel) d
             (text_body_of L c ds q) (SimSpec.call L g args)
             (body_of L c p) (SimSpec.call L g args)).
Proof.
  intro H. destruct (written_nested o bt fs n t H) as (d1 & f & d2 & u & D & N & U & W).
  exists d1, f, d2, u. repeat (split; [assumption|]). cbv zeta.
  intros L root ps pre gaps p last Tr Tx Off Rw Co Pl Ap Cn Wf F.
  assert (Ms : map NestSpec.place_of (post (ui_tree u)) = source_places p).
  { rewrite <- (post_tidy (ui_tree u)), Tr, post_tidy. exact (found _ _ _ _ _ Co). }
  assert (Nm : snd (mutate_program L (ui_ctx u) o p 0) = offers o f).
  { rewrite program_number, <- Ms, counts_sum. unfold offers. rewrite U. reflexivity. }
  destruct (W L pre gaps p last Tx Off Rw Ms Pl Ap) as (l & Nd & Ml & E).
  rewrite <- Nm in E.
  destruct (readings (ui_ctx u) o (post (ui_tree u)) l Cn) as (ds & Rd).
  { intros s Hs. apply Ml in Hs. exact Hs. }
  assert (Pr : forall x, In x (source_places p) -> place_reads (ui_ctx u) o ds x).
  { rewrite <- Ms. intros x. apply (all_places_read (ui_ctx u) o (post (ui_tree u)) l ds x Cn); auto.
    intros m g Hm Hg. apply Ml. eauto. }
  set (first := list_sum (map (offers o) d1)) in *.
  set (num := snd (mutate_program L (ui_ctx u) o p 0)) in *.
  assert (Rf : read_functions (concat_strings l) = Some ds).
  { apply functions_read. clear - Rd. induction Rd; constructor; auto.
    eapply reading_read; eassumption. }
  destruct (track o) eqn:T.
  - destruct (C67_events_lemma (ui_ctx u) o first num T) as (items & P & St & Sh & _);
      [unfold is_int in *; lia|].
    exists (prelude_text (ui_ctx u) o first num), (concat_strings l), items, ds, [].
    repeat (split; [assumption|]). intros cpp17 g args Sq. split; [discriminate|].
    intros _ Pp. split; [assumption|]. intros d fuel Mk Fu Op.
    eapply text_recorded; eauto. split; [|assumption]. rewrite Mk. apply repeat_length.
  - destruct (C66_lemma (ui_ctx u) o first num T) as (items & P & St & _);
      try (unfold is_int in *; lia).
    exists (prelude_text (ui_ctx u) o first num), (concat_strings l), items, ds,
      (view (cpp (ui_ctx u)) (initial_tls num)).
    repeat (split; [assumption|]). intros cpp17 g args Sq. split; [|discriminate].
    intros _ v zs w fuel En Enf Fr. destruct En as [V S].
    apply (text_selected L (ui_ctx u) o cpp17 ds p Wf Pr Sq first v zs fuel items); assumption.
Qed.
