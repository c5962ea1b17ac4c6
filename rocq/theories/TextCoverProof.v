(* Written files of a run with and of a run without coverage tracking, read and executed. *)
From Coq Require Import String Ascii List Arith NArith ZArith Bool Lia.
From Verif Require Import Base Clang Gen GenExpr GenBinary GenUnary GenStmt Mutation GenSpec
  Rewriter PreludeText Prelude PreludeSpec PreludeProof PreludeProof2 MutTree MutTreeProof TreeSpec Run RunSpec RunProof RunProof2
  ClashSpec CText FunText FunProof2 NameProof PreludeC CRun TextSpec TextProof.
From Verif Require Import NestSpec NestProof2 Visitor VisitorSpec Lang Cst SimSpec SimRel SimMutate SimTop MutantSpec
  EndSpec EndProof TextLang TextLangProof TextLangProof2 TextLangProof3 TextTop TextCoverSpec.
Import ListNotations.
Local Open Scope string_scope.

(** * The model's steps are those of the text *)

Section Back.
Variable L : lang.
Variable R : runtime.
Variable c : ctx.
Variable ds : list fdef.
Variables bt bm : string -> option (tm L).
Notation sim := (sim L c ds).
Hypothesis B : forall g, match bt g, bm g with
  | Some t, Some t' => sim t t' | None, None => True | _, _ => False end.
Variable cpp17 : bool.
Notation same := (same_outcome L R c ds).

Lemma finals_back args args' (k : kind L) : Forall2 sim args args' ->
  (forall i a, nth_error args' i = Some a -> evaluated k i = true -> final a = true) ->
  forall i a, nth_error args i = Some a -> evaluated k i = true -> final a = true.
Proof.
  intros H. generalize (@evaluated L k) as ev. clear k.
  induction H as [|a a' args args' Sa H IH]; intros ev A i b Hb V.
  - destruct i; discriminate.
  - destruct i as [|i]; cbn in Hb.
    + injection Hb as <-. rewrite (sim_final _ _ _ _ _ Sa). apply (A 0); auto.
    + apply (IH (fun i => ev (S i))) with (i := i); auto.
      intros j x Hx. apply (A (S j)). exact Hx.
Qed.

Lemma step_back e m d t' o' : step L R c bm cpp17 e m d t' o' -> forall t, sim t t' ->
  exists o, text_step L R c ds bt cpp17 e m d t o /\ same o o'.
Proof.
  intros H. induction H as [e m d k args F A|e m d k pre a post o V T P Q H IH]; intros t S.
  - pose proof (sim_final _ _ _ _ _ S) as F'. rewrite F in F'.
    inversion S as [| |k' as1 as2 K HS E1 E2|f g two result p1 p2 id as1 as2 Rd HS E1 E2]; subst.
    + eexists; split.
      * apply text_step_head; [exact F'|]. eapply finals_back; eassumption.
      * replace (text_head L R c ds bt e m d k as1) with (head L R c bt e m d k as1).
        -- apply head_same; assumption.
        -- destruct k; try reflexivity. exfalso; eapply K; reflexivity.
    + eexists; split.
      * apply text_step_head; [exact F'|]. eapply finals_back; [eassumption|].
        intros i a Ha _. apply (A i a Ha). reflexivity.
      * cbn [text_head head called mf_name]. rewrite (reads_resolved _ _ _ _ _ _ _ _ Rd).
        pose proof (call_same L R c ds f g two result p1 p2 id as1 args d Rd HS) as C.
        destruct (call_text L R c g id as1 d) as [[r1 t1]|],
          (call_mutator L R c f id args d) as [[r2 t2]|]; try contradiction; [|exact I].
        destruct C as [-> C]. apply same_next. exact C.
  - inversion S as [| |k' as1 as2 K HS E1 E2|f g two result p1 p2 id as1 as2 Rd HS E1 E2]; subst;
      apply Forall2_app_inv_r in HS; destruct HS as [pre' [as' [Hp [HS ->]]]];
      inversion HS as [|a1 a' post1 post' Sa Ho]; subst;
      destruct (IH _ Sa) as [o' [St So]].
    + eexists; split.
      * apply text_step_operand.
        -- rewrite (sims_length _ _ _ _ _ Hp). exact V.
        -- rewrite (its_turn_same L c ds cpp17 k pre' pre post1 post); auto.
        -- rewrite (sims_active _ _ _ _ _ Hp). exact P.
        -- rewrite (sims_active _ _ _ _ _ Ho). exact Q.
        -- exact St.
      * apply put_same; [exact So|]. intros x y Sx. constructor; [assumption|].
        apply Forall2_app; auto.
    + eexists; split.
      * apply text_step_operand.
        -- reflexivity.
        -- cbn. destruct cpp17; reflexivity.
        -- rewrite (sims_active _ _ _ _ _ Hp). exact P.
        -- rewrite (sims_active _ _ _ _ _ Ho). exact Q.
        -- exact St.
      * apply put_same; [exact So|]. intros x y Sx. eapply sim_call; [exact Rd|].
        apply Forall2_app; auto.
Qed.

Lemma steps_back e x y t : steps L R c bm cpp17 e x y -> sim t (snd x) ->
  exists u, text_steps L R c ds bt cpp17 e (fst x, t) (fst y, u) /\ sim u (snd y).
Proof.
  intros H. revert t. induction H as [[[m d] t']|m d t' x y St H IH]; intros t S.
  - exists t. split; [constructor|assumption].
  - cbn [snd] in S. destruct (step_back _ _ _ _ _ St _ S) as [o' [St' So]].
    destruct x as [[m1 d1] t1], o' as [[[m2 d2] t2]|]; try contradiction.
    destruct So as [-> [-> S1]]. destruct (IH t2 S1) as [u' [H' Su]].
    exists u'. split; [|assumption]. cbn [fst]. eapply text_steps_more; [exact St'|exact H'].
Qed.
End Back.

From Verif Require Import Tracking Runtime CoverSpec CoverProof CoverTop.

(** * Compared with another program *)

Section Text.
Variable L : lang.
Variable R R' : runtime.
Variable c : ctx.
Variable ds : list fdef.
Variables bt bm bs : string -> option (tm L).
Hypothesis B : forall g, match bt g, bm g with
  | Some t, Some t' => TextLangProof.sim L c ds t t' | None, None => True | _, _ => False end.
Variable cpp17 : bool.

Lemma text_more g args e m d s :
  no_more L c cpp17 R no_runtime e m d bm (SimSpec.call L g args) tt bs s ->
  text_no_more L c cpp17 ds R bt e m d (SimSpec.call L g args) bs s.
Proof.
  intros [H1 H2 H3 H4]. split.
  - intros m' d' r St F.
    destruct (steps_same _ _ _ _ _ _ B _ _ _ _ _ St (called_sim _ _ _ g args)) as [u [St' S]].
    apply H1. exists d'. cbn [fst snd] in *.
    assert (r = u) as <-.
    { eapply sim_result; [eassumption|]. apply calling_final; [|assumption].
      exact (calling_steps _ _ _ _ _ _ _ _ _ St (called_calling _ g args)). }
    split; assumption.
  - intros m' d' t' St U.
    destruct (steps_same _ _ _ _ _ _ B _ _ _ _ _ St (called_sim _ _ _ g args)) as [u [St' S]].
    destruct (step_same _ _ _ _ _ _ B _ _ _ _ _ _ _ U S) as [o' [U' So]].
    destruct o' as [[[? ?] ?]|]; [contradiction|].
    apply H2. exists m', d', u. split; assumption.
  - intros m' d' t' St.
    destruct (steps_same _ _ _ _ _ _ B _ _ _ _ _ St (called_sim _ _ _ g args)) as [u [St' S]].
    apply H3. exists d', u. assumption.
  - intros D. apply H4. eapply diverges_same; [exact B|exact D|]. apply called_sim.
Qed.

Lemma text_ends g args e m d :
  text_finishes L c cpp17 ds R bt e m d (SimSpec.call L g args) ->
  forall m' d' s', steps L R c bm cpp17 e (m, d, SimSpec.call L g args) (m', d', s') ->
  exists m2 r, finishes L R c bm cpp17 e m' d' s' m2 r.
Proof.
  intros H m' d' s' St.
  destruct (steps_back L R c ds bt bm B cpp17 _ _ _ _ St (called_sim _ _ _ g args)) as [u [St' S]].
  destruct (H _ _ _ St') as (m2 & d2 & r & Sr & F).
  destruct (steps_same _ _ _ _ _ _ B _ _ _ _ _ Sr S) as [r' [Sr' S']].
  exists m2, r', d2. split; [exact Sr'|]. rewrite <- (sim_final _ _ _ _ _ S'). exact F.
Qed.
End Text.

(** * The tracking file *)

Definition ended (s : string) : Prop := s = "" \/ exists b, s = b ++ nl.

Lemma app_nil_r s : s ++ "" = s.
Proof. induction s; cbn; congruence. Qed.
Lemma app_app a b c : (a ++ b) ++ c = a ++ b ++ c.
Proof. induction a; cbn; congruence. Qed.
Lemma ended_app a b : ended a -> ended b -> ended (a ++ b).
Proof.
  intros A [->|[x ->]]; [rewrite app_nil_r; exact A|]. right. exists (a ++ x). now rewrite app_app.
Qed.
Lemma lines_cons x l : lines (x :: l) = (string_of_nat x ++ nl) ++ lines l.
Proof. reflexivity. Qed.
Lemma lines_app a b : lines (a ++ b) = lines a ++ lines b.
Proof.
  induction a as [|x a IH]; [reflexivity|]. cbn [List.app]. rewrite !lines_cons, IH. symmetry.
  apply app_app.
Qed.
Lemma lines_ended l : ended (lines l).
Proof.
  induction l as [|x l IH]; [left; reflexivity|].
  change (lines (x :: l)) with ((string_of_nat x ++ nl) ++ lines l).
  apply ended_app; [right; eauto|exact IH].
Qed.
Lemma has_line_app s u x : has_line s x -> has_line (s ++ u) x.
Proof.
  intros (b & a & -> & Q). exists b, (a ++ u). split; [|exact Q].
  now rewrite !app_app.
Qed.
Lemma has_line_new s l x : ended s -> In x l -> has_line (s ++ lines l) x.
Proof.
  intros E I. apply in_split in I as (l1 & l2 & ->). rewrite lines_app.
  exists (s ++ lines l1), (lines l2). split.
  - change (lines (x :: l2)) with ((string_of_nat x ++ nl) ++ lines l2). now rewrite !app_app.
  - apply ended_app; [exact E|apply lines_ended].
Qed.

Section Kept.
Variable num f : nat.
Variable cnt : nat -> nat.
Definition has_id (j : nat) (d : disk) : Prop := has_line (TextSpec.written d) (f + j).
Record kept_disk (d : disk) : Prop := {
  kd_marks : List.length (marks d) = num;
  kd_variable : variable d <> None;
  kd_openable : openable d = true;
  kd_ended : ended (TextSpec.written d);
  kd_lines : forall i, nth_error (marks d) i = Some true -> forall k, k < cnt i -> has_id (i + k) d
}.
Lemma fresh_kept d : fresh num d -> kept_disk d.
Proof.
  intros [A B C D]. split; auto.
  - rewrite A. apply repeat_length.
  - left. exact D.
  - intros i Q. rewrite A in Q. apply nth_error_In, repeat_spec in Q. discriminate.
Qed.
Lemma kept_disk_record c o fuel items d id :
  track o = true -> is_int (f + num) -> num < fuel ->
  parse_text (prelude_text c o f num) = Some items ->
  kept_disk d -> site num cnt id ->
  exists d', rt_record (text_recording items fuel) id (cnt id) d = Some d' /\ kept_disk d' /\
             forall k, k < cnt id -> has_id (id + k) d'.
Proof.
  intros T F Fu P [K1 K2 K3 K4 K5] [Po Hi]. cbn [text_recording rt_record].
  destruct (C67_records_lemma c o f num id (cnt id) fuel d T) as (items' & P' & Q);
    try (unfold is_int in *; lia).
  rewrite P in P'. injection P' as <-. rewrite Q. clear Q. unfold recorded_by.
  destruct (nth_error (marks d) id) as [[|]|] eqn:Ne.
  - exists d. split; [reflexivity|]. split; [split; auto|]. auto.
  - cbn [with_mark variable with_open openable].
    destruct (variable d) as [name|] eqn:Va; [|congruence]. rewrite K3.
    eexists. split; [reflexivity|].
    assert (New : forall k, k < cnt id ->
      has_line (TextSpec.written d ++ lines (ids f id (cnt id))) (f + (id + k))).
    { intros k Hk. apply has_line_new; [exact K4|]. unfold ids. apply in_map_iff. exists k.
      split; [lia|]. apply in_seq. lia. }
    split; [|exact New]. split; cbn.
    + now rewrite update_nth_length.
    + congruence.
    + exact K3.
    + apply ended_app; [exact K4|apply lines_ended].
    + intros i Q k Hk. unfold has_id. cbn. rewrite nth_update in Q.
      destruct (Nat.eqb id i) eqn:Qi; [apply Nat.eqb_eq in Qi; subst i; apply New; exact Hk|].
      apply has_line_app. apply K5; auto. 
  - apply nth_error_None in Ne. lia.
Qed.
End Kept.

(** * Programs *)

Section Program.
Variable L : lang.
Variable c : ctx.
Variable oM oC : options.
Variable cpp17 : bool.
Variables ds dsC : list fdef.
Variable p : list (string * cst L).
Hypothesis TM : track oM = false.
Hypothesis TC : track oC = true.
Hypothesis OO : optimise oM = optimise oC.
Hypothesis Wf : well_formed_program L c p = true.
Hypothesis Pl : forall x, In x (source_places p) -> place_reads c oM ds x.
Hypothesis PlC : forall x, In x (source_places p) -> place_reads c oC dsC x.
Hypothesis Sq : cpp17 = true -> sequenced_program L c p = true.
Notation q := (fst (mutate_program L c oM p 0)).
Notation qC := (fst (mutate_program L c oC p 0)).
Notation num := (snd (mutate_program L c oM p 0)).
Notation opt := (optimise oC).

Lemma same_number : num = snd (mutate_program L c oC p 0).
Proof. rewrite !program_next, OO. reflexivity. Qed.

Lemma text_cover (Late : Prop) f v zs fuel fuelC items itemsC w st d g args e m :
  is_int (f + num) -> enough v fuel -> freed w 1 = false -> num < fuelC ->
  parse_text (prelude_text c oM f num) = Some items -> own_statics items = Some st ->
  parse_text (prelude_text c oC f num) = Some itemsC -> fresh num d ->
  variable_lists v zs -> Forall (int_safe f) zs -> productive_program L c oC p = true ->
  (forall i, In i (logical_of L c opt p 0) -> In (Z.of_nat (f + i)) zs -> Late) ->
  (Late -> text_finishes L c cpp17 dsC (text_recording itemsC fuelC) (text_body_of L c dsC qC)
             e m d (SimSpec.call L g args)) ->
  text_unrecorded L c cpp17 dsC itemsC fuelC (text_body_of L c dsC qC) e m d
    (SimSpec.call L g args) zs ->
  text_no_more L c cpp17 ds (text_selecting items fuel v) (text_body_of L c ds q) e m (w, st)
    (SimSpec.call L g args) (body_of L c p) (SimSpec.call L g args).
Proof.
  intros F En Fr Fu P St PC Fd V S Pr Off Fin Un.
  pose proof (sites_of_ordered L c opt p 0 Pr) as Or.
  set (cnt := count_of (sites_of L c opt p 0)).
  assert (Kn : Forall (known num cnt) (sites_of L c opt p 0)).
  { apply Forall_forall. intros [i k] I. pose proof (ordered_count _ _ _ Or _ _ I) as Q.
    destruct (ordered_in _ _ _ Or _ _ I) as (_ & Po & Hi).
    rewrite same_number, program_next. unfold known, site. cbn [fst snd]. fold cnt in Q. rewrite Q. lia. }
  set (E := listed f zs).
  assert (Lo : forall i, In i (logical_of L c opt p 0) -> E i = true -> Late).
  { intros i I Li. apply listed_in in Li. apply (Off i I Li). }
  pose proof (program_cov L c oM oC TM TC OO E num cnt Late p 0 Wf Kn Lo) as B.
  assert (W : working (text_selecting items fuel v) E (one_file num 0) (text_inv (cpp c) f num zs)).
  { apply (text_selecting_works c oM); auto; unfold is_int in *; lia. }
  pose proof (fun x id => kept_disk_record num f cnt c oC fuelC itemsC x id TC F Fu PC) as W'.
  assert (C0 : cov L c E num cnt Late [] false (SimSpec.call L g args) (SimSpec.call L g args)).
  { apply cov_node; auto. clear. induction args as [|[x|x] args IH]; cbn; constructor; auto; constructor. }
  pose proof (sim_program L c oC dsC p Wf PlC 0) as SC.
  assert (Q0 : quiet L c (text_recording itemsC fuelC) E (has_id f) Late (body_of L c qC) cpp17 e m d
                 (SimSpec.call L g args)).
  { split.
    - intros m' d' s' Ss i Ei Re.
      destruct (steps_back L _ c dsC _ _ SC cpp17 _ _ _ _ Ss (called_sim _ _ _ g args)) as [u [Su _]].
      apply (Un _ _ _ Su (f + i) Re). apply listed_in. exact Ei.
    - intros La. exact (text_ends L (text_recording itemsC fuelC) c dsC _ _ SC cpp17 g args e m d (Fin La)). }
  assert (I1 : text_inv (cpp c) f num zs (w, st)).
  { destruct (C66_lemma c oM f num TM) as (items' & P' & St' & _); try (unfold is_int in *; lia).
    rewrite P in P'. injection P' as <-. rewrite St in St'. injection St' as ->.
    exists (initial_tls num). split; [reflexivity|]. left. auto. }
  pose proof (fresh_kept num f cnt d Fd) as I2.
  assert (Be : behaves_like L c cpp17 (text_recording itemsC fuelC) d (body_of L c qC)
                 (SimSpec.call L g args) (body_of L c p) (SimSpec.call L g args)).
  { assert (O : off (fun _ => false) 0
                (snd (spec_program L c (optimise oC) false (fun _ => false) p 0) - 0))
      by (intros i Hi; reflexivity).
    destruct (spec_none_program L c oC _ p 0 Wf O) as [Q Ro].
    eapply behaves_like_ext; [exact Q|].
    eapply behaves_lemma with (num := num) (Inv := disk_inv (cpp c) num); auto.
    - unfold bounds. rewrite TC. eapply text_recording_works; eassumption.
    - destruct Fd as [Fm _ Fo _]. split; [rewrite Fm; apply repeat_length|auto].
    - intros _. apply removals_drops_program. exact Ro.
    - rewrite same_number. lia. }
  apply (text_more L _ c ds _ (body_of L c q)).
  { intros g'. apply sim_program; assumption. }
  destruct Be as [B1 B2 B3 B4]. split.
  - intros m' r H. apply B1. eapply cover_finishes; eauto.
  - intro H. apply B2. eapply cover_undefined; eauto.
  - intros m' H. apply B3. eapply cover_reaches; eauto.
  - intro H. apply B4. eapply cover_diverges; eauto.
Qed.
End Program.

(** * The whole tool *)

Lemma offers_alike oM oC f : optimise oM = optimise oC -> offers oM f = offers oC f.
Proof. intro H. unfold offers. rewrite H. reflexivity. Qed.

Lemma parts o bt fs n t : In (n, t) (rs_written (Run.run o bt fs)) ->
  exists d1 f d2 u,
    RunSpec.distinct [] fs = (d1 ++ f :: d2)%list /\ Run.f_name f = n /\ f_unit f = Some u /\
    forall L root ps pre gaps (p : list (string * cst L)) last,
      MutTree.tidy (ui_tree u) = MutTree.tidy (mutation_tree (cpp (ui_ctx u)) (optimise o) root) ->
      f_text f = pre ++ source gaps p ++ last ->
      ui_prelude_offset u = String.length pre -> ui_rewrites u = [] ->
      corresponds (cpp (ui_ctx u)) (optimise o) root ps (source_places p) ->
      source_placed gaps p (String.length pre) -> separated (source_places p) ->
      (forall m, In m (post (ui_tree u)) -> clang_node (ui_ctx u) m) ->
      exists functions ds,
        t = pre ++ prelude_text (ui_ctx u) o (list_sum (map (offers o) d1))
                     (snd (mutate_program L (ui_ctx u) o p 0)) ++
            functions ++ source gaps (fst (mutate_program L (ui_ctx u) o p 0)) ++ last /\
        read_functions functions = Some ds /\
        (forall x, In x (source_places p) -> place_reads (ui_ctx u) o ds x).
Proof.
  intro H. destruct (written_nested o bt fs n t H) as (d1 & f & d2 & u & D & N & U & W).
  exists d1, f, d2, u. repeat (split; [assumption|]).
  intros L root ps pre gaps p last Tr Tx Off Rw Co Pl Ap Cn.
  assert (Ms : map NestSpec.place_of (post (ui_tree u)) = source_places p).
  { rewrite <- (post_tidy (ui_tree u)), Tr, post_tidy. exact (found _ _ _ _ _ Co). }
  assert (Nm : snd (mutate_program L (ui_ctx u) o p 0) = offers o f).
  { rewrite program_number, <- Ms, counts_sum. unfold offers. rewrite U. reflexivity. }
  destruct (W L pre gaps p last Tx Off Rw Ms Pl Ap) as (l & Nd & Ml & E).
  rewrite <- Nm in E.
  destruct (readings (ui_ctx u) o (post (ui_tree u)) l Cn) as (ds & Rd).
  { intros s Hs. apply Ml in Hs. exact Hs. }
  exists (concat_strings l), ds. split; [exact E|]. split.
  - apply functions_read. clear - Rd. induction Rd; constructor; auto.
    eapply reading_read; eassumption.
  - rewrite <- Ms. intros x. apply (all_places_read (ui_ctx u) o (post (ui_tree u)) l ds x Cn); auto.
    intros m g Hm Hg. apply Ml. eauto.
Qed.

Lemma same_split fs d1 f d2 d1' f' d2' :
  RunSpec.distinct [] fs = (d1 ++ f :: d2)%list -> RunSpec.distinct [] fs = (d1' ++ f' :: d2')%list ->
  Run.f_name f = Run.f_name f' -> d1' = d1 /\ f' = f.
Proof.
  intros D D' Hq. assert (ND : NoDup (map Run.f_name (RunSpec.distinct [] fs))) by apply distinct_nodup.
  rewrite D in D', ND. clear -D' ND Hq.
  revert d1' D'. induction d1 as [|g d1 IH]; intros d1' D'.
  - destruct d1' as [|g' d1']; simpl in D'; injection D' as E1 E2; [auto|].
    subst g'. simpl in ND. inversion ND; subst. exfalso. apply H1.
    rewrite Hq. apply in_map. apply in_elt.
  - destruct d1' as [|g' d1']; simpl in D'; injection D' as E1 E2.
    + subst g. simpl in ND. inversion ND; subst. exfalso. apply H1.
      rewrite <- Hq. apply in_map. apply in_elt.
    + subst g'. simpl in ND. inversion ND; subst.
      destruct (IH H2 d1' E2) as (-> & ->). auto.
Qed.

Lemma whole_cover oM oC bt fs n t :
  track oM = false -> track oC = true -> optimise oM = optimise oC ->
  In (n, t) (rs_written (Run.run oM bt fs)) ->
  exists tC d1 f d2 u,
    In (n, tC) (rs_written (Run.run oC bt fs)) /\
    RunSpec.distinct [] fs = (d1 ++ f :: d2)%list /\ Run.f_name f = n /\ f_unit f = Some u /\
    let c := ui_ctx u in
    let first := list_sum (map (offers oM) d1) in
    forall L root ps pre gaps (p : list (string * cst L)) last,
      MutTree.tidy (ui_tree u) = MutTree.tidy (mutation_tree (cpp c) (optimise oM) root) ->
      f_text f = pre ++ source gaps p ++ last ->
      ui_prelude_offset u = String.length pre -> ui_rewrites u = [] ->
      corresponds (cpp c) (optimise oM) root ps (source_places p) ->
      source_placed gaps p (String.length pre) -> separated (source_places p) ->
      (forall m, In m (post (ui_tree u)) -> clang_node c m) ->
      well_formed_program L c p = true -> productive_program L c oC p = true ->
      let q := fst (mutate_program L c oM p 0) in
      let qC := fst (mutate_program L c oC p 0) in
      let num := snd (mutate_program L c oM p 0) in
      is_int (first + num) ->
      exists h functions items ds st hC functionsC itemsC dsC,
        t = pre ++ h ++ functions ++ source gaps q ++ last /\
        parse_text h = Some items /\ read_functions functions = Some ds /\
        own_statics items = Some st /\
        tC = pre ++ hC ++ functionsC ++ source gaps qC ++ last /\
        parse_text hC = Some itemsC /\ read_functions functionsC = Some dsC /\
        shared_statics itemsC = Some [("already_recorded", VArr (repeat (VBool false) num))] /\
        forall cpp17 g args e m v zs w fuel d fuelC (Late : Prop),
          (cpp17 = true -> sequenced_program L c p = true) ->
          enables first v zs -> enough v fuel -> freed w 1 = false ->
          fresh num d -> num < fuelC ->
          (forall i, In i (logical_of L c (optimise oC) p 0) -> In (Z.of_nat (first + i)) zs -> Late) ->
          (Late -> text_finishes L c cpp17 dsC (text_recording itemsC fuelC)
                     (text_body_of L c dsC qC) e m d (SimSpec.call L g args)) ->
          text_unrecorded L c cpp17 dsC itemsC fuelC (text_body_of L c dsC qC) e m d
            (SimSpec.call L g args) zs ->
          text_no_more L c cpp17 ds (text_selecting items fuel v) (text_body_of L c ds q) e m
            (w, st) (SimSpec.call L g args) (body_of L c p) (SimSpec.call L g args).
Proof.
  intros TM TC OO H.
  assert (Ex : exists tC, In (n, tC) (rs_written (Run.run oC bt fs))).
  { destruct (C02_written_lemma oM bt fs) as (_ & HM & _).
    destruct (C02_written_lemma oC bt fs) as (_ & HC & _).
    assert (I : In n (map fst (rs_written (Run.run oM bt fs)))) by exact (in_map fst _ _ H).
    apply HM in I as (f & I & N & Po). rewrite (offers_alike oM oC f OO) in Po.
    assert (I' : In n (map fst (rs_written (Run.run oC bt fs)))) by (apply HC; eauto).
    apply in_map_iff in I' as ([n' tC] & Q & I'). cbn in Q. subst n'. eauto. }
  destruct Ex as [tC HC]. exists tC.
  destruct (parts oM bt fs n t H) as (d1 & f & d2 & u & D & N & U & W).
  destruct (parts oC bt fs n tC HC) as (d1' & f' & d2' & u' & D' & N' & U' & W').
  destruct (same_split fs d1 f d2 d1' f' d2' D D' (eq_trans N (eq_sym N'))) as [-> ->].
  rewrite U in U'. injection U' as <-.
  exists d1, f, d2, u. repeat (split; [assumption|]). cbv zeta.
  intros L root ps pre gaps p last Tr Tx Off Rw Co Pl Ap Cn Wf Pr F.
  destruct (W L root ps pre gaps p last Tr Tx Off Rw Co Pl Ap Cn) as (fn & ds & E & Rf & Re).
  rewrite OO in Tr, Co.
  destruct (W' L root ps pre gaps p last Tr Tx Off Rw Co Pl Ap Cn) as (fnC & dsC & EC & RfC & ReC).
  rewrite <- (same_number L (ui_ctx u) oM oC p OO) in EC.
  replace (map (offers oC) d1) with (map (offers oM) d1) in EC
    by (apply map_ext; intro; apply offers_alike; exact OO).
  set (first := list_sum (map (offers oM) d1)) in *.
  set (num := snd (mutate_program L (ui_ctx u) oM p 0)) in *.
  destruct (C66_lemma (ui_ctx u) oM first num TM) as (items & P & St & _);
    try (unfold is_int in *; lia).
  destruct (C67_events_lemma (ui_ctx u) oC first num TC) as (itemsC & PC & _ & Sh & _);
    [unfold is_int in *; lia|].
  exists (prelude_text (ui_ctx u) oM first num), fn, items, ds, (view (cpp (ui_ctx u)) (initial_tls num)),
    (prelude_text (ui_ctx u) oC first num), fnC, itemsC, dsC.
  repeat (split; [assumption|]).
  intros cpp17 g args e m v zs w fuel d fuelC Late Sq [V S] Enf Fr Fd Fu Lo Fin Un.
  exact (text_cover L (ui_ctx u) oM oC cpp17 ds dsC p TM TC OO Wf Re ReC Sq Late first v zs fuel fuelC
    items itemsC w _ d g args e m F Enf Fr Fu P St PC Fd V S Pr Lo Fin Un).
Qed.

Lemma whole_cover_other oM oC bt fs n t :
  track oM = false -> track oC = true -> optimise oM = optimise oC ->
  In (n, t) (rs_written (Run.run oM bt fs)) ->
  exists tC d1 f d2 u,
    In (n, tC) (rs_written (Run.run oC bt fs)) /\
    RunSpec.distinct [] fs = (d1 ++ f :: d2)%list /\ Run.f_name f = n /\ f_unit f = Some u /\
    let c := ui_ctx u in
    let first := list_sum (map (offers oM) d1) in
    forall L root ps pre gaps (p : list (string * cst L)) last,
      MutTree.tidy (ui_tree u) = MutTree.tidy (mutation_tree (cpp c) (optimise oM) root) ->
      f_text f = pre ++ source gaps p ++ last ->
      ui_prelude_offset u = String.length pre -> ui_rewrites u = [] ->
      corresponds (cpp c) (optimise oM) root ps (source_places p) ->
      source_placed gaps p (String.length pre) -> separated (source_places p) ->
      (forall m, In m (post (ui_tree u)) -> clang_node c m) ->
      well_formed_program L c p = true -> productive_program L c oC p = true ->
      let q := fst (mutate_program L c oM p 0) in
      let qC := fst (mutate_program L c oC p 0) in
      let num := snd (mutate_program L c oM p 0) in
      is_int (first + num) ->
      exists h functions items ds st hC functionsC itemsC dsC,
        t = pre ++ h ++ functions ++ source gaps q ++ last /\
        parse_text h = Some items /\ read_functions functions = Some ds /\
        own_statics items = Some st /\
        tC = pre ++ hC ++ functionsC ++ source gaps qC ++ last /\
        parse_text hC = Some itemsC /\ read_functions functionsC = Some dsC /\
        shared_statics itemsC = Some [("already_recorded", VArr (repeat (VBool false) num))] /\
        forall cpp17 g args e m v zs w fuel d fuelC,
          (cpp17 = true -> sequenced_program L c p = true) ->
          enables first v zs -> enough v fuel -> freed w 1 = false ->
          fresh num d -> num < fuelC ->
          (forall i, In i (logical_of L c (optimise oC) p 0) -> ~ In (Z.of_nat (first + i)) zs) ->
          text_unrecorded L c cpp17 dsC itemsC fuelC (text_body_of L c dsC qC) e m d
            (SimSpec.call L g args) zs ->
          text_no_more L c cpp17 ds (text_selecting items fuel v) (text_body_of L c ds q) e m
            (w, st) (SimSpec.call L g args) (body_of L c p) (SimSpec.call L g args).
Proof.
  intros TM TC OO H.
  destruct (whole_cover oM oC bt fs n t TM TC OO H) as (tC & d1 & f & d2 & u & HC & D & N & U & W).
  exists tC, d1, f, d2, u. repeat (split; [assumption|]). cbv zeta in *.
  intros L root ps pre gaps p last Tr Tx Off Rw Co Pl Ap Cn Wf Pr F.
  destruct (W L root ps pre gaps p last Tr Tx Off Rw Co Pl Ap Cn Wf Pr F)
    as (h & fn & items & ds & st & hC & fnC & itemsC & dsC & A1 & A2 & A3 & A4 & A5 & A6 & A7 & A8 & K).
  exists h, fn, items, ds, st, hC, fnC, itemsC, dsC. repeat (split; [assumption|]).
  intros cpp17 g args e m v zs w fuel d fuelC Sq En Enf Fr Fd Fu Lo Un.
  apply (K cpp17 g args e m v zs w fuel d fuelC False); auto. intro X; destruct X.
Qed.

Lemma whole_cover_finishing oM oC bt fs n t :
  track oM = false -> track oC = true -> optimise oM = optimise oC ->
  In (n, t) (rs_written (Run.run oM bt fs)) ->
  exists tC d1 f d2 u,
    In (n, tC) (rs_written (Run.run oC bt fs)) /\
    RunSpec.distinct [] fs = (d1 ++ f :: d2)%list /\ Run.f_name f = n /\ f_unit f = Some u /\
    let c := ui_ctx u in
    let first := list_sum (map (offers oM) d1) in
    forall L root ps pre gaps (p : list (string * cst L)) last,
      MutTree.tidy (ui_tree u) = MutTree.tidy (mutation_tree (cpp c) (optimise oM) root) ->
      f_text f = pre ++ source gaps p ++ last ->
      ui_prelude_offset u = String.length pre -> ui_rewrites u = [] ->
      corresponds (cpp c) (optimise oM) root ps (source_places p) ->
      source_placed gaps p (String.length pre) -> separated (source_places p) ->
      (forall m, In m (post (ui_tree u)) -> clang_node c m) ->
      well_formed_program L c p = true -> productive_program L c oC p = true ->
      let q := fst (mutate_program L c oM p 0) in
      let qC := fst (mutate_program L c oC p 0) in
      let num := snd (mutate_program L c oM p 0) in
      is_int (first + num) ->
      exists h functions items ds st hC functionsC itemsC dsC,
        t = pre ++ h ++ functions ++ source gaps q ++ last /\
        parse_text h = Some items /\ read_functions functions = Some ds /\
        own_statics items = Some st /\
        tC = pre ++ hC ++ functionsC ++ source gaps qC ++ last /\
        parse_text hC = Some itemsC /\ read_functions functionsC = Some dsC /\
        shared_statics itemsC = Some [("already_recorded", VArr (repeat (VBool false) num))] /\
        forall cpp17 g args e m v zs w fuel d fuelC,
          (cpp17 = true -> sequenced_program L c p = true) ->
          enables first v zs -> enough v fuel -> freed w 1 = false ->
          fresh num d -> num < fuelC ->
          text_finishes L c cpp17 dsC (text_recording itemsC fuelC)
            (text_body_of L c dsC qC) e m d (SimSpec.call L g args) ->
          text_unrecorded L c cpp17 dsC itemsC fuelC (text_body_of L c dsC qC) e m d
            (SimSpec.call L g args) zs ->
          text_no_more L c cpp17 ds (text_selecting items fuel v) (text_body_of L c ds q) e m
            (w, st) (SimSpec.call L g args) (body_of L c p) (SimSpec.call L g args).
Proof.
  intros TM TC OO H.
  destruct (whole_cover oM oC bt fs n t TM TC OO H) as (tC & d1 & f & d2 & u & HC & D & N & U & W).
  exists tC, d1, f, d2, u. repeat (split; [assumption|]). cbv zeta in *.
  intros L root ps pre gaps p last Tr Tx Off Rw Co Pl Ap Cn Wf Pr F.
  destruct (W L root ps pre gaps p last Tr Tx Off Rw Co Pl Ap Cn Wf Pr F)
    as (h & fn & items & ds & st & hC & fnC & itemsC & dsC & A1 & A2 & A3 & A4 & A5 & A6 & A7 & A8 & K).
  exists h, fn, items, ds, st, hC, fnC, itemsC, dsC. repeat (split; [assumption|]).
  intros cpp17 g args e m v zs w fuel d fuelC Sq En Enf Fr Fd Fu Fin Un.
  apply (K cpp17 g args e m v zs w fuel d fuelC True); auto.
Qed.

