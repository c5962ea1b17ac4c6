(* Written files of a run with and of a run without coverage tracking, some of whose constants are
   replaced by their values, read and executed. *)
From Coq Require Import String Ascii List Arith NArith ZArith Bool Lia.
From Verif Require Import Base Clang Gen GenExpr GenBinary GenUnary GenStmt Mutation GenSpec
  Rewriter RewriterProof PreludeText Prelude PreludeSpec PreludeProof PreludeProof2 MutTree MutTreeProof TreeSpec Run RunSpec RunProof
  RunProof2 ClashSpec CText FunText FunProof2 NameProof PreludeC CRun TextSpec TextProof.
From Verif Require Import NestSpec NestProof NestProof2 Visitor VisitorSpec Lang Cst SimSpec SimRel SimMutate SimTop MutantSpec
  EndSpec EndProof TextLang TextLangProof TextLangProof2 TextLangProof3 TextTop CoverSpec TextCoverSpec
  TextCoverProof RespellSpec RespellProof RespellTop.
Import ListNotations.
Local Open Scope string_scope.

Section Bare.
Variable L : lang.
Variable c : ctx.
Variable opt : bool.

Lemma bare_mutants (t : cst L) : mutants_in L c opt (bare t) = mutants_in L c opt t.
Proof.
  induction t as [s v|k ps last IH|e sub IH|b l w1 w2 r IHl IHr|u w sub IH|s sub IH]
    using cst_induction; cbn [bare mutants_in]; try congruence.
  induction IH as [|[s p] ps H _ IHps]; auto. cbn [map fold_right snd] in *. rewrite H, IHps. reflexivity.
Qed.
Lemma bare_logical (t : cst L) : forall id, logical_in L c opt (bare t) id = logical_in L c opt t id.
Proof.
  induction t as [s v|k ps last IH|e sub IH|b l w1 w2 r IHl IHr|u w sub IH|s sub IH]
    using cst_induction; intro id; cbn [bare logical_in]; rewrite ?bare_mutants; try congruence.
  revert id. induction IH as [|[s p] ps H _ IHps]; intro id; auto. cbn [map snd] in *.
  rewrite H, IHps, bare_mutants. reflexivity.
Qed.
Notation stripped p := (map (fun f : string * cst L => (fst f, bare (snd f))) p).
Lemma stripped_logical p : forall id, logical_of L c opt (stripped p) id = logical_of L c opt p id.
Proof.
  induction p as [|[f t] p IH]; intro id; auto. cbn [map logical_of fst snd].
  rewrite bare_logical, bare_mutants, IH. reflexivity.
Qed.
End Bare.

Lemma no_more_ext L c cpp17 ds R bt e m d t b1 b2 s : (forall g, b1 g = b2 g) ->
  text_no_more L c cpp17 ds R bt e m d t b1 s -> text_no_more L c cpp17 ds R bt e m d t b2 s.
Proof.
  intros Q [B1 B2 B3 B4]. split; intros.
  - destruct (B1 _ _ _ H H0) as (d1 & St & F). exists d1. eauto using steps_ext.
  - destruct (B2 _ _ _ H H0) as (m1 & d1 & t1 & St & F). exists m1, d1, t1.
    eauto using steps_ext, step_ext.
  - destruct (B3 _ _ _ H) as (d1 & t1 & St). exists d1, t1. eauto using steps_ext.
  - specialize (B4 H). clear - Q B4. revert m s B4. cofix CIH. intros m s B4.
    inversion B4 as [m2 d2 t2 m' d' t' St Dv]; subst. destruct d'.
    econstructor; [exact (step_ext _ _ _ _ _ _ _ _ _ _ _ Q St)|]. apply CIH. exact Dv.
Qed.

(** * The whole tool *)

Lemma replaced_parts o bt fs n t : In (n, t) (rs_written (Run.run o bt fs)) ->
  exists d1 f d2 u,
    RunSpec.distinct [] fs = (d1 ++ f :: d2)%list /\ Run.f_name f = n /\ f_unit f = Some u /\
    forall L root ps pre gaps (p : list (string * cst L)) last,
      MutTree.tidy (ui_tree u) = MutTree.tidy (mutation_tree (cpp (ui_ctx u)) (optimise o) root) ->
      f_text f = pre ++ source gaps p ++ last ->
      ui_prelude_offset u = String.length pre ->
      beside_operators (ui_rewrites u) (source_places p) ->
      corresponds (cpp (ui_ctx u)) (optimise o) root ps (source_places p) ->
      source_placed gaps p (String.length pre) -> separated (source_places p) ->
      (forall m, In m (post (ui_tree u)) -> clang_node (ui_ctx u) m) ->
      let D0 := edits_doc (ui_rewrites u) (doc_of (f_text f)) in
      let pre' := seg D0 0 (String.length pre) in
      let gaps' := map fst (bodies L D0 gaps p (String.length pre)) in
      let p' := map snd (bodies L D0 gaps p (String.length pre)) in
      let last' := seg D0 (String.length pre + String.length (source gaps p)) (String.length last + 1) in
      exists functions ds,
        rewrite (f_text f) (ui_rewrites u) = pre' ++ source gaps' p' ++ last' /\
        respelled p p' /\
        t = pre' ++ prelude_text (ui_ctx u) o (list_sum (map (offers o) d1))
                     (snd (mutate_program L (ui_ctx u) o p 0)) ++
            functions ++ source gaps' (fst (mutate_program L (ui_ctx u) o p' 0)) ++ last' /\
        read_functions functions = Some ds /\
        (forall x, In x (source_places p) -> place_reads (ui_ctx u) o ds x).
Proof.
  intro H. destruct (written_replaced o bt fs n t H) as (d1 & f & d2 & u & D & N & U & W).
  exists d1, f, d2, u. repeat (split; [assumption|]).
  intros L root ps pre gaps p last Tr Tx Off Rw Co Pl Ap Cn.
  assert (Ms : map NestSpec.place_of (post (ui_tree u)) = source_places p).
  { rewrite <- (post_tidy (ui_tree u)), Tr, post_tidy. exact (found _ _ _ _ _ Co). }
  assert (Nm : snd (mutate_program L (ui_ctx u) o p 0) = offers o f).
  { rewrite program_number, <- Ms, counts_sum. unfold offers. rewrite U. reflexivity. }
  destruct (W L pre gaps p last Tx Off Rw Ms Pl Ap) as (l & Nd & Ml & R & Rs & E).
  rewrite <- Nm in E.
  destruct (readings (ui_ctx u) o (post (ui_tree u)) l Cn) as (ds & Rd).
  { intros s Hs. apply Ml in Hs. exact Hs. }
  cbv zeta. exists (concat_strings l), ds. split; [exact R|]. split; [exact Rs|]. split; [exact E|]. split.
  - apply functions_read. clear - Rd. induction Rd; constructor; auto.
    eapply reading_read; eassumption.
  - rewrite <- Ms. intros x. apply (all_places_read (ui_ctx u) o (post (ui_tree u)) l ds x Cn); auto.
    intros m g Hm Hg. apply Ml. eauto.
Qed.

Lemma replaced_cover oM oC bt fs n t :
  track oM = false -> track oC = true -> optimise oM = optimise oC ->
  In (n, t) (rs_written (Run.run oM bt fs)) ->
  exists tC d1 f d2 u,
    In (n, tC) (rs_written (Run.run oC bt fs)) /\
    RunSpec.distinct [] fs = (d1 ++ f :: d2)%list /\ Run.f_name f = n /\ f_unit f = Some u /\
    let c := ui_ctx u in
    let first := list_sum (map (offers oM) d1) in
    forall L root ps pre gaps (p : list (string * cst L)) last,
      MutTree.tidy (ui_tree u) = MutTree.tidy (mutation_tree (cpp c) (optimise oM) root) ->
      f_text f = pre ++ source gaps p ++ last ->
      ui_prelude_offset u = String.length pre ->
      beside_operators (ui_rewrites u) (source_places p) ->
      corresponds (cpp c) (optimise oM) root ps (source_places p) ->
      source_placed gaps p (String.length pre) -> separated (source_places p) ->
      (forall m, In m (post (ui_tree u)) -> clang_node c m) ->
      well_formed_program L c p = true -> productive_program L c oC p = true ->
      let num := snd (mutate_program L c oM p 0) in
      is_int (first + num) ->
      exists pre' gaps' p' last' h functions items ds st hC functionsC itemsC dsC,
        rewrite (f_text f) (ui_rewrites u) = pre' ++ source gaps' p' ++ last' /\
        respelled p p' /\
        let q := fst (mutate_program L c oM p' 0) in
        let qC := fst (mutate_program L c oC p' 0) in
        t = pre' ++ h ++ functions ++ source gaps' q ++ last' /\
        parse_text h = Some items /\ read_functions functions = Some ds /\
        own_statics items = Some st /\
        tC = pre' ++ hC ++ functionsC ++ source gaps' qC ++ last' /\
        parse_text hC = Some itemsC /\ read_functions functionsC = Some dsC /\
        shared_statics itemsC = Some [("already_recorded", VArr (repeat (VBool false) num))] /\
        forall cpp17 g args e m v zs w fuel d fuelC (Late : Prop),
          (cpp17 = true -> sequenced_program L c p = true) ->
          enables first v zs -> enough v fuel -> freed w 1 = false ->
          fresh num d -> num < fuelC ->
          (forall i, In i (logical_of L c (optimise oC) p 0) -> In (Z.of_nat (first + i)) zs -> Late) ->
          (Late -> text_finishes L c cpp17 dsC (text_recording itemsC fuelC)
                     (text_body_of L c dsC qC) e m d (SimSpec.call L g args)) ->
          text_unrecorded L c cpp17 dsC itemsC fuelC (text_body_of L c dsC qC) e m d
            (SimSpec.call L g args) zs ->
          text_no_more L c cpp17 ds (text_selecting items fuel v) (text_body_of L c ds q) e m
            (w, st) (SimSpec.call L g args) (body_of L c p) (SimSpec.call L g args).
Proof.
  intros TM TC OO H.
  assert (Ex : exists tC, In (n, tC) (rs_written (Run.run oC bt fs))).
  { destruct (C02_written_lemma oM bt fs) as (_ & HM & _).
    destruct (C02_written_lemma oC bt fs) as (_ & HC & _).
    assert (I : In n (map fst (rs_written (Run.run oM bt fs)))) by exact (in_map fst _ _ H).
    apply HM in I as (f & I & N & Po). rewrite (offers_alike oM oC f OO) in Po.
    assert (I' : In n (map fst (rs_written (Run.run oC bt fs)))) by (apply HC; eauto).
    apply in_map_iff in I' as ([n' tC] & Q & I'). cbn in Q. subst n'. eauto. }
  destruct Ex as [tC HC]. exists tC.
  destruct (replaced_parts oM bt fs n t H) as (d1 & f & d2 & u & D & N & U & W).
  destruct (replaced_parts oC bt fs n tC HC) as (d1' & f' & d2' & u' & D' & N' & U' & W').
  destruct (same_split fs d1 f d2 d1' f' d2' D D' (eq_trans N (eq_sym N'))) as [-> ->].
  rewrite U in U'. injection U' as <-.
  exists d1, f, d2, u. repeat (split; [assumption|]). cbv zeta.
  intros L root ps pre gaps p last Tr Tx Off Rw Co Pl Ap Cn Wf Pr F.
  destruct (W L root ps pre gaps p last Tr Tx Off Rw Co Pl Ap Cn) as (fn & ds & R & Rs & E & Rf & Re).
  rewrite OO in Tr, Co.
  destruct (W' L root ps pre gaps p last Tr Tx Off Rw Co Pl Ap Cn) as (fnC & dsC & _ & _ & EC & RfC & ReC).
  remember (seg _ 0 (String.length pre)) as pre' eqn:Epre. clear Epre.
  remember (seg _ _ (String.length last + 1)) as last' eqn:Elast. clear Elast.
  remember (map fst (bodies L _ gaps p _)) as gaps' eqn:Egaps. clear Egaps.
  remember (map snd (bodies L _ gaps p _)) as p' eqn:Ep. clear Ep.
  unfold respelled in Rs.
  assert (Sp : source_places p' = source_places p).
  { rewrite <- (stripped_places L p'), Rs. apply stripped_places. }
  assert (Nm' : snd (mutate_program L (ui_ctx u) oM p' 0) = snd (mutate_program L (ui_ctx u) oM p 0)).
  { rewrite !program_number, Sp. reflexivity. }
  assert (Wf' : well_formed_program L (ui_ctx u) p' = true).
  { rewrite <- stripped_well_formed, Rs, stripped_well_formed. exact Wf. }
  assert (Sq' : sequenced_program L (ui_ctx u) p' = sequenced_program L (ui_ctx u) p).
  { rewrite <- stripped_sequenced, Rs. apply stripped_sequenced. }
  assert (Pr' : productive_program L (ui_ctx u) oC p' = true).
  { rewrite <- stripped_productive, Rs, stripped_productive. exact Pr. }
  assert (Bo : forall g, body_of L (ui_ctx u) p' g = body_of L (ui_ctx u) p g).
  { intro g. rewrite <- stripped_body, Rs. apply stripped_body. }
  assert (Lo' : logical_of L (ui_ctx u) (optimise oC) p' 0 = logical_of L (ui_ctx u) (optimise oC) p 0).
  { rewrite <- stripped_logical, Rs. apply stripped_logical. }
  rewrite <- Sp in Re, ReC.
  rewrite <- (same_number L (ui_ctx u) oM oC p OO) in EC.
  replace (map (offers oC) d1) with (map (offers oM) d1) in EC
    by (apply map_ext; intro; apply offers_alike; exact OO).
  set (first := list_sum (map (offers oM) d1)) in *.
  set (num := snd (mutate_program L (ui_ctx u) oM p 0)) in *.
  destruct (C66_lemma (ui_ctx u) oM first num TM) as (items & P & St & _);
    try (unfold is_int in *; lia).
  destruct (C67_events_lemma (ui_ctx u) oC first num TC) as (itemsC & PC & _ & Sh & _);
    [unfold is_int in *; lia|].
  exists pre', gaps', p', last', (prelude_text (ui_ctx u) oM first num), fn, items, ds, (view (cpp (ui_ctx u)) (initial_tls num)),
    (prelude_text (ui_ctx u) oC first num), fnC, itemsC, dsC.
  repeat (split; [assumption|]).
  intros cpp17 g args e m v zs w fuel d fuelC Late Sq [V S] Enf Fr Fd Fu Lo Fin Un.
  eapply no_more_ext; [exact Bo|]. rewrite <- Sq' in Sq. rewrite <- Lo' in Lo. rewrite <- Nm' in Fd, Fu, F.
  fold num in Nm'. rewrite <- Nm' in P, PC.
  exact (text_cover L (ui_ctx u) oM oC cpp17 ds dsC p' TM TC OO Wf' Re ReC Sq Late first v zs fuel fuelC
    items itemsC w _ d g args e m F Enf Fr Fu P St PC Fd V S Pr' Lo Fin Un).
Qed.

Lemma replaced_cover_other oM oC bt fs n t :
  track oM = false -> track oC = true -> optimise oM = optimise oC ->
  In (n, t) (rs_written (Run.run oM bt fs)) ->
  exists tC d1 f d2 u,
    In (n, tC) (rs_written (Run.run oC bt fs)) /\
    RunSpec.distinct [] fs = (d1 ++ f :: d2)%list /\ Run.f_name f = n /\ f_unit f = Some u /\
    let c := ui_ctx u in
    let first := list_sum (map (offers oM) d1) in
    forall L root ps pre gaps (p : list (string * cst L)) last,
      MutTree.tidy (ui_tree u) = MutTree.tidy (mutation_tree (cpp c) (optimise oM) root) ->
      f_text f = pre ++ source gaps p ++ last ->
      ui_prelude_offset u = String.length pre ->
      beside_operators (ui_rewrites u) (source_places p) ->
      corresponds (cpp c) (optimise oM) root ps (source_places p) ->
      source_placed gaps p (String.length pre) -> separated (source_places p) ->
      (forall m, In m (post (ui_tree u)) -> clang_node c m) ->
      well_formed_program L c p = true -> productive_program L c oC p = true ->
      let num := snd (mutate_program L c oM p 0) in
      is_int (first + num) ->
      exists pre' gaps' p' last' h functions items ds st hC functionsC itemsC dsC,
        rewrite (f_text f) (ui_rewrites u) = pre' ++ source gaps' p' ++ last' /\
        respelled p p' /\
        let q := fst (mutate_program L c oM p' 0) in
        let qC := fst (mutate_program L c oC p' 0) in
        t = pre' ++ h ++ functions ++ source gaps' q ++ last' /\
        parse_text h = Some items /\ read_functions functions = Some ds /\
        own_statics items = Some st /\
        tC = pre' ++ hC ++ functionsC ++ source gaps' qC ++ last' /\
        parse_text hC = Some itemsC /\ read_functions functionsC = Some dsC /\
        shared_statics itemsC = Some [("already_recorded", VArr (repeat (VBool false) num))] /\
        forall cpp17 g args e m v zs w fuel d fuelC,
          (cpp17 = true -> sequenced_program L c p = true) ->
          enables first v zs -> enough v fuel -> freed w 1 = false ->
          fresh num d -> num < fuelC ->
          (forall i, In i (logical_of L c (optimise oC) p 0) -> ~ In (Z.of_nat (first + i)) zs) ->
          text_unrecorded L c cpp17 dsC itemsC fuelC (text_body_of L c dsC qC) e m d
            (SimSpec.call L g args) zs ->
          text_no_more L c cpp17 ds (text_selecting items fuel v) (text_body_of L c ds q) e m
            (w, st) (SimSpec.call L g args) (body_of L c p) (SimSpec.call L g args).
Proof.
  intros TM TC OO H.
  destruct (replaced_cover oM oC bt fs n t TM TC OO H) as (tC & d1 & f & d2 & u & HC & D & N & U & W).
  exists tC, d1, f, d2, u. repeat (split; [assumption|]). cbv zeta in *.
  intros L root ps pre gaps p last Tr Tx Off Rw Co Pl Ap Cn Wf Pr F.
  destruct (W L root ps pre gaps p last Tr Tx Off Rw Co Pl Ap Cn Wf Pr F)
    as (pre' & gaps' & p' & last' & h & fn & items & ds & st & hC & fnC & itemsC & dsC & A & Rs & A1 & A2 & A3 & A4 & A5 & A6 & A7 & A8 & K).
  exists pre', gaps', p', last', h, fn, items, ds, st, hC, fnC, itemsC, dsC. repeat (split; [assumption|]).
  intros cpp17 g args e m v zs w fuel d fuelC Sq En Enf Fr Fd Fu Lo Un.
  apply (K cpp17 g args e m v zs w fuel d fuelC False); auto. intro X; destruct X.
Qed.

Lemma replaced_cover_finishing oM oC bt fs n t :
  track oM = false -> track oC = true -> optimise oM = optimise oC ->
  In (n, t) (rs_written (Run.run oM bt fs)) ->
  exists tC d1 f d2 u,
    In (n, tC) (rs_written (Run.run oC bt fs)) /\
    RunSpec.distinct [] fs = (d1 ++ f :: d2)%list /\ Run.f_name f = n /\ f_unit f = Some u /\
    let c := ui_ctx u in
    let first := list_sum (map (offers oM) d1) in
    forall L root ps pre gaps (p : list (string * cst L)) last,
      MutTree.tidy (ui_tree u) = MutTree.tidy (mutation_tree (cpp c) (optimise oM) root) ->
      f_text f = pre ++ source gaps p ++ last ->
      ui_prelude_offset u = String.length pre ->
      beside_operators (ui_rewrites u) (source_places p) ->
      corresponds (cpp c) (optimise oM) root ps (source_places p) ->
      source_placed gaps p (String.length pre) -> separated (source_places p) ->
      (forall m, In m (post (ui_tree u)) -> clang_node c m) ->
      well_formed_program L c p = true -> productive_program L c oC p = true ->
      let num := snd (mutate_program L c oM p 0) in
      is_int (first + num) ->
      exists pre' gaps' p' last' h functions items ds st hC functionsC itemsC dsC,
        rewrite (f_text f) (ui_rewrites u) = pre' ++ source gaps' p' ++ last' /\
        respelled p p' /\
        let q := fst (mutate_program L c oM p' 0) in
        let qC := fst (mutate_program L c oC p' 0) in
        t = pre' ++ h ++ functions ++ source gaps' q ++ last' /\
        parse_text h = Some items /\ read_functions functions = Some ds /\
        own_statics items = Some st /\
        tC = pre' ++ hC ++ functionsC ++ source gaps' qC ++ last' /\
        parse_text hC = Some itemsC /\ read_functions functionsC = Some dsC /\
        shared_statics itemsC = Some [("already_recorded", VArr (repeat (VBool false) num))] /\
        forall cpp17 g args e m v zs w fuel d fuelC,
          (cpp17 = true -> sequenced_program L c p = true) ->
          enables first v zs -> enough v fuel -> freed w 1 = false ->
          fresh num d -> num < fuelC ->
          text_finishes L c cpp17 dsC (text_recording itemsC fuelC)
            (text_body_of L c dsC qC) e m d (SimSpec.call L g args) ->
          text_unrecorded L c cpp17 dsC itemsC fuelC (text_body_of L c dsC qC) e m d
            (SimSpec.call L g args) zs ->
          text_no_more L c cpp17 ds (text_selecting items fuel v) (text_body_of L c ds q) e m
            (w, st) (SimSpec.call L g args) (body_of L c p) (SimSpec.call L g args).
Proof.
  intros TM TC OO H.
  destruct (replaced_cover oM oC bt fs n t TM TC OO H) as (tC & d1 & f & d2 & u & HC & D & N & U & W).
  exists tC, d1, f, d2, u. repeat (split; [assumption|]). cbv zeta in *.
  intros L root ps pre gaps p last Tr Tx Off Rw Co Pl Ap Cn Wf Pr F.
  destruct (W L root ps pre gaps p last Tr Tx Off Rw Co Pl Ap Cn Wf Pr F)
    as (pre' & gaps' & p' & last' & h & fn & items & ds & st & hC & fnC & itemsC & dsC & A & Rs & A1 & A2 & A3 & A4 & A5 & A6 & A7 & A8 & K).
  exists pre', gaps', p', last', h, fn, items, ds, st, hC, fnC, itemsC, dsC. repeat (split; [assumption|]).
  intros cpp17 g args e m v zs w fuel d fuelC Sq En Enf Fr Fd Fu Fin Un.
  apply (K cpp17 g args e m v zs w fuel d fuelC True); auto.
Qed.

