(* Written files some of whose constants are replaced by their values, read and executed. *)
From Coq Require Import String Ascii List Arith NArith ZArith Bool Lia.
From Verif Require Import Base Clang Gen GenExpr GenBinary GenUnary GenStmt Mutation GenSpec
  Rewriter RewriterProof PreludeText Prelude PreludeSpec PreludeProof PreludeProof2 MutTree MutTreeProof TreeSpec Run RunSpec RunProof
  RunProof2 ClashSpec CText FunText FunProof2 NameProof PreludeC CRun TextSpec TextProof.
From Verif Require Import NestSpec NestProof NestProof2 Visitor VisitorSpec Lang Cst SimSpec SimMutate SimTop MutantSpec
  EndSpec EndProof TextLang TextLangProof TextLangProof2 TextLangProof3 TextTop RespellSpec RespellProof.
Import ListNotations.
Local Open Scope string_scope.

(** * What does not depend on the spelling *)

Section Bare.
Variable L : lang.
Variable c : ctx.
Variable opt : bool.

Lemma bare_places (t : cst L) : places (bare t) = places t.
Proof.
  induction t as [s v|k ps last IH|e sub IH|b l w1 w2 r IHl IHr|u w sub IH|s sub IH]
    using cst_induction; cbn [bare places]; try congruence.
  induction IH as [|[s p] ps H _ IHps]; auto. cbn [map flat_map snd] in *. rewrite H, IHps. reflexivity.
Qed.
Lemma bare_den (t : cst L) : den L c (bare t) = den L c t.
Proof.
  induction t as [s v|k ps last IH|e sub IH|b l w1 w2 r IHl IHr|u w sub IH|s sub IH]
    using cst_induction; cbn [bare den]; try congruence.
  replace (map (fun p => den L c (snd p)) (map (fun p => ("", bare (snd p))) ps))
    with (map (fun p => den L c (snd p)) ps); auto.
  induction IH as [|[s p] ps H _ IHps]; auto. cbn [map snd] in *. rewrite H, IHps. reflexivity.
Qed.
Lemma bare_well_formed (t : cst L) : SimSpec.well_formed L c (bare t) = SimSpec.well_formed L c t.
Proof.
  induction t as [s v|k ps last IH|e sub IH|b l w1 w2 r IHl IHr|u w sub IH|s sub IH]
    using cst_induction; cbn [bare SimSpec.well_formed]; try congruence.
  f_equal. induction IH as [|[s p] ps H _ IHps]; auto. cbn [map forallb snd] in *. rewrite H, IHps. reflexivity.
Qed.
Lemma bare_sequenced (t : cst L) : sequenced L c (bare t) = sequenced L c t.
Proof.
  induction t as [s v|k ps last IH|e sub IH|b l w1 w2 r IHl IHr|u w sub IH|s sub IH]
    using cst_induction; cbn [bare sequenced]; try congruence.
  induction IH as [|[s p] ps H _ IHps]; auto. cbn [map forallb snd] in *. rewrite H, IHps. reflexivity.
Qed.
Lemma bare_productive (t : cst L) : productive L c opt (bare t) = productive L c opt t.
Proof.
  induction t as [s v|k ps last IH|e sub IH|b l w1 w2 r IHl IHr|u w sub IH|s sub IH]
    using cst_induction; cbn [bare productive]; try congruence.
  induction IH as [|[s p] ps H _ IHps]; auto. cbn [map forallb snd] in *. rewrite H, IHps. reflexivity.
Qed.
Lemma bare_spec rest E (t : cst L) : forall id,
  spec L c opt rest E (bare t) id = spec L c opt rest E t id.
Proof.
  induction t as [s v|k ps last IH|e sub IH|b l w1 w2 r IHl IHr|u w sub IH|s sub IH]
    using cst_induction; intro id.
  - reflexivity.
  - cbn [bare spec].
    match goal with |- (let (_, _) := ?f (map _ ps) id in _) = _ =>
      assert (G : forall i, f (map (fun p => ("", bare (snd p))) ps) i = f ps i) end.
    { induction IH as [|[s p] ps H _ IHps]; intro i; auto. cbn [map snd] in *. rewrite H.
      destruct (spec L c opt rest E p i) as [a i']. rewrite IHps. reflexivity. }
    rewrite G. reflexivity.
  - cbn [bare spec]. rewrite IH. reflexivity.
  - cbn [bare spec]. rewrite IHl. destruct (spec L c opt rest E l id) as [x i]. rewrite IHr. reflexivity.
  - cbn [bare spec]. rewrite IH. reflexivity.
  - cbn [bare spec]. rewrite IH. reflexivity.
Qed.

Notation stripped p := (map (fun f : string * cst L => (fst f, bare (snd f))) p).
Lemma stripped_places p : source_places (stripped p) = source_places p.
Proof.
  unfold source_places. induction p as [|[f t] p IH]; auto. cbn [map flat_map fst snd].
  rewrite bare_places, IH. reflexivity.
Qed.
Lemma stripped_body p g : body_of L c (stripped p) g = body_of L c p g.
Proof.
  induction p as [|[f t] p IH]; auto. cbn [map body_of fst snd]. rewrite bare_den, IH. reflexivity.
Qed.
Lemma stripped_well_formed p : well_formed_program L c (stripped p) = well_formed_program L c p.
Proof.
  unfold well_formed_program. induction p as [|[f t] p IH]; auto. cbn [map forallb fst snd].
  rewrite bare_well_formed, IH. reflexivity.
Qed.
Lemma stripped_sequenced p : sequenced_program L c (stripped p) = sequenced_program L c p.
Proof.
  unfold sequenced_program. induction p as [|[f t] p IH]; auto. cbn [map forallb fst snd].
  rewrite bare_sequenced, IH. reflexivity.
Qed.
Lemma stripped_productive o p : productive_program L c o (stripped p) = productive_program L c o p.
Proof.
  unfold productive_program. induction p as [|[f t] p IH]; auto. cbn [map forallb fst snd].
  assert (H : productive L c (optimise o) (bare t) = productive L c (optimise o) t).
  { clear. induction t as [s v|k ps last IH|e sub IH|b l w1 w2 r IHl IHr|u w sub IH|s sub IH]
    using cst_induction; cbn [bare productive]; try congruence.
    induction IH as [|[s p] ps H _ IHps]; auto. cbn [map forallb snd] in *. rewrite H, IHps. reflexivity. }
  rewrite H, IH. reflexivity.
Qed.
Lemma stripped_spec rest E p : forall id,
  spec_program L c opt rest E (stripped p) id = spec_program L c opt rest E p id.
Proof.
  induction p as [|[f t] p IH]; intro id; auto. cbn [map spec_program fst snd].
  rewrite bare_spec. destruct (spec L c opt rest E t id) as [x i]. rewrite IH. reflexivity.
Qed.

Lemma recut_bare (t : cst L) : forall D off, bare (recut D t off) = bare t.
Proof.
  induction t as [s v|k ps last IH|e sub IH|b l w1 w2 r IHl IHr|u w sub IH|s sub IH]
    using cst_induction; intros D off; try (cbn [recut bare]; congruence).
  - rewrite recut_node. cbn [bare]. f_equal. revert off.
    induction IH as [|[s p] ps H _ IHps]; intro off; auto. cbn [recut_all map snd] in *.
    rewrite H, IHps. reflexivity.
  - cbn [recut]. destruct (is_prefix (u_op u)); cbn [bare]; rewrite IH; reflexivity.
Qed.
End Bare.

(** * The bodies of a file *)

Section Bodies.
Variable L : lang.
Variable c : ctx.
Variable o : options.

Fixpoint bodies (D : doc) (gaps : list string) (p : list (string * cst L)) (off : nat)
  : list (string * (string * cst L)) :=
  match gaps, p with
  | g :: gaps, (f, t) :: p =>
      (seg D off (String.length g), (f, recut D t (off + String.length g)))
      :: bodies D gaps p (off + String.length g + size t)
  | _, _ => []
  end.
Lemma bodies_recut D p : forall gaps off,
  recut_all D (zip L gaps p) off =
  zip L (map fst (bodies D gaps p off)) (map snd (bodies D gaps p off)).
Proof.
  induction p as [|[f t] p IH]; intros [|g gaps] off; auto.
  cbn [zip recut_all bodies map fst snd]. rewrite IH. reflexivity.
Qed.
Lemma bodies_respelled D p : forall gaps off i, source_placed gaps p i ->
  respelled p (map snd (bodies D gaps p off)).
Proof.
  unfold respelled. induction p as [|[f t] p IH]; intros [|g gaps] off i H; cbn in H; auto; try contradiction.
  destruct H as [_ H]. cbn [bodies map fst snd]. rewrite recut_bare, (IH _ _ _ H). reflexivity.
Qed.
Lemma zip_mutated (x : list (string * (string * cst L))) : forall id,
  mutate_all L c o (zip L (map fst x) (map snd x)) id =
  (zip L (map fst x) (fst (mutate_program L c o (map snd x) id)),
   snd (mutate_program L c o (map snd x) id)).
Proof.
  induction x as [|[g [f t]] x IH]; intro id; auto.
  cbn [map fst snd zip mutate_all mutate_program]. destruct (mutate L c o t id) as [t' i].
  rewrite IH. destruct (mutate_program L c o (map snd x) i). reflexivity.
Qed.

Lemma file_replaced pre gaps (p : list (string * cst L)) last ms rw first num :
  source_placed gaps p (String.length pre) -> separated (source_places p) ->
  beside_operators rw (source_places p) ->
  map NestSpec.place_of ms = source_places p -> forall decls,
  let D0 := edits_doc rw (doc_of (pre ++ source gaps p ++ last)) in
  let pre' := seg D0 0 (String.length pre) in
  let gaps' := map fst (bodies D0 gaps p (String.length pre)) in
  let p' := map snd (bodies D0 gaps p (String.length pre)) in
  let last' := seg D0 (String.length pre + String.length (source gaps p)) (String.length last + 1) in
  exists l, NoDup l /\ (forall d, In d l <-> In d decls) /\
  rewrite (pre ++ source gaps p ++ last) rw = pre' ++ source gaps' p' ++ last' /\
  respelled p p' /\
  rewrite (pre ++ source gaps p ++ last)
    (edits_from c o first first ms ++ rw ++ prelude_edits c o first num (String.length pre) decls)%list =
  pre' ++ prelude_text c o first num ++ concat_strings l ++
  source gaps' (fst (mutate_program L c o p' 0)) ++ last'.
Proof.
  intros P Ap Bs M decls D0 pre' gaps' p' last'.
  set (t := CNode (L := L) KWrong (zip L gaps p) "").
  assert (T : text t = source gaps p).
  { unfold t. cbn [text]. fold (texts L (zip L gaps p)). rewrite zip_text, sapp_nil_r. reflexivity. }
  assert (Pt : placed t (String.length pre)) by exact (zip_placed L _ _ _ P).
  assert (Pl : places t = source_places p) by exact (zip_places L _ _ _ P).
  rewrite <- Pl in Ap, M, Bs.
  destruct (replaced_cells L c o pre t last rw Pt Ap Bs) as (Q0 & Q1 & Q2).
  unfold size in Q0, Q1, Q2. rewrite T in Q0, Q1, Q2. fold D0 in Q0, Q1, Q2.
  fold pre' last' in Q0, Q1, Q2.
  assert (Rt : recut D0 t (String.length pre) = CNode KWrong (zip L gaps' p') "").
  { unfold t. rewrite recut_node, bodies_recut. reflexivity. }
  rewrite Rt in Q0, Q2. rewrite mutate_node in Q2. unfold gaps', p' in Q2. rewrite zip_mutated in Q2.
  fold gaps' p' in Q2. cbn [fst text] in Q0, Q2.
  fold (texts L (zip L gaps' p')) in Q0.
  fold (texts L (zip L gaps' (fst (mutate_program L c o p' 0)))) in Q2.
  rewrite zip_text, sapp_nil_r in Q0, Q2.
  exists (rev (sorted_decls decls)).
  split; [apply NoDup_rev, sorted_nodup, sorted_decls_sorted|].
  split; [intro d; rewrite <- in_rev; apply sorted_decls_in|].
  split; [exact Q0|]. split; [exact (bodies_respelled _ _ _ _ _ P)|].
  unfold rewrite. rewrite app_assoc, apply_edits_app, prelude_edits_apply.
  rewrite edits_from_places, Nat.sub_diag, M by lia.
  rewrite (update_nth_ext _ _
     (fun x => ((prelude_text c o first num ++ concat_strings (rev (sorted_decls decls)))
                ++ fst x, snd x))) by (intros; rewrite sapp_assoc; reflexivity).
  rewrite render_prepend.
  2:{ rewrite apply_edits_length, cells_length, length_app. lia. }
  transitivity (pre' ++ (prelude_text c o first num ++ concat_strings (rev (sorted_decls decls)))
                ++ (source gaps' (fst (mutate_program L c o p' 0)) ++ last')).
  - f_equal; [exact Q1|f_equal; exact Q2].
  - rewrite !sapp_assoc. reflexivity.
Qed.
End Bodies.

Lemma written_replaced o bt fs n t :
  In (n, t) (rs_written (Run.run o bt fs)) ->
  exists d1 f d2 u,
    RunSpec.distinct [] fs = (d1 ++ f :: d2)%list /\ Run.f_name f = n /\ f_unit f = Some u /\
    forall L pre gaps (p : list (string * cst L)) last,
      f_text f = pre ++ source gaps p ++ last ->
      ui_prelude_offset u = String.length pre ->
      beside_operators (ui_rewrites u) (source_places p) ->
      map NestSpec.place_of (post (ui_tree u)) = source_places p ->
      source_placed gaps p (String.length pre) -> separated (source_places p) ->
      let D0 := edits_doc (ui_rewrites u) (doc_of (f_text f)) in
      let pre' := seg D0 0 (String.length pre) in
      let gaps' := map fst (bodies L D0 gaps p (String.length pre)) in
      let p' := map snd (bodies L D0 gaps p (String.length pre)) in
      let last' := seg D0 (String.length pre + String.length (source gaps p)) (String.length last + 1) in
      exists l, NoDup l /\
        (forall d, In d l <-> exists m g, In m (post (ui_tree u)) /\
                                In g (site_functions (ui_ctx u) o m) /\ d = print_mfun g) /\
        rewrite (f_text f) (ui_rewrites u) = pre' ++ source gaps' p' ++ last' /\
        respelled p p' /\
        t = pre' ++ prelude_text (ui_ctx u) o (list_sum (map (offers o) d1)) (offers o f)
            ++ concat_strings l
            ++ source gaps' (fst (mutate_program L (ui_ctx u) o p' 0)) ++ last'.
Proof.
  intros H. rewrite run_written in H. apply output_split in H.
  destruct H as (d1 & f & u & d2 & E & U & N & H). simpl in H.
  exists d1, f, d2, u. repeat (split; [assumption|]).
  intros L pre gaps p last Tx Off Bs Ms Pl Ap.
  set (id := list_sum (map (offers o) d1)) in *.
  unfold handle_unit in H. rewrite apply_mutations_id in H.
  destruct (apply_mutations_effects (ui_ctx u) o true id (MutTree.tidy (ui_tree u))) as (Ee & Ed).
  rewrite Ee, Ed in H.
  destruct (Nat.eqb_spec id (id + tree_total (ui_ctx u) (optimise o) (MutTree.tidy (ui_tree u))))
    as [C|C]; [discriminate|].
  cbn [h_output] in H. injection H as <-.
  rewrite Off, Tx, post_tidy.
  destruct (file_replaced L (ui_ctx u) o pre gaps p last (post (ui_tree u)) (ui_rewrites u) id
              (id + tree_total (ui_ctx u) (optimise o) (MutTree.tidy (ui_tree u)) - id) Pl Ap Bs Ms
              (map print_mfun (flat_map (site_functions (ui_ctx u) o) (post (ui_tree u)))))
    as (l & Nd & S & R & Rs & T).
  cbv zeta. exists l. split; [exact Nd|]. split; [|split; [exact R|split; [exact Rs|]]].
  - intro d. rewrite S, in_map_iff. split.
    + intros (g & <- & Hg). apply in_flat_map in Hg. destruct Hg as (m & Hm & Hg). eauto.
    + intros (m & g & Hm & Hg & ->). exists g. split; auto. apply in_flat_map. eauto.
  - rewrite T. rewrite (offers_unit _ _ _ U).
    replace (id + tree_total (ui_ctx u) (optimise o) (MutTree.tidy (ui_tree u)) - id)
      with (tree_total (ui_ctx u) (optimise o) (MutTree.tidy (ui_tree u))) by lia.
    reflexivity.
Qed.

(** * The whole tool *)

Lemma replaced_text o bt fs n t :
  In (n, t) (rs_written (Run.run o bt fs)) ->
  exists d1 f d2 u,
    RunSpec.distinct [] fs = (d1 ++ f :: d2)%list /\ Run.f_name f = n /\ f_unit f = Some u /\
    let c := ui_ctx u in
    let first := list_sum (map (offers o) d1) in
    forall L root ps pre gaps (p : list (string * cst L)) last,
      MutTree.tidy (ui_tree u) = MutTree.tidy (mutation_tree (cpp c) (optimise o) root) ->
      f_text f = pre ++ source gaps p ++ last ->
      ui_prelude_offset u = String.length pre ->
      beside_operators (ui_rewrites u) (source_places p) ->
      corresponds (cpp c) (optimise o) root ps (source_places p) ->
      source_placed gaps p (String.length pre) -> separated (source_places p) ->
      (forall m, In m (post (ui_tree u)) -> clang_node c m) ->
      well_formed_program L c p = true ->
      let num := snd (mutate_program L c o p 0) in
      is_int (first + num) ->
      exists pre' gaps' p' last' h functions items ds st,
        rewrite (f_text f) (ui_rewrites u) = pre' ++ source gaps' p' ++ last' /\
        respelled p p' /\
        let q := fst (mutate_program L c o p' 0) in
        t = pre' ++ h ++ functions ++ source gaps' q ++ last' /\
        parse_text h = Some items /\ read_functions functions = Some ds /\
        own_statics items = Some st /\
        forall cpp17 g args, (cpp17 = true -> sequenced_program L c p = true) ->
        (track o = false ->
         forall v zs w fuel, enables first v zs -> enough v fuel -> freed w 1 = false ->
           text_behaves_like L c cpp17 ds (text_selecting items fuel v) (w, st)
             (text_body_of L c ds q) (SimSpec.call L g args)
             (lookup_body L (fst (spec_program L c (optimise o) true (listed first zs) p 0)))
             (SimSpec.call L g args) /\
           ((forall i, i < num -> ~ In (Z.of_nat (first + i)) zs) ->
            text_behaves_like L c cpp17 ds (text_selecting items fuel v) (w, st)
              (text_body_of L c ds q) (SimSpec.call L g args)
              (body_of L c p) (SimSpec.call L g args))) /\
        (track o = true -> productive_program L c o p = true ->
         shared_statics items = Some [("already_recorded", VArr (repeat (VBool false) num))] /\
         forall d fuel, marks d = repeat false num -> num < fuel ->
           (variable d = None \/ openable d = true \/ cpp c = true) ->
           text_behaves_like L c cpp17 ds (text_recording items fuel) d
             (text_body_of L c ds q) (SimSpec.call L g args)
             (body_of L c p) (SimSpec.call L g args)).
Proof.
  intro H. destruct (written_replaced o bt fs n t H) as (d1 & f & d2 & u & D & N & U & W).
  exists d1, f, d2, u. repeat (split; [assumption|]). cbv zeta.
  intros L root ps pre gaps p last Tr Tx Off Bs Co Pl Ap Cn Wf F.
  assert (Ms : map NestSpec.place_of (post (ui_tree u)) = source_places p).
  { rewrite <- (post_tidy (ui_tree u)), Tr, post_tidy. exact (found _ _ _ _ _ Co). }
  assert (Nm : snd (mutate_program L (ui_ctx u) o p 0) = offers o f).
  { rewrite program_number, <- Ms, counts_sum. unfold offers. rewrite U. reflexivity. }
  destruct (W L pre gaps p last Tx Off Bs Ms Pl Ap)
    as (l & Nd & Ml & R & Rs & E).
  remember (seg _ 0 (String.length pre)) as pre' eqn:Epre. clear Epre.
  remember (seg _ _ (String.length last + 1)) as last' eqn:Elast. clear Elast.
  remember (map fst (bodies L _ gaps p _)) as gaps' eqn:Egaps. clear Egaps.
  remember (map snd (bodies L _ gaps p _)) as p' eqn:Ep. clear Ep.
  rewrite <- Nm in E. unfold respelled in Rs.
  assert (Sp : source_places p' = source_places p).
  { rewrite <- (stripped_places L p'), Rs. apply stripped_places. }
  assert (Nm' : snd (mutate_program L (ui_ctx u) o p' 0) = snd (mutate_program L (ui_ctx u) o p 0)).
  { rewrite !program_number, Sp. reflexivity. }
  assert (Wf' : well_formed_program L (ui_ctx u) p' = true).
  { rewrite <- stripped_well_formed, Rs, stripped_well_formed. exact Wf. }
  assert (Sq' : sequenced_program L (ui_ctx u) p' = sequenced_program L (ui_ctx u) p).
  { rewrite <- stripped_sequenced, Rs. apply stripped_sequenced. }
  assert (Pp' : productive_program L (ui_ctx u) o p' = productive_program L (ui_ctx u) o p).
  { rewrite <- stripped_productive, Rs. apply stripped_productive. }
  assert (Bo : forall g, body_of L (ui_ctx u) p' g = body_of L (ui_ctx u) p g).
  { intro g. rewrite <- stripped_body, Rs. apply stripped_body. }
  assert (Se : forall E', spec_program L (ui_ctx u) (optimise o) true E' p' 0
                         = spec_program L (ui_ctx u) (optimise o) true E' p 0).
  { intro E'. rewrite <- stripped_spec, Rs. apply stripped_spec. }
  destruct (readings (ui_ctx u) o (post (ui_tree u)) l Cn) as (ds & Rd).
  { intros s Hs. apply Ml in Hs. exact Hs. }
  assert (Pr : forall x, In x (source_places p') -> place_reads (ui_ctx u) o ds x).
  { rewrite Sp, <- Ms. intros x. apply (all_places_read (ui_ctx u) o (post (ui_tree u)) l ds x Cn); auto.
    intros m g Hm Hg. apply Ml. eauto. }
  set (first := list_sum (map (offers o) d1)) in *.
  set (num := snd (mutate_program L (ui_ctx u) o p 0)) in *.
  assert (Rf : read_functions (concat_strings l) = Some ds).
  { apply functions_read. clear - Rd. induction Rd; constructor; auto.
    eapply reading_read; eassumption. }
  destruct (track o) eqn:T.
  - destruct (C67_events_lemma (ui_ctx u) o first num T) as (items & P & St & Sh & _);
      [unfold is_int in *; lia|].
    exists pre', gaps', p', last', (prelude_text (ui_ctx u) o first num), (concat_strings l), items, ds, [].
    repeat (split; [assumption|]). intros cpp17 g args Sq. split; [discriminate|].
    intros _ Pp. split; [assumption|]. intros d fuel Mk Fu Op.
    eapply text_behaves_like_ext; [exact Bo|].
    eapply (text_recorded L (ui_ctx u) o cpp17 ds p' Wf' Pr) with (f := first); rewrite ?Sq', ?Pp', ?Nm'; eauto.
    split; [|assumption]. rewrite Mk. apply repeat_length.
  - destruct (C66_lemma (ui_ctx u) o first num T) as (items & P & St & _);
      try (unfold is_int in *; lia).
    exists pre', gaps', p', last', (prelude_text (ui_ctx u) o first num), (concat_strings l), items, ds,
      (view (cpp (ui_ctx u)) (initial_tls num)).
    repeat (split; [assumption|]). intros cpp17 g args Sq. split; [|discriminate].
    intros _ v zs w fuel En Enf Fr. destruct En as [V S].
    rewrite <- Sq' in Sq.
    destruct (text_selected L (ui_ctx u) o cpp17 ds p' Wf' Pr Sq first v zs fuel items w
                (view (cpp (ui_ctx u)) (initial_tls num)) g args) as [A B]; auto;
      try (rewrite Nm'; assumption).
    split; [rewrite <- Se; exact A|]. intros No. eapply text_behaves_like_ext; [exact Bo|].
    apply B. rewrite Nm'. exact No.
Qed.
