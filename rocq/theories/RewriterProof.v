(* Facts about the rewriter and the text of rewritten files. *)
From Coq Require Import String Ascii List Arith NArith Bool Permutation Lia Sorted.
From Verif Require Import Base Clang Gen GenExpr GenBinary GenUnary GenStmt Mutation MutTree
  TreeSpec MutTreeProof Rewriter PreludeText Run RunSpec RunProof RunProof2.
Import ListNotations.
Local Open Scope string_scope.

(** * Strings *)

Lemma sapp_assoc (a b c : string) : (a ++ b) ++ c = a ++ (b ++ c).
Proof. induction a; simpl; f_equal; auto. Qed.
Lemma sapp_nil_r (a : string) : a ++ "" = a.
Proof. induction a; simpl; f_equal; auto. Qed.

Lemma concat_strings_app l1 l2 :
  concat_strings (l1 ++ l2) = concat_strings l1 ++ concat_strings l2.
Proof. induction l1; simpl; [reflexivity|]. rewrite IHl1, sapp_assoc. reflexivity. Qed.

(** * Cells *)

Lemma cells_length text : List.length (cells_of text) = S (String.length text).
Proof. induction text; simpl; f_equal; auto. Qed.

Lemma blank_length len : forall off cs, List.length (blank off len cs) = List.length cs.
Proof.
  induction len; intros; simpl; [reflexivity|]. rewrite IHlen, update_nth_length. reflexivity.
Qed.

Lemma apply_edit_length e cs : List.length (apply_edit e cs) = List.length cs.
Proof. destruct e; simpl; rewrite update_nth_length, ?blank_length; reflexivity. Qed.

Lemma apply_edits_length es : forall cs, List.length (apply_edits es cs) = List.length cs.
Proof.
  induction es; intros; simpl; [reflexivity|].
  unfold apply_edits in *. rewrite IHes. apply apply_edit_length.
Qed.

Lemma apply_edits_app e1 e2 cs :
  apply_edits (e1 ++ e2) cs = apply_edits e2 (apply_edits e1 cs).
Proof. apply fold_left_app. Qed.

Lemma render_app c1 c2 : render (c1 ++ c2) = render c1 ++ render c2.
Proof. unfold render. rewrite map_app, concat_strings_app. reflexivity. Qed.

Lemma render_cells text : render (cells_of text) = text.
Proof. induction text; simpl; [reflexivity|]. unfold render in *; simpl. f_equal. exact IHtext. Qed.

Lemma insert_before_all off l : forall cs,
  apply_edits (map (InsertBefore off) l) cs =
  update_nth off (fun x => (concat_strings (rev l) ++ fst x, snd x)) cs.
Proof.
  induction l as [|s l IH]; intros cs; simpl.
  - symmetry. apply update_nth_id. intros [x y]; reflexivity.
  - unfold apply_edits in *. rewrite IH. rewrite update_nth_compose. apply update_nth_ext.
    intros x. simpl. rewrite concat_strings_app. simpl. rewrite sapp_nil_r, sapp_assoc.
    reflexivity.
Qed.

Lemma render_prepend off s cs :
  off < List.length cs ->
  render (update_nth off (fun x => (s ++ fst x, snd x)) cs) =
  render (firstn off cs) ++ s ++ render (skipn off cs).
Proof.
  revert off. induction cs as [|x cs IH]; intros [|off] H; simpl in H; try lia.
  - cbn [update_nth firstn skipn]. unfold render; simpl. unfold cell_text; simpl.
    rewrite !sapp_assoc. reflexivity.
  - cbn [update_nth firstn skipn]. unfold render in *; cbn [map concat_strings].
    rewrite IH by lia. rewrite !sapp_assoc. reflexivity.
Qed.

(** * Sorted declarations *)

Lemma insert_sorted_in s l x : In x (insert_sorted s l) <-> x = s \/ In x l.
Proof.
  induction l as [|y l IH]; simpl; [intuition|].
  destruct (String.compare s y) eqn:E; simpl; [|intuition|rewrite IH; intuition].
  apply String.compare_eq_iff in E. subst. intuition.
Qed.

Lemma sorted_decls_in l x : In x (sorted_decls l) <-> In x l.
Proof.
  induction l as [|s l IH]; [reflexivity|].
  change (sorted_decls (s :: l)) with (insert_sorted s (sorted_decls l)).
  rewrite insert_sorted_in, IH. simpl. intuition.
Qed.

Definition slt (a b : string) : Prop := String.compare a b = Lt.

Lemma ascii_compare_trans a b c :
  Ascii.compare a b = Lt -> Ascii.compare b c = Lt -> Ascii.compare a c = Lt.
Proof.
  unfold Ascii.compare. rewrite !N.compare_lt_iff. apply N.lt_trans.
Qed.

Lemma ascii_compare_refl a : Ascii.compare a a = Eq.
Proof. unfold Ascii.compare. apply N.compare_refl. Qed.

Lemma slt_trans a : forall b c, slt a b -> slt b c -> slt a c.
Proof.
  unfold slt. induction a as [|x a IH]; intros [|y b] [|z c]; simpl; try discriminate; auto.
  destruct (Ascii.compare x y) eqn:Exy; try discriminate;
  destruct (Ascii.compare y z) eqn:Eyz; try discriminate; intros H1 H2.
  - apply Ascii.compare_eq_iff in Exy, Eyz. subst. rewrite ascii_compare_refl. eauto.
  - apply Ascii.compare_eq_iff in Exy. subst. rewrite Eyz. reflexivity.
  - apply Ascii.compare_eq_iff in Eyz. subst. rewrite Exy. reflexivity.
  - rewrite (ascii_compare_trans _ _ _ Exy Eyz). reflexivity.
Qed.

Lemma slt_irrefl a : ~ slt a a.
Proof.
  unfold slt. induction a; simpl; [discriminate|]. rewrite ascii_compare_refl. exact IHa.
Qed.

Lemma insert_sorted_sorted s l :
  StronglySorted slt l -> StronglySorted slt (insert_sorted s l).
Proof.
  induction 1 as [|y l H IH F]; simpl.
  - constructor; constructor.
  - destruct (String.compare s y) eqn:E.
    + constructor; assumption.
    + constructor; [constructor; assumption|]. constructor; [exact E|].
      rewrite Forall_forall in *. intros x Hx. eapply slt_trans; [exact E|]. apply F, Hx.
    + constructor; [exact IH|]. rewrite Forall_forall in *. intros x Hx.
      apply insert_sorted_in in Hx. destruct Hx as [->|Hx]; [|apply F, Hx].
      unfold slt. rewrite String.compare_antisym, E. reflexivity.
Qed.

Lemma sorted_decls_sorted l : StronglySorted slt (sorted_decls l).
Proof. induction l; simpl; [constructor|]. apply insert_sorted_sorted. exact IHl. Qed.

Lemma sorted_nodup l : StronglySorted slt l -> NoDup l.
Proof.
  induction 1 as [|y l H IH F]; constructor; [|assumption].
  intros I. rewrite Forall_forall in F. apply (slt_irrefl y). apply F, I.
Qed.

Lemma sorted_unique l l' :
  StronglySorted slt l -> StronglySorted slt l' ->
  (forall x, In x l <-> In x l') -> l = l'.
Proof.
  intros S. revert l'. induction S as [|y l S IH F]; intros l' S' E.
  - destruct l' as [|z l']; [reflexivity|]. exfalso. apply (E z). left; reflexivity.
  - destruct S' as [|z l' S' F'].
    { exfalso. apply (E y). left; reflexivity. }
    rewrite Forall_forall in *.
    assert (y = z).
    { destruct (proj1 (E y) (or_introl eq_refl)) as [|H1]; [auto|].
      destruct (proj2 (E z) (or_introl eq_refl)) as [|H2]; [auto|].
      exfalso. apply (slt_irrefl y). eapply slt_trans; [apply F, H2|apply F', H1]. }
    subst z. f_equal. apply IH; [exact S'|]. intros x. split; intros H.
    + destruct (proj1 (E x) (or_intror H)) as [<-|]; [|assumption].
      exfalso. apply (slt_irrefl y), F, H.
    + destruct (proj2 (E x) (or_intror H)) as [<-|]; [|assumption].
      exfalso. apply (slt_irrefl y), F', H.
Qed.

Lemma sorted_decls_ext l l' :
  (forall x, In x l <-> In x l') -> sorted_decls l = sorted_decls l'.
Proof.
  intros H. apply sorted_unique; try apply sorted_decls_sorted.
  intros x. rewrite !sorted_decls_in. apply H.
Qed.

(** * C28 *)

Lemma prelude_edits_apply c o first num off decls cs :
  apply_edits (prelude_edits c o first num off decls) cs =
  update_nth off
    (fun x => (prelude_text c o first num ++ concat_strings (rev (sorted_decls decls))
               ++ fst x, snd x)) cs.
Proof.
  unfold prelude_edits. rewrite apply_edits_app, insert_before_all.
  unfold apply_edits; cbn [fold_left apply_edit]. rewrite update_nth_compose.
  apply update_nth_ext. intros x. reflexivity.
Qed.

Lemma C28_text_lemma text es off :
  off <= String.length text ->
  exists pre suf, forall c o first num decls,
    exists l, NoDup l /\ (forall d, In d l <-> In d decls) /\
      rewrite text (es ++ prelude_edits c o first num off decls) =
      pre ++ prelude_text c o first num ++ concat_strings l ++ suf.
Proof.
  intros H. exists (render (firstn off (apply_edits es (cells_of text)))),
                   (render (skipn off (apply_edits es (cells_of text)))).
  intros c o first num decls. exists (rev (sorted_decls decls)). split; [|split].
  - apply NoDup_rev, sorted_nodup, sorted_decls_sorted.
  - intros d. rewrite <- in_rev. apply sorted_decls_in.
  - unfold rewrite. rewrite apply_edits_app, prelude_edits_apply.
    rewrite (update_nth_ext _ _
       (fun x => ((prelude_text c o first num ++ concat_strings (rev (sorted_decls decls)))
                  ++ fst x, snd x))) by (intros; rewrite sapp_assoc; reflexivity).
    rewrite render_prepend by (rewrite apply_edits_length, cells_length; lia).
    rewrite !sapp_assoc. reflexivity.
Qed.

Lemma C28_deterministic_lemma c o first num off decls decls' :
  (forall d, In d decls <-> In d decls') ->
  prelude_edits c o first num off decls = prelude_edits c o first num off decls'.
Proof. intros H. unfold prelude_edits. rewrite (sorted_decls_ext _ _ H). reflexivity. Qed.

(* Offset 0: the file starts with the prelude *)
Lemma rewrite_start text es c o first num decls :
  exists l suf, NoDup l /\ (forall d, In d l <-> In d decls) /\
    rewrite text (es ++ prelude_edits c o first num 0 decls) =
    prelude_text c o first num ++ concat_strings l ++ suf.
Proof.
  exists (rev (sorted_decls decls)), (render (apply_edits es (cells_of text))).
  split; [|split].
  - apply NoDup_rev, sorted_nodup, sorted_decls_sorted.
  - intros d. rewrite <- in_rev. apply sorted_decls_in.
  - unfold rewrite. rewrite apply_edits_app, prelude_edits_apply.
    rewrite (update_nth_ext _ _
       (fun x => ((prelude_text c o first num ++ concat_strings (rev (sorted_decls decls)))
                  ++ fst x, snd x))) by (intros; rewrite sapp_assoc; reflexivity).
    rewrite render_prepend by (rewrite apply_edits_length, cells_length; lia).
    cbn [firstn skipn]. rewrite !sapp_assoc. reflexivity.
Qed.

(** * Declarations and edits generated by ApplyMutations *)

Lemma apply_decls c o m first id :
  a_decls (apply_mutation c o m first id) = map print_mfun (site_functions c o m).
Proof. destruct m; simpl; try destruct (c_logical c b); reflexivity. Qed.

Fixpoint edits_from (c : ctx) (o : options) (first id : nat) (ms : list mutation)
  : list edit :=
  match ms with
  | [] => []
  | m :: ms => (a_edits (apply_mutation c o m first id)
                ++ edits_from c o first (id + mutant_count c (optimise o) m) ms)%list
  end.

Lemma edits_from_app c o first m1 m2 : forall id,
  edits_from c o first id (m1 ++ m2) =
  (edits_from c o first id m1 ++ edits_from c o first (id + total c (optimise o) m1) m2)%list.
Proof.
  induction m1 as [|m m1 IH]; intros id; simpl; [unfold total; simpl; f_equal; lia|].
  rewrite IH, app_assoc. unfold total; simpl. rewrite Nat.add_assoc. reflexivity.
Qed.

Lemma apply_ones_effects c o bt first idx ms : forall st,
  st_edits (fold_left (apply_one c o bt first idx) ms st) =
    (st_edits st ++ edits_from c o first (st_id st) ms)%list /\
  st_decls (fold_left (apply_one c o bt first idx) ms st) =
    (st_decls st ++ map print_mfun (flat_map (site_functions c o) ms))%list.
Proof.
  induction ms as [|m ms IH]; intros st; cbn [fold_left edits_from flat_map map].
  - rewrite !app_nil_r. split; reflexivity.
  - destruct (IH (apply_one c o bt first idx st m)) as (E & D). rewrite E, D.
    cbn [apply_one st_edits st_decls st_id]. rewrite apply_next, apply_decls, map_app.
    rewrite <- !app_assoc. split; reflexivity.
Qed.

Lemma apply_tree_effects c o bt first t : forall idx st,
  st_edits (apply_tree c o bt first idx t st) =
    (st_edits st ++ edits_from c o first (st_id st) (post t))%list /\
  st_decls (apply_tree c o bt first idx t st) =
    (st_decls st ++ map print_mfun (flat_map (site_functions c o) (post t)))%list.
Proof.
  induction t as [ms ks IH] using tree_ind'. intros idx st. rewrite apply_tree_node.
  assert (K : st_edits (apply_kids c o bt first idx ks st) =
       (st_edits st ++ edits_from c o first (st_id st) (flat_map post ks))%list /\
     st_decls (apply_kids c o bt first idx ks st) =
       (st_decls st ++ map print_mfun (flat_map (site_functions c o) (flat_map post ks)))%list /\
     st_id (apply_kids c o bt first idx ks st) =
       st_id st + total c (optimise o) (flat_map post ks)).
  { clear ms. revert st. induction IH as [|k ks Hk _ IHks]; intros st;
      cbn [apply_kids flat_map].
    - simpl. rewrite !app_nil_r. unfold total; simpl. auto.
    - destruct (Hk (List.length (st_nodes st)) (add_child idx st)) as (E & D).
      destruct (IHks (apply_tree c o bt first (List.length (st_nodes st)) k (add_child idx st)))
        as (E' & D' & I').
      rewrite E', D', I', E, D, apply_tree_id. cbn [add_child st_edits st_decls st_id].
      rewrite edits_from_app, flat_map_app, map_app, <- !app_assoc, total_app.
      unfold tree_total. repeat split. lia. }
  destruct K as (E & D & I).
  destruct (apply_ones_effects c o bt first idx ms (apply_kids c o bt first idx ks st))
    as (E' & D').
  rewrite E', D', E, D, I. cbn [post].
  rewrite edits_from_app, flat_map_app, map_app, <- !app_assoc. split; reflexivity.
Qed.

Lemma apply_mutations_effects c o bt id t :
  st_edits (apply_mutations c o bt id t) = edits_from c o id id (post t) /\
  st_decls (apply_mutations c o bt id t) =
    map print_mfun (flat_map (site_functions c o) (post t)).
Proof. apply apply_tree_effects. Qed.

(** * Every written file *)

Lemma output_split o ds : forall id n t,
  In (n, t) (flat_map (output_of o) (starts o id ds)) ->
  exists d1 f u d2,
    ds = (d1 ++ f :: d2)%list /\ f_unit f = Some u /\ f_name f = n /\
    h_output (handle_unit o true (f_text f) u (id + list_sum (map (offers o) d1))) = Some t.
Proof.
  induction ds as [|f ds IH]; intros id n t H; [contradiction|].
  cbn [starts flat_map] in H. apply in_app_iff in H. destruct H as [H|H].
  - unfold output_of in H. destruct (f_unit f) as [u|] eqn:U; [|contradiction].
    destruct (h_output _) eqn:E in H; [|contradiction].
    destruct H as [H|[]]. injection H as <- <-.
    exists [], f, u, ds. simpl. rewrite Nat.add_0_r. auto.
  - apply IH in H. destruct H as (d1 & f' & u & d2 & -> & U & N & E).
    exists (f :: d1), f', u, d2. simpl. rewrite Nat.add_assoc. auto.
Qed.

(* A written file consists of a part before the prelude location, the prelude with the
   file's first id and number of mutants, the functions of its mutations, and the rest. *)
Lemma written_text o bt fs n t :
  (forall f, In f fs -> well_placed f) ->
  In (n, t) (rs_written (run o bt fs)) ->
  exists d1 f d2 u pre l suf,
    distinct [] fs = (d1 ++ f :: d2)%list /\ f_name f = n /\ f_unit f = Some u /\
    NoDup l /\
    (forall d, In d l <-> exists m g, In m (post (ui_tree u)) /\
                            In g (site_functions (ui_ctx u) o m) /\ d = print_mfun g) /\
    t = pre ++ prelude_text (ui_ctx u) o (list_sum (map (offers o) d1)) (offers o f)
        ++ concat_strings l ++ suf.
Proof.
  intros W H. rewrite run_written in H. apply output_split in H.
  destruct H as (d1 & f & u & d2 & E & U & N & H). simpl in H.
  set (id := list_sum (map (offers o) d1)) in *.
  unfold handle_unit in H. rewrite apply_mutations_id in H.
  destruct (apply_mutations_effects (ui_ctx u) o true id (tidy (ui_tree u))) as (Ee & Ed).
  rewrite Ee, Ed in H.
  destruct (Nat.eqb_spec id (id + tree_total (ui_ctx u) (optimise o) (tidy (ui_tree u))))
    as [C|C]; [discriminate|].
  cbn [h_output] in H. injection H as <-.
  rewrite app_assoc.
  destruct (C28_text_lemma (f_text f)
    (edits_from (ui_ctx u) o id id (post (tidy (ui_tree u))) ++ ui_rewrites u)
    (ui_prelude_offset u)) as (pre & suf & P).
  { apply W; [|exact U]. assert (In f (distinct [] fs)) as I by (rewrite E; apply in_elt).
    apply distinct_in in I. tauto. }
  destruct (P (ui_ctx u) o id (id + tree_total (ui_ctx u) (optimise o) (tidy (ui_tree u)) - id)
     (map print_mfun (flat_map (site_functions (ui_ctx u) o) (post (tidy (ui_tree u))))))
    as (l & Nd & S & T).
  exists d1, f, d2, u, pre, l, suf. repeat split; auto.
  - intros Hd. apply S in Hd. rewrite in_map_iff in Hd. destruct Hd as (g & <- & Hg).
    apply in_flat_map in Hg. destruct Hg as (m & Hm & Hg). rewrite post_tidy in Hm. eauto.
  - intros (m & g & Hm & Hg & ->). apply S. apply in_map, in_flat_map. exists m.
    rewrite post_tidy. auto.
  - rewrite T. rewrite (offers_unit _ _ _ U).
    replace (id + tree_total (ui_ctx u) (optimise o) (tidy (ui_tree u)) - id)
      with (tree_total (ui_ctx u) (optimise o) (tidy (ui_tree u))) by lia.
    reflexivity.
Qed.

(** * C04 *)

Lemma C04_lemma o fs n ns :
  (forall f, In f fs -> well_placed f) ->
  In (n, ns) (rs_info (run o true fs)) ->
  exists f u first t pre suf,
    In f (distinct [] fs) /\ f_name f = n /\ f_unit f = Some u /\
    In (n, t) (rs_written (run o true fs)) /\
    t = pre ++ prelude_text (ui_ctx u) o first (offers o f) ++ suf /\
    Permutation (entry_ids ns) (seq first (offers o f)).
Proof.
  intros W H.
  assert (N : In n (map fst (rs_written (run o true fs)))).
  { destruct (C02_written_lemma o true fs) as (_ & _ & E). rewrite <- E by reflexivity.
    apply (in_map fst) in H. exact H. }
  rewrite in_map_iff in N. destruct N as ((n' & t) & E & Ht). simpl in E. subst n'.
  destruct (written_text o true fs n t W Ht)
    as (d1 & f & d2 & u & pre & l & suf & D & Nm & U & _ & _ & T).
  rewrite run_info in H. apply in_split in H. destruct H as (A & B & H).
  apply entry_split in H. destruct H as (d1' & f' & u' & d2' & D' & U' & N' & -> & H).
  injection H as Hn ->.
  (* the same file *)
  assert (S : d1' = d1 /\ f' = f).
  { assert (ND : NoDup (map f_name (distinct [] fs))) by apply distinct_nodup.
    rewrite D in D', ND. assert (Hq : f_name f = f_name f') by congruence.
    clear -D' ND Hq.
    revert d1' D'. induction d1 as [|g d1 IH]; intros d1' D'.
    - destruct d1' as [|g' d1']; simpl in D'; injection D' as E1 E2; [auto|].
      subst g'. simpl in ND. inversion ND; subst. exfalso. apply H1.
      rewrite Hq. apply in_map. apply in_elt.
    - destruct d1' as [|g' d1']; simpl in D'; injection D' as E1 E2.
      + subst g. simpl in ND. inversion ND; subst. exfalso. apply H1.
        rewrite <- Hq. apply in_map. apply in_elt.
      + subst g'. simpl in ND. inversion ND; subst.
        destruct (IH H2 d1' E2) as (-> & ->). auto. }
  destruct S as (-> & ->). rewrite U in U'. injection U' as <-.
  exists f, u, (list_sum (map (offers o) d1)), t, pre, (concat_strings l ++ suf).
  repeat split; auto.
  - rewrite D. apply in_elt.
  - rewrite (offers_unit _ _ _ U). apply group_tree_entry.
Qed.

(** * C39 *)

Lemma C39_lemma o bt fs p q :
  main_events o bt fs = (p ++ q)%list ->
  (forall n t t', In (WriteSource n t) p -> In (WriteSource n t') (p ++ q) -> t' = t) /\
  (forall i, In (WriteInfo i) p -> q = []).
Proof.
  unfold main_events. intros H.
  assert (ND : NoDup (map fst (rs_written (run o bt fs)))) by apply C02_written_lemma.
  split.
  - intros n t t' H1 H2.
    assert (I1 : In (WriteSource n t) (p ++ q)) by (rewrite in_app_iff; auto).
    rewrite <- H in I1, H2. clear H H1.
    assert (G : forall n t, In (WriteSource n t)
      (map (fun w => WriteSource (fst w) (snd w)) (rs_written (run o bt fs)) ++
       (if bt then [WriteInfo (rs_info (run o bt fs))] else [])) ->
      In (n, t) (rs_written (run o bt fs))).
    { clear. intros n t H. apply in_app_iff in H. destruct H as [H|H].
      - rewrite in_map_iff in H. destruct H as ((n' & t') & E & H). injection E as <- <-. exact H.
      - destruct bt; simpl in H; [destruct H as [H|[]]; discriminate|contradiction]. }
    apply G in I1, H2. clear G.
    induction (rs_written (run o bt fs)) as [|w W IH]; [contradiction|].
    simpl in ND. inversion ND; subst.
    destruct I1 as [->|I1], H2 as [E|H2]; auto.
    + injection E; auto.
    + exfalso. apply H1. apply (in_map fst) in H2. exact H2.
    + exfalso. subst w. apply H1. apply (in_map fst) in I1. exact I1.
  - intros i Hi.
    destruct bt.
    + destruct (exists_last (l := p)) as (p' & x & ->); [intros ->; contradiction|].
      destruct q as [|y q]; [reflexivity|]. exfalso.
      (* an info event strictly before the end *)
      destruct (@exists_last _ (y :: q)) as (q' & z & Eq); [discriminate|].
      rewrite Eq in H. rewrite app_assoc in H. apply app_inj_tail in H. destruct H as (H & _).
      assert (I : In (WriteInfo i) ((p' ++ [x]) ++ q')) by (rewrite in_app_iff; auto).
      rewrite <- H in I. rewrite in_map_iff in I. destruct I as (w & E & _). discriminate.
    + rewrite app_nil_r in H.
      assert (I : In (WriteInfo i) (p ++ q)) by (rewrite in_app_iff; auto).
      rewrite <- H in I. rewrite in_map_iff in I. destruct I as (w & E & _). discriminate.
Qed.

Lemma C39_prefix_lemma o bt fs gs :
  exists W,
    rs_written (run o bt (fs ++ gs)) = (rs_written (run o bt fs) ++ W)%list /\
    (forall n t, In (n, t) W -> ~ In n (map f_name fs)).
Proof. apply written_prefix. Qed.
