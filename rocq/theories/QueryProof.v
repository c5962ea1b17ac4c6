(* Proofs about the query script. *)
From Coq Require Import String Ascii List ZArith Bool Arith Lia Permutation.
From Verif Require Import Base Clang Gen GenExpr GenBinary GenUnary GenStmt Mutation MutTree
  TreeSpec MutTreeProof Run RunSpec RunProof RunProof2 GenSpec GenProof QueryText Query QuerySpec.
Import ListNotations.

Lemma group_entries_ids file g : map fst (group_entries file g) = group_ids g.
Proof. destruct g; simpl; auto; rewrite map_map; reflexivity. Qed.

Lemma map_flat_map {A B C} (f : B -> C) (g : A -> list B) l :
  map f (flat_map g l) = flat_map (fun x => map f (g x)) l.
Proof. induction l; simpl; auto. now rewrite map_app, IHl. Qed.

Lemma mapping_ids info :
  map fst (build_mapping info) = flat_map (fun e => entry_ids (snd e)) info.
Proof.
  unfold build_mapping, entry_ids. rewrite map_flat_map. apply flat_map_ext. intros e.
  rewrite map_flat_map. apply flat_map_ext. intros p. rewrite map_flat_map.
  apply flat_map_ext. intros g. apply group_entries_ids.
Qed.

Lemma dict_get_in d k v : dict_get d k = Some v -> In (k, v) d.
Proof.
  induction d as [|[x w] d IH]; simpl; [discriminate|].
  destruct (dict_get d k) as [u|]; intros H.
  - injection H as ->. auto.
  - destruct (Nat.eqb_spec x k); [|discriminate]. injection H as ->. subst. auto.
Qed.

Lemma dict_get_some d k : In k (map fst d) -> exists v, dict_get d k = Some v.
Proof.
  induction d as [|[x w] d IH]; simpl; [tauto|].
  intros [->|H].
  - destruct (dict_get d k); eauto. rewrite Nat.eqb_refl. eauto.
  - destruct (IH H) as (v & ->). eauto.
Qed.

Lemma dict_get_none d k : ~ In k (map fst d) -> dict_get d k = None.
Proof.
  intros H. destruct (dict_get d k) eqn:E; auto. apply dict_get_in in E.
  exfalso. apply H. apply in_map_iff. exists (k, m). auto.
Qed.

Lemma fold_max_spec l : forall x,
  In (fold_left Nat.max l x) (x :: l) /\
  forall y, In y (x :: l) -> y <= fold_left Nat.max l x.
Proof.
  induction l as [|a l IH]; intros x; simpl.
  - split; auto. intros y [->|[]]; auto.
  - destruct (IH (Nat.max x a)) as [A B]. split.
    + destruct A as [A|A]; auto. rewrite <- A.
      destruct (Nat.max_spec x a) as [[_ ->]|[_ ->]]; auto.
    + intros y Hy. pose proof (B (Nat.max x a) (or_introl eq_refl)).
      destruct Hy as [->|[->|Hy]]; [lia|lia|]. apply B. now right.
Qed.

Lemma largest_lemma o fs :
  let st := run o true fs in
  largest_mutant_id (build_mapping (rs_info st)) = (Z.of_nat (rs_id st) - 1)%Z.
Proof.
  intros st. destruct (C01_ids_lemma o fs) as [P _]. fold st in P.
  rewrite <- mapping_ids in P. unfold largest_mutant_id.
  destruct (map fst (build_mapping (rs_info st))) as [|x l] eqn:E.
  - apply Permutation_nil in P. destruct (rs_id st); [reflexivity|discriminate].
  - destruct (fold_max_spec l x) as [A B].
    assert (H : forall y, In y (x :: l) <-> y < rs_id st).
    { intros y. split; intros H.
      - apply (Permutation_in _ P) in H. apply in_seq in H. lia.
      - apply (Permutation_in _ (Permutation_sym P)). apply in_seq. lia. }
    apply H in A. assert (C : In (rs_id st - 1) (x :: l)) by (apply H; lia).
    apply B in C. lia.
Qed.

Lemma bare_char c : existsb (Ascii.eqb c) bare_chars = plain_char c.
Proof. destruct c as [[] [] [] [] [] [] [] []]; reflexivity. Qed.
Lemma bare_text s :
  forallb (fun c => existsb (Ascii.eqb c) bare_chars) (list_ascii_of_string s) =
  string_forall plain_char s.
Proof. induction s as [|c s IH]; cbn [list_ascii_of_string forallb string_forall]; auto.
  now rewrite bare_char, IH. Qed.
Lemma operand_text_shown s : operand_text s = parenthesise_if_needed s.
Proof.
  unfold operand_text, parenthesise_if_needed. rewrite <- bare_text.
  destruct s; reflexivity.
Qed.

Lemma indentation_shown i : indentation i = blank_prefix i.
Proof.
  unfold indentation, blank_prefix. destruct (Nat.eqb _ _); [reflexivity|].
  rewrite <- Nat.sub_1_r. induction (start_column i - 1) as [|n IH]; [reflexivity|].
  cbn [repeat string_of_list_ascii blanks]. now rewrite IH.
Qed.

Lemma group_entries_in file g id mi : In (id, mi) (group_entries file g) ->
  mi_file mi = file /\ mi_group mi = g /\
  exists k, nth_error (group_ids g) k = Some id /\
    forall source s, group_phrase source g k = Some s -> shown_text source mi = Some s.
Proof.
  unfold group_entries. destruct g as [i l|i l|i il ir op l|i is op l].
  - intros [H|[]]. injection H as <- <-. simpl. repeat split. exists 0. split; auto.
    intros source s. cbn. now rewrite indentation_shown.
  - rewrite in_map_iff. intros ([y a] & H & I). injection H as <- <-. simpl.
    repeat split. destruct (In_nth_error _ _ I) as [k K]. exists k. split.
    { now rewrite nth_error_map, K. }
    intros source s. rewrite K. unfold shown_text. simpl. destruct a; simpl; rewrite ?operand_text_shown, ?indentation_shown; auto.
  - rewrite in_map_iff. intros ([y a] & H & I). injection H as <- <-. simpl.
    repeat split. destruct (In_nth_error _ _ I) as [k K]. exists k. split.
    { now rewrite nth_error_map, K. }
    intros source s. rewrite K. unfold shown_text. simpl. destruct a; simpl;
    rewrite ?operand_text_shown, ?indentation_shown; auto; discriminate.
  - rewrite in_map_iff. intros ([y a] & H & I). injection H as <- <-. simpl.
    repeat split. destruct (In_nth_error _ _ I) as [k K]. exists k. split.
    { now rewrite nth_error_map, K. }
    intros source s. rewrite K. unfold shown_text. simpl. destruct a; simpl;
    rewrite ?operand_text_shown, ?indentation_shown; auto; discriminate.
Qed.

(* Every described action has a meaning. *)
Lemma bin_actions_meaning c opt b a : In a (binary_actions c opt b) -> bin_meaning a <> None.
Proof.
  unfold binary_actions. destruct (c_logical c b).
  - unfold c_logical_actions. simpl. destruct (bop_eqb (b_op b) LAnd);
    intros [<-|[<-|[<-|[]]]]; discriminate.
  - unfold binary_mutants. rewrite map_app, in_app_iff. intros [H|H].
    + unfold operator_replacements in H. rewrite map_map in H. apply in_map_iff in H.
      destruct H as (o & <- & H). unfold replacement_ops in H. apply filter_In in H.
      destruct H as [H _]. unfold candidate_ops in H.
      destruct (b_op b); simpl in H; try tauto;
      destruct (is_bool (e_ty (b_lhs b))); simpl in H;
      intuition subst; discriminate.
    + unfold argument_replacements in H.
      destruct (opt && is_relational (b_op b)); [destruct H|].
      destruct (is_assign (b_op b)); [destruct H|].
      unfold when in H. rewrite map_app, in_app_iff in H.
      destruct (negb opt || negb (unit_constant (b_lhs b)));
      destruct (negb opt || negb (unit_constant (b_rhs b))); simpl in H;
      intuition subst; discriminate.
Qed.

Lemma un_actions_meaning opt u a : In a (map fst (unary_mutants opt u)) -> un_meaning a <> None.
Proof.
  unfold unary_mutants. rewrite map_app, map_map, in_app_iff. intros [H|H].
  - apply in_map_iff in H. destruct H as (o & <- & H). apply filter_In in H.
    destruct H as [H _]. simpl in H. intuition subst; discriminate.
  - unfold when in H. destruct (negb opt || negb (self_inverse u)); simpl in H;
    intuition subst; discriminate.
Qed.

Lemma described_phrase c opt m g source k :
  describes_group c opt m g -> k < List.length (group_ids g) ->
  exists s, group_phrase source g k = Some s.
Proof.
  destruct m, g; simpl; try tauto; intros D L.
  - destruct D as [_ D]. rewrite map_length in L.
    destruct (nth_error instances k) as [[y a]|] eqn:K; [|apply nth_error_None in K; lia].
    simpl. eauto.
  - destruct D as (_ & _ & _ & _ & D). rewrite map_length in L.
    destruct (nth_error instances k) as [[y a]|] eqn:K; [|apply nth_error_None in K; lia].
    assert (H : bin_meaning a <> None).
    { apply (bin_actions_meaning c opt b). rewrite <- D. apply in_map_iff. exists (y, a).
      split; auto. eapply nth_error_In; eauto. }
    destruct (bin_meaning a); [simpl; eauto|congruence].
  - destruct D as (_ & _ & _ & D). rewrite map_length in L.
    destruct (nth_error instances k) as [[y a]|] eqn:K; [|apply nth_error_None in K; lia].
    assert (H : un_meaning a <> None).
    { apply (un_actions_meaning opt u). rewrite <- D. apply in_map_iff. exists (y, a).
      split; auto. eapply nth_error_In; eauto. }
    destruct (un_meaning a); [simpl; eauto|congruence].
  - eauto.
Qed.

(* Groups of an entry describe mutations of the file. *)
Fixpoint all_groups (T : tree group) : list group :=
  match T with Node gs Ks => gs ++ flat_map all_groups Ks end.

Lemma flat_groups T : forall base p g, In p (flat base T) -> In g (p_groups p) ->
  In g (all_groups T).
Proof.
  induction T as [gs Ks IH] using tree_ind'. intros base p g. rewrite flat_node.
  simpl. intros [<-|H] G.
  - simpl in G. apply in_app_iff. auto.
  - apply in_app_iff. right. revert H. generalize (S base). clear base.
    induction Ks as [|K Ks IHK]; intros base H; simpl in *; [tauto|].
    inversion IH as [|x y IH1 IH2]; subst. apply in_app_iff in H. apply in_app_iff.
    destruct H as [H|H]; [left; eapply IH1; eauto|right; eapply IHK; eauto].
Qed.

Lemma describes_all_groups c opt t : forall T, describes c opt t T ->
  forall g, In g (all_groups T) -> exists m, In m (post t) /\ describes_group c opt m g.
Proof.
  induction t as [ms ks IH] using tree_ind'. intros T D g. inversion D as [ms' ks' gs Ks F1 F2]; subst.
  simpl. rewrite in_app_iff. intros [H|H].
  - clear -F1 H. unfold described in F1.
    assert (X : exists m, In m ms /\ describes_group c opt m g).
    { remember (filter (fun m => negb (mutant_count c opt m =? 0)) ms) as fs.
      assert (Q : forall m, In m fs -> In m ms).
      { intros m. subst fs. rewrite filter_In. tauto. }
      clear Heqfs. induction F1 as [|m g' fs gs D F IHF]; [destruct H|].
      destruct H as [->|H].
      - exists m. split; auto. apply Q. now left.
      - apply IHF; auto. intros m' Hm. apply Q. now right. }
    destruct X as (m & Hm & D). exists m. split; auto. apply in_app_iff. now right.
  - apply in_flat_map in H. destruct H as (K & HK & HG).
    clear F1 D. induction F2 as [|k K' ks Ks D F IHF]; [destruct HK|].
    inversion IH as [|x y IH1 IH2]; subst. destruct HK as [->|HK].
    + destruct (IH1 K D g HG) as (m & Hm & Dm). exists m. split; auto.
      simpl. rewrite !in_app_iff. auto.
    + destruct (IHF IH2 HK) as (m & Hm & Dm). exists m. split; auto.
      simpl. rewrite !in_app_iff in *. tauto.
Qed.

Lemma entry_groups o fs n ns p g :
  In (n, ns) (rs_info (run o true fs)) -> In p ns -> In g (p_groups p) ->
  exists f u m, In f (distinct [] fs) /\ f_name f = n /\ f_unit f = Some u /\
    In m (post (ui_tree u)) /\ describes_group (ui_ctx u) (optimise o) m g.
Proof.
  rewrite run_info. intros H Hp Hg. apply in_split in H. destruct H as (A & B & H).
  apply entry_split in H. destruct H as (d1 & f & u & d2 & E & U & N & -> & H).
  injection H as -> ->.
  pose proof (flat_groups _ _ _ _ Hp Hg) as G.
  destruct (describes_all_groups _ _ _ _ (group_tree_describes _ _ _ _) _ G)
    as (m & Hm & D).
  exists f, u, m. repeat split; auto.
  - rewrite E. apply in_elt.
  - rewrite post_tidy in Hm. exact Hm.
Qed.

Lemma C36_show_lemma o fs original id :
  id < rs_id (run o true fs) ->
  exists n ns p g k f u m s,
    In (n, ns) (rs_info (run o true fs)) /\ In p ns /\ In g (p_groups p) /\
    nth_error (group_ids g) k = Some id /\
    In f (distinct [] fs) /\ f_name f = n /\ f_unit f = Some u /\
    In m (post (ui_tree u)) /\ describes_group (ui_ctx u) (optimise o) m g /\
    group_phrase (original n) g k = Some s /\
    show_info (rs_info (run o true fs)) original id = Shown s.
Proof.
  intros H. destruct (C01_ids_lemma o fs) as [P _].
  set (st := run o true fs) in *.
  assert (K : In id (map fst (build_mapping (rs_info st)))).
  { rewrite mapping_ids. apply (Permutation_in _ (Permutation_sym P)). apply in_seq. lia. }
  destruct (dict_get_some _ _ K) as (mi & G).
  pose proof (dict_get_in _ _ _ G) as I. unfold build_mapping in I.
  apply in_flat_map in I. destruct I as ([n ns] & I1 & I).
  apply in_flat_map in I. destruct I as (p & I2 & I). simpl in I2.
  apply in_flat_map in I. destruct I as (g & I3 & I).
  apply group_entries_in in I. destruct I as (F & Gr & k & Hk & Sh).
  destruct (entry_groups o fs n ns p g I1 I2 I3) as (f & u & m & X1 & X2 & X3 & X4 & X5).
  destruct (described_phrase _ _ _ _ (original n) k X5) as (s & Ph).
  { apply nth_error_Some. congruence. }
  exists n, ns, p, g, k, f, u, m, s. repeat split; auto.
  unfold show_info. rewrite G, F. simpl fst. rewrite (Sh _ _ Ph). reflexivity.
Qed.

Lemma C36_unknown_lemma o fs original id :
  rs_id (run o true fs) <= id ->
  show_info (rs_info (run o true fs)) original id = UnknownMutant.
Proof.
  intros H. destruct (C01_ids_lemma o fs) as [P _]. unfold show_info.
  rewrite dict_get_none; auto. rewrite mapping_ids. intros I.
  apply (Permutation_in _ P) in I. apply in_seq in I. lia.
Qed.
