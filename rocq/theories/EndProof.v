(* The whole tool: from the syntax tree to the text and behaviour of the written file. *)
From Coq Require Import String List Bool Arith ZArith Lia Sorted.
From Verif Require Import Base Clang Gen GenExpr GenBinary GenUnary GenStmt Rewriter Mutation
  MutTree PreludeText Run TreeSpec RunSpec RunProof RunProof2 MutTreeProof RewriterProof Lang Cst
  PreludeSpec Prelude Runtime
  NestSpec NestProof NestProof2 SimSpec SimRel SimMutate SimTop MutantSpec MutantProof Visitor VisitorSpec
  VisitorProof VisitorTree ExactSpec ExactProof EndSpec.
Import ListNotations.

(** * Sorted lists *)

Lemma sorted_equal {A} (R : A -> A -> Prop) :
  (forall a, ~ R a a) -> (forall a b, R a b -> ~ R b a) ->
  forall l l', StronglySorted R l -> StronglySorted R l' -> (forall x, In x l <-> In x l') ->
  l = l'.
Proof.
  intros Irr Asy. induction l as [|a l IH]; intros [|b l'] S S' H.
  - reflexivity.
  - exfalso. apply (H b). now left.
  - exfalso. apply (H a). now left.
  - apply StronglySorted_inv in S as [S F]. apply StronglySorted_inv in S' as [S' F'].
    rewrite Forall_forall in F, F'.
    assert (Q : a = b).
    { destruct (proj1 (H a) (or_introl eq_refl)) as [E | Ha]; [auto|].
      destruct (proj2 (H b) (or_introl eq_refl)) as [E | Hb]; [auto|].
      exfalso. exact (Asy _ _ (F _ Hb) (F' _ Ha)). }
    subst b. f_equal. apply IH; auto. intro x. split; intro Hx.
    + destruct (proj1 (H x) (or_intror Hx)) as [<- | Q]; [|exact Q].
      exfalso. exact (Irr _ (F _ Hx)).
    + destruct (proj2 (H x) (or_intror Hx)) as [<- | Q]; [|exact Q].
      exfalso. exact (Irr _ (F' _ Hx)).
Qed.

Lemma sorted_map {A B} (R : A -> A -> Prop) (S : B -> B -> Prop) (f : A -> B) l :
  (forall a b, R a b -> S (f a) (f b)) -> StronglySorted R l -> StronglySorted S (map f l).
Proof.
  intros H. induction 1 as [|a l _ IH F]; cbn; constructor; auto.
  rewrite Forall_forall in *. intros y Hy. apply in_map_iff in Hy as (x & <- & Hx). auto.
Qed.

Lemma earlier_irr p : ~ earlier p p.
Proof.
  induction p as [|a p IH].
  - intro H. apply earlier_nil in H. contradiction.
  - intro H. apply earlier_cons in H as [H | [_ H]]; [lia|auto].
Qed.
Lemma earlier_asym : forall p q, earlier p q -> ~ earlier q p.
Proof.
  induction p as [|a p IH]; intros q H H'.
  - destruct q as [|b q]; [exact (earlier_irr _ H)|]. apply (nothing_earlier (b :: q)). eauto.
  - destruct q as [|b q]; [apply (nothing_earlier (a :: p)); eauto|].
    apply earlier_cons in H as [H | [-> H]]; apply earlier_cons in H' as [H' | [E H']]; try lia.
    exact (IH _ H H').
Qed.
Lemma marked_irr a : ~ marked_before a a.
Proof. intros [H | [_ H]]; [exact (earlier_irr _ H)|lia]. Qed.
Lemma marked_asym a b : marked_before a b -> ~ marked_before b a.
Proof.
  intros [H | [E H]] [H' | [E' H']]; try lia.
  - exact (earlier_asym _ _ H H').
  - rewrite E' in H. exact (earlier_irr _ H).
  - rewrite E in H'. exact (earlier_irr _ H').
Qed.

(** * Positions and places *)

Definition mark (s : list nat * mutation) : list nat * place := (fst s, place_of (snd s)).

Lemma post_map {A B} (f : A -> B) (t : tree A) : post (map_tree f t) = map f (post t).
Proof.
  induction t as [ms ks IH] using tree_ind'. cbn [map_tree post].
  rewrite map_app. f_equal. induction IH as [|k ks H _ IH]; cbn; [reflexivity|].
  rewrite map_app, H, IH. reflexivity.
Qed.

Lemma changed_sites is_cpp opt root pos p :
  In (pos, p) (map mark (post (visited_tree is_cpp opt root))) <->
  changed_at is_cpp opt root pos p.
Proof.
  rewrite in_map_iff. split.
  - intros ([pos' m] & E & H). unfold mark in E. cbn in E. injection E as -> <-.
    destruct m as [e l | b l l1 l2 | u l l1 | s l]; cbn [place_of changed_at].
    + apply exact_expressions in H as (k & x & i & up & ks & H & R & -> & ->). eauto 9.
    + apply exact_binary in H as (x & i & up & ks & H & R & ->). eauto 9.
    + apply exact_unary in H as (x & i & up & ks & H & R & ->). eauto 8.
    + apply removal_sites in H as (up & n & Ho & Hb & Hr & Hd & -> & ->). eauto 8.
  - destruct p as [y | b | u | s]; cbn [changed_at].
    + intros (e & x & i & up & ks & H & R & ->). exists (pos, MutExpr (x_expr x) (n_loc i)).
      split; [reflexivity|]. apply exact_expressions. eauto 9.
    + intros (l & r & x & i & up & ks & H & R). exists (pos, MutBinary b (n_loc i) l r).
      split; [reflexivity|]. apply exact_binary. eauto 9.
    + intros (l & x & i & up & ks & H & R). exists (pos, MutUnary u (n_loc i) l).
      split; [reflexivity|]. apply exact_unary. eauto 9.
    + intros (up & n & H & B & R & D & ->).
      exists (pos, MutStmt (n_site (node_info n)) (n_loc (node_info n))).
      split; [reflexivity|]. apply removal_sites. exists up, n. auto 8.
Qed.

Lemma marked_sorted is_cpp opt root :
  StronglySorted marked_before (map mark (post (visited_tree is_cpp opt root))).
Proof.
  pose proof (creation_order is_cpp opt root) as H. rewrite post_tidy in H.
  apply (sorted_map comes_before); [|exact H].
  intros [p m] [q m'] [C | [E C]]; [left; exact C|right; split; [exact E|]].
  destruct m, m'; exact C.
Qed.

Lemma found is_cpp opt root ps l :
  corresponds is_cpp opt root ps l ->
  map place_of (post (mutation_tree is_cpp opt root)) = l.
Proof.
  intros [Len Ord Pl].
  assert (E : map mark (post (visited_tree is_cpp opt root)) = combine ps l).
  { apply (sorted_equal marked_before marked_irr marked_asym).
    - apply marked_sorted.
    - exact Ord.
    - intros [pos p]. rewrite changed_sites. symmetry. apply Pl. }
  unfold mutation_tree. rewrite post_map, map_map.
  apply (f_equal (map snd)) in E. rewrite map_map in E. unfold mark in E. cbn [snd] in E.
  rewrite E. clear -Len. revert l Len.
  induction ps as [|p ps IH]; intros [|x l] Len; cbn in *; try discriminate; auto.
  f_equal. apply IH. lia.
Qed.

Lemma combine_map {A B C} (f : A -> B) (g : A -> C) l :
  combine (map f l) (map g l) = map (fun x => (f x, g x)) l.
Proof. induction l; cbn; f_equal; auto. Qed.

Lemma visited_correspondence is_cpp opt root :
  corresponds is_cpp opt root (map fst (post (visited_tree is_cpp opt root)))
    (map place_of (post (mutation_tree is_cpp opt root))).
Proof.
  unfold mutation_tree. rewrite post_map, map_map. split.
  - rewrite !map_length. reflexivity.
  - rewrite combine_map. apply marked_sorted.
  - intros pos p. rewrite combine_map. apply changed_sites.
Qed.
Lemma some_correspondence is_cpp opt root :
  exists ps, corresponds is_cpp opt root ps
               (map place_of (post (mutation_tree is_cpp opt root))).
Proof. exact (ex_intro _ _ (visited_correspondence is_cpp opt root)). Qed.

(** * The number of mutants *)

Section Number.
Variable L : lang.
Variable c : ctx.
Variable o : options.

Lemma mutate_number (t : cst L) : forall id,
  snd (mutate L c o t id) = id + counts c o (places t).
Proof.
  induction t as [s v | k ps last IH | e sub IH | b l w1 w2 r IHl IHr | u w sub IH | s sub IH]
    using cst_induction; intro id.
  - cbn. lia.
  - rewrite mutate_node. cbn [snd places].
    revert id. induction IH as [|[s p] ps H _ IHps]; intro id; cbn [mutate_all flat_map snd].
    + cbn. lia.
    + specialize (H id). cbn [snd] in H. destruct (mutate L c o p id) as [p' id1].
      cbn [snd] in H. specialize (IHps id1). destruct (mutate_all L c o ps id1) as [ps' id2].
      cbn [snd] in *. rewrite counts_app. lia.
  - cbn [mutate places]. specialize (IH id). destruct (mutate L c o sub id) as [t' id1].
    cbn [snd] in *. rewrite counts_app. cbn [counts count]. lia.
  - cbn [mutate places]. specialize (IHl id). destruct (mutate L c o l id) as [l' id1].
    specialize (IHr id1). destruct (mutate L c o r id1) as [r' id2].
    cbn [snd] in *. rewrite !counts_app. cbn [counts count]. lia.
  - cbn [mutate places]. specialize (IH id). destruct (mutate L c o sub id) as [t' id1].
    cbn [snd] in *. rewrite counts_app. cbn [counts count]. lia.
  - cbn [mutate places]. specialize (IH id). destruct (mutate L c o sub id) as [t' id1].
    cbn [snd] in *. rewrite counts_app. cbn [counts count]. lia.
Qed.
Lemma program_number (p : list (string * cst L)) : forall id,
  snd (mutate_program L c o p id) = id + counts c o (source_places p).
Proof.
  induction p as [|[f t] p IH]; intro id; cbn [mutate_program source_places flat_map snd].
  - cbn. lia.
  - pose proof (mutate_number t id) as H. destruct (mutate L c o t id) as [t' id1].
    specialize (IH id1). destruct (mutate_program L c o p id1) as [p' id2].
    cbn [snd] in *. rewrite counts_app. unfold source_places in IH. lia.
Qed.
Lemma counts_sum ms :
  counts c o (map place_of ms) = list_sum (map (mutant_count c (optimise o)) ms).
Proof.
  induction ms as [|m ms IH]; [reflexivity|]. cbn [map counts list_sum fold_right].
  rewrite IH. change (fold_right Nat.add 0) with list_sum.
  destruct m; reflexivity.
Qed.
End Number.

(** * The whole tool *)

Local Open Scope string_scope.

Lemma whole_tool o bt fs n t :
  In (n, t) (rs_written (run o bt fs)) ->
  exists d1 f d2 u,
    distinct [] fs = (d1 ++ f :: d2)%list /\ f_name f = n /\ f_unit f = Some u /\
    let c := ui_ctx u in
    let first := list_sum (map (offers o) d1) in
    forall L root ps pre gaps (p : list (string * cst L)) last,
      tidy (ui_tree u) = tidy (mutation_tree (cpp c) (optimise o) root) ->
      f_text f = pre ++ source gaps p ++ last ->
      ui_prelude_offset u = String.length pre -> ui_rewrites u = [] ->
      corresponds (cpp c) (optimise o) root ps (source_places p) ->
      source_placed gaps p (String.length pre) -> separated (source_places p) ->
      let q := fst (mutate_program L c o p 0) in
      let num := snd (mutate_program L c o p 0) in
      (exists l, t = pre ++ prelude_text c o first num ++ concat_strings l
                         ++ source gaps q ++ last) /\
      (track o = false -> well_formed_program L c p = true ->
       forall cpp17 v zs g args, enables first v zs ->
         (cpp17 = true -> sequenced_program L c p = true) ->
         behaves_like L c cpp17 (selecting first num (cpp c) v) (initial_tls num)
           (body_of L c q) (call L g args)
           (lookup_body L (fst (spec_program L c (optimise o) true (listed first zs) p 0)))
           (call L g args) /\
         ((forall i, i < num -> ~ In (Z.of_nat (first + i)) zs) ->
          behaves_like L c cpp17 (selecting first num (cpp c) v) (initial_tls num)
            (body_of L c q) (call L g args) (body_of L c p) (call L g args))).
Proof.
  intro H. destruct (written_nested o bt fs n t H) as (d1 & f & d2 & u & D & N & U & W).
  exists d1, f, d2, u. repeat (split; [assumption|]). cbv zeta.
  intros L root ps pre gaps p last Tr Tx Off Rw Co Pl Ap.
  assert (Ms : map place_of (post (ui_tree u)) = source_places p).
  { rewrite <- (post_tidy (ui_tree u)), Tr, post_tidy. exact (found _ _ _ _ _ Co). }
  assert (Nm : snd (mutate_program L (ui_ctx u) o p 0) = offers o f).
  { rewrite program_number, <- Ms, counts_sum. unfold offers. rewrite U. reflexivity. }
  destruct (W L pre gaps p last Tx Off Rw Ms Pl Ap) as (l & _ & _ & E). split.
  - exists l. rewrite Nm. exact E.
  - intros T Wf cpp17 v zs g args En Sq.
    split.
    + exact (exact_lemma L (ui_ctx u) o cpp17 _ v zs p g args T (proj1 En) (proj2 En) Wf Sq).
    + exact (none_lemma L (ui_ctx u) o cpp17 _ v zs p g args T (proj1 En) (proj2 En) Wf Sq).
Qed.
