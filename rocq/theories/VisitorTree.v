(* The mutation tree mirrors the nesting of the code. *)
From Coq Require Import List Bool Arith Lia Sorted.
From Verif Require Import Base Clang Gen GenExpr GenBinary GenUnary GenStmt Mutation MutTree
  TreeSpec MutTreeProof Visitor VisitorSpec VisitorProof.
Import ListNotations.

Lemma entry_in {M} : forall (t : tree M) anc s A S, In (s, A, S) (entries anc t) -> In s (post t).
Proof.
  induction t as [ms ks IH] using tree_ind'. intros anc s A S H. cbn [entries post] in *.
  rewrite Forall_forall in IH. apply in_app_iff in H as [H | H]; apply in_app_iff.
  - left. apply in_flat_map in H as (k & Hk & H). apply in_flat_map. exists k. eauto.
  - right. apply in_map_iff in H as (m & E & H). injection E as <- _ _. exact H.
Qed.

Lemma entries_in {M} (fs : list (tree M)) anc s A S :
  In (s, A, S) (flat_map (entries anc) fs) -> In s (flat_map post fs).
Proof.
  intros H. apply in_flat_map in H as (k & Hk & H). apply in_flat_map. exists k.
  split; [exact Hk | eapply entry_in; eauto].
Qed.

Lemma sorted_app {A} (R : A -> A -> Prop) l1 l2 :
  StronglySorted R l1 -> StronglySorted R l2 -> (forall x y, In x l1 -> In y l2 -> R x y) ->
  StronglySorted R (l1 ++ l2).
Proof.
  induction 1 as [|x l1 H1 IH Hx]; intros H2 H; cbn; [exact H2|]. constructor.
  - apply IH; [exact H2|]. intros a b Ha. apply H. now right.
  - apply Forall_app. split; [exact Hx|]. apply Forall_forall. intros y Hy.
    apply H; [now left | exact Hy].
Qed.

Lemma app_branch (u : list nat) a b x y : u ++ a :: x = u ++ b :: y -> a = b /\ x = y.
Proof. intros E. apply app_inv_head in E. injection E as -> ->. auto. Qed.

Lemma app_self (u : list nat) a x : u = u ++ a :: x -> False.
Proof. intros E. rewrite <- (app_nil_r u) in E at 1. apply app_inv_head in E. discriminate. Qed.

(* A forest that was built at or beneath position pos; Q restricts the positions. *)
Record nested (Q : list nat -> mutation -> Prop) (pos : list nat) (fs : list (tree site))
  : Prop := {
  ne_pos : forall p m, In (p, m) (flat_map post fs) -> exists q, p = pos ++ q /\ Q q m;
  ne_rel : forall anc s A S, In (s, A, S) (flat_map (entries anc) fs) ->
    (exists A', A = anc ++ A' /\
       forall a, In a A' <-> In a (flat_map post fs) /\ encloses a s) /\
    (forall a, In a S <-> In a (flat_map post fs) /\ beside a s);
  ne_sorted : StronglySorted comes_before (flat_map post fs)
}.

Lemma nested_weaken (Q Q' : list nat -> mutation -> Prop) pos fs :
  (forall q m, Q q m -> Q' q m) -> nested Q pos fs -> nested Q' pos fs.
Proof.
  intros HQ [H1 H2 H3]. split; auto. intros p m Hp. destruct (H1 p m Hp) as (q & -> & Hq). eauto.
Qed.

Lemma nested_nil Q pos : nested Q pos [].
Proof. split; cbn; try (intros; contradiction). constructor. Qed.

(* What a node's traversal does to the state *)
Definition grows (f : vstate -> vstate) (P : list (tree site) -> Prop) : Prop :=
  forall st, exists fs, vs_children (f st) = vs_children st ++ fs /\
    vs_mutations (f st) = vs_mutations st /\ P fs.

Definition any (q : list nat) (m : mutation) : Prop := True.
Definition below (q : list nat) (m : mutation) : Prop := q <> [].
Definition no_removal (q : list nat) (m : mutation) : Prop := q = [] -> ~ is_removal m.

(* Forests beneath children number base, base + 1, … *)
Definition from (base : nat) (q : list nat) (m : mutation) : Prop :=
  exists j q', q = j :: q' /\ base <= j.

Lemma encloses_branch (pos : list nat) j q j' q' m m' :
  encloses (pos ++ j :: q, m) (pos ++ j' :: q', m') -> j = j'.
Proof.
  intros [(b & x & E) | (E & _)]; cbn in E.
  - rewrite <- app_assoc in E. cbn in E. apply app_branch in E. symmetry. apply E.
  - apply app_branch in E. apply E.
Qed.

Lemma nested_app pos base fs gs :
  nested any (pos ++ [base]) fs -> nested (from (S base)) pos gs ->
  nested (from base) pos (fs ++ gs).
Proof.
  intros [F1 F2 F3] [G1 G2 G3].
  assert (HF : forall p m, In (p, m) (flat_map post fs) -> exists q, p = pos ++ base :: q).
  { intros p m H. destruct (F1 p m H) as (q & -> & _). exists q. now rewrite <- app_assoc. }
  assert (HG : forall p m, In (p, m) (flat_map post gs) ->
            exists j q, p = pos ++ j :: q /\ base < j).
  { intros p m H. destruct (G1 p m H) as (q & -> & j & q' & -> & Hj). eauto. }
  assert (Hfg : forall a b, In a (flat_map post fs) -> In b (flat_map post gs) ->
            ~ encloses a b /\ ~ encloses b a /\ ~ beside a b /\ ~ beside b a).
  { intros [p m] [p' m'] Ha Hb. destruct (HF p m Ha) as (q & ->).
    destruct (HG p' m' Hb) as (j & q' & -> & Hj).
    split; [|split; [|split]].
    - intros H. apply encloses_branch in H. lia.
    - intros H. apply encloses_branch in H. lia.
    - intros (E & _). cbn in E. apply app_branch in E. lia.
    - intros (E & _). cbn in E. apply app_branch in E. lia. }
  split.
  - intros p m H. rewrite flat_map_app, in_app_iff in H. destruct H as [H | H].
    + destruct (HF p m H) as (q & ->). exists (base :: q). split; [reflexivity|].
      exists base, q. auto.
    + destruct (HG p m H) as (j & q & -> & Hj). exists (j :: q). split; [reflexivity|].
      exists j, q. split; [reflexivity | lia].
  - intros anc s A S H. rewrite flat_map_app, in_app_iff in H. rewrite flat_map_app.
    destruct H as [H | H]; pose proof (entries_in _ _ _ _ _ H) as Hs.
    + destruct (F2 anc s A S H) as [(A' & -> & HA) HS]. split.
      * exists A'. split; [reflexivity|]. intros a. rewrite HA, in_app_iff. split.
        -- intros [Ha He]. auto.
        -- intros [[Ha | Ha] He]; [auto|]. exfalso.
           now apply (proj1 (proj2 (Hfg s a Hs Ha))).
      * intros a. rewrite HS, in_app_iff. split.
        -- intros [Ha He]. auto.
        -- intros [[Ha | Ha] He]; [auto|]. exfalso.
           now apply (proj2 (proj2 (proj2 (Hfg s a Hs Ha)))).
    + destruct (G2 anc s A S H) as [(A' & -> & HA) HS]. split.
      * exists A'. split; [reflexivity|]. intros a. rewrite HA, in_app_iff. split.
        -- intros [Ha He]. auto.
        -- intros [[Ha | Ha] He]; [|auto]. exfalso.
           now apply (proj1 (Hfg a s Ha Hs)).
      * intros a. rewrite HS, in_app_iff. split.
        -- intros [Ha He]. auto.
        -- intros [[Ha | Ha] He]; [|auto]. exfalso.
           now apply (proj1 (proj2 (proj2 (Hfg a s Ha Hs)))).
  - rewrite flat_map_app. apply sorted_app; auto.
    intros [p m] [p' m'] Ha Hb. destruct (HF p m Ha) as (q & ->).
    destruct (HG p' m' Hb) as (j & q' & -> & Hj). left. left.
    exists pos, base, j, q, q'. auto.
Qed.

Lemma grows_children f pos ks : forall base,
  (forall j r c, nth_error ks j = Some (r, c) ->
     grows (f r c (base + j)) (nested any (pos ++ [base + j]))) ->
  grows (visit_children f ks base) (nested (from base) pos).
Proof.
  induction ks as [|[r c] ks IH]; intros base H st.
  - exists []. rewrite app_nil_r. split; [reflexivity|]. split; [reflexivity|]. apply nested_nil.
  - pose proof (H 0 r c eq_refl st) as (fs & E1 & E2 & Hf). rewrite Nat.add_0_r in *.
    destruct (IH (S base)) with (st := f r c base st) as (gs & E3 & E4 & Hg).
    { intros j r' c' Hj. specialize (H (S j) r' c' Hj). now rewrite Nat.add_succ_r in H. }
    exists (fs ++ gs). cbn [visit_children]. fold (visit_children f).
    rewrite E3, E1, E4, E2, <- app_assoc. split; [reflexivity|]. split; [reflexivity|].
    now apply nested_app.
Qed.

(* A node with its own mutations on top *)
Lemma nested_node (Q Q' : list nat -> mutation -> Prop) pos ms fs :
  nested Q pos fs ->
  (forall m, In m ms -> Q' [] m) -> (forall q m, Q q m -> Q' q m) ->
  (forall m q m', In m ms -> Q q m' -> q = [] -> is_removal m /\ ~ is_removal m') ->
  (forall m m', In m ms -> In m' ms -> is_removal m <-> is_removal m') ->
  StronglySorted (fun a b => rank a < rank b) ms ->
  nested Q' pos (@cons (tree site) (@Node site (map (pair pos) ms) fs) nil).
Proof.
  intros [F1 F2 F3] Hown HQ Htop Hsame Hsort.
  set (own := map (pair pos) ms).
  assert (Hpost : flat_map (@post site) (@cons (tree site) (@Node site own fs) nil) = flat_map post fs ++ own)
    by (cbn; now rewrite app_nil_r).
  assert (Hent : forall anc, flat_map (@entries site anc) (@cons (tree site) (@Node site own fs) nil) =
            flat_map (entries (anc ++ own)) fs ++ map (fun m => (m, anc, own)) own)
    by (intros; cbn; now rewrite app_nil_r).
  assert (Ho : forall a, In a own -> exists m, a = (pos, m) /\ In m ms).
  { intros a Ha. apply in_map_iff in Ha as (m & <- & Hm). eauto. }
  assert (Hb : forall a s, In a own -> In s (flat_map post fs) ->
            encloses a s /\ ~ encloses s a /\ ~ beside a s /\ ~ beside s a).
  { intros a [p m'] Ha Hs. destruct (Ho a Ha) as (m & -> & Hm).
    destruct (F1 p m' Hs) as (q & -> & Hq). destruct q as [|j q].
    - destruct (Htop m [] m' Hm Hq eq_refl) as [R1 R2]. rewrite app_nil_r.
      split; [|split; [|split]].
      + right. auto.
      + intros [(j & q & E) | (_ & H & _)]; [cbn in E; eapply app_self; eauto | contradiction].
      + intros (_ & H). cbn in H. tauto.
      + intros (_ & H). cbn in H. tauto.
    - split; [|split; [|split]].
      + left. exists j, q. reflexivity.
      + intros [(j' & q' & E) | (E & _)]; cbn in E.
        * rewrite <- app_assoc in E. cbn in E. eapply app_self; eauto.
        * symmetry in E. eapply app_self; eauto.
      + intros (E & _). cbn in E. eapply app_self; eauto.
      + intros (E & _). cbn in E. symmetry in E. eapply app_self; eauto. }
  assert (Hoo : forall a b, In a own -> In b own -> beside a b /\ ~ encloses a b).
  { intros a b Ha Hb'. destruct (Ho a Ha) as (m & -> & Hm). destruct (Ho b Hb') as (m' & -> & Hm').
    split; [split; [reflexivity | apply Hsame; assumption]|].
    intros [(j & q & E) | (_ & H1 & H2)]; [cbn in E; eapply app_self; eauto|].
    apply H2. cbn in *. now apply (Hsame m m'). }
  split.
  - intros p m H. rewrite Hpost, in_app_iff in H. destruct H as [H | H].
    + destruct (F1 p m H) as (q & -> & Hq). eauto.
    + destruct (Ho _ H) as (m' & E & Hm). injection E as -> ->. exists []. rewrite app_nil_r. auto.
  - intros anc s A S H. rewrite Hent, in_app_iff in H. rewrite Hpost.
    destruct H as [H | H].
    + pose proof (entries_in _ _ _ _ _ H) as Hs.
      destruct (F2 _ s A S H) as [(A' & -> & HA) HS]. split.
      * exists (own ++ A'). rewrite app_assoc. split; [reflexivity|]. intros a.
        rewrite !in_app_iff, HA. split.
        -- intros [Ha | [Ha He]]; [|auto]. split; [auto|]. now apply Hb.
        -- intros [[Ha | Ha] He]; auto.
      * intros a. rewrite HS, in_app_iff. split.
        -- intros [Ha He]. auto.
        -- intros [[Ha | Ha] He]; [auto|]. exfalso.
           now apply (proj1 (proj2 (proj2 (Hb a s Ha Hs)))).
    + apply in_map_iff in H as (m & E & Hm). injection E as <- <- <-. split.
      * exists []. rewrite app_nil_r. split; [reflexivity|]. intros a. split; [intros []|].
        rewrite in_app_iff. intros [[Ha | Ha] He].
        -- exact (proj1 (proj2 (Hb m a Hm Ha)) He).
        -- exact (proj2 (Hoo a m Ha Hm) He).
      * intros a. rewrite in_app_iff. split.
        -- intros Ha. split; [auto|]. now apply Hoo.
        -- intros [[Ha | Ha] He]; [|exact Ha]. exfalso.
           exact (proj2 (proj2 (proj2 (Hb m a Hm Ha))) He).
  - rewrite Hpost. apply sorted_app; [exact F3| |].
    + unfold own. clear -Hsort. induction Hsort as [|m ms Hs IH Hm]; cbn; constructor; [exact IH|].
      rewrite Forall_forall in *. intros a Ha. apply in_map_iff in Ha as (m' & <- & Hm').
      right. cbn. auto.
    + intros [p m'] a Hs Ha. destruct (Ho a Ha) as (m & -> & Hm).
      destruct (F1 p m' Hs) as (q & -> & Hq). destruct q as [|j q].
      * destruct (Htop m [] m' Hm Hq eq_refl) as [R1 R2]. rewrite app_nil_r. right.
        split; [reflexivity|]. destruct m; try destruct R1.
        destruct m'; cbn; try lia. exfalso. now apply R2.
      * left. right. exists j, q. reflexivity.
Qed.

Lemma grows_push f (P : list (tree site) -> Prop) :
  (forall st, vs_mutations st = [] -> vs_children st = [] ->
     P (@cons (tree site) (@Node site (vs_mutations (f st)) (vs_children (f st))) nil)) ->
  grows (push_tree f) P.
Proof.
  intros H st. eexists. split; [reflexivity|]. split; [reflexivity|]. now apply H.
Qed.

Lemma visit_expr_sorted opt vars up n :
  StronglySorted (fun a b => rank a < rank b) (visit_expr opt vars up n) /\
  forall m, In m (visit_expr opt vars up n) -> ~ is_removal m.
Proof.
  assert (Hnil : StronglySorted (fun a b : mutation => rank a < rank b) [] /\
            forall m : mutation, In m [] -> ~ is_removal m)
    by (split; [constructor | intros ? []]).
  destruct n as [[|e x| |] i ks]; cbn [visit_expr]; try exact Hnil.
  repeat match goal with
         | |- StronglySorted _ (if ?b then _ else _) /\ _ => destruct b; [exact Hnil|]
         end.
  unfold when.
  match goal with |- StronglySorted _ (_ ++ if ?b then _ else _) /\ _ => destruct b end;
    destruct e; try exact Hnil; cbn [app];
    repeat match goal with |- context [if ?b then _ else _] => destruct b end; cbn [app];
    try exact Hnil;
    (split; [repeat (constructor; cbn; auto)|]);
    cbn; intros m Hm; intuition (subst; cbn; auto).
Qed.

Lemma removals_cases opt k i :
  removals opt k i = [] \/ removals opt k i = [MutStmt (n_site i) (n_loc i)].
Proof.
  unfold removals. repeat match goal with |- context [if ?b then _ else _] => destruct b end; auto.
Qed.

Lemma grows_id (P : list (tree site) -> Prop) : P [] -> grows (fun st => st) P.
Proof. intros H st. exists []. rewrite app_nil_r. auto. Qed.

Lemma record_grows is_cpp d i pos st :
  vs_children (record_decl is_cpp d i pos st) = vs_children st /\
  vs_mutations (record_decl is_cpp d i pos st) = vs_mutations st.
Proof.
  unfold record_decl, set_prelude.
  destruct d; repeat match goal with |- context [if ?b then _ else _] => destruct b end;
    try destruct (vs_prelude st); auto.
Qed.

Lemma from_any base q m : from base q m -> any q m.
Proof. intros _. exact I. Qed.

Lemma traverse_nested is_cpp opt : forall n m up pos,
  grows (traverse is_cpp opt n m up pos) (nested any pos).
Proof.
  induction n as [k i ks IH] using node_induction. intros m up pos.
  set (descend := visit_children (fun r c idx st =>
                        match child_mode m k r with
                        | Some m' =>
                            traverse is_cpp opt c m'
                              ({| fr_kind := k; fr_role := r |} :: up) (pos ++ [idx]) st
                        | None => st
                        end) ks 0).
  assert (Hdesc : grows descend (nested (from 0) pos)).
  { apply grows_children. intros j r c Hj. cbn [Nat.add].
    destruct (child_mode m k r).
    - apply (IH r c). now apply nth_error_In in Hj.
    - apply grows_id, nested_nil. }
  assert (Hany : grows descend (nested any pos)).
  { intros st. destruct (Hdesc st) as (fs & E1 & E2 & H). exists fs.
    split; [exact E1|]. split; [exact E2|]. eapply nested_weaken; [|exact H]. apply from_any. }
  set (statement := fun st =>
               (if stmt_skipped k up then st
               else match k with
                    | KExpr EFrameAddress _ => add_arg (pos ++ [first_arg ks 0]) st
                    | _ =>
                        push_tree (fun st =>
                          let st := descend st in
                          add_mutations pos (visit_expr opt (vs_vars st) up (Ast k i ks)) st) st
                    end)).
  assert (Hstmt : grows statement (nested no_removal pos)).
  { unfold statement. destruct (stmt_skipped k up); [apply grows_id, nested_nil|].
    destruct (is_frame_address k) eqn:Hfa.
    { destruct k as [|[]| |]; try discriminate. intros st. exists []. rewrite app_nil_r.
      split; [reflexivity|]. split; [reflexivity|]. apply nested_nil. }
    match goal with |- grows (fun st => @?F st) _ =>
      replace F with (push_tree (fun st =>
                          let st := descend st in
                          add_mutations pos (visit_expr opt (vs_vars st) up (Ast k i ks)) st))
        by (destruct k as [|[]| |]; try reflexivity; discriminate) end.
    apply grows_push. intros st E1 E2. cbv zeta.
    destruct (Hdesc st) as (fs & E3 & E4 & Hn). cbn [add_mutations vs_mutations vs_children].
    rewrite E3, E4, E1, E2. cbn [app].
    destruct (visit_expr_sorted opt (vs_vars (descend st)) up (Ast k i ks)) as [Hs Hr].
    apply (nested_node (from 0) no_removal); auto.
    - intros x Hx _. now apply Hr.
    - intros q x (j & q' & -> & _) E. discriminate.
    - intros x q x' Hx (j & q' & -> & _) E. discriminate.
    - intros x x' Hx Hx'. split; intros H; exfalso; [now apply (Hr x) | now apply (Hr x')]. }
  destruct (match k with KStmt _ | KExpr _ _ => true | _ => false end) eqn:Hkind.
  { assert (Heq : forall st, traverse is_cpp opt (Ast k i ks) m up pos st =
              match m with
              | Plain => statement st
              | Component =>
                  if is_switch_case k then descend st
                  else if useless_component opt k then st
                  else push_tree (fun st =>
                         add_mutations pos (removals opt k i) (statement st)) st
              end) by (destruct k; try discriminate; reflexivity).
    intros st. rewrite Heq. revert st. destruct m.
    - intros st. destruct (Hstmt st) as (fs & E1 & E2 & H). exists fs.
      split; [exact E1|]. split; [exact E2|]. eapply nested_weaken; [|exact H]. intros; exact I.
    - destruct (is_switch_case k); [exact Hany|].
      destruct (useless_component opt k); [apply grows_id, nested_nil|].
      apply grows_push. intros st E1 E2.
      destruct (Hstmt st) as (fs & E3 & E4 & Hn). cbn [add_mutations vs_mutations vs_children].
      rewrite E3, E4, E1, E2. cbn [app].
      assert (Hrem : forall x, In x (removals opt k i) -> is_removal x).
      { intros x. destruct (removals_cases opt k i) as [->| ->]; [intros [] | intros [<- | []]].
        exact I. }
      apply (nested_node no_removal any); [exact Hn| | | | |].
      + intros x Hx. exact I.
      + intros q x _. exact I.
      + intros x q x' Hx Hq E. split; [now apply Hrem | now apply Hq].
      + intros x x' Hx Hx'. split; intros _; now apply Hrem.
      + destruct (removals_cases opt k i) as [->| ->]; repeat constructor. }
  destruct k as [s | e x | d | l]; try discriminate; cbn [traverse]; fold descend.
  - intros st. destruct (record_grows is_cpp d i pos st) as [R1 R2].
    destruct (decl_entered is_cpp d i).
    + destruct (Hany (record_decl is_cpp d i pos st)) as (fs & E1 & E2 & H). exists fs.
      rewrite R1 in E1. rewrite R2 in E2. destruct d; cbn [add_var vs_children vs_mutations]; auto.
    + exists []. rewrite app_nil_r, R1, R2. auto using nested_nil.
  - destruct (loc_entered is_cpp l); [exact Hany | apply grows_id, nested_nil].
Qed.

Lemma visited_nested is_cpp opt root :
  exists fs, visited_tree is_cpp opt root = Node [] fs /\ nested any [] fs.
Proof.
  destruct (traverse_nested is_cpp opt root Plain [] [] vstate0) as (fs & E1 & E2 & H).
  exists fs. split; [|exact H]. unfold visited_tree, visit. cbn in E1, E2. now rewrite E1, E2.
Qed.

Lemma entries_post {M} : forall (t : tree M) anc, map (fun e => fst (fst e)) (entries anc t) = post t.
Proof.
  induction t as [ms ks IH] using tree_ind'. intros anc. cbn [entries post].
  rewrite map_app, map_map. cbn. rewrite map_id. f_equal.
  induction IH as [|k ks Hk _ IHks]; cbn; [reflexivity|]. now rewrite map_app, Hk, IHks.
Qed.

Lemma tidy_post {M} (t : tree M) : post (tidy t) = post t.
Proof. now rewrite <- (entries_post (tidy t) []), tidy_entries, entries_post. Qed.

Lemma nesting is_cpp opt root s A S :
  let t := tidy (visited_tree is_cpp opt root) in
  In (s, A, S) (entries [] t) ->
  (forall a, In a A <-> In a (post t) /\ encloses a s) /\
  (forall a, In a S <-> In a (post t) /\ beside a s).
Proof.
  cbv zeta. rewrite tidy_entries, tidy_post. intros H.
  destruct (visited_nested is_cpp opt root) as (fs & E & Hn). rewrite E in *.
  cbn [entries post map] in *. rewrite app_nil_r in *.
  destruct (ne_rel _ _ _ Hn _ _ _ _ H) as [(A' & -> & HA) HS]. split; [exact HA | exact HS].
Qed.

Lemma creation_order is_cpp opt root :
  StronglySorted comes_before (post (tidy (visited_tree is_cpp opt root))).
Proof.
  rewrite tidy_post. destruct (visited_nested is_cpp opt root) as (fs & -> & Hn).
  cbn [post]. rewrite app_nil_r. exact (ne_sorted _ _ _ Hn).
Qed.

(* The tree that is built without positions is tidied in the same way. *)
Lemma map_empty {A B} (f : A -> B) : forall t, is_empty (map_tree f t) = is_empty t.
Proof.
  induction t as [ms ks IH] using tree_ind'. destruct ms; [|reflexivity]. cbn.
  induction IH as [|k ks Hk _ IHks]; cbn; [reflexivity|]. now rewrite Hk, IHks.
Qed.

Lemma map_prune {A B} (f : A -> B) : forall t, prune (map_tree f t) = map_tree f (prune t).
Proof.
  induction t as [ms ks IH] using tree_ind'. cbn [map_tree]. rewrite !prune_node. cbn [map_tree].
  f_equal. unfold prune_all. induction IH as [|k ks Hk _ IHks]; cbn; [reflexivity|].
  rewrite map_empty. destruct (is_empty k); cbn; [exact IHks|]. now rewrite Hk, IHks.
Qed.

Lemma map_compress {A B} (f : A -> B) : forall t, compress (map_tree f t) = map_tree f (compress t).
Proof.
  induction t as [ms ks IH] using tree_ind'. cbn [map_tree]. rewrite !compress_node.
  assert (Hmap : map compress (map (map_tree f) ks) = map (map_tree f) (map compress ks)).
  { rewrite !map_map. apply map_ext_in. rewrite Forall_forall in IH. auto. }
  destruct ms as [|m ms]; cbn [map map_tree].
  - destruct ks as [|k [|k' ks]]; [reflexivity | |].
    + inversion IH; subst; assumption.
    + change (Node [] (map compress (map (map_tree f) (k :: k' :: ks))) =
              Node [] (map (map_tree f) (map compress (k :: k' :: ks)))).
      now rewrite Hmap.
  - f_equal. exact Hmap.
Qed.

Lemma map_tidy {A B} (f : A -> B) t : tidy (map_tree f t) = map_tree f (tidy t).
Proof. unfold tidy. now rewrite map_prune, map_compress. Qed.
