(* Facts about ids, trees and runs. *)
From Coq Require Import String List Arith Bool Permutation Lia.
From Verif Require Import Base Clang Gen GenExpr GenBinary GenUnary GenStmt Mutation MutTree
  TreeSpec MutTreeProof Rewriter Run RunSpec.
Import ListNotations.

(** * Lists *)

Lemma number_from_fst {A} (l : list A) k : map fst (number_from k l) = seq k (List.length l).
Proof. revert k; induction l; intros; simpl; f_equal; auto. Qed.
Lemma number_from_snd {A} (l : list A) k : map snd (number_from k l) = l.
Proof. revert k; induction l; intros; simpl; f_equal; auto. Qed.

Lemma update_nth_length {A} n f (l : list A) :
  List.length (update_nth n f l) = List.length l.
Proof. revert n; induction l; intros [|n]; simpl; auto. Qed.

Lemma update_nth_app_r {A} n f (l1 l2 : list A) :
  update_nth (List.length l1 + n) f (l1 ++ l2) = l1 ++ update_nth n f l2.
Proof. induction l1; simpl; f_equal; auto. Qed.

Lemma update_nth_app_l {A} n f (l1 l2 : list A) :
  n < List.length l1 -> update_nth n f (l1 ++ l2) = update_nth n f l1 ++ l2.
Proof.
  revert n; induction l1; intros [|n] H; simpl in *; try lia; [reflexivity|].
  f_equal. apply IHl1. lia.
Qed.

Lemma update_nth_compose {A} n f g (l : list A) :
  update_nth n g (update_nth n f l) = update_nth n (fun x => g (f x)) l.
Proof. revert n; induction l; intros [|n]; simpl; f_equal; auto. Qed.

Lemma update_nth_ext {A} n f g (l : list A) :
  (forall x, f x = g x) -> update_nth n f l = update_nth n g l.
Proof. intros H. revert n; induction l; intros [|n]; simpl; f_equal; auto. Qed.

Lemma update_nth_id {A} n (f : A -> A) (l : list A) :
  (forall x, f x = x) -> update_nth n f l = l.
Proof. intros H. revert n; induction l; intros [|n]; simpl; f_equal; auto. Qed.

(** * One mutation *)

Lemma apply_next c o m first id :
  a_next (apply_mutation c o m first id) = id + mutant_count c (optimise o) m.
Proof. destruct m; simpl; lia. Qed.

Lemma apply_ids c o m first id :
  group_ids (a_group (apply_mutation c o m first id)) =
  seq id (mutant_count c (optimise o) m).
Proof.
  destruct m; simpl; rewrite ?number_from_fst, ?map_length; reflexivity.
Qed.

Lemma apply_describes c o m first id :
  describes_group c (optimise o) m (a_group (apply_mutation c o m first id)).
Proof. destruct m; simpl; rewrite ?number_from_snd; repeat split; reflexivity. Qed.

Lemma apply_group_track c o m first first' id b :
  a_group (apply_mutation c (with_track o b) m first id) =
  a_group (apply_mutation c o m first' id).
Proof. destruct m; reflexivity. Qed.

(** * Numbering a tree *)

(* The groups of a list of mutations, numbered from id *)
Fixpoint groups_from (c : ctx) (opt : bool) (id : nat) (ms : list mutation) : list group :=
  match ms with
  | [] => []
  | m :: ms =>
      let n := mutant_count c opt m in
      let o := {| optimise := opt; track := false |} in
      when (negb (Nat.eqb n 0)) [a_group (apply_mutation c o m 0 id)]
      ++ groups_from c opt (id + n) ms
  end.

Definition total (c : ctx) (opt : bool) (ms : list mutation) : nat :=
  list_sum (map (mutant_count c opt) ms).

Lemma total_app c opt l1 l2 : total c opt (l1 ++ l2) = total c opt l1 + total c opt l2.
Proof. unfold total. rewrite map_app, list_sum_app. reflexivity. Qed.

Definition tree_total c opt t := total c opt (post t).

Fixpoint group_tree (c : ctx) (opt : bool) (id : nat) (t : tree mutation) : tree group :=
  match t with
  | Node ms ks =>
      let go := fix go id ks :=
        match ks with
        | [] => []
        | k :: ks => group_tree c opt id k :: go (id + tree_total c opt k) ks
        end in
      Node (groups_from c opt (id + total c opt (flat_map post ks)) ms) (go id ks)
  end.

Fixpoint group_trees c opt id ks :=
  match ks with
  | [] => []
  | k :: ks => group_tree c opt id k :: group_trees c opt (id + tree_total c opt k) ks
  end.

Lemma group_tree_node c opt id ms ks :
  group_tree c opt id (Node ms ks) =
  Node (groups_from c opt (id + total c opt (flat_map post ks)) ms) (group_trees c opt id ks).
Proof.
  simpl. f_equal. revert id. induction ks; intros; simpl; f_equal; auto.
Qed.

Lemma groups_from_ids c opt ms : forall id,
  flat_map group_ids (groups_from c opt id ms) = seq id (total c opt ms).
Proof.
  induction ms as [|m ms IH]; intros id; [reflexivity|].
  cbn [groups_from]. rewrite flat_map_app, IH. unfold total; cbn [map list_sum fold_right].
  fold (total c opt ms). change (fold_right Nat.add 0 (map (mutant_count c opt) ms))
    with (total c opt ms).
  rewrite seq_app. f_equal.
  destruct (Nat.eqb_spec (mutant_count c opt m) 0) as [->|N]; [reflexivity|].
  cbn [negb when flat_map]. rewrite app_nil_r, apply_ids. reflexivity.
Qed.

Lemma groups_from_describes c opt ms : forall id,
  Forall2 (describes_group c opt) (described c opt ms) (groups_from c opt id ms).
Proof.
  induction ms as [|m ms IH]; intros id; [constructor|].
  cbn [groups_from described filter]. destruct (Nat.eqb _ 0); cbn [negb when app]; [apply IH|].
  constructor; [|apply IH].
  apply (apply_describes c {| optimise := opt; track := false |}).
Qed.

Lemma group_tree_ids c opt t : forall id,
  tree_ids (group_tree c opt id t) = seq id (tree_total c opt t).
Proof.
  induction t as [ms ks IH] using tree_ind'. intros id. rewrite group_tree_node.
  unfold tree_ids, tree_total. cbn [post]. rewrite flat_map_app, groups_from_ids, total_app.
  rewrite seq_app. f_equal. clear ms.
  revert id. induction IH as [|k ks Hk _ IHks]; intros id; [reflexivity|].
  cbn [group_trees flat_map]. rewrite flat_map_app, total_app, seq_app.
  f_equal; [apply Hk|apply IHks].
Qed.

Lemma group_tree_describes c opt t : forall id, describes c opt t (group_tree c opt id t).
Proof.
  induction t as [ms ks IH] using tree_ind'. intros id. rewrite group_tree_node.
  constructor; [apply groups_from_describes|]. clear ms.
  revert id. induction IH as [|k ks Hk _ IHks]; intros id; constructor; auto.
Qed.

(** * Flattening *)

Fixpoint tree_size (T : tree group) : nat :=
  match T with Node _ ks => S (list_sum (map tree_size ks)) end.
Definition sizes (Ts : list (tree group)) : nat := list_sum (map tree_size Ts).

Lemma sizes_cons T Ts : sizes (T :: Ts) = tree_size T + sizes Ts.
Proof. reflexivity. Qed.

(* Indices of consecutive subtrees laid out from base *)
Fixpoint kid_indices (base : nat) (Ts : list (tree group)) : list nat :=
  match Ts with
  | [] => []
  | T :: Ts => base :: kid_indices (base + tree_size T) Ts
  end.

Fixpoint flat (base : nat) (T : tree group) : list pnode :=
  match T with
  | Node gs ks =>
      {| p_groups := gs; p_children := kid_indices (S base) ks |}
      :: (fix go base ks :=
            match ks with
            | [] => []
            | k :: ks => flat base k ++ go (base + tree_size k) ks
            end) (S base) ks
  end.

Fixpoint flats (base : nat) (Ts : list (tree group)) : list pnode :=
  match Ts with
  | [] => []
  | T :: Ts => flat base T ++ flats (base + tree_size T) Ts
  end.

Lemma flat_node base gs ks :
  flat base (Node gs ks) =
  {| p_groups := gs; p_children := kid_indices (S base) ks |} :: flats (S base) ks.
Proof. reflexivity. Qed.

Lemma flat_length T : forall base, List.length (flat base T) = tree_size T.
Proof.
  induction T as [gs ks IH] using tree_ind'. intros base. rewrite flat_node. simpl. f_equal.
  generalize (S base). induction IH as [|k ks Hk _ IHks]; intros b; simpl; [reflexivity|].
  rewrite app_length, Hk. f_equal. apply IHks.
Qed.

Lemma flats_length Ts : forall base, List.length (flats base Ts) = sizes Ts.
Proof.
  induction Ts; intros; simpl; [reflexivity|].
  rewrite app_length, flat_length, IHTs. reflexivity.
Qed.

Lemma kid_indices_app base T1 T2 :
  kid_indices base (T1 ++ T2) = kid_indices base T1 ++ kid_indices (base + sizes T1) T2.
Proof.
  revert base. induction T1; intros; cbn [kid_indices app].
  - f_equal. unfold sizes; simpl; lia.
  - rewrite IHT1, sizes_cons, Nat.add_assoc. reflexivity.
Qed.

Lemma flats_app base T1 T2 :
  flats base (T1 ++ T2) = flats base T1 ++ flats (base + sizes T1) T2.
Proof.
  revert base. induction T1; intros; cbn [flats app].
  - f_equal. unfold sizes; simpl; lia.
  - rewrite IHT1, sizes_cons, Nat.add_assoc, app_assoc. reflexivity.
Qed.

(** * ApplyMutations builds the flattened tree *)

Definition extend (gs : list group) (cs : list nat) (p : pnode) : pnode :=
  {| p_groups := p_groups p ++ gs; p_children := p_children p ++ cs |}.

Lemma extend_extend g1 c1 g2 c2 p :
  extend g2 c2 (extend g1 c1 p) = extend (g1 ++ g2) (c1 ++ c2) p.
Proof. unfold extend; simpl. rewrite !app_assoc. reflexivity. Qed.
Lemma extend_nil p : extend [] [] p = p.
Proof. destruct p; unfold extend; simpl. rewrite !app_nil_r. reflexivity. Qed.

Lemma apply_ones_nodes c o first idx ms : forall st,
  st_nodes (fold_left (apply_one c o true first idx) ms st) =
  update_nth idx (extend (groups_from c (optimise o) (st_id st) ms) []) (st_nodes st).
Proof.
  induction ms as [|m ms IH]; intros st.
  - simpl. symmetry. apply update_nth_id. apply extend_nil.
  - cbn [fold_left]. rewrite IH. clear IH. cbn [st_nodes st_id apply_one groups_from].
    rewrite apply_next. cbn [andb].
    replace (a_group (apply_mutation c {| optimise := optimise o; track := false |} m 0 (st_id st)))
      with (a_group (apply_mutation c o m first (st_id st)))
      by (symmetry; apply (apply_group_track c o m 0 first (st_id st) false)).
    destruct (Nat.eqb_spec (mutant_count c (optimise o) m) 0) as [E|E].
    + replace (Nat.ltb _ _) with false by (symmetry; apply Nat.ltb_ge; lia). reflexivity.
    + replace (Nat.ltb _ _) with true by (symmetry; apply Nat.ltb_lt; lia).
      cbn [negb when app]. rewrite update_nth_compose. apply update_nth_ext.
      intros p. unfold extend; simpl. rewrite <- app_assoc, !app_nil_r. reflexivity.
Qed.

Lemma apply_ones_id c o bt first idx ms : forall st,
  st_id (fold_left (apply_one c o bt first idx) ms st) = st_id st + total c (optimise o) ms.
Proof.
  induction ms as [|m ms IH]; intros st; cbn [fold_left].
  - unfold total; simpl; lia.
  - rewrite IH. cbn [apply_one st_id]. rewrite apply_next. unfold total; simpl. lia.
Qed.

Fixpoint apply_kids c o bt first idx ks st : astate :=
  match ks with
  | [] => st
  | k :: ks =>
      apply_kids c o bt first idx ks
        (apply_tree c o bt first (List.length (st_nodes st)) k (add_child idx st))
  end.

Lemma apply_tree_node c o bt first idx ms ks st :
  apply_tree c o bt first idx (Node ms ks) st =
  fold_left (apply_one c o bt first idx) ms (apply_kids c o bt first idx ks st).
Proof.
  simpl. f_equal. revert st. induction ks; intros; simpl; auto.
Qed.

Lemma apply_tree_id c o bt first t : forall idx st,
  st_id (apply_tree c o bt first idx t st) = st_id st + tree_total c (optimise o) t.
Proof.
  induction t as [ms ks IH] using tree_ind'. intros idx st.
  rewrite apply_tree_node, apply_ones_id. unfold tree_total; cbn [post]. rewrite total_app.
  rewrite Nat.add_assoc. f_equal. clear ms.
  revert st. induction IH as [|k ks Hk _ IHks]; intros st; cbn [apply_kids flat_map].
  - unfold total; simpl; lia.
  - rewrite IHks, Hk. rewrite total_app. cbn [add_child st_id]. unfold tree_total. lia.
Qed.

Lemma tree_size_node gs ks : tree_size (Node gs ks) = S (sizes ks).
Proof. reflexivity. Qed.

Lemma apply_tree_nodes c o first t : forall idx st,
  idx < List.length (st_nodes st) ->
  st_nodes (apply_tree c o true first idx t st) =
  match group_tree c (optimise o) (st_id st) t with
  | Node gs Ts =>
      update_nth idx (extend gs (kid_indices (List.length (st_nodes st)) Ts)) (st_nodes st)
      ++ flats (List.length (st_nodes st)) Ts
  end.
Proof.
  induction t as [ms ks IH] using tree_ind'. intros idx st Hidx.
  rewrite apply_tree_node, apply_ones_nodes, group_tree_node.
  assert (K : st_nodes (apply_kids c o true first idx ks st) =
    update_nth idx (extend [] (kid_indices (List.length (st_nodes st))
                                 (group_trees c (optimise o) (st_id st) ks))) (st_nodes st)
    ++ flats (List.length (st_nodes st)) (group_trees c (optimise o) (st_id st) ks)
    /\ st_id (apply_kids c o true first idx ks st) =
       st_id st + total c (optimise o) (flat_map post ks)).
  { clear ms. revert st Hidx. induction IH as [|k ks Hk _ IHks]; intros st Hidx.
    - simpl. rewrite app_nil_r. split; [|unfold total; simpl; lia].
      symmetry. apply update_nth_id. apply extend_nil.
    - cbn [apply_kids group_trees kid_indices flats flat_map].
      set (st1 := apply_tree c o true first (List.length (st_nodes st)) k (add_child idx st)).
      assert (E1 : st_nodes st1 =
        update_nth idx (extend [] [List.length (st_nodes st)]) (st_nodes st)
        ++ flat (List.length (st_nodes st)) (group_tree c (optimise o) (st_id st) k)).
      { unfold st1. rewrite Hk.
        2:{ cbn [add_child st_nodes]. rewrite app_length, update_nth_length. simpl; lia. }
        cbn [add_child st_nodes st_id].
        destruct (group_tree c (optimise o) (st_id st) k) as [gs Ts].
        rewrite app_length, update_nth_length. cbn [List.length].
        replace (List.length (st_nodes st) + 1) with (S (List.length (st_nodes st))) by lia.
        rewrite flat_node.
        replace (update_nth (List.length (st_nodes st))) with
          (update_nth (A := pnode)
             (List.length (update_nth idx
                (fun p => {| p_groups := p_groups p;
                             p_children := p_children p ++ [List.length (st_nodes st)] |})
                (st_nodes st)) + 0))
          by (rewrite update_nth_length, Nat.add_0_r; reflexivity).
        rewrite update_nth_app_r. rewrite <- app_assoc. f_equal.
        apply update_nth_ext. intros p. unfold extend. rewrite app_nil_r. reflexivity. }
      assert (E2 : st_id st1 = st_id st + tree_total c (optimise o) k).
      { unfold st1. rewrite apply_tree_id. reflexivity. }
      assert (L1 : List.length (st_nodes st1) =
        List.length (st_nodes st) + tree_size (group_tree c (optimise o) (st_id st) k)).
      { rewrite E1, app_length, update_nth_length, flat_length. reflexivity. }
      destruct (IHks st1) as (N & I); [lia|].
      split.
      + rewrite N, E2, L1, E1. rewrite update_nth_app_l by (rewrite update_nth_length; lia).
        rewrite update_nth_compose, app_assoc. do 2 f_equal.
        apply update_nth_ext. intros p. rewrite extend_extend. reflexivity.
      + rewrite I, E2, total_app. unfold tree_total. lia. }
  destruct K as (KN & KI). rewrite KN, KI.
  rewrite update_nth_app_l by (rewrite update_nth_length; lia).
  rewrite update_nth_compose. f_equal. apply update_nth_ext. intros p.
  rewrite extend_extend, app_nil_r. reflexivity.
Qed.

Lemma apply_mutations_nodes c o id t :
  st_nodes (apply_mutations c o true id t) = flat 0 (group_tree c (optimise o) id t).
Proof.
  unfold apply_mutations. rewrite apply_tree_nodes by (simpl; lia).
  cbn [initial_astate st_id st_nodes List.length].
  destruct (group_tree c (optimise o) id t) as [gs Ts]. rewrite flat_node. reflexivity.
Qed.

Lemma apply_mutations_id c o bt id t :
  st_id (apply_mutations c o bt id t) = id + tree_total c (optimise o) t.
Proof. unfold apply_mutations. rewrite apply_tree_id. reflexivity. Qed.

(** * The flattened list decodes to the tree *)

Lemma flat_decodes T : forall base pre post_,
  List.length pre = base -> decodes (pre ++ flat base T ++ post_) base T.
Proof.
  induction T as [gs ks IH] using tree_ind'. intros base pre post_ Hb. rewrite flat_node.
  set (p := {| p_groups := gs; p_children := kid_indices (S base) ks |}).
  change (Node gs ks) with (Node (p_groups p) ks). constructor.
  - rewrite nth_error_app2 by lia. rewrite Hb, Nat.sub_diag. reflexivity.
  - cbn [p p_children app].
    assert (E : pre ++ p :: flats (S base) ks ++ post_ =
                (pre ++ [p]) ++ flats (S base) ks ++ post_)
      by (rewrite <- app_assoc; reflexivity).
    rewrite E. clear E.
    assert (L : List.length (pre ++ [p]) = S base) by (rewrite app_length; simpl; lia).
    generalize dependent (pre ++ [p]). intros pre' L. clear pre Hb p gs.
    generalize dependent (S base). intros b L. clear base.
    revert b pre' L. induction IH as [|k ks Hk _ IHks]; intros b pre' L; [constructor|].
    cbn [kid_indices flats]. constructor.
    + rewrite <- app_assoc. apply Hk. exact L.
    + rewrite <- app_assoc, app_assoc. apply IHks. rewrite app_length, flat_length. lia.
Qed.

Lemma flat_children T : forall base,
  Permutation (flat_map p_children (flat base T)) (seq (S base) (tree_size T - 1)).
Proof.
  induction T as [gs ks IH] using tree_ind'. intros base. rewrite flat_node, tree_size_node.
  cbn [flat_map p_children]. rewrite Nat.sub_succ, Nat.sub_0_r.
  generalize (S base). clear base gs.
  induction IH as [|k ks Hk _ IHks]; intros b; [constructor|].
  cbn [kid_indices flats]. rewrite flat_map_app. unfold sizes; cbn [map list_sum fold_right].
  fold (sizes ks). change (fold_right Nat.add 0 (map tree_size ks)) with (sizes ks).
  rewrite seq_app.
  assert (tree_size k = S (tree_size k - 1)) as E by (destruct k; simpl; lia).
  rewrite E at 3. cbn [seq app].
  apply perm_skip.
  rewrite Permutation_app_comm, <- app_assoc.
  apply Permutation_app; [apply Hk|].
  rewrite Permutation_app_comm. apply IHks.
Qed.

Lemma kid_indices_ge Ts : forall base i, In i (kid_indices base Ts) -> base <= i.
Proof.
  induction Ts; intros base i H; simpl in H; [contradiction|].
  destruct H as [<-|H]; [lia|]. apply IHTs in H. lia.
Qed.

Lemma flat_children_gt T : forall base i p j,
  nth_error (flat base T) i = Some p -> In j (p_children p) -> base + i < j.
Proof.
  induction T as [gs ks IH] using tree_ind'. intros base i p j. rewrite flat_node.
  destruct i as [|i]; simpl.
  - intros E H. injection E as <-. simpl in H. apply kid_indices_ge in H. lia.
  - rewrite Nat.add_succ_r. change (S (base + i)) with (S base + i).
    generalize (S base). clear base gs. revert i.
    induction IH as [|k ks Hk _ IHks]; intros i b E H; [destruct i; discriminate|].
    cbn [flats] in E. destruct (Nat.lt_ge_cases i (tree_size k)) as [L|L].
    + rewrite nth_error_app1 in E by (rewrite flat_length; exact L). eapply Hk; eassumption.
    + rewrite nth_error_app2 in E by (rewrite flat_length; exact L).
      rewrite flat_length in E. apply IHks in E; [lia|assumption].
Qed.

Lemma flat_entry_ids T : forall base,
  Permutation (entry_ids (flat base T)) (tree_ids T).
Proof.
  induction T as [gs ks IH] using tree_ind'. intros base. rewrite flat_node.
  unfold entry_ids, tree_ids. cbn [flat_map p_groups post]. rewrite flat_map_app.
  rewrite Permutation_app_comm. apply Permutation_app_tail.
  generalize (S base). clear base gs.
  induction IH as [|k ks Hk _ IHks]; intros b; [constructor|].
  cbn [flats flat_map]. rewrite !flat_map_app. apply Permutation_app; [apply Hk|apply IHks].
Qed.

(** * Tidying keeps the number of mutants *)

Lemma post_entries {M} (t : tree M) : forall anc,
  map (fun x => fst (fst x)) (entries anc t) = post t.
Proof.
  induction t as [ms ks IH] using tree_ind'. intros anc. simpl. rewrite map_app. f_equal.
  - generalize (anc ++ ms). intros a.
    induction IH as [|k ks Hk _ IHks]; simpl; [reflexivity|].
    rewrite map_app, Hk, IHks. reflexivity.
  - rewrite map_map. simpl. apply map_id.
Qed.

Lemma post_tidy {M} (t : tree M) : post (tidy t) = post t.
Proof. rewrite <- (post_entries _ []), tidy_entries. apply post_entries. Qed.

Lemma tree_total_tidy c opt t : tree_total c opt (tidy t) = tree_total c opt t.
Proof. unfold tree_total. rewrite post_tidy. reflexivity. Qed.

(** * Independence of build_tree and of tracking *)

Definition same_effects (s s' : astate) : Prop :=
  List.length (st_nodes s) = List.length (st_nodes s') /\ st_id s = st_id s' /\
  st_edits s = st_edits s' /\ st_decls s = st_decls s'.

Lemma apply_one_bt c o b b' first idx s s' m :
  same_effects s s' ->
  same_effects (apply_one c o b first idx s m) (apply_one c o b' first idx s' m).
Proof.
  intros (L & I & E & D). unfold same_effects. cbn [apply_one st_nodes st_id st_edits st_decls].
  rewrite I, E, D. repeat split.
  destruct (b && _), (b' && _); rewrite ?update_nth_length; exact L.
Qed.

Lemma apply_tree_bt c o b b' first t : forall idx s s',
  same_effects s s' ->
  same_effects (apply_tree c o b first idx t s) (apply_tree c o b' first idx t s').
Proof.
  induction t as [ms ks IH] using tree_ind'. intros idx s s' H. rewrite !apply_tree_node.
  assert (K : same_effects (apply_kids c o b first idx ks s)
                           (apply_kids c o b' first idx ks s')).
  { clear ms. revert s s' H. induction IH as [|k ks Hk _ IHks]; intros s s' H; [exact H|].
    simpl. apply IHks. destruct H as (L & I & E & D). rewrite L. apply Hk.
    unfold same_effects; cbn. rewrite !app_length, !update_nth_length. auto. }
  revert K. generalize (apply_kids c o b first idx ks s) (apply_kids c o b' first idx ks s').
  induction ms as [|m ms IHm]; intros a a' K; [exact K|].
  simpl. apply IHm. apply apply_one_bt. exact K.
Qed.

Lemma apply_mutations_bt c o b b' id t :
  same_effects (apply_mutations c o b id t) (apply_mutations c o b' id t).
Proof. apply apply_tree_bt. repeat split. Qed.

Lemma handle_unit_bt o b b' text u id :
  h_next (handle_unit o b text u id) = h_next (handle_unit o b' text u id) /\
  h_output (handle_unit o b text u id) = h_output (handle_unit o b' text u id).
Proof.
  unfold handle_unit.
  destruct (apply_mutations_bt (ui_ctx u) o b b' id (tidy (ui_tree u))) as (_ & I & E & D).
  rewrite I, E, D. destruct (Nat.eqb _ _); split; reflexivity.
Qed.

Lemma handle_next o b text u id :
  h_next (handle_unit o b text u id) =
  id + tree_total (ui_ctx u) (optimise o) (ui_tree u).
Proof.
  unfold handle_unit. destruct (Nat.eqb _ _); cbn [h_next];
    rewrite apply_mutations_id, tree_total_tidy; reflexivity.
Qed.

Lemma handle_info o text u id :
  h_info (handle_unit o true text u id) =
  if Nat.eqb (tree_total (ui_ctx u) (optimise o) (ui_tree u)) 0 then None
  else Some (flat 0 (group_tree (ui_ctx u) (optimise o) id (tidy (ui_tree u)))).
Proof.
  unfold handle_unit. rewrite apply_mutations_id, tree_total_tidy.
  destruct (Nat.eqb_spec (tree_total (ui_ctx u) (optimise o) (ui_tree u)) 0) as [E|E].
  - rewrite E. replace (Nat.eqb id (id + 0)) with true by (symmetry; apply Nat.eqb_eq; lia).
    reflexivity.
  - replace (Nat.eqb id _) with false by (symmetry; apply Nat.eqb_neq; lia).
    cbn [h_info]. rewrite apply_mutations_nodes. reflexivity.
Qed.

Lemma handle_output o b text u id :
  h_output (handle_unit o b text u id) = None <->
  tree_total (ui_ctx u) (optimise o) (ui_tree u) = 0.
Proof.
  unfold handle_unit. rewrite apply_mutations_id, tree_total_tidy.
  destruct (Nat.eqb_spec id (id + tree_total (ui_ctx u) (optimise o) (ui_tree u))) as [E|E];
    cbn [h_output]; split; intros; try reflexivity; try discriminate; lia.
Qed.
