(* Proofs about ranges that are traced to the main file. *)
From Coq Require Import String List Arith Bool Lia.
From Verif Require Import Macro MacroSpec.
Import ListNotations.

Section Flat.
  Context {A B : Type} (g : A -> list B).
  Notation total k l := (length (flat_map g (firstn k l))).

  Lemma firstn_snoc (l : list A) k e : nth_error l k = Some e ->
    firstn (S k) l = firstn k l ++ [e].
  Proof.
    revert k. induction l as [|x l IH]; intros [|k] H; try discriminate.
    - cbn in *. congruence.
    - change (firstn (S (S k)) (x :: l)) with (x :: firstn (S k) l).
      change (firstn (S k) (x :: l)) with (x :: firstn k l). now rewrite (IH _ H).
  Qed.
  Lemma total_S l k e : nth_error l k = Some e -> total (S k) l = total k l + length (g e).
  Proof.
    intro H. rewrite (firstn_snoc _ _ _ H), flat_map_app, app_length. cbn.
    now rewrite app_nil_r.
  Qed.
  Lemma total_mono l : forall j k, j <= k -> total j l <= total k l.
  Proof.
    intros j k H. induction H as [|k H IH]; [lia|].
    destruct (nth_error l k) as [e|] eqn:E.
    - rewrite (total_S _ _ _ E). lia.
    - apply nth_error_None in E. rewrite (firstn_all2 (n := S k)) by lia.
      rewrite (firstn_all2 (n := k)) in IH by lia. lia.
  Qed.
  Lemma total_all l k : length l <= k -> total k l = length (flat_map g l).
  Proof. intro H. now rewrite firstn_all2. Qed.
  (* a position lies in one element only *)
  Lemma in_one l j k e e' n m p : nth_error l j = Some e -> nth_error l k = Some e' ->
    n < length (g e) -> m < length (g e') -> p = total j l + n -> p = total k l + m ->
    j = k /\ n = m.
  Proof.
    intros E E' N M P Q. pose proof (total_S _ _ _ E). pose proof (total_S _ _ _ E').
    destruct (lt_eq_lt_dec j k) as [[L|L]|L].
    - pose proof (total_mono l (S j) k L). lia.
    - subst. split; [auto|lia].
    - pose proof (total_mono l (S k) j L). lia.
  Qed.
  (* elements i to j give the positions from a up to b *)
  Lemma flat_slice l i j a b : i <= S j -> a = total i l -> S b = total (S j) l -> a <= b ->
    flat_map g (slice i j l) = slice a b (flat_map g l).
  Proof.
    intros IJ EA EB AB. unfold slice.
    set (l1 := firstn i l). set (l2 := firstn (S j - i) (skipn i l)).
    set (l3 := skipn (S j - i) (skipn i l)).
    assert (E : l = l1 ++ l2 ++ l3) by (unfold l1, l2, l3; now rewrite !firstn_skipn).
    assert (E' : firstn (S j) l = l1 ++ l2).
    { unfold l1, l2. replace (S j) with (i + (S j - i)) at 1 by lia.
      clear. revert l. induction i as [|i IH]; intro l; [reflexivity|].
      destruct l as [|x l]; cbn [firstn skipn app Nat.add]; [now rewrite !firstn_nil|].
      replace (S j - S i) with (j - i) by lia. f_equal.
      specialize (IH l). clear -IH.
      rewrite firstn_skipn_comm.
      replace (firstn i l) with (firstn i (firstn (i + (j - i)) l))
        by (rewrite firstn_firstn; f_equal; lia).
      now rewrite firstn_skipn. }
    fold l1 in EA. rewrite E' in EB. rewrite E, !flat_map_app.
    rewrite flat_map_app, app_length in EB.
    rewrite skipn_app, (skipn_all2 (flat_map g l1)) by lia.
    replace (a - length (flat_map g l1)) with 0 by lia. cbn [skipn app].
    rewrite firstn_app, firstn_all2 by lia.
    replace (S b - a - length (flat_map g l2)) with 0 by lia. cbn [firstn].
    now rewrite app_nil_r.
  Qed.
  Lemma flat_split l i :
    flat_map g l = flat_map g (firstn i l) ++ flat_map g (skipn i l).
  Proof. now rewrite <- flat_map_app, firstn_skipn. Qed.
  Lemma flat_firstn l i : flat_map g (firstn i l) = firstn (total i l) (flat_map g l).
  Proof.
    rewrite (flat_split l i), firstn_app, (firstn_all2 (flat_map g (firstn i l))) by lia.
    rewrite Nat.sub_diag. cbn. now rewrite app_nil_r.
  Qed.
  Lemma flat_skipn l i : flat_map g (skipn i l) = skipn (total i l) (flat_map g l).
  Proof.
    rewrite (flat_split l i), skipn_app, (skipn_all2 (flat_map g (firstn i l))) by lia.
    rewrite Nat.sub_diag. reflexivity.
  Qed.
End Flat.

Lemma inside e p n : in_expansion e p n -> n < length (tokens_of e).
Proof.
  induction 1 as [s b|body k e p n E _ IH|ts j L]; cbn.
  - lia.
  - pose proof (total_S tokens_of body k e E).
    pose proof (total_mono tokens_of body (S k) (length body)) as M.
    assert (k < length body) by (apply nth_error_Some; congruence).
    rewrite (total_all tokens_of body (length body)) in M by lia. specialize (M H0). lia.
  - now rewrite map_length.
Qed.

Lemma location_unique e p n : in_expansion e p n -> forall q, in_expansion e q n -> p = q.
Proof.
  induction 1 as [s b|body k e p n E I IH|ts j L]; intros q Q; inversion Q as [|body' k' e' q' n' E' I'|]; subst; auto.
  pose proof (inside _ _ _ I) as X. pose proof (inside _ _ _ I') as Y.
  destruct (in_one tokens_of body k k' e e' n n' _ E E' X Y eq_refl) as [<- <-]; [congruence|].
  assert (e = e') by congruence. subst. now rewrite (IH _ I').
Qed.

Lemma start_first e p n : in_expansion e p n -> at_start p = true -> n = 0.
Proof.
  induction 1 as [s b|body k e p n E I IH|ts j L]; cbn; intro S; auto.
  - apply andb_true_iff in S as [K S]. apply Nat.eqb_eq in K as ->. cbn. auto.
  - rewrite andb_true_r in S. now apply Nat.eqb_eq in S.
Qed.

Definition ends_at (e : expansion) (p : list nat) : bool :=
  match e with
  | Token _ _ => true
  | Nested body => at_end body p
  | Argument ts => match p with [] => true | j :: _ => S j =? length ts end
  end.
Lemma at_end_unfold body k p : at_end body (k :: p) =
  (S k =? length body) && match nth_error body k with Some e => ends_at e p | None => true end.
Proof. cbn. destruct (nth_error body k) as [[]|]; reflexivity. Qed.

Lemma end_last e p n : in_expansion e p n -> ends_at e p = true -> S n = length (tokens_of e).
Proof.
  induction 1 as [s b|body k e p n E I IH|ts j L]; intro S.
  - reflexivity.
  - cbn [ends_at] in S. rewrite at_end_unfold, E in S. apply andb_true_iff in S as [K S].
    apply Nat.eqb_eq in K. specialize (IH S). cbn [tokens_of].
    pose proof (total_S tokens_of body k e E) as T. rewrite K, total_all in T by lia. lia.
  - cbn [ends_at tokens_of] in *. rewrite map_length. now apply Nat.eqb_eq in S.
Qed.

Definition scratch_of (e : expansion) (p : list nat) : bool :=
  match e with
  | Token _ b => b
  | Nested body => scratch_at body p
  | Argument ts => match p with
                   | j :: _ => match nth_error ts j with Some (_, b) => b | None => false end
                   | [] => false
                   end
  end.
Lemma scratch_unfold body k p : scratch_at body (k :: p) =
  match nth_error body k with Some e => scratch_of e p | None => false end.
Proof. cbn. destruct (nth_error body k) as [[]|]; reflexivity. Qed.

(* The first token of an expansion that begins plainly *)
Lemma begins_path e : begins_plainly e ->
  exists p, in_expansion e p 0 /\ at_start p = true /\ scratch_of e p = false.
Proof.
  induction 1 as [s|e body B IH|s ts].
  - exists []. repeat split. constructor.
  - destruct IH as (p & I & S & N). exists (0 :: p). repeat split.
    + apply (in_nested (e :: body) 0 e p 0 eq_refl I).
    + cbn [at_start]. now rewrite S.
    + cbn [scratch_of]. now rewrite scratch_unfold.
  - exists [0]. repeat split. constructor. cbn. lia.
Qed.
Lemma ends_path e : ends_plainly e ->
  exists p, in_expansion e p (length (tokens_of e) - 1) /\ ends_at e p = true /\
    scratch_of e p = false.
Proof.
  induction 1 as [s|e body B IH|s ts].
  - exists []. repeat split. constructor.
  - destruct IH as (p & I & S & N). exists (length body :: p).
    assert (E : nth_error (body ++ [e]) (length body) = Some e)
      by (rewrite nth_error_app2, Nat.sub_diag by lia; reflexivity).
    repeat split.
    + pose proof (in_nested _ _ _ _ _ E I) as J. pose proof (inside _ _ _ I).
      replace (length (tokens_of (Nested (body ++ [e]))) - 1) with
        (length (flat_map tokens_of (firstn (length body) (body ++ [e]))) +
         (length (tokens_of e) - 1)); [exact J|].
      rewrite firstn_app, Nat.sub_diag, firstn_all. cbn.
      rewrite app_nil_r, flat_map_app, app_length. cbn. rewrite app_nil_r. lia.
    + cbn [ends_at]. rewrite at_end_unfold, E, S, app_length. cbn [length].
      rewrite andb_true_r. apply Nat.eqb_eq. lia.
    + cbn [scratch_of]. now rewrite scratch_unfold, E.
  - exists [length ts]. cbn [tokens_of]. rewrite map_length, app_length. cbn [length].
    replace (length ts + 1 - 1) with (length ts) by lia. repeat split.
    + constructor. rewrite app_length. cbn. lia.
    + cbn [ends_at]. rewrite app_length. cbn [length]. apply Nat.eqb_eq. lia.
    + cbn [scratch_of]. rewrite nth_error_app2, Nat.sub_diag by lia. reflexivity.
Qed.

(* ... and the converse *)
Lemma path_begins e p n : in_expansion e p n -> at_start p = true -> scratch_of e p = false ->
  begins_plainly e.
Proof.
  induction 1 as [s b|body k e p n E I IH|ts j L]; intros S N.
  - cbn in N. subst. constructor.
  - cbn [at_start] in S. apply andb_true_iff in S as [K S]. apply Nat.eqb_eq in K as ->.
    cbn [scratch_of] in N. rewrite scratch_unfold, E in N.
    destruct body as [|e' body]; cbn in E; [discriminate|]. injection E as ->.
    constructor. auto.
  - cbn [at_start scratch_of] in *. rewrite andb_true_r in S. apply Nat.eqb_eq in S as ->.
    destruct ts as [|[s b] ts]; cbn in *; [lia|]. subst. constructor.
Qed.
Lemma last_element {A} (l : list A) k e : nth_error l k = Some e -> S k = length l ->
  l = firstn k l ++ [e].
Proof. intros E L. rewrite <- (firstn_snoc _ _ _ E), L. symmetry. apply firstn_all. Qed.
Lemma path_ends e p n : in_expansion e p n -> ends_at e p = true -> scratch_of e p = false ->
  ends_plainly e.
Proof.
  induction 1 as [s b|body k e p n E I IH|ts j L]; intros S N.
  - cbn in N. subst. constructor.
  - cbn [ends_at] in S. rewrite at_end_unfold, E in S. apply andb_true_iff in S as [K S].
    apply Nat.eqb_eq in K. cbn [scratch_of] in N. rewrite scratch_unfold, E in N.
    rewrite (last_element _ _ _ E K). constructor. auto.
  - cbn [ends_at scratch_of] in *. apply Nat.eqb_eq in S. destruct (nth_error ts j) as [[s b]|] eqn:E.
    + subst b. rewrite (last_element _ _ _ E S). constructor.
    + apply nth_error_None in E. lia.
Qed.

Lemma denotes_inside f l n : denotes f l n -> exists i m, nth_error f (l_item l) = Some i /\
  n = length (preprocess (firstn (l_item l) f)) + m /\ m < length (item_tokens i).
Proof.
  intros (i & m & E & N & H). exists i, m. repeat split; auto. destruct i as [b s|b body].
  - destruct H as [_ ->]. cbn. lia.
  - apply inside in H. exact H.
Qed.

Lemma denotes_unique f l l' n : denotes f l n -> denotes f l' n -> l = l'.
Proof.
  intros D D'. destruct (denotes_inside _ _ _ D) as (i & m & E & N & M).
  destruct (denotes_inside _ _ _ D') as (i' & m' & E' & N' & M').
  destruct (in_one item_tokens f _ _ _ _ _ _ _ E E' M M' N N') as [I1 I2].
  destruct D as (i1 & m1 & F1 & G1 & H1), D' as (i2 & m2 & F2 & G2 & H2).
  destruct l as [k p], l' as [k' p']. cbn in *. subst k'. f_equal.
  assert (i1 = i2) by congruence. subst i2. assert (m1 = m2) by lia. subst m2.
  destruct i1 as [b s|b body].
  - destruct H1, H2. congruence.
  - eapply location_unique; eauto.
Qed.

Lemma begin_found f l a i : denotes f l a ->
  (extreme_in_main f l true = Some i <->
   exists it, nth_error f i = Some it /\ written_in_main it = true /\ starts_well it /\
     a = length (preprocess (firstn i f))).
Proof.
  intro D. split.
  - intro H. destruct D as (it & m & E & N & P). unfold extreme_in_main in H. rewrite E in H.
    destruct it as [b s|b body].
    + destruct b; [|discriminate]. injection H as <-. exists (Plain true s).
      destruct P as [_ ->]. repeat split; auto. lia.
    + destruct (scratch_at body (l_path l)) eqn:X; [discriminate|].
      destruct (at_start (l_path l)) eqn:Y; [|discriminate].
      destruct b; [|discriminate]. injection H as <-. exists (Invocation true body).
      repeat split; auto.
      * cbn. eapply path_begins; eauto.
      * rewrite (start_first _ _ _ P Y) in N. lia.
  - intros (it & E & W & S & A).
    assert (F : exists l', denotes f l' a /\ extreme_in_main f l' true = Some i).
    { destruct it as [b s|b body]; cbn in W; subst b.
      - exists {| l_item := i; l_path := [] |}. split.
        + exists (Plain true s), 0. cbn [l_item l_path]. repeat split; auto. lia.
        + unfold extreme_in_main. cbn. now rewrite E.
      - destruct (begins_path _ S) as (p & I & Z & X).
        exists {| l_item := i; l_path := p |}. split.
        + exists (Invocation true body), 0. cbn [l_item l_path]. repeat split; auto. lia.
        + unfold extreme_in_main. cbn [l_item l_path]. rewrite E.
          cbn [scratch_of] in X. now rewrite X, Z. }
    destruct F as (l' & D' & H). now rewrite (denotes_unique _ _ _ _ D D').
Qed.

Lemma end_found f l b j : denotes f l b ->
  (extreme_in_main f l false = Some j <->
   exists it, nth_error f j = Some it /\ written_in_main it = true /\ ends_well it /\
     S b = length (preprocess (firstn (S j) f))).
Proof.
  intro D. split.
  - intro H. destruct D as (it & m & E & N & P). unfold extreme_in_main in H. rewrite E in H.
    destruct it as [b' s|b' body].
    + destruct b'; [|discriminate]. injection H as <-. exists (Plain true s).
      destruct P as [_ ->]. repeat split; auto. unfold preprocess.
      rewrite (total_S item_tokens f _ _ E). cbn. unfold preprocess in N. lia.
    + destruct (scratch_at body (l_path l)) eqn:X; [discriminate|].
      destruct (at_end body (l_path l)) eqn:Y; [|discriminate].
      destruct b'; [|discriminate]. injection H as <-. exists (Invocation true body).
      repeat split; auto.
      * cbn. eapply path_ends; eauto.
      * unfold preprocess in *. rewrite (total_S item_tokens f _ _ E). cbn [item_tokens].
        pose proof (end_last _ _ _ P Y) as L. cbn [tokens_of] in L. lia.
  - intros (it & E & W & S & A). unfold preprocess in A.
    rewrite (total_S item_tokens f _ _ E) in A.
    assert (F : exists l', denotes f l' b /\ extreme_in_main f l' false = Some j).
    { destruct it as [b' s|b' body]; cbn in W; subst b'.
      - exists {| l_item := j; l_path := [] |}. split.
        + exists (Plain true s), 0. cbn in *. repeat split; auto. unfold preprocess. lia.
        + unfold extreme_in_main. cbn. now rewrite E.
      - destruct (ends_path _ S) as (p & I & Z & X). pose proof (inside _ _ _ I).
        exists {| l_item := j; l_path := p |}. split.
        + exists (Invocation true body), (length (tokens_of (Nested body)) - 1).
          cbn [l_item l_path]. repeat split; auto. unfold preprocess.
          cbn [item_tokens] in A. cbn [tokens_of] in *. lia.
        + unfold extreme_in_main. cbn [l_item l_path]. rewrite E.
          cbn [scratch_of] in X. cbn [ends_at] in Z. now rewrite X, Z. }
    destruct F as (l' & D' & H). now rewrite (denotes_unique _ _ _ _ D D').
Qed.

Lemma range_found f l l' a b i j : denotes f l a -> denotes f l' b ->
  (range_in_main f l l' = Some (i, j) <-> at_items f i j a b).
Proof.
  intros D D'. unfold range_in_main, at_items.
  pose proof (begin_found f l a i D) as B. pose proof (end_found f l' b j D') as E.
  split.
  - destruct (extreme_in_main f l true) as [x|]; [|discriminate].
    destruct (extreme_in_main f l' false) as [y|]; [|discriminate].
    intro H. injection H as -> ->.
    destruct (proj1 B eq_refl) as (it & ? & ? & ? & ?).
    destruct (proj1 E eq_refl) as (it' & ? & ? & ? & ?). eauto 10.
  - intros ((it & ? & ? & ?) & (it' & ? & ? & ?) & ? & ?).
    rewrite (proj2 B), (proj2 E); eauto 10.
Qed.

Lemma items_order f i j a b : at_items f i j a b -> a <= b -> i <= j /\ j < length f.
Proof.
  intros (_ & (it & E & _) & -> & B) L. split; [|apply nth_error_Some; congruence].
  destruct (le_lt_dec i j) as [|G]; [auto|].
  pose proof (total_mono item_tokens f (S j) i G). unfold preprocess in *. lia.
Qed.

Lemma items_exact f i j a b : at_items f i j a b -> a <= b ->
  preprocess (slice i j f) = slice a b (preprocess f).
Proof.
  intros H L. destruct (items_order _ _ _ _ _ H L). destruct H as (_ & _ & A & B).
  unfold preprocess. apply flat_slice; auto; lia.
Qed.

Lemma items_wrap f i j a b before after : at_items f i j a b -> a <= b ->
  preprocess (wrap i j before after f) =
  wrap a b (preprocess before) (preprocess after) (preprocess f).
Proof.
  intros H L. pose proof (items_exact _ _ _ _ _ H L) as X. destruct H as (_ & _ & A & B).
  unfold wrap, preprocess in *. rewrite !flat_map_app, X.
  now rewrite (flat_firstn item_tokens f i), (flat_skipn item_tokens f (S j)), <- A, <- B.
Qed.

Lemma begins_some e : begins_plainly e -> 0 < length (tokens_of e).
Proof. intro H. destruct (begins_path _ H) as (p & I & _). eapply inside; eauto. Qed.
Lemma ends_some e : ends_plainly e -> 0 < length (tokens_of e).
Proof. intro H. destruct (ends_path _ H) as (p & I & _). apply inside in I. lia. Qed.

Lemma items_bounds f i j a b : at_items f i j a b ->
  S a <= length (preprocess (firstn (S i) f)) /\ length (preprocess (firstn j f)) <= b.
Proof.
  intros ((it & E & _ & S) & (it' & E' & _ & S') & A & B). unfold preprocess in *.
  rewrite (total_S item_tokens f _ _ E). rewrite (total_S item_tokens f _ _ E') in B.
  assert (0 < length (item_tokens it))
    by (destruct it as [x s|x body]; [cbn; lia|exact (begins_some _ S)]).
  assert (0 < length (item_tokens it'))
    by (destruct it' as [x s|x body]; [cbn; lia|exact (ends_some _ S')]).
  lia.
Qed.

Lemma items_nested f i j a b i' j' a' b' : at_items f i j a b -> at_items f i' j' a' b' ->
  a' <= a -> b <= b' -> i' <= i /\ j <= j'.
Proof.
  intros H H' LA LB. destruct (items_bounds _ _ _ _ _ H) as [X Y].
  destruct H as (_ & _ & A & B), H' as (_ & _ & A' & B'). unfold preprocess in *. split.
  - destruct (le_lt_dec i' i) as [|G]; [auto|].
    pose proof (total_mono item_tokens f (S i) i' G). lia.
  - destruct (le_lt_dec j j') as [|G]; [auto|].
    pose proof (total_mono item_tokens f (S j') j G). lia.
Qed.

Lemma items_disjoint f i j a b i' j' a' b' : at_items f i j a b -> at_items f i' j' a' b' ->
  b < a' -> j < i'.
Proof.
  intros H H' LA. destruct (items_bounds _ _ _ _ _ H) as [X Y].
  destruct H as (_ & _ & A & B), H' as (_ & _ & A' & B'). unfold preprocess in *.
  destruct (le_lt_dec i' j) as [G|]; [|auto].
  pose proof (total_mono item_tokens f i' j G). lia.
Qed.
