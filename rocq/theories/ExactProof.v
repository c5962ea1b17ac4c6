(* Exactly the eligible expressions are mutated. *)
From Coq Require Import List Bool Arith ZArith Lia Permutation.
From Verif Require Import Base Clang Gen GenExpr GenBinary GenUnary GenStmt Mutation MutTree
  TreeSpec Sites Visitor VisitorSpec VisitorProof ExactSpec.
Import ListNotations.

(* ---- What visit_expr accepts ------------------------------------------------------------ *)
Lemma child_iff r ks c : child r ks = Some c <-> has_child ks r c.
Proof.
  unfold child, has_child. induction ks as [|[r0 c0] ks IH]; cbn.
  - split; [discriminate|]. intros (b & a & E & _). destruct b; discriminate.
  - destruct (role_eqb_spec r0 r) as [Hr|Hr]; cbn.
    + subst r0. split.
      * intros E. injection E as <-. exists [], ks. split; [reflexivity|]. intros r' c' [].
      * intros (b & a & E & Hb). destruct b as [|[r1 c1] b]; cbn in E; inversion E; subst.
        -- reflexivity.
        -- exfalso. eapply Hb; [now left | reflexivity].
    + rewrite IH. split.
      * intros (b & a & -> & Hb). exists ((r0, c0) :: b), a. split; [reflexivity|].
        intros r' c' [E | H]; [congruence | eauto].
      * intros (b & a & E & Hb). destruct b as [|[r1 c1] b]; cbn in E; inversion E; subst.
        -- congruence.
        -- exists b, a. split; [reflexivity|]. intros r' c' H. apply (Hb r' c'). now right.
Qed.

Lemma child_fun ks r c c' : has_child ks r c -> has_child ks r c' -> c = c'.
Proof. rewrite <- !child_iff. congruence. Qed.

Lemma in_function_iff up : in_function up = true <-> inside_function up.
Proof.
  split; [apply in_function_inside|].
  intros (inner & f & outer & c & mk & -> & Hf & Hall).
  induction inner as [|g inner IH]; cbn; [now rewrite Hf|].
  inversion Hall; subst. destruct (fr_kind g) as [| |[]|]; try contradiction; now apply IH.
Qed.

Lemma operand_iff r ks :
  child_supported r ks = true /\ child_in_main r ks = true <-> good_operand ks r.
Proof.
  unfold child_supported, child_in_main, good_operand. split.
  - intros [H1 H2]. destruct (child r ks) as [[[|e x| |] i ks']|] eqn:E; try discriminate.
    exists e, x, i, ks'. apply child_iff in E. auto.
  - intros (e & x & i & ks' & Hc & Hs & Hm). apply child_iff in Hc. rewrite Hc. auto.
Qed.

Lemma adl_iff up : parent_is is_adl_call up = true <-> under_adl_call up.
Proof.
  split.
  - destruct up as [|[k r] up]; [discriminate|]. cbn.
    destruct k as [|[]| |]; try discriminate. cbn. intros ->. constructor.
  - intros []. reflexivity.
Qed.

Lemma lookup_iff e x up ks :
  may_affect_adl (KExpr e x) up ks = true <-> lookup_sensitive e up ks.
Proof.
  unfold may_affect_adl. rewrite orb_true_iff, !andb_true_iff, orb_true_iff. split.
  - intros [[[Hi Hs] Hp] | [Hm Hp]].
    + apply adl_iff in Hp. destruct e; try discriminate. destruct implicit; try discriminate.
      destruct Hs as [Hs | Hs].
      * apply sensitive_type; [exact Hp|]. intros y (e & i & ks' & Hc).
        apply child_iff in Hc. unfold child_supported in Hs. rewrite Hc in Hs.
        now destruct (x_supported y).
      * destruct (child RSub ks) as [[[|[]| |] i ks']|] eqn:E; try discriminate.
        apply child_iff in E. eapply sensitive_converted; eauto.
    + destruct e; try discriminate. destruct (parent_is is_implicit_cast up) eqn:Hc.
      * destruct up as [|[k r] up]; [discriminate|]. cbn in Hc, Hp.
        destruct k as [|[]| |]; try discriminate. destruct implicit; try discriminate.
        apply adl_iff in Hp. now constructor.
      * apply adl_iff in Hp. now constructor.
  - intros H. inversion H as [d up' ks' Ha Hx|d up' ks' y i ks2 Ha Hc|up' ks' Ha|d y r up' ks' Ha];
      subst.
    + left. split; [split; [reflexivity|]|now apply adl_iff]. left.
      unfold child_supported. destruct (child RSub ks) as [[[|e y| |] i ks']|] eqn:E;
        try reflexivity.
      apply child_iff in E. rewrite (Hx y); [reflexivity|]. now exists e, i, ks'.
    + left. split; [split; [reflexivity|]|now apply adl_iff]. right.
      apply child_iff in Hc. now rewrite Hc.
    + right. split; [reflexivity|]. destruct (parent_is is_implicit_cast up) eqn:Hc.
      * destruct Ha. discriminate.
      * now apply adl_iff.
    + right. split; [reflexivity|]. cbn. now apply adl_iff.
Qed.

Lemma known_iff e (z : bool) : equivalent_to e (if z then 0 else 1)%Z = true <-> known e z.
Proof.
  unfold equivalent_to, equivalent_to_int, equivalent_to_float, known.
  rewrite orb_true_iff, !andb_true_iff. split.
  - intros [[H1 H2] | [H1 H2]]; [left | right]; (split; [exact H1|]).
    + destruct (e_int e); [|discriminate]. apply Z.eqb_eq in H2. now subst.
    + destruct (e_float e) as [[]|]; destruct z; cbn in H2; congruence.
  - intros [[H1 H2] | [H1 H2]]; [left | right]; (split; [exact H1|]); rewrite H2.
    + apply Z.eqb_refl.
    + now destruct z.
Qed.

Lemma known_not e (z : bool) : equivalent_to e (if z then 0 else 1)%Z = false <-> ~ known e z.
Proof. rewrite <- known_iff. destruct (equivalent_to _ _); intuition congruence. Qed.

Lemma unary_iff opt u ks :
  handle_unary opt u ks = true <-> unary_replaceable opt u ks.
Proof.
  pose proof (known_not (u_sub u) true) as K0. pose proof (known_not (u_sub u) false) as K1.
  cbn in K0, K1.
  unfold handle_unary. rewrite andb_true_iff. split.
  - intros [Hs H]. unfold unary_site in H.
    destruct (child_in_main RSub ks) eqn:Hm; [|discriminate]. cbn [negb] in H.
    destruct (uop_eqb (u_op u) Plus) eqn:Hp; [discriminate|].
    destruct (is_incdec (u_op u) && e_bitfield (u_sub u)) eqn:Hb; [discriminate|].
    destruct (opt && (uop_eqb (u_op u) Minus && equivalent_to (u_sub u) 1)) eqn:H1;
      [discriminate|].
    destruct (opt && _) eqn:H2 in H; [discriminate|].
    split.
    + apply operand_iff. auto.
    + intros E. rewrite E in Hp. discriminate.
    + intros E. rewrite E, andb_true_r in Hb. destruct (u_op u); try discriminate;
        repeat split; discriminate.
    + intros -> E. rewrite E in H1. cbn in H1. now apply K1.
    + intros -> E. rewrite E in H2. cbn in H2. apply orb_false_iff in H2 as [H2 H3].
      split; [now apply K0 | now apply K1].
  - intros [H1 H2 H3 H4 H5]. apply operand_iff in H1 as [Hs Hm]. split; [exact Hs|].
    unfold unary_site. rewrite Hm. cbn [negb].
    replace (uop_eqb (u_op u) Plus) with false
      by (destruct (u_op u); try reflexivity; congruence).
    replace (is_incdec (u_op u) && e_bitfield (u_sub u)) with false.
    2: { destruct (e_bitfield (u_sub u)); [|now rewrite andb_false_r].
         destruct (H3 eq_refl) as (A & B & C & D). destruct (u_op u); try reflexivity; congruence. }
    destruct opt; [|reflexivity]. cbn [andb].
    replace (uop_eqb (u_op u) Minus && equivalent_to (u_sub u) 1) with false.
    2: { destruct (u_op u) eqn:E; try reflexivity. cbn. symmetry. apply K1. auto. }
    destruct (u_op u) eqn:E; try reflexivity. cbn.
    destruct (H5 eq_refl eq_refl) as [A B]. apply K0 in A. apply K1 in B. now rewrite A, B.
Qed.

Lemma assign_in o : is_assign o = true <->
  In o [Assign; MulAssign; DivAssign; RemAssign; AddAssign; SubAssign;
        ShlAssign; ShrAssign; AndAssign; XorAssign; OrAssign].
Proof.
  split.
  - destruct o; try discriminate; cbn; intros _; tauto.
  - cbn. intros H. repeat (destruct H as [<- | H]; [reflexivity|]). destruct H.
Qed.

Lemma binary_iff opt b ks :
  handle_binary opt b ks = true <-> binary_replaceable opt b ks.
Proof.
  pose proof (known_iff (b_lhs b) true) as K0. pose proof (known_iff (b_rhs b) false) as K1.
  cbn in K0, K1.
  unfold handle_binary. rewrite !andb_true_iff. split.
  - intros [[Hs1 Hs2] H]. unfold binary_site in H.
    destruct (child_in_main RLhs ks) eqn:Hm1; [|discriminate].
    destruct (child_in_main RRhs ks) eqn:Hm2; [|discriminate]. cbn [negb orb] in H.
    destruct (is_assign (b_op b) && e_bitfield (b_lhs b)) eqn:Hb; [discriminate|].
    destruct (bop_eqb (b_op b) Comma) eqn:Hc; [discriminate|].
    destruct (opt && _) eqn:H2 in H; [discriminate|].
    split.
    + apply operand_iff. auto.
    + apply operand_iff. auto.
    + intros E. rewrite E, andb_true_r in Hb. rewrite <- assign_in. congruence.
    + intros E. rewrite E in Hc. discriminate.
    + intros -> [A B]. apply K0 in A. apply K1 in B. rewrite A, B in H2. discriminate.
  - intros [H1 H2 H3 H4 H5]. apply operand_iff in H1 as [Hs1 Hm1].
    apply operand_iff in H2 as [Hs2 Hm2]. split; [auto|].
    unfold binary_site. rewrite Hm1, Hm2. cbn [negb orb].
    replace (is_assign (b_op b) && e_bitfield (b_lhs b)) with false.
    2: { destruct (e_bitfield (b_lhs b)); [|now rewrite andb_false_r].
         specialize (H3 eq_refl). rewrite <- assign_in in H3.
         destruct (is_assign (b_op b)); [now exfalso; apply H3 | reflexivity]. }
    replace (bop_eqb (b_op b) Comma) with false.
    2: { unfold bop_eqb. now destruct (bop_eq_dec (b_op b) Comma). }
    destruct opt; [|reflexivity]. cbn [andb].
    destruct (equivalent_to (b_lhs b) 0) eqn:A; [|reflexivity].
    destruct (equivalent_to (b_rhs b) 1) eqn:B; [|reflexivity].
    exfalso. apply (H5 eq_refl). split; [now apply K0 | now apply K1].
Qed.

Lemma under_cast_iff up x : cast_parent up = Some x <-> under_cast up x.
Proof.
  split.
  - destruct up as [|[k r] up]; [discriminate|]. cbn.
    destruct k as [|[]| |]; try discriminate. intros E. injection E as ->.
    eexists _, _, _, _. reflexivity.
  - intros (im & d & r & up' & ->). reflexivity.
Qed.

Lemma under_iff (f : kind -> bool) up :
  parent_is f up = true <-> exists k, under k up /\ f k = true.
Proof.
  split.
  - destruct up as [|[k r] up]; [discriminate|]. cbn. intros H. exists k.
    split; [|exact H]. now exists r, up.
  - intros (k & (r & up' & ->) & H). exact H.
Qed.

Lemma guard (c b : bool) : (if c then false else b) = true <-> c = false /\ b = true.
Proof. destruct c; intuition congruence. Qed.

Lemma not_true (b : bool) : b = false <-> ~ b = true.
Proof. destruct b; intuition congruence. Qed.

Lemma replaceable_iff opt e x up ks :
  handle_expr opt (KExpr e x) x up ks = true <-> replaceable opt e x up ks.
Proof.
  unfold handle_expr. rewrite !guard. split.
  - intros (H1 & H2 & H3 & H4 & H5 & H6 & H7 & _). split.
    + intros E. rewrite E in H1. cbn in H1. apply negb_false_iff in H1.
      unfold can_mutate_lvalue in H1. apply guard in H1 as [A B]. apply guard in B as [B C].
      apply orb_false_iff in A as [A A']. repeat split; auto.
      destruct (e_cast_parent_lvalue (x_expr x)) as [[]|]; try discriminate. reflexivity.
    + intros ->. discriminate.
    + intros p Hp Hq. apply under_cast_iff in Hp. rewrite Hp, Hq, andb_true_r in H3. exact H3.
    + intros d y z i ks' -> Hu Hc. unfold enum_to_constructor in H4.
      apply child_iff in Hc. rewrite Hc in H4.
      assert (Hp : parent_is is_construct up = true) by (apply under_iff; eauto).
      rewrite Hp in H4. discriminate.
    + intros im d y s -> Hu (e' & i' & ks' & Hc). apply child_iff in Hc. rewrite Hc in H5.
      assert (Hp : parent_is is_materialize up = true) by (apply under_iff; eauto).
      rewrite Hp, andb_true_r in H5. exact H5.
    + intros -> p Hp Hi E. apply under_cast_iff in Hp. rewrite Hp, Hi, E in H6.
      rewrite eqb_reflx in H6. discriminate.
    + intros ->. cbn in H7. apply orb_false_iff in H7 as [A B].
      repeat split; intros Hu; [apply (proj1 (not_true _) A) |
        apply (proj1 (not_true _) B) | apply (proj1 (not_true _) B)];
        apply under_iff; eauto.
  - intros [R1 R2 R3 R4 R5 R6 R7]. repeat split.
    + destruct (e_lvalue (x_expr x)); [|reflexivity].
      destruct (R1 eq_refl) as (A & B & C & D). unfold can_mutate_lvalue.
      now rewrite A, B, C, D.
    + destruct e; try reflexivity. congruence.
    + apply not_true. intros H. apply andb_true_iff in H as [A B].
      destruct (cast_parent up) as [p|] eqn:Hp; [|discriminate].
      apply under_cast_iff in Hp. rewrite (R3 p Hp B) in A. discriminate.
    + apply not_true. intros H. unfold enum_to_constructor in H.
      apply andb_true_iff in H as [H C]. apply andb_true_iff in H as [A B].
      destruct e; try discriminate. destruct implicit; try discriminate.
      apply under_iff in B as (k & Hu & Hk). destruct k as [|[]| |]; try discriminate.
      destruct (child RSub ks) as [[[|[]| |] i ks']|] eqn:E; try discriminate.
      apply child_iff in E. eapply R4; eauto.
    + apply not_true. intros H. apply andb_true_iff in H as [H C].
      apply andb_true_iff in H as [A B].
      destruct e; try discriminate.
      apply under_iff in C as (k & Hu & Hk). destruct k as [|[]| |]; try discriminate.
      destruct (child RSub ks) as [[[|e y| |] i ks']|] eqn:E; try discriminate.
      apply child_iff in E. rewrite (R5 _ _ _ y eq_refl Hu) in B; [discriminate|].
      now exists e, i, ks'.
    + destruct opt; [|reflexivity]. cbn [andb]. apply not_true. intros H.
      destruct (cast_parent up) as [p|] eqn:Hp; [|discriminate].
      apply andb_true_iff in H as [A B]. apply under_cast_iff in Hp.
      apply negb_true_iff in B. apply (R6 eq_refl p Hp B). now apply eqb_prop.
    + destruct opt; [|reflexivity]. cbn [andb]. destruct (R7 eq_refl) as (A & B & C).
      apply orb_false_iff. split; apply not_true; intros H;
        apply under_iff in H as (k & Hu & Hk); destruct k as [[]| | |]; try discriminate;
        contradiction.
Qed.

(* The operator that is replaced at the node *)
Definition own_operator (opt : bool) (e : expr_kind) (i : info) (ks : list (role * node))
  (m : mutation) : Prop :=
  match e with
  | EUnary u sub => unary_replaceable opt u ks /\ m = MutUnary u (n_loc i) sub
  | EBinary b lhs rhs => binary_replaceable opt b ks /\ m = MutBinary b (n_loc i) lhs rhs
  | _ => False
  end.

Lemma visit_expr_iff opt vars up n m :
  In m (visit_expr opt vars up n) <->
  exists e x i ks, n = Ast (KExpr e x) i ks /\ ~ In (n_begin i) vars /\
    eligible opt e x i up ks /\
    (own_operator opt e i ks m \/
     (replaceable opt e x up ks /\ m = MutExpr (x_expr x) (n_loc i))).
Proof.
  destruct n as [[|e x| |] i ks]; cbn [visit_expr];
    try (split; [intros [] | intros (? & ? & ? & ? & E & _); discriminate]).
  assert (Hvars : existsb (Nat.eqb (n_begin i)) vars = false <-> ~ In (n_begin i) vars).
  { rewrite not_true. rewrite existsb_exists. split.
    - intros H Hin. apply H. exists (n_begin i). split; [exact Hin | apply Nat.eqb_refl].
    - intros H (y & Hy & E). apply Nat.eqb_eq in E. now subst. }
  assert (Hwhen : forall (b : bool) (y : mutation), In m (when b [y]) <-> b = true /\ m = y).
  { intros [] y; cbn; intuition congruence. }
  assert (Hop : In m match e with
           | EUnary u info_sub =>
               when (handle_unary opt u ks) [MutUnary u (n_loc i) info_sub]
           | EBinary b info_lhs info_rhs =>
               when (handle_binary opt b ks) [MutBinary b (n_loc i) info_lhs info_rhs]
           | _ => []
           end <-> own_operator opt e i ks m).
  { destruct e; cbn [own_operator]; try reflexivity; rewrite Hwhen.
    - now rewrite unary_iff.
    - now rewrite binary_iff. }
  assert (Hg : forall (c : bool) (l : list mutation),
            In m (if c then [] else l) <-> c = false /\ In m l).
  { intros [] l; cbn; intuition congruence. }
  rewrite !Hg, in_app_iff, Hwhen, Hop, replaceable_iff, Hvars, !negb_false_iff.
  rewrite in_function_iff, (not_true (may_affect_adl _ _ _)), lookup_iff.
  rewrite (not_true (may_depend_on_temporary _)), may_depend_refers.
  assert (Hw : opt && match e with EParen | ECleanups => true | _ => false end = false <->
               (opt = true -> e <> EParen /\ e <> ECleanups)).
  { destruct opt; cbn; [|split; [discriminate | reflexivity]].
    destruct e; split; intros H; try reflexivity; try (intros _; split; discriminate);
      try discriminate; destruct (H eq_refl); congruence. }
  rewrite Hw. split.
  - intros (A & B & C & D & E & F & G & H & R). exists e, x, i, ks.
    split; [reflexivity|]. split; [exact C|]. split; [now constructor | exact R].
  - intros (e' & x' & i' & ks' & E & C & [] & R). injection E as <- <- <- <-. tauto.
Qed.

Lemma visit_expr_vars opt vars up n m :
  In m (visit_expr opt vars up n) <->
  ~ In (n_begin (node_info n)) vars /\ In m (visit_expr opt [] up n).
Proof.
  rewrite !visit_expr_iff. split.
  - intros (e & x & i & ks & -> & Hv & He & Hm). split; [exact Hv|].
    exists e, x, i, ks. split; [reflexivity|]. split; [intros []|]. auto.
  - intros (Hv & e & x & i & ks & -> & _ & He & Hm). exists e, x, i, ks.
    split; [reflexivity|]. split; [exact Hv|]. auto.
Qed.

(* ---- The traversal ------------------------------------------------------------------------ *)
Section Traversal.
Variable is_cpp opt : bool.

Definition declares_at := declares is_cpp opt.

(* The mutation at p is made in the node at pos, if variables at locations V are known *)
Definition made (n : node) (up : list frame) (pos : list nat) (below : bool)
  (V : nat -> Prop) (s : site) : Prop :=
  exists q up' n', fst s = pos ++ q /\ open_path is_cpp opt n up q up' n' /\
    not_in_label up' /\ ~ blocked is_cpp opt (node_kind n') (node_info n') up' /\
    ~ V (n_begin (node_info n')) /\
    ~ (exists q2, earlier q2 q /\ declares_at n up (n_begin (node_info n')) q2) /\
    In (snd s) (visit_expr opt [] up' n') /\ (below = true -> q <> []).

Definition declares_below (n : node) (up : list frame) (below : bool) (l : nat) : Prop :=
  exists q, declares_at n up l q /\ (below = true -> q <> []).

Lemma made_ext n up pos below (V V' : nat -> Prop) s :
  (forall l, V l <-> V' l) -> made n up pos below V s <-> made n up pos below V' s.
Proof.
  intros H. split; intros (q & up' & n' & E & Ho & Hl & Hb & Hv & Hd & Hm & Hq);
    exists q, up', n'; rewrite H in *; auto 10; rewrite <- H in *; auto 10.
Qed.

Lemma earlier_cons j q j2 q2 :
  earlier (j2 :: q2) (j :: q) <-> j2 < j \/ (j2 = j /\ earlier q2 q).
Proof.
  split.
  - intros [(u & a & b & x & y & E1 & E2 & H) | (a & x & E)].
    + destruct u as [|c u]; injection E1 as -> ->; injection E2 as -> ->.
      * now left.
      * right. split; [reflexivity|]. left. now exists u, a, b, x, y.
    + injection E as -> ->. right. split; [reflexivity|]. right. now exists a, x.
  - intros [H | [-> [(u & a & b & x & y & -> & -> & H) | (a & x & ->)]]].
    + left. exists [], j2, j, q2, q. auto.
    + left. exists (j :: u), a, b, x, y. auto.
    + right. now exists a, x.
Qed.

Lemma nothing_earlier q : ~ (exists j q', q = j :: q' /\ earlier [] q).
Proof.
  intros (j & q' & -> & [(u & a & b & x & y & E & _) | (a & x & E)]).
  - destruct u; discriminate.
  - discriminate.
Qed.

Lemma earlier_nil q : earlier q [] <-> q <> [].
Proof.
  split.
  - intros [(u & a & b & x & y & _ & E & _) | (a & x & ->)]; [destruct u; discriminate|].
    discriminate.
  - destruct q as [|a x]; [contradiction|]. intros _. right. now exists a, x.
Qed.

Lemma children_exact f (D : nat -> nat -> Prop) (E : nat -> (nat -> Prop) -> site -> Prop) ks :
  (forall j V V' s, (forall l, V l <-> V' l) -> E j V s -> E j V' s) ->
  forall base st,
  (forall j r c, nth_error ks j = Some (r, c) -> forall st,
     (forall l, In l (vs_vars (f r c (base + j) st)) <-> In l (vs_vars st) \/ D (base + j) l) /\
     (forall s, ~ is_removal (snd s) -> In s (sites (f r c (base + j) st)) <->
        In s (sites st) \/ E (base + j) (fun l => In l (vs_vars st)) s)) ->
  (forall l, In l (vs_vars (visit_children f ks base st)) <->
     In l (vs_vars st) \/ exists j, j < length ks /\ D (base + j) l) /\
  (forall s, ~ is_removal (snd s) -> In s (sites (visit_children f ks base st)) <->
     In s (sites st) \/ exists j, j < length ks /\
       E (base + j) (fun l => In l (vs_vars st) \/ exists j', j' < j /\ D (base + j') l) s).
Proof.
  intros Hext. induction ks as [|[r c] ks IH]; intros base st H.
  - cbn. split; intros; (split; [auto|]; intros [Hp | (j & Hj & _)]; [exact Hp | lia]).
  - cbn [visit_children]. fold (visit_children f).
    destruct (H 0 r c eq_refl st) as [HV HS]. rewrite Nat.add_0_r in HV, HS.
    destruct (IH (S base) (f r c base st)) as [HV' HS'].
    { intros j r' c' Hj st'. pose proof (H (S j) r' c' Hj st') as Hs.
      rewrite Nat.add_succ_r in Hs. exact Hs. }
    split.
    + intros l. rewrite HV', HV. cbn [length]. split.
      * intros [[Hl | Hl] | (j & Hj & Hl)].
        -- now left.
        -- right. exists 0. rewrite Nat.add_0_r. split; [lia | exact Hl].
        -- right. exists (S j). rewrite Nat.add_succ_r. split; [lia | exact Hl].
      * intros [Hl | (j & Hj & Hl)]; [now left; left|]. destruct j as [|j].
        -- rewrite Nat.add_0_r in Hl. left. now right.
        -- rewrite Nat.add_succ_r in Hl. right. exists j. split; [lia | exact Hl].
    + intros s Hs. rewrite (HS' s Hs), (HS s Hs). cbn [length]. split.
      * intros [[Hl | Hl] | (j & Hj & Hl)].
        -- now left.
        -- right. exists 0. rewrite Nat.add_0_r. split; [lia|].
           eapply Hext; [|exact Hl]. intros l. cbv beta. split; [now left|].
           intros [Hv | (j' & Hj' & _)]; [exact Hv | lia].
        -- right. exists (S j). rewrite Nat.add_succ_r. split; [lia|].
           eapply Hext; [|exact Hl]. intros l. cbv beta. rewrite HV. split.
           ++ intros [[Hv | Hv] | (j' & Hj' & Hv)].
              ** now left.
              ** right. exists 0. rewrite Nat.add_0_r. split; [lia | exact Hv].
              ** right. exists (S j'). rewrite Nat.add_succ_r. split; [lia | exact Hv].
           ++ intros [Hv | (j' & Hj' & Hv)]; [now left; left|]. destruct j' as [|j'].
              ** rewrite Nat.add_0_r in Hv. left. now right.
              ** rewrite Nat.add_succ_r in Hv. right. exists j'. split; [lia | exact Hv].
      * intros [Hl | (j & Hj & Hl)]; [now left; left|]. destruct j as [|j].
        -- rewrite Nat.add_0_r in Hl. left. right. eapply Hext; [|exact Hl]. intros l. cbv beta.
           split; [|now left]. intros [Hv | (j' & Hj' & _)]; [exact Hv | lia].
        -- rewrite Nat.add_succ_r in Hl. right. exists j. split; [lia|].
           eapply Hext; [|exact Hl]. intros l. cbv beta. rewrite HV. split.
           ++ intros [Hv | (j' & Hj' & Hv)]; [now left; left|]. destruct j' as [|j'].
              ** rewrite Nat.add_0_r in Hv. left. now right.
              ** rewrite Nat.add_succ_r in Hv. right. exists j'. split; [lia | exact Hv].
           ++ intros [[Hv | Hv] | (j' & Hj' & Hv)].
              ** now left.
              ** right. exists 0. rewrite Nat.add_0_r. split; [lia | exact Hv].
              ** right. exists (S j'). rewrite Nat.add_succ_r. split; [lia | exact Hv].
Qed.

(* What a traversal adds *)
Definition exact_for (f : vstate -> vstate) (n : node) (up : list frame) (pos : list nat)
  (below : bool) : Prop :=
  forall st,
  (forall l, In l (vs_vars (f st)) <-> In l (vs_vars st) \/ declares_below n up below l) /\
  (forall s, ~ is_removal (snd s) -> In s (sites (f st)) <->
     In s (sites st) \/ made n up pos below (fun l => In l (vs_vars st)) s).

Lemma open_step k i ks up j q up' n' r c :
  ~ blocked is_cpp opt k i up -> nth_error ks j = Some (r, c) ->
  open_path is_cpp opt (Ast k i ks) up (j :: q) up' n' <->
  open_path is_cpp opt c ({| fr_kind := k; fr_role := r |} :: up) q up' n'.
Proof.
  intros Hb Hj. split.
  - intros H. inversion H; subst.
    match goal with h : nth_error ks j = Some (?r', ?c') |- _ => rewrite Hj in h;
      injection h as <- <- end. assumption.
  - intros H. eapply open_child; eauto.
Qed.

Lemma declares_step k i ks up j q l r c :
  ~ blocked is_cpp opt k i up -> nth_error ks j = Some (r, c) ->
  declares_at (Ast k i ks) up l (j :: q) <->
  declares_at c ({| fr_kind := k; fr_role := r |} :: up) l q.
Proof.
  intros Hb Hj. split; intros (up' & n' & v & Ho & H); exists up', n', v;
    (split; [|exact H]); [now apply (open_step k i ks up j q up' n' r c) in Ho|].
  now apply (open_step k i ks up j q up' n' r c).
Qed.

Lemma step_valid k i ks up j q up' n' :
  open_path is_cpp opt (Ast k i ks) up (j :: q) up' n' ->
  exists r c, nth_error ks j = Some (r, c).
Proof. intros H. inversion H; subst. eauto. Qed.

(* Children that are not traversed contribute nothing. *)
Lemma skipped_nothing k m r c up :
  child_mode m k r = None ->
  forall q up' n', open_path is_cpp opt c ({| fr_kind := k; fr_role := r |} :: up) q up' n' ->
  not_in_label up' -> False.
Proof.
  intros Hc q up' n' Ho Hn. inversion Ho; subst.
  - destruct k as [[]| | |]; try discriminate; cbn in Hc, Hn; subst r; discriminate.
  - match goal with h : ~ blocked _ _ _ _ _ |- _ => apply h end.
    left. eapply child_mode_none; eauto.
Qed.

Lemma descend_exact k i ks m up pos :
  (forall r c, In (r, c) ks -> forall m up pos, mode_ok m up -> not_in_label up ->
     exact_for (traverse is_cpp opt c m up pos) c up pos false) ->
  mode_ok m up -> ~ blocked is_cpp opt k i up ->
  exact_for (visit_children (fun r c idx st =>
          match child_mode m k r with
          | Some m' =>
              traverse is_cpp opt c m' ({| fr_kind := k; fr_role := r |} :: up)
                (pos ++ [idx]) st
          | None => st
          end) ks 0) (Ast k i ks) up pos true.
Proof.
  intros IH Hm Hb st.
  set (f := fun r c idx st => _).
  set (D := fun j l => exists r c, nth_error ks j = Some (r, c) /\
              declares_below c ({| fr_kind := k; fr_role := r |} :: up) false l).
  set (E := fun j V s => exists r c, nth_error ks j = Some (r, c) /\
              made c ({| fr_kind := k; fr_role := r |} :: up) (pos ++ [j]) false V s).
  destruct (children_exact f D E ks) with (base := 0) (st := st) as [HV HS].
  { intros j V V' s HVV (r & c & Hj & H). exists r, c. split; [exact Hj|].
    eapply made_ext; [|exact H]. intros l. symmetry. apply HVV. }
  { intros j r c Hj st'. cbn [Nat.add]. unfold f.
    destruct (child_mode m k r) as [m'|] eqn:Hc.
    - destruct (child_mode_ok m k r up m' Hm Hc) as [Hm' Hl'].
      destruct (IH r c (nth_error_In _ _ Hj) m' _ (pos ++ [j]) Hm' Hl' st') as [HV HS]. split.
      + intros l. rewrite HV. split; (intros [H | H]; [now left | right]).
        * exists r, c. auto.
        * destruct H as (r' & c' & Hj' & H). rewrite Hj in Hj'. injection Hj' as <- <-. exact H.
      + intros s Hs. rewrite (HS s Hs). split; (intros [H | H]; [now left | right]).
        * exists r, c. auto.
        * destruct H as (r' & c' & Hj' & H). rewrite Hj in Hj'. injection Hj' as <- <-. exact H.
    - split.
      + intros l. split; [now left|]. intros [H | H]; [exact H|]. exfalso.
        destruct H as (r' & c' & Hj' & q & (up' & n' & v & Ho & Hn & _) & _).
        rewrite Hj in Hj'. injection Hj' as <- <-. eapply skipped_nothing; eauto.
      + intros s Hs. split; [now left|]. intros [H | H]; [exact H|]. exfalso.
        destruct H as (r' & c' & Hj' & q & up' & n' & _ & Ho & Hn & _).
        rewrite Hj in Hj'. injection Hj' as <- <-. eapply skipped_nothing; eauto. }
  cbn [Nat.add] in HV, HS.
  assert (HD : forall j l, D j l <-> exists q, declares_at (Ast k i ks) up l (j :: q)).
  { intros j l. split.
    - intros (r & c & Hj & q & H & _). exists q. eapply declares_step; eauto.
    - intros (q & H). pose proof H as (up' & n' & v & Ho & _).
      destruct (step_valid _ _ _ _ _ _ _ _ Ho) as (r & c & Hj). exists r, c.
      split; [exact Hj|]. exists q. split; [|discriminate].
      now apply (declares_step k i ks up j q l r c). }
  split.
  - intros l. rewrite HV. split; (intros [H | H]; [now left | right]).
    + destruct H as (j & Hj & H). apply HD in H as (q & H). exists (j :: q).
      split; [exact H | discriminate].
    + destruct H as (q & H & Hq). destruct q as [|j q]; [now destruct Hq|].
      pose proof H as (up' & n' & v & Ho & _).
      destruct (step_valid _ _ _ _ _ _ _ _ Ho) as (r & c & Hj). exists j. split.
      * apply nth_error_Some. congruence.
      * apply HD. eauto.
  - intros s Hs. rewrite (HS s Hs). split; (intros [H | H]; [now left | right]).
    + destruct H as (j & Hj & r & c & Hk & q & up' & n' & Ep & Ho & Hn & Hbl & Hv & Hd & Hin & _).
      exists (j :: q), up', n'. rewrite <- app_assoc in Ep. split; [exact Ep|].
      split; [eapply open_step; eauto|]. split; [exact Hn|]. split; [exact Hbl|].
      split; [intros H; apply Hv; now left|]. split; [|split; [exact Hin | discriminate]].
      intros (q2 & He & H2). destruct q2 as [|j2 q2].
      * apply (nothing_earlier (j :: q)). eauto.
      * apply earlier_cons in He as [He | [-> He]].
        -- apply Hv. right. exists j2. split; [exact He|]. apply HD. eauto.
        -- apply Hd. exists q2. split; [exact He|].
           now apply (declares_step k i ks up j q2 _ r c).
    + destruct H as (q & up' & n' & Ep & Ho & Hn & Hbl & Hv & Hd & Hin & Hq).
      destruct q as [|j q]; [now destruct Hq|].
      destruct (step_valid _ _ _ _ _ _ _ _ Ho) as (r & c & Hk). exists j. split.
      { apply nth_error_Some. congruence. }
      exists r, c. split; [exact Hk|]. exists q, up', n'. rewrite <- app_assoc.
      split; [exact Ep|]. split; [now apply (open_step k i ks up j q up' n' r c)|].
      split; [exact Hn|]. split; [exact Hbl|]. split; [|split; [|split; [exact Hin | discriminate]]].
      * intros [H | (j' & Hj' & H)]; [contradiction|]. apply HD in H as (q2 & H).
        apply Hd. exists (j' :: q2). split; [|exact H]. apply earlier_cons. now left.
      * intros (q2 & He & H2). apply Hd. exists (j :: q2). split.
        -- apply earlier_cons. now right.
        -- now apply (declares_step k i ks up j q2 _ r c).
Qed.

(* A node that is blocked, or that declares nothing and is not mutated itself *)
Lemma blocked_exact n up pos below :
  blocked is_cpp opt (node_kind n) (node_info n) up ->
  exact_for (fun st => st) n up pos below.
Proof.
  intros Hb st. split.
  - intros l. split; [now left|]. intros [H | H]; [exact H|]. exfalso.
    destruct H as (q & (up' & n' & v & Ho & Hn & Hbl & _) & _).
    inversion Ho; subst; contradiction.
  - intros s Hs. split; [now left|]. intros [H | H]; [exact H|]. exfalso.
    destruct H as (q & up' & n' & _ & Ho & Hn & Hbl & _). inversion Ho; subst; contradiction.
Qed.

Lemma exact_weaken f n up pos :
  (match node_kind n with KDecl (DVar _) | KExpr _ _ => False | _ => True end) ->
  exact_for f n up pos true -> exact_for f n up pos false.
Proof.
  intros Hk H st. destruct (H st) as [HV HS]. split.
  - intros l. rewrite HV. split; (intros [Hl | (q & Hd & Hq)]; [now left | right]);
      exists q; (split; [exact Hd|]); [discriminate|].
    intros _ ->. destruct Hd as (up' & n' & v & Ho & _ & _ & E & _). inversion Ho; subst.
    now rewrite E in Hk.
  - intros s Hs. rewrite (HS s Hs).
    split; (intros [Hl | (q & up' & n' & Ep & Ho & Hn & Hb & Hv & Hd & Hin & Hq)];
            [now left | right]);
      exists q, up', n'; repeat (split; [assumption|]); [discriminate|].
    intros _ ->. inversion Ho; subst. apply visit_expr_iff in Hin as (e & x & i & ks & -> & _).
    exact Hk.
Qed.

Lemma traverse_exact : forall n m up pos,
  mode_ok m up -> not_in_label up -> exact_for (traverse is_cpp opt n m up pos) n up pos false.
Proof.
  induction n as [k i ks IH] using node_induction. intros m up pos Hm Hl.
  pose proof (descend_exact k i ks m up pos IH Hm) as Hdesc.
  set (descend := visit_children (fun r c idx st =>
                        match child_mode m k r with
                        | Some m' =>
                            traverse is_cpp opt c m'
                              ({| fr_kind := k; fr_role := r |} :: up) (pos ++ [idx]) st
                        | None => st
                        end) ks 0) in *.
  set (n := Ast k i ks) in *.
  assert (Hsites : forall f st s, In s (sites (push_tree f st)) <->
            In s (sites st) \/
            In s (sites (f {| vs_mutations := []; vs_children := []; vs_vars := vs_vars st;
                  vs_asserts := vs_asserts st; vs_arrays := vs_arrays st;
                  vs_args := vs_args st; vs_prelude := vs_prelude st |}))).
  { intros f st s. rewrite <- in_app_iff.
    pose proof (perm_push f st _ (Permutation_refl _)) as Hp. split.
    - apply (Permutation_in _ Hp).
    - apply (Permutation_in _ (Permutation_sym Hp)). }
  destruct (match k with KStmt _ | KExpr _ _ => true | _ => false end) eqn:Hkind.
  { assert (Hs : is_statement k) by (destruct k; try discriminate; exact I).
    set (statement := fun st =>
               (if stmt_skipped k up then st
               else match k with
                    | KExpr EFrameAddress _ => add_arg (pos ++ [first_arg ks 0]) st
                    | _ =>
                        push_tree (fun st =>
                          let st := descend st in
                          add_mutations pos (visit_expr opt (vs_vars st) up n) st) st
                    end)).
    assert (Hstmt : ~ discarded opt k up -> exact_for statement n up pos false).
    { intros Hd st. unfold statement. destruct (stmt_skipped k up) eqn:Hsk.
      { apply blocked_exact. left. apply statement_skipped; auto. cbn. now rewrite Hsk. }
      destruct (is_frame_address k) eqn:Hfa.
      { destruct k as [|[]| |]; try discriminate.
        refine (blocked_exact n up pos false _ st). left. constructor. }
      assert (Hb : ~ blocked is_cpp opt k i up).
      { intros [H | [H | H]].
        - apply statement_skipped in H; auto. rewrite Hsk, Hfa in H. discriminate.
        - contradiction.
        - destruct H as (_ & d & -> & _). destruct Hs. }
      assert (Heq : match k with
               | KExpr EFrameAddress _ => add_arg (pos ++ [first_arg ks 0]) st
               | _ =>
                   push_tree (fun st =>
                     add_mutations pos (visit_expr opt (vs_vars (descend st)) up n)
                       (descend st)) st
               end = push_tree (fun st =>
                     add_mutations pos (visit_expr opt (vs_vars (descend st)) up n)
                       (descend st)) st)
        by (destruct k as [|[]| |]; try reflexivity; discriminate).
      rewrite Heq. clear Heq.
      match goal with |- context [push_tree ?F st] => set (F0 := F) end.
      set (st0 := {| vs_mutations := []; vs_children := []; vs_vars := vs_vars st;
                  vs_asserts := vs_asserts st; vs_arrays := vs_arrays st;
                  vs_args := vs_args st; vs_prelude := vs_prelude st |}).
      destruct (Hdesc Hb st0) as [HV HS]. split.
      - intros l. change (vs_vars (push_tree F0 st)) with (vs_vars (descend st0)).
        rewrite HV. split; (intros [H | (q & H & Hq)]; [now left | right]);
          exists q; (split; [exact H|]); [discriminate|].
        intros _ ->. destruct H as (up' & n' & v & Ho & _ & _ & E & _). inversion Ho; subst.
        cbn in E. subst k. destruct Hs.
      - intros s Hr. rewrite Hsites. fold st0. unfold F0. cbv zeta. rewrite sites_add.
        rewrite in_app_iff, (HS s Hr). split.
        + intros [H | [[[] | H] | H]]; [now left| |]; right.
          * destruct H as (q & up' & n' & Ep & Ho & Hn & Hbl & Hv & Hd' & Hin & Hq).
            exists q, up', n'. repeat (split; [assumption|]). discriminate.
          * apply in_map_iff in H as (y & <- & Hy).
            apply visit_expr_vars in Hy as [Hv Hy]. rewrite HV in Hv.
            exists [], up, n. cbn [fst snd]. rewrite app_nil_r. split; [reflexivity|].
            split; [constructor|]. split; [exact Hl|]. split; [exact Hb|].
            split; [intros H; apply Hv; now left|].
            split; [|split; [exact Hy | discriminate]].
            intros (q2 & He & H2). apply Hv. right. exists q2. split; [exact H2|].
            intros _. now apply earlier_nil.
        + intros [H | H]; [now left | right].
          destruct H as (q & up' & n' & Ep & Ho & Hn & Hbl & Hv & Hd' & Hin & Hq).
          destruct q as [|j q].
          * right. inversion Ho; subst. apply in_map_iff. exists (snd s).
            rewrite app_nil_r in Ep. split; [rewrite <- Ep; now destruct s|].
            apply visit_expr_vars. split; [|exact Hin]. rewrite HV.
            intros [H | (q2 & H & Hq2)]; [contradiction|]. apply Hd'. exists q2.
            split; [|exact H]. apply earlier_nil. now apply Hq2.
          * left. right. exists (j :: q), up', n'. repeat (split; [assumption|]). discriminate. }
    assert (Heq : forall st, traverse is_cpp opt n m up pos st =
              match m with
              | Plain => statement st
              | Component =>
                  if is_switch_case k then descend st
                  else if useless_component opt k then st
                  else push_tree (fun st =>
                         add_mutations pos (removals opt k i) (statement st)) st
              end) by (intros st; destruct k; try destruct Hs; reflexivity).
    intros st. rewrite Heq. clear Heq. destruct m.
    - assert (Hnb : ~ in_block up) by (intros H; apply Hm in H; discriminate).
      apply Hstmt. intros (_ & H & _). contradiction.
    - assert (Hblk : in_block up) by (now apply Hm).
      destruct (is_switch_case k) eqn:Hsw.
      { apply exact_weaken; [destruct k as [[]| | |]; try discriminate; exact I|].
        apply Hdesc. intros [H | [H | H]].
        + apply statement_skipped in H; auto. apply orb_true_iff in H as [H | H].
          * unfold stmt_skipped in H. destruct k as [[]|[]| |]; try discriminate;
              inversion Hblk; subst; discriminate.
          * destruct k as [[]|[]| |]; discriminate.
        + destruct H as (_ & _ & e' & x' & -> & _). discriminate.
        + destruct H as (_ & d' & -> & _). discriminate. }
      destruct (useless_component opt k) eqn:Hu.
      { apply blocked_exact. right. left. now apply useless_discarded. }
      match goal with |- context [push_tree ?F st] => set (F0 := F) end.
      set (st0 := {| vs_mutations := []; vs_children := []; vs_vars := vs_vars st;
                  vs_asserts := vs_asserts st; vs_arrays := vs_arrays st;
                  vs_args := vs_args st; vs_prelude := vs_prelude st |}).
      assert (Hd : ~ discarded opt k up).
      { intros H. apply useless_discarded in H; auto. congruence. }
      destruct (Hstmt Hd st0) as [HV HS]. split.
      + exact HV.
      + intros s Hr. rewrite Hsites. fold st0. unfold F0. rewrite sites_add, in_app_iff, (HS s Hr).
        split.
        * intros [H | [[[] | H] | H]]; [now left | now right |]. exfalso.
          apply in_map_iff in H as (y & <- & Hy). apply Hr. cbn.
          unfold removals in Hy.
          repeat match type of Hy with In _ (if ?b then _ else _) => destruct b end;
            repeat (destruct Hy as [<- | Hy]; [exact I|]); destruct Hy.
        * intros [H | H]; [now left | right; left; now right]. }
  destruct k as [s | e x | d | l]; try discriminate.
  - intros st.
    assert (Heq : traverse is_cpp opt n m up pos st =
              if decl_entered is_cpp d i then
                match d with
                | DVar v => add_var (v_location v) (descend (record_decl is_cpp d i pos st))
                | _ => descend (record_decl is_cpp d i pos st)
                end
              else record_decl is_cpp d i pos st) by reflexivity.
    rewrite Heq. clear Heq. destruct (decl_entered is_cpp d i) eqn:Hd.
    + assert (Hb : ~ blocked is_cpp opt (KDecl d) i up).
      { intros H. apply decl_entered_open in H; auto. congruence. }
      destruct (Hdesc Hb (record_decl is_cpp d i pos st)) as [HV HS].
      assert (Hvars : vs_vars (record_decl is_cpp d i pos st) = vs_vars st).
      { unfold record_decl, set_prelude.
        destruct d; repeat match goal with |- context [if ?b then _ else _] => destruct b end;
          try destruct (vs_prelude st); reflexivity. }
      rewrite Hvars in *. rewrite sites_record in HS. split.
      * intros l.
        assert (Hself : declares_below n up false l <->
                  declares_below n up true l \/ exists v, d = DVar v /\ v_location v = l).
        { split.
          - intros (q & H & _). destruct q as [|j q].
            + right. destruct H as (up' & n' & v & Ho & _ & _ & E & Ev). inversion Ho; subst.
              injection E as ->. eauto.
            + left. exists (j :: q). split; [exact H | discriminate].
          - intros [(q & H & _) | (v & -> & <-)].
            + exists q. split; [exact H | discriminate].
            + exists []. split; [|discriminate]. exists up, n, v.
              split; [constructor|]. split; [exact Hl|]. split; [exact Hb|].
              split; reflexivity. }
        rewrite Hself.
        assert (Hadd : In l (vs_vars match d with
                       | DVar v => add_var (v_location v) (descend (record_decl is_cpp d i pos st))
                       | _ => descend (record_decl is_cpp d i pos st)
                       end) <-> In l (vs_vars (descend (record_decl is_cpp d i pos st))) \/
                 exists v, d = DVar v /\ v_location v = l).
        { destruct d; try (split; [now left | intros [H | (v & E & _)]; [exact H | discriminate]]).
          cbn [add_var vs_vars In]. split.
          - intros [H | H]; [right; eauto | now left].
          - intros [H | (v' & E & <-)]; [now right | injection E as <-; now left]. }
        rewrite Hadd, HV. apply or_assoc.
      * intros s Hr.
        replace (In s (sites match d with
                       | DVar v => add_var (v_location v) (descend (record_decl is_cpp d i pos st))
                       | _ => descend (record_decl is_cpp d i pos st)
                       end)) with (In s (sites (descend (record_decl is_cpp d i pos st))))
          by (destruct d; reflexivity).
        rewrite (HS s Hr).
        split; (intros [H | (q & up' & n' & Ep & Ho & Hn & Hbl & Hv & Hd' & Hin & Hq)];
                [now left | right]);
          exists q, up', n'; repeat (split; [assumption|]); [discriminate|].
        intros _ ->. inversion Ho; subst.
        apply visit_expr_iff in Hin as (e & x & i' & ks' & E & _). discriminate.
    + assert (Hvars : vs_vars (record_decl is_cpp d i pos st) = vs_vars st).
      { unfold record_decl, set_prelude.
        destruct d; repeat match goal with |- context [if ?b then _ else _] => destruct b end;
          try destruct (vs_prelude st); reflexivity. }
      destruct (blocked_exact n up pos false) with (st := st) as [HV HS].
      { now apply decl_entered_open. }
      rewrite Hvars. split; [exact HV|]. intros s Hr. rewrite sites_record. now apply HS.
  - intros st.
    assert (Heq : traverse is_cpp opt n m up pos st =
              if loc_entered is_cpp l then descend st else st) by reflexivity.
    rewrite Heq. clear Heq. destruct (loc_entered is_cpp l) eqn:Hd.
    + apply exact_weaken; [exact I|]. apply Hdesc.
      intros H. apply loc_entered_open in H; auto. congruence.
    + apply blocked_exact. now apply loc_entered_open.
Qed.
End Traversal.

Lemma exact_sites is_cpp opt root pos m : ~ is_removal m ->
  In (pos, m) (post (visited_tree is_cpp opt root)) <->
  exists e x i up ks, in_reach is_cpp opt root pos e x i up ks /\
    (own_operator opt e i ks m \/
     (replaceable opt e x up ks /\ m = MutExpr (x_expr x) (n_loc i))).
Proof.
  intros Hr.
  destruct (traverse_exact is_cpp opt root Plain [] [] start_ok I vstate0) as [_ HS].
  specialize (HS (pos, m) Hr). etransitivity; [exact HS|]. clear HS. split.
  - intros [[] | (q & up & n & E & Ho & Hn & Hb & _ & Hd & Hin & _)]. cbn in E, Hin. subst q.
    apply visit_expr_iff in Hin as (e & x & i & ks & -> & _ & He & Hm).
    exists e, x, i, up, ks. split; [|exact Hm]. repeat (split; [assumption|]). exact Hd.
  - intros (e & x & i & up & ks & (Ho & Hn & Hb & He & Hd) & Hm). right.
    exists pos, up, (Ast (KExpr e x) i ks). repeat (split; [first [reflexivity | assumption | intros []]|]).
    split; [|discriminate].
    apply visit_expr_iff. exists e, x, i, ks. split; [reflexivity|]. split; [intros []|]. auto.
Qed.

Lemma exact_expressions is_cpp opt root pos y l :
  In (pos, MutExpr y l) (post (visited_tree is_cpp opt root)) <->
  exists e x i up ks, in_reach is_cpp opt root pos e x i up ks /\
    replaceable opt e x up ks /\ y = x_expr x /\ l = n_loc i.
Proof.
  rewrite exact_sites by (intros []). split; intros (e & x & i & up & ks & Hr & H);
    exists e, x, i, up, ks; (split; [exact Hr|]).
  - destruct H as [H | [H E]].
    + destruct e; cbn in H; try contradiction; destruct H; discriminate.
    + injection E as -> ->. auto.
  - destruct H as (H & -> & ->). auto.
Qed.

Lemma exact_unary is_cpp opt root pos u l sub :
  In (pos, MutUnary u l sub) (post (visited_tree is_cpp opt root)) <->
  exists x i up ks, in_reach is_cpp opt root pos (EUnary u sub) x i up ks /\
    unary_replaceable opt u ks /\ l = n_loc i.
Proof.
  rewrite exact_sites by (intros []). split.
  - intros (e & x & i & up & ks & Hr & [H | [_ E]]); [|discriminate].
    destruct e; cbn in H; try contradiction; destruct H as [H E]; try discriminate.
    inversion E; subst. exists x, i, up, ks. auto.
  - intros (x & i & up & ks & Hr & H & ->). exists (EUnary u sub), x, i, up, ks.
    split; [exact Hr|]. left. cbn. auto.
Qed.

Lemma exact_binary is_cpp opt root pos b l lhs rhs :
  In (pos, MutBinary b l lhs rhs) (post (visited_tree is_cpp opt root)) <->
  exists x i up ks, in_reach is_cpp opt root pos (EBinary b lhs rhs) x i up ks /\
    binary_replaceable opt b ks /\ l = n_loc i.
Proof.
  rewrite exact_sites by (intros []). split.
  - intros (e & x & i & up & ks & Hr & [H | [_ E]]); [|discriminate].
    destruct e; cbn in H; try contradiction; destruct H as [H E]; try discriminate.
    inversion E; subst. exists x, i, up, ks. auto.
  - intros (x & i & up & ks & Hr & H & ->). exists (EBinary b lhs rhs), x, i, up, ks.
    split; [exact Hr|]. left. cbn. auto.
Qed.
