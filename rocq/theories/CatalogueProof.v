(* Proofs for PropsCatalogue.v *)
From Coq Require Import List Bool Lia.
From Verif Require Import Base Clang Gen GenExpr GenBinary GenUnary GenStmt Mutation MutTree
  GenSpec SimExample CatalogueSpec.
Import ListNotations.

Lemma number_snd {A} (l : list A) : forall n, map snd (number_from n l) = l.
Proof. induction l as [|x l IH]; intros n; cbn; [reflexivity|]. now rewrite IH. Qed.

Ltac nodup := repeat (constructor; [cbn; intuition discriminate|]); constructor.
Ltac membership := cbn; intuition (try discriminate; try congruence).

Lemma expr_exactly c e : (e_lvalue e = true -> can_mutate_lvalue e = true) ->
  NoDup (map fst (expr_mutants c false e)) /\
  forall a, In a (map fst (expr_mutants c false e)) <-> expr_offer c e a.
Proof.
  intros P. unfold expr_mutants, lvalue_insertions, nonlvalue_insertions,
    constant_replacements, boolean_replacements, integer_replacements, float_replacements,
    expr_offer.
  destruct (e_lvalue e).
  - rewrite (P eq_refl). cbn. split; [nodup|]. intros []; membership.
  - clear P. cbn [negb orb when app].
    assert (S : (is_integer (e_ty e) = false -> is_signed c (e_ty e) = false) /\
                (is_bool (e_ty e) = true -> is_integer (e_ty e) = true /\
                   is_signed c (e_ty e) = false) /\
                (is_float (e_ty e) = negb (is_integer (e_ty e))) /\
                (is_bool (e_ty e) = true <-> e_ty e = TBool)).
    { destruct (e_ty e); cbn; repeat split; intros; try discriminate; reflexivity. }
    destruct S as (S1 & S2 & S3 & S4). rewrite S3. clear S3.
    destruct (is_bool (e_ty e)) eqn:B.
    + destruct (S2 eq_refl) as [-> ->]. rewrite (proj1 S4 eq_refl). cbn.
      split; [nodup|]. intros []; membership.
    + assert (e_ty e <> TBool) by (intros E; apply S4 in E; discriminate).
      destruct (is_integer (e_ty e)); [|rewrite (S1 eq_refl)];
        [destruct (is_signed c (e_ty e))|]; cbn;
        (split; [nodup|]); intros []; membership.
Qed.

Lemma defined_valid b o : valid_op b o = true <-> defined_for b o.
Proof.
  unfold valid_op, defined_for, is_integer.
  destruct (is_float (e_ty (b_lhs b))), (is_float (e_ty (b_rhs b))), o; cbn;
    intuition discriminate.
Qed.

Lemma bop_eqb_eq a b : bop_eqb a b = true <-> a = b.
Proof. unfold bop_eqb. destruct (bop_eq_dec a b); split; congruence. Qed.

Lemma replacement_offer b o : In o (replacement_ops false b) <->
  o <> b_op b /\ defined_for b o /\ In o (candidate_ops b).
Proof.
  unfold replacement_ops. rewrite filter_In, negb_true_iff, !orb_false_iff, negb_false_iff.
  rewrite defined_valid. rewrite <- not_true_iff_false, bop_eqb_eq. cbn. tauto.
Qed.

Lemma candidates c b o : c_logical c b = false -> b_op b <> Comma ->
  In o (candidate_ops b) <-> related c b o.
Proof.
  intros C N. unfold candidate_ops, related, c_logical in *.
  assert (B : is_bool (e_ty (b_lhs b)) = true <-> e_ty (b_lhs b) = TBool)
    by (destruct (e_ty (b_lhs b)); cbn; split; congruence).
  destruct (b_op b); try congruence; cbn in *;
    rewrite ?andb_true_r, ?andb_false_r in *; try apply negb_false_iff in C;
    try rewrite C; destruct (is_bool (e_ty (b_lhs b))); destruct o; membership.
Qed.

Lemma candidates_nodup b : NoDup (candidate_ops b).
Proof.
  unfold candidate_ops. destruct (b_op b); cbn; try destruct (is_bool (e_ty (b_lhs b)));
    cbn; nodup.
Qed.

Lemma operator_of_action o a : a <> BReplaceWithUnknown ->
  bop_action o = a <-> operator_of a = Some o.
Proof. destruct o, a; cbn; split; congruence. Qed.

Lemma nodup_map {A B} (f : A -> B) l :
  (forall x y, In x l -> In y l -> f x = f y -> x = y) -> NoDup l -> NoDup (map f l).
Proof.
  intros I D. induction D as [|x l N D IH]; cbn; constructor.
  - intros M. apply in_map_iff in M as (y & E & H). apply I in E; cbn; auto. subst y. auto.
  - apply IH. intros y z Y Z. apply I; cbn; auto.
Qed.

Lemma nodup_app {A} (l l' : list A) : NoDup l -> NoDup l' ->
  (forall x, In x l -> ~ In x l') -> NoDup (l ++ l').
Proof.
  intros D D' I. induction D as [|x l N D IH]; cbn; [exact D'|]. constructor.
  - rewrite in_app_iff. intros [H|H]; [auto|]. apply (I x); cbn; auto.
  - apply IH. intros y Y. apply I. cbn. auto.
Qed.

Lemma candidate_not_comma b : ~ In Comma (candidate_ops b).
Proof.
  unfold candidate_ops. destruct (b_op b); cbn; try destruct (is_bool (e_ty (b_lhs b)));
    cbn; intuition discriminate.
Qed.

Lemma binary_exactly c b : b_op b <> Comma ->
  NoDup (binary_actions c false b) /\
  forall a, In a (binary_actions c false b) <-> binary_offer c b a.
Proof.
  intros N. unfold binary_actions. destruct (c_logical c b) eqn:C.
  - unfold c_logical_actions. unfold c_logical in C. apply andb_prop in C as [X L].
    apply negb_true_iff in X.
    split; [destruct (bop_eqb (b_op b) LAnd); nodup|].
    assert (Z : b_op b = LAnd \/ b_op b = LOr) by (destruct (b_op b); cbn in L; auto; discriminate).
    unfold binary_offer, operator_offer, related, defined_for.
    intros a. destruct Z as [-> | ->]; destruct a; cbn; rewrite ?X; split;
      try (intros [H|[H|[H|[]]]]; discriminate);
      try (intros (o & H & H1 & H2 & H3); injection H as <-; cbn in *; congruence);
      try (intros (o & H & _); discriminate); auto; try congruence;
      try (intros _; eexists; split; [reflexivity|]; repeat split; cbn in *; congruence || tauto);
      intros (o & H & H1 & _); injection H as <-; congruence.
  - unfold binary_mutants, operator_replacements, argument_replacements.
    cbn [andb negb orb when app]. rewrite map_app, map_map. cbn [fst].
    set (ls := map fst _). rewrite <- (map_map (fun o => o) bop_action), map_id.
    assert (Ls : NoDup ls /\ forall a, In a ls <->
      (a = ReplaceWithLHS \/ a = ReplaceWithRHS) /\ family_of (b_op b) <> Some Assigning).
    { unfold ls. destruct (b_op b); cbn; (split; [nodup|]); intros a; membership. }
    clearbody ls. destruct Ls as [D Ls].
    assert (In_ops : forall a, In a (map bop_action (replacement_ops false b)) <->
              exists o, operator_of a = Some o /\ operator_offer c b o).
    { intros a. rewrite in_map_iff. split.
      - intros (o & E & H). exists o. pose proof H as H'. apply replacement_offer in H as (H1 & H2 & H3).
        assert (a <> BReplaceWithUnknown).
        { intros ->. assert (o = Comma) by (destruct o; cbn in E; congruence). subst o.
          exact (candidate_not_comma b H3). }
        split; [now apply operator_of_action|]. split; [exact H1|].
        split; [now apply candidates|exact H2].
      - intros (o & E & H1 & H2 & H3). exists o.
        assert (a <> BReplaceWithUnknown) by (intros ->; discriminate).
        split; [now apply operator_of_action|]. apply replacement_offer.
        split; [exact H1|]. split; [exact H3|]. now apply (candidates c b). }
    split.
    + apply nodup_app; [|exact D|].
      * apply nodup_map; [|apply NoDup_filter, candidates_nodup].
        intros x y _ _ E. destruct x, y; cbn in E; congruence.
      * intros a H H'. apply In_ops in H as (o & E & _). apply Ls in H' as [[-> | ->] _]; discriminate.
    + intros a. rewrite in_app_iff, In_ops, Ls. unfold binary_offer.
      destruct a; split; try tauto; try (intros [H|[[H|H] _]]; discriminate || assumption);
        try (intros [(o & H & _)|H]; [discriminate|tauto]).
Qed.

Lemma uop_eqb_eq a b : uop_eqb a b = true <-> a = b.
Proof. unfold uop_eqb. destruct (uop_eq_dec a b); split; congruence. Qed.

Lemma unary_valid u o : In o (replacement_uops false u) <->
  In o candidate_uops /\ unary_operator_offer u o.
Proof.
  unfold replacement_uops. rewrite filter_In, negb_true_iff, !orb_false_iff, negb_false_iff.
  rewrite <- not_true_iff_false, uop_eqb_eq. cbn [andb].
  assert (V : o <> u_op u -> valid_uop u o = true <-> unary_operator_offer u o).
  { intros N. unfold valid_uop, unary_operator_offer, is_integer.
    destruct (e_lvalue (u_sub u)), (u_lvalue u), (is_float (e_ty (u_sub u))), o, (u_op u);
      cbn; try congruence; intuition (try discriminate; try congruence). }
  split; [intros (H & (H1 & H2) & _)|intros (H & H1)].
  - split; [exact H|]. now apply V.
  - split; [exact H|]. split; [|reflexivity]. assert (N : o <> u_op u) by apply H1.
    split; [exact N|]. now apply V.
Qed.

Lemma unary_exactly u :
  NoDup (map fst (unary_mutants false u)) /\
  forall a, In a (map fst (unary_mutants false u)) <-> unary_offer u a.
Proof.
  unfold unary_mutants. cbn [negb orb when]. rewrite map_app, map_map. cbn [fst map].
  rewrite <- (map_map (fun o => o) uop_action), map_id.
  assert (Cand : forall o, In o (replacement_uops false u) -> In o candidate_uops)
    by (intros o H; apply unary_valid in H; apply H).
  split.
  - apply nodup_app.
    + apply nodup_map; [|apply NoDup_filter; unfold candidate_uops; nodup].
      intros x y X Y. apply Cand in X. apply Cand in Y. unfold candidate_uops in *.
      destruct x, y; cbn in *; try congruence; intuition discriminate.
    + nodup.
    + intros a H [<-|[]]. apply in_map_iff in H as (o & E & _). destruct o; discriminate.
  - intros a. rewrite in_app_iff, in_map_iff. cbn [In]. split.
    + intros [(o & <- & H)|[<-|[]]]; [|exact Logic.I].
      apply unary_valid in H as [H1 H2]. unfold candidate_uops in H1.
      destruct o; try exact H2; cbn in H1; intuition discriminate.
    + intros H. destruct a; try (right; left; reflexivity); try contradiction; left; eexists;
        (split; [|apply unary_valid; split; [|exact H]; unfold candidate_uops; cbn; tauto]);
        reflexivity.
Qed.

(* ---- Sites for every action -------------------------------------------------------------- *)
Lemma no_dead_action c :
  (forall a, exists e, (e_lvalue e = true -> can_mutate_lvalue e = true) /\ expr_offer c e a) /\
  (forall a, a <> BReplaceWithUnknown -> exists b, b_op b <> Comma /\ binary_offer c b a) /\
  (forall a, a <> UReplaceWithUnknown -> exists u, u_op u <> Plus /\ unary_offer u a).
Proof.
  split; [|split].
  - intros a. set (t := match a with
      | ReplaceWithZeroFloat | ReplaceWithOneFloat | ReplaceWithMinusOneFloat => TDouble
      | ReplaceWithTrue | ReplaceWithFalse => TBool
      | _ => TInt end).
    exists (if match a with InsertPreInc | InsertPreDec => true | _ => false end
            then place t false else value t false None).
    split; [destruct a; cbn; auto|]. destruct a; cbn; repeat split; auto; discriminate.
  - intros a N. set (e := value TInt false None).
    exists (binary_of match a with
      | ReplaceWithLHS | ReplaceWithRHS => Add
      | BReplaceWithAdd => Sub
      | BReplaceWithDiv | BReplaceWithMul | BReplaceWithRem | BReplaceWithSub => Add
      | BReplaceWithAnd => Or | BReplaceWithOr | BReplaceWithXor => And
      | BReplaceWithLAnd => LOr | BReplaceWithLOr => LAnd
      | BReplaceWithEQ => NE | BReplaceWithNE | BReplaceWithGE | BReplaceWithGT
      | BReplaceWithLE | BReplaceWithLT => EQ
      | BReplaceWithShl => Shr | BReplaceWithShr => Shl
      | BReplaceWithAssign => AddAssign
      | _ => Assign end TInt e e).
    destruct a; try congruence; (split; [cbn; discriminate|]); cbn; try discriminate;
      (eexists; split; [reflexivity|]); (split; [cbn; discriminate|]);
      (split; [reflexivity|]); intros _; auto.
  - intros a N.
    exists {| u_op := match a with
                | ReplaceWithMinus | ReplaceWithPreDec => PreInc
                | ReplaceWithPreInc => PreDec
                | ReplaceWithPostDec => PostInc | ReplaceWithPostInc => PostDec
                | _ => Minus end;
              u_ty := TInt; u_lvalue := false; u_volatile := false; u_const := false;
              u_side_effects := false; u_sub := place TInt false; u_op_offset := 0;
              u_range := at_zero |}.
    destruct a; try congruence; (split; [cbn; discriminate|]); cbn; try exact Logic.I;
      repeat split; cbn; auto; try (intros; discriminate); auto; try congruence.
Qed.
