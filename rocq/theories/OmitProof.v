(* Proofs for PropsOmit.v *)
From Coq Require Import List Bool Lia ZArith Setoid.
From Verif Require Import Base Clang Gen GenExpr GenBinary GenUnary GenStmt Mutation MutTree
  GenSpec GenProof SimExample Sites CatalogueSpec CatalogueProof OmitSpec.
Import ListNotations.

Definition number_of (k : small) : Z :=
  match k with Zero => 0%Z | One => 1%Z | MinusOne => (-1)%Z end.

Lemma known_int e k : is_float (e_ty e) = false -> equivalent_to_int e (number_of k) = true <-> known e k.
Proof.
  intros F. unfold equivalent_to_int, known, is_integer. rewrite F. cbn [negb andb].
  destruct (e_int e) as [v|]; [|split; discriminate].
  rewrite Z.eqb_eq. destruct k; cbn; split; congruence.
Qed.
Lemma known_float e k : is_float (e_ty e) = true -> equivalent_to_float e (number_of k) = true <-> known e k.
Proof.
  intros F. unfold equivalent_to_float, known. rewrite F. cbn [andb].
  destruct (e_float e) as [v|]; [|split; discriminate].
  destruct k, v; cbn; split; congruence.
Qed.
Lemma float_not_int e k : is_float (e_ty e) = true -> equivalent_to_int e k = false.
Proof. intros F. unfold equivalent_to_int, is_integer. now rewrite F. Qed.
Lemma int_not_float e k : is_float (e_ty e) = false -> equivalent_to_float e k = false.
Proof. intros F. unfold equivalent_to_float. now rewrite F. Qed.

Lemma known_or e k :
  equivalent_to_int e (number_of k) || equivalent_to_float e (number_of k) = true <-> known e k.
Proof.
  destruct (is_float (e_ty e)) eqn:F.
  - rewrite (float_not_int e _ F). now apply known_float.
  - rewrite (int_not_float e _ F), orb_false_r. now apply known_int.
Qed.
Lemma known_zero e : equivalent_to e 0 = true <-> known e Zero.
Proof. exact (known_or e Zero). Qed.
Lemma known_one e : equivalent_to e 1 = true <-> known e One.
Proof. exact (known_or e One). Qed.
Lemma known_minus_one e : equivalent_to e (-1) = true <-> known e MinusOne.
Proof. exact (known_or e MinusOne). Qed.

Lemma known_small_or e : known_small e <-> known e Zero \/ known e One \/ known e MinusOne.
Proof.
  split.
  - intros [[] K]; auto.
  - intros [K|[K|K]]; eexists; exact K.
Qed.
Lemma unit_known e : unit_constant e = true <-> known_small e.
Proof.
  rewrite known_small_or, <- known_zero, <- known_one, <- known_minus_one.
  unfold unit_constant, equivalent_to. rewrite !orb_true_iff. tauto.
Qed.

(* ---------- expressions ---------- *)

Lemma yields_spec c e : redundant_before_binary c e = true <-> yields_truth c e.
Proof.
  unfold redundant_before_binary, yields_truth, decides.
  destruct (e_binop e) as [o|].
  - split.
    + intros H. exists o. split; [reflexivity|]. destruct o; cbn in *; auto; discriminate.
    + intros (o' & E & H). injection E as <-. destruct o; cbn in *; auto;
        destruct H as [H|[H H']]; try discriminate; exact H'.
  - split; [discriminate|]. intros (o & E & _). discriminate.
Qed.
Lemma decided_spec c e : redundant_before_logical_operand c e = true <-> decided_by c e.
Proof.
  unfold redundant_before_logical_operand, decided_by. destruct (cpp c); cbn; [tauto|].
  split; [discriminate|intros [H _]; discriminate].
Qed.
Lemma insertion_spec c e o (P : Prop) :
  (match o with
   | Minus => redundant_minus c e | Not => redundant_not c e | LNot => redundant_lnot e
   | _ => false end = true <-> P) ->
  redundant_insertion c e o = true <-> insertion_omitted c e P.
Proof.
  intros H. unfold redundant_insertion, insertion_omitted.
  rewrite <- yields_spec, <- decided_spec.
  destruct (redundant_before_binary c e); [tauto|].
  destruct (redundant_before_logical_operand c e); [tauto|].
  rewrite H. intuition discriminate.
Qed.
Lemma is_bool_spec t : is_bool t = true <-> t = TBool.
Proof. destruct t; cbn; split; congruence. Qed.

Lemma omit_lnot c e : redundant_insertion c e LNot = true <-> expr_omitted c e InsertLNot.
Proof.
  apply insertion_spec. unfold redundant_lnot. rewrite <- is_bool_spec.
  destruct (is_bool (e_ty e)), (e_boolval e) as [b|], (e_int e) as [k|]; cbn;
    (split; [intros H; try discriminate; try (left; eexists; reflexivity);
             try (right; split; [reflexivity|eexists; reflexivity])
            |intros [[k' H]|[H [b' H']]]; congruence]).
Qed.
Lemma omit_not c e : redundant_insertion c e Not = true <-> expr_omitted c e InsertNot.
Proof.
  apply insertion_spec. unfold redundant_not.
  assert (S : is_signed c (e_ty e) = true -> is_float (e_ty e) = false)
    by (destruct (e_ty e); cbn; congruence).
  destruct (is_signed c (e_ty e)); [|intuition discriminate].
  specialize (S eq_refl). rewrite <- !(known_int e _ S). cbn [andb number_of].
  rewrite orb_true_iff. tauto.
Qed.
Lemma omit_minus c e : is_signed c (e_ty e) = true \/ is_float (e_ty e) = true ->
  redundant_insertion c e Minus = true <-> expr_omitted c e InsertMinus.
Proof.
  intros T. apply insertion_spec. unfold redundant_minus. rewrite known_small_or.
  assert (S : is_signed c (e_ty e) = true -> is_float (e_ty e) = false)
    by (destruct (e_ty e); cbn; congruence).
  destruct (is_float (e_ty e)) eqn:F.
  - rewrite !(float_not_int e _ F), <- !(known_float e _ F). cbn [orb].
    rewrite andb_false_r. cbn [number_of].
    destruct (equivalent_to_float e 0), (equivalent_to_float e 1), (equivalent_to_float e (-1)); cbn; tauto.
  - destruct T as [T|T]; [|discriminate]. rewrite T, !(int_not_float e _ F), <- !(known_int e _ F).
    cbn [number_of orb andb].
    destruct (equivalent_to_int e 0), (equivalent_to_int e 1), (equivalent_to_int e (-1)); cbn; tauto.
Qed.

Lemma weak_spec c e b : boolean_replacement_redundant c e b = true <-> weak_constant c e b.
Proof.
  unfold boolean_replacement_redundant, weak_constant, decides.
  destruct (e_binop e) as [o|].
  - split.
    + intros H. exists o. split; [reflexivity|]. destruct o, b; cbn in *; try discriminate;
        rewrite ?andb_true_r, ?andb_false_r in H; try discriminate H; auto.
    + intros (o' & E & D & H). injection E as <-.
      destruct o, b; cbn in *; try discriminate; auto;
        destruct D as [D|[D D']]; try discriminate; rewrite D'; reflexivity.
  - split; [discriminate|]. intros (o & E & _). discriminate.
Qed.
Lemma omit_bool c e b : e_ty e = TBool ->
  equivalent_to_bool e b || boolean_replacement_redundant c e b = true <->
  e_boolval e = Some b \/ weak_constant c e b.
Proof.
  intros T. rewrite orb_true_iff, weak_spec. unfold equivalent_to_bool. rewrite T. cbn [is_bool andb].
  destruct (e_boolval e) as [v|]; [rewrite eqb_true_iff|]; intuition (try discriminate; try congruence).
Qed.

Lemma in_when {A B} (b : bool) (l : list (A * B)) a :
  In a (map fst (when b l)) <-> b = true /\ In a (map fst l).
Proof. destruct b; cbn; intuition discriminate. Qed.
Lemma in_one {A B} (x : A) (y : B) a : In a (map fst [(x, y)]) <-> x = a.
Proof. cbn. tauto. Qed.

Lemma expr_omit c e : (e_lvalue e = true -> can_mutate_lvalue e = true) ->
  forall a, In a (map fst (expr_mutants c true e)) <-> expr_offer c e a /\ ~ expr_omitted c e a.
Proof.
  intros P a. unfold expr_mutants, lvalue_insertions, nonlvalue_insertions,
    constant_replacements, boolean_replacements, integer_replacements, float_replacements.
  unfold expr_offer. destruct (e_lvalue e) eqn:L.
  { rewrite (P eq_refl). cbn. destruct a; cbn; intuition (try discriminate; try congruence). }
  clear P. cbn [negb orb app].
  rewrite ?map_app, ?in_app_iff, ?in_when, ?map_app, ?in_app_iff, ?in_when, ?in_one.
  rewrite ?andb_true_iff, ?orb_true_iff, ?negb_true_iff.
  rewrite <- ?not_true_iff_false, ?omit_lnot, ?omit_not, ?is_bool_spec.
  assert (S1 : is_float (e_ty e) = true <-> is_integer (e_ty e) <> true)
    by (destruct (e_ty e); cbn; intuition congruence).
  assert (S2 : e_ty e = TBool -> is_integer (e_ty e) = true /\ is_signed c (e_ty e) <> true)
    by (intros ->; cbn; split; congruence).
  assert (S3 : is_signed c (e_ty e) = true -> is_integer (e_ty e) = true)
    by (destruct (e_ty e); cbn; congruence).
  pose proof (omit_minus c e) as OM.
  assert (KI : is_integer (e_ty e) = true -> forall k, equivalent_to_int e (number_of k) = true <-> known e k).
  { intros H k. apply known_int. apply not_true_iff_false. intuition. }
  assert (KF : is_float (e_ty e) = true -> forall k, equivalent_to_float e (number_of k) = true <-> known e k).
  { intros H k. now apply known_float. }
  pose proof (omit_bool c e true) as OT. pose proof (omit_bool c e false) as OF.
  rewrite orb_true_iff in OT, OF.
  destruct a; cbn [expr_omitted] in *;
    try (specialize (fun H => KI H Zero) as K0; cbn [number_of] in K0);
    try (specialize (fun H => KF H Zero) as F0; cbn [number_of] in F0);
    try (specialize (fun H => KI H One) as K1; cbn [number_of] in K1);
    try (specialize (fun H => KF H One) as F1; cbn [number_of] in F1);
    try (specialize (fun H => KI H MinusOne) as K2; cbn [number_of] in K2);
    try (specialize (fun H => KF H MinusOne) as F2; cbn [number_of] in F2);
    clear KI KF;
    repeat match goal with
    | |- context [@eq expr_action ?x ?y] =>
        first [setoid_replace (@eq expr_action x y) with False by (split; [discriminate|intros []])
              |setoid_replace (@eq expr_action x y) with True by (split; [trivial|reflexivity])]
    end;
    try setoid_replace (false = true) with False by (split; [discriminate|intros []]);
    try setoid_replace (false = false) with True by (split; [trivial|reflexivity]);
    clear L; tauto.
Qed.

Ltac settle T :=
  repeat match goal with
  | |- context [@eq T ?x ?y] =>
      first [setoid_replace (@eq T x y) with False by (split; [discriminate|intros []])
            |setoid_replace (@eq T x y) with True by (split; [trivial|reflexivity])]
  end.

(* ---------- binary operators ---------- *)

Lemma decides_spec c o : decides c o <->
  In o [LT; GT; LE; GE; EQ; NE] \/ cpp c = true /\ In o [LAnd; LOr].
Proof. unfold decides. destruct o; cbn; intuition (try discriminate; try congruence). Qed.

Lemma omit_boolean c b o : (family_of (b_op b) = Some Logical -> cpp c = true) ->
  redundant_boolean_op b o = true <-> decides c (b_op b) /\ ~ In o (enough (b_op b)).
Proof.
  intros H. unfold redundant_boolean_op, decides.
  assert (E : forall x, negb (bop_eqb o x) = true <-> x <> o).
  { intros x. rewrite negb_true_iff, <- not_true_iff_false, bop_eqb_eq. split; congruence. }
  destruct (b_op b); cbn [family_of enough In] in *; rewrite ?andb_true_iff, ?E;
    try (specialize (H eq_refl)); intuition (try discriminate; try congruence).
Qed.

Lemma omit_arithmetic b o : redundant_arithmetic_op b o = true <-> degenerate b o.
Proof.
  unfold redundant_arithmetic_op, degenerate.
  assert (X : equivalent_to (b_rhs b) 0 && equivalent_to (b_rhs b) 1 = false).
  { apply not_true_iff_false. rewrite andb_true_iff, known_zero, known_one. unfold known.
    destruct (is_float (e_ty (b_rhs b))); intros [U V]; congruence. }
  rewrite <- !known_zero, <- !known_one. revert X.
  generalize (equivalent_to (b_lhs b) 0) (equivalent_to (b_lhs b) 1) (equivalent_to (b_rhs b) 0)
    (equivalent_to (b_rhs b) 1). intros z1 o1 z2 o2 X.
  destruct o; cbn [In]; settle bop;
    try (change (bop_eqb _ Div) with false; change (bop_eqb _ Mul) with false;
         rewrite !andb_false_r; intuition discriminate);
    destruct z1, o1, z2, o2; try discriminate X; cbn; settle bool; tauto.
Qed.

Lemma operator_mutants b : map fst (operator_replacements true b) = map bop_action (replacement_ops true b).
Proof. unfold operator_replacements. rewrite map_map. reflexivity. Qed.

Lemma replacement_omit c b o :
  (family_of (b_op b) = Some Logical -> cpp c = true) ->
  In o (replacement_ops true b) <->
  In o (replacement_ops false b) /\
  ~ (decides c (b_op b) /\ ~ In o (enough (b_op b)) \/ degenerate b o).
Proof.
  intros H. unfold replacement_ops. rewrite !filter_In. cbn [andb].
  rewrite !negb_true_iff, !orb_false_iff.
  rewrite <- (omit_boolean c b o H), <- omit_arithmetic. unfold redundant_op.
  destruct (redundant_boolean_op b o), (redundant_arithmetic_op b o); cbn; intuition congruence.
Qed.

Lemma binary_omit c b : b_op b <> Comma ->
  forall a, In a (binary_actions c true b) <-> binary_offer c b a /\ ~ binary_omitted c b a.
Proof.
  intros N a. pose proof (proj2 (binary_exactly c b N) a) as X. unfold binary_actions in *.
  destruct (c_logical c b) eqn:C.
  - rewrite X. assert (family_of (b_op b) = Some Logical /\ cpp c = false).
    { unfold c_logical in C. apply andb_prop in C as [C L]. apply negb_true_iff in C.
      split; [|exact C]. destruct (b_op b); try discriminate L; reflexivity. }
    unfold binary_omitted. tauto.
  - rewrite <- X. clear X.
    assert (H : family_of (b_op b) = Some Logical -> cpp c = true).
    { unfold c_logical in C. intros F. destruct (cpp c); [reflexivity|].
      destruct (b_op b); discriminate F || discriminate C. }
    assert (H' : ~ (family_of (b_op b) = Some Logical /\ cpp c = false))
      by (intros [F G]; rewrite (H F) in G; discriminate).
    unfold binary_mutants. rewrite !map_app, !in_app_iff, operator_mutants.
    assert (OF : map fst (operator_replacements false b) = map bop_action (replacement_ops false b))
      by (unfold operator_replacements; rewrite map_map; reflexivity).
    rewrite OF. clear OF.
    assert (A : forall a, a <> ReplaceWithLHS -> a <> ReplaceWithRHS ->
                forall opt, ~ In a (map fst (argument_replacements opt b))).
    { intros a' L R opt. unfold argument_replacements, when.
      destruct (opt && is_relational (b_op b)); [intros []|].
      destruct (is_assign (b_op b)); [intros []|].
      destruct (negb opt || _), (negb opt || _); cbn; intuition congruence. }
    assert (O : forall a, In a (map bop_action (replacement_ops true b)) <->
              In a (map bop_action (replacement_ops false b)) /\
              ~ exists o, operator_of a = Some o /\
                 (decides c (b_op b) /\ ~ In o (enough (b_op b)) \/ degenerate b o)).
    { intros a'. rewrite !in_map_iff. split.
      - intros (o & E & I). apply (replacement_omit c b o H) in I as [I1 I2].
        split; [now exists o|]. intros (o' & E' & D). apply I2.
        assert (o' = o) by (subst a'; destruct o; cbn in E'; congruence). now subst o'.
      - intros [(o & E & I) D]. exists o. split; [exact E|]. apply (replacement_omit c b o H).
        split; [exact I|]. intros F. apply D. exists o. split; [|exact F].
        assert (o <> Comma).
        { intros ->. unfold replacement_ops in I. apply filter_In in I as [I _].
          exact (candidate_not_comma b I). }
        subst a'. destruct o; cbn; congruence. }
    assert (NO : forall l, ~ In ReplaceWithLHS (map bop_action l) /\ ~ In ReplaceWithRHS (map bop_action l)).
    { intros l. split; rewrite in_map_iff; intros (o & E & _); destruct o; discriminate. }
    destruct (NO (replacement_ops true b)) as [N1 N2].
    destruct (NO (replacement_ops false b)) as [N3 N4].
    assert (AL : forall opt, In ReplaceWithLHS (map fst (argument_replacements opt b)) <->
               is_assign (b_op b) = false /\
               ~ (opt = true /\ (is_relational (b_op b) = true \/ known_small (b_lhs b)))).
    { intros opt. rewrite <- unit_known. unfold argument_replacements, when.
      destruct opt, (is_relational (b_op b)), (is_assign (b_op b)), (unit_constant (b_lhs b)),
        (unit_constant (b_rhs b)); cbn; intuition (try discriminate; try congruence). }
    assert (AR : forall opt, In ReplaceWithRHS (map fst (argument_replacements opt b)) <->
               is_assign (b_op b) = false /\
               ~ (opt = true /\ (is_relational (b_op b) = true \/ known_small (b_rhs b)))).
    { intros opt. rewrite <- unit_known. unfold argument_replacements, when.
      destruct opt, (is_relational (b_op b)), (is_assign (b_op b)), (unit_constant (b_lhs b)),
        (unit_constant (b_rhs b)); cbn; intuition (try discriminate; try congruence). }
    assert (RL : is_relational (b_op b) = true <-> family_of (b_op b) = Some Relational)
      by (destruct (b_op b); cbn; split; congruence).
    setoid_rewrite RL in AL. setoid_rewrite RL in AR. clear RL.
    unfold binary_omitted.
    assert (D : {a = ReplaceWithLHS} + {a <> ReplaceWithLHS}) by (destruct a; ((left; reflexivity) || (right; discriminate))).
    destruct D as [->|D1].
    { rewrite !AL. intuition (try discriminate; try congruence). }
    assert (D : {a = ReplaceWithRHS} + {a <> ReplaceWithRHS}) by (destruct a; ((left; reflexivity) || (right; discriminate))).
    destruct D as [->|D2].
    { rewrite !AR. intuition (try discriminate; try congruence). }
    pose proof (A a D1 D2 true) as A1. pose proof (A a D1 D2 false) as A2.
    rewrite O. clear A O NO AL AR N1 N2 N3 N4.
    destruct a; try congruence; tauto.
Qed.

(* ---------- unary operators ---------- *)

Lemma unary_omit u :
  forall a, In a (map fst (unary_mutants true u)) <-> unary_offer u a /\ ~ unary_omitted u a.
Proof.
  intros a. rewrite <- (proj2 (unary_exactly u) a).
  unfold unary_mutants. cbn [negb orb]. rewrite !map_app, !in_app_iff, !in_when, !in_one, !map_map. cbn [fst].
  rewrite !in_map_iff.
  assert (R : forall o, In o (replacement_uops true u) <->
            In o (replacement_uops false u) /\
            ~ (o = Minus /\ known_small (u_sub u) \/
               o = LNot /\ (known (u_sub u) Zero \/ known (u_sub u) One))).
  { intros o. unfold replacement_uops. rewrite !filter_In. cbn [andb].
    rewrite !negb_true_iff, !orb_false_iff.
    rewrite known_small_or. unfold redundant_uop.
    set (x := equivalent_to_int (u_sub u) 0 || _ || _ || _).
    set (y := equivalent_to_int (u_sub u) (-1) || _).
    assert (X : x = true <-> known (u_sub u) Zero \/ known (u_sub u) One).
    { rewrite <- known_zero, <- known_one. unfold x, equivalent_to. rewrite !orb_true_iff. tauto. }
    assert (Y : y = true <-> known (u_sub u) MinusOne).
    { rewrite <- known_minus_one. reflexivity. }
    clearbody x y.
    assert (Z : known (u_sub u) Zero \/ known (u_sub u) One \/ known (u_sub u) MinusOne <->
                x = true \/ y = true) by (rewrite X, Y; tauto).
    rewrite Z, <- X. clear X Y Z. rewrite <- (uop_eqb_eq o Minus), <- (uop_eqb_eq o LNot).
    destruct x, y, (uop_eqb o Minus), (uop_eqb o LNot); cbn; intuition (try discriminate; try congruence). }
  assert (SI : negb (self_inverse u) = true <-> ~ In (u_op u) [LNot; Minus; Not]).
  { unfold self_inverse. destruct (u_op u); cbn; intuition discriminate. }
  rewrite SI. clear SI.
  assert (D : {a = ReplaceWithOperand} + {a <> ReplaceWithOperand}) by (destruct a; ((left; reflexivity) || (right; discriminate))).
  destruct D as [->|D].
  { cbn [unary_omitted]. split.
    - intros [(o & E & _)|[H _]]; [destruct o; discriminate|]. split; [right; auto|exact H].
    - intros [_ H]. right. auto. }
  split.
  - intros [(o & E & I)|[_ E]]; [|congruence]. apply R in I as [I1 I2].
    split; [left; now exists o|]. intros F. apply I2. subst a.
    destruct o; cbn in F; try contradiction; auto.
  - intros [[(o & E & I)|[_ E]] F]; [|congruence]. left. exists o. split; [exact E|].
    apply R. split; [exact I|]. intros G. apply F. subst a.
    destruct G as [[-> G]|[-> G]]; exact G.
Qed.

(* ---------- no duplicates ---------- *)

Lemma sublist_in {A} (l l' : list A) x : sublist l l' -> In x l -> In x l'.
Proof. induction 1; cbn; intuition. Qed.
Lemma sublist_nodup {A} (l l' : list A) : sublist l l' -> NoDup l' -> NoDup l.
Proof.
  induction 1 as [|x l l' S IH|x l l' S IH]; intros N; [exact N| |].
  - inversion N; subst. constructor; [|now apply IH]. intros I. now apply (sublist_in l l') in I.
  - inversion N; subst. now apply IH.
Qed.
Lemma sublist_map {A B} (f : A -> B) l l' : sublist l l' -> sublist (map f l) (map f l').
Proof. induction 1; cbn; constructor; assumption. Qed.

Lemma kept c o m first id : optimise o = true -> plausible m ->
  match m, a_group (apply_mutation c o m first id) with
  | MutExpr e _, GroupReplaceExpr _ l => exactly (fun a => expr_offer c e a /\ ~ expr_omitted c e a) l
  | MutBinary b _ _ _, GroupReplaceBinary _ _ _ _ l =>
      exactly (fun a => binary_offer c b a /\ ~ binary_omitted c b a) l
  | MutUnary u _ _, GroupReplaceUnary _ _ _ l =>
      exactly (fun a => unary_offer u a /\ ~ unary_omitted u a) l
  | MutStmt _ _, GroupRemoveStmt _ _ => True
  | _, _ => False
  end.
Proof.
  intros O P. pose proof (C23_lemma c m) as S.
  destruct m as [e i|b i il ir|u i is|s i]; cbn in *; try rewrite O;
    unfold exactly; try rewrite number_snd.
  - split; [|exact (expr_omit c e P)].
    exact (sublist_nodup _ _ (sublist_map fst _ _ S) (proj1 (expr_exactly c e P))).
  - split; [|exact (binary_omit c b P)].
    exact (sublist_nodup _ _ (proj1 S) (proj1 (binary_exactly c b P))).
  - split; [|exact (unary_omit u)].
    exact (sublist_nodup _ _ (sublist_map fst _ _ S) (proj1 (unary_exactly u))).
  - exact Logic.I.
Qed.

Lemma sites_kept :
  (forall l r b, binary_site true l r b = true <->
                 binary_site false l r b = true /\ ~ binary_spared b) /\
  (forall i u, unary_site true i u = true <-> unary_site false i u = true /\ ~ unary_spared u).
Proof.
  split.
  - intros l r b. unfold binary_site, binary_spared. rewrite <- known_zero, <- known_one.
    destruct (negb l || negb r); [intuition discriminate|].
    destruct (is_assign (b_op b) && _); [intuition discriminate|].
    destruct (bop_eqb (b_op b) Comma); [intuition discriminate|].
    cbn [andb]. destruct (equivalent_to (b_lhs b) 0), (equivalent_to (b_rhs b) 1); cbn; intuition discriminate.
  - intros i u. unfold unary_site, unary_spared. rewrite <- known_zero, <- known_one.
    destruct (negb i); [intuition discriminate|].
    destruct (uop_eqb (u_op u) Plus); [intuition discriminate|].
    destruct (is_incdec (u_op u) && _); [intuition discriminate|].
    rewrite <- !uop_eqb_eq. cbn [andb].
    destruct (uop_eqb (u_op u) Minus), (uop_eqb (u_op u) Not), (equivalent_to (u_sub u) 0),
      (equivalent_to (u_sub u) 1); cbn; intuition discriminate.
Qed.
