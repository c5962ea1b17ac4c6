From Coq Require Import String List ZArith Bool Lia.
From Verif Require Import Base Clang Gen GenExpr GenBinary GenUnary Sites ArithSpec.
Import ListNotations.
Local Open Scope Z_scope.

Lemma width_pos t : is_integer t = true -> 1 <= int_width t.
Proof. destruct t; cbn; intros; try lia; discriminate. Qed.
Lemma width_big t : is_integer t = true -> is_bool t = false -> 8 <= int_width t.
Proof. destruct t; cbn; intros; try lia; discriminate. Qed.

Lemma pow_split t : is_integer t = true ->
  2 ^ int_width t = 2 * 2 ^ (int_width t - 1) /\ 0 < 2 ^ (int_width t - 1).
Proof.
  intros I. pose proof (width_pos t I). split; [|apply Z.pow_pos_nonneg; lia].
  rewrite <- Z.pow_succ_r by lia. f_equal. lia.
Qed.

Lemma in_typeb_spec c t v : in_typeb c t v = true <-> in_type c t v.
Proof. unfold in_typeb, in_type. destruct (is_signed c t); lia. Qed.

Lemma wrap_id c t v : is_integer t = true -> in_type c t v -> wrap c t v = v.
Proof.
  intros I H. destruct (pow_split t I) as [P Q]. unfold wrap, in_type in *.
  destruct (is_signed c t); cbn [andb].
  - destruct (Z_lt_ge_dec v 0).
    + replace (v mod 2 ^ int_width t) with (v + 2 ^ int_width t).
      * destruct (2 ^ (int_width t - 1) <=? v + 2 ^ int_width t) eqn:E; lia.
      * rewrite <- (Z.mod_small (v + 2 ^ int_width t) (2 ^ int_width t)) by lia.
        rewrite <- Z.add_mod_idemp_r by lia. rewrite Z.mod_same by lia. f_equal. lia.
    + rewrite Z.mod_small by lia.
      destruct (2 ^ (int_width t - 1) <=? v) eqn:E; lia.
  - apply Z.mod_small. lia.
Qed.

Lemma range_id c t v w : is_integer t = true -> in_type c t v ->
  in_range_or_wrap c t v = Some w -> w = v.
Proof.
  intros I H. unfold in_range_or_wrap. destruct (is_signed c t) eqn:S.
  - destruct (in_typeb c t v); congruence.
  - rewrite wrap_id by assumption. congruence.
Qed.

Lemma in_type_0 c t : is_integer t = true -> in_type c t 0.
Proof.
  intros I. destruct (pow_split t I). unfold in_type. destruct (is_signed c t); lia.
Qed.

Lemma equivalent_int e k : is_integer (e_ty e) = true ->
  equivalent_to e k = true -> e_int e = Some k.
Proof.
  unfold equivalent_to, equivalent_to_int, equivalent_to_float, is_integer. intros I.
  destruct (is_float (e_ty e)); [discriminate|]. cbn.
  destruct (e_int e); [|discriminate]. rewrite orb_false_r. intros E.
  apply Z.eqb_eq in E. congruence.
Qed.

Lemma unit_int e : is_integer (e_ty e) = true -> unit_constant e = true ->
  e_int e = Some 0 \/ e_int e = Some 1 \/ e_int e = Some (-1).
Proof.
  unfold unit_constant, equivalent_to_int, equivalent_to_float, is_integer. intros I.
  destruct (is_float (e_ty e)); [discriminate|]. cbn.
  destruct (e_int e); [|discriminate]. rewrite !orb_false_r. intros E.
  rewrite !orb_true_iff, !Z.eqb_eq in E.
  destruct E as [[E|E]|E]; subst; auto.
Qed.

(* A constant among 0, 1, -1 is kept unless it is the original. *)
Lemma constant_kept c e original k :
  is_integer (e_ty e) = true -> is_bool (e_ty e) = false -> e_lvalue e = false ->
  constant_if_known e original ->
  k = 0 \/ k = 1 \/ k = -1 /\ is_signed c (e_ty e) = true ->
  original_or_constant c e original k.
Proof.
  intros I B L K C. destruct (equivalent_to_int e k) eqn:E.
  - left. apply K. unfold equivalent_to_int in E. rewrite I in E. cbn in E.
    destruct (e_int e); [|discriminate]. apply Z.eqb_eq in E. congruence.
  - right. unfold expr_mutants, constant_replacements, integer_replacements,
      boolean_replacements.
    rewrite L, B, I. cbn [andb negb when app].
    destruct C as [->|[->|[-> S]]].
    + exists ReplaceWithZeroInt, (RLit (LInt 0)). split; [|reflexivity].
      apply in_or_app. right. rewrite !in_app_iff. left. left. left. rewrite E. cbn. auto.
    + exists ReplaceWithOneInt, (RLit (LInt 1)). split; [|reflexivity].
      apply in_or_app. right. rewrite !in_app_iff. left. left. right. rewrite E. cbn. auto.
    + exists ReplaceWithMinusOneInt, (RLit (LInt (-1))). split; [|reflexivity].
      apply in_or_app. right. rewrite !in_app_iff. left. right. rewrite E, S. cbn. auto.
Qed.

Lemma op_cases b : is_arithmetic_op (b_op b) = true \/ is_shift_op (b_op b) = true ->
  is_relational (b_op b) = false /\ is_assign (b_op b) = false.
Proof. destruct (b_op b); cbn; intuition discriminate. Qed.

Lemma negative_signed c t : in_type c t (-1) -> is_signed c t = true.
Proof. unfold in_type. destruct (is_signed c t); [auto|lia]. Qed.

Lemma lhs_covered c b e x y : arithmetic_node c b e x y -> covered c b e x y x.
Proof.
  intros (I & B & T & L & TL & O & X & Y & KL & KR & K).
  destruct (unit_constant (b_lhs b)) eqn:U.
  - left. apply unit_int in U; [|rewrite TL; exact I].
    apply constant_kept; try (rewrite T; assumption); try assumption.
    rewrite T.
    destruct U as [U|[U|U]]; apply KL in U; injection U as ->; auto.
    right; right. split; [reflexivity|]. apply negative_signed. assumption.
  - right. exists ReplaceWithLHS, RArg1. split; [|reflexivity].
    unfold binary_mutants, argument_replacements.
    destruct (op_cases b) as [R A]; [tauto|]. rewrite R, A, U. cbn.
    apply in_or_app. right. cbn. auto.
Qed.

Lemma rhs_covered c b e x y : arithmetic_node c b e x y ->
  is_arithmetic_op (b_op b) = true -> covered c b e x y y.
Proof.
  intros (I & B & T & L & TL & O & X & Y & KL & KR & K) AO.
  destruct O as [[_ TR]|[O _]]; [|destruct (b_op b); discriminate].
  rewrite TR in Y.
  destruct (unit_constant (b_rhs b)) eqn:U.
  - left. apply unit_int in U; [|rewrite TR; exact I].
    apply constant_kept; try (rewrite T; assumption); try assumption.
    rewrite T.
    destruct U as [U|[U|U]]; apply KR in U; injection U as ->; auto.
    right; right. split; [reflexivity|]. apply negative_signed. assumption.
  - right. exists ReplaceWithRHS, RArg2. split; [|reflexivity].
    unfold binary_mutants, argument_replacements.
    destruct (op_cases b) as [R A]; [tauto|]. rewrite R, A, U. cbn.
    apply in_or_app. right. apply in_or_app. right. cbn. auto.
Qed.

Lemma zero_covered c b e x y : arithmetic_node c b e x y -> covered c b e x y 0.
Proof.
  intros (I & B & T & L & TL & O & X & Y & KL & KR & K). left.
  apply constant_kept; try (rewrite T; assumption); auto.
Qed.

Lemma shl_zero c t x : wrap c t (x * 2 ^ 0) = wrap c t x.
Proof. now rewrite Z.pow_0_r, Z.mul_1_r. Qed.

Lemma find_group b l : find (bop_mem (b_op b)) l <> None ->
  exists g, In g l /\ In (b_op b) g /\ find (bop_mem (b_op b)) l = Some g.
Proof.
  destruct (find (bop_mem (b_op b)) l) as [g|] eqn:F; [|congruence].
  intros _. exists g. destruct (find_some _ _ F) as [H1 H2]. repeat split; auto.
  unfold bop_mem in H2. apply existsb_exists in H2. destruct H2 as (o & H & E).
  unfold bop_eqb in E. destruct (bop_eq_dec (b_op b) o); [subst; auto|discriminate].
Qed.

(* Replacements of arithmetic operators are arithmetic, of shifts are shifts. *)
Lemma candidates_arith b o : In o (candidate_ops b) -> is_arithmetic_op (b_op b) = true ->
  is_arithmetic_op o = true.
Proof.
  unfold candidate_ops. destruct (b_op b); cbn; try discriminate; intros H _;
    rewrite ?andb_false_r, ?app_nil_r in H; cbn in H;
    repeat (destruct H as [<-|H]; [reflexivity|]); destruct H.
Qed.
Lemma candidates_shift b o : In o (candidate_ops b) -> is_shift_op (b_op b) = true ->
  is_shift_op o = true.
Proof.
  unfold candidate_ops. destruct (b_op b); cbn; try discriminate; intros H _;
    rewrite ?andb_false_r, ?app_nil_r in H; cbn in H;
    repeat (destruct H as [<-|H]; [reflexivity|]); destruct H.
Qed.

Lemma arithmetic_covered c b e x y o v :
  arithmetic_node c b e x y -> In o (replacement_ops false b) ->
  arithmetic c (b_ty b) o x y = Some v -> covered c b e x y v.
Proof.
  intros N H V. destruct (in_dec bop_eq_dec o (replacement_ops true b)) as [J|J].
  { right. exists (bop_action o), (RBin o). split; [|exact V].
    unfold binary_mutants, operator_replacements. apply in_or_app. left.
    apply in_map_iff. eauto. }
  pose proof N as (I & B & T & L & TL & O & X & Y & KL & KR & K).
  unfold replacement_ops in H, J. rewrite filter_In in H, J. destruct H as [H F].
  assert (R : redundant_op b o = true).
  { destruct (redundant_op b o) eqn:E; [reflexivity|]. exfalso. apply J. split; [exact H|].
    cbn in F |- *. exact F. }
  assert (R2 : redundant_arithmetic_op b o = true).
  { unfold redundant_op in R.
    destruct (redundant_boolean_op b o) eqn:E.
    - unfold redundant_boolean_op in E. destruct (b_op b); cbn in O; try discriminate;
        destruct O as [[O ?]|[O ?]]; discriminate.
    - destruct (redundant_arithmetic_op b o); auto. }
  clear R J F.
  assert (IR : is_integer (e_ty (b_rhs b)) = true) by (destruct O as [[? ->]|[? ?]]; auto).
  assert (IL : is_integer (e_ty (b_lhs b)) = true) by (rewrite TL; auto).
  assert (EL : forall k, equivalent_to (b_lhs b) k = true -> x = k).
  { intros k Q. apply equivalent_int in Q; [|exact IL]. apply KL in Q. congruence. }
  assert (ER : forall k, equivalent_to (b_rhs b) k = true -> y = k).
  { intros k Q. apply equivalent_int in Q; [|exact IR]. apply KR in Q. congruence. }
  assert (GO : is_arithmetic_op o = true /\ is_arithmetic_op (b_op b) = true \/
               is_shift_op o = true).
  { destruct O as [[O ?]|[O ?]].
    - left. split; [apply (candidates_arith b o H O)|exact O].
    - right. apply (candidates_shift b o H O). }
  assert (Z0 : in_type c (b_ty b) 0) by (apply in_type_0; exact I).
  unfold redundant_arithmetic_op in R2.
  destruct ((equivalent_to (b_lhs b) 0 && equivalent_to (b_rhs b) 0) && bop_eqb o Div);
    [discriminate|].
  destruct (equivalent_to (b_rhs b) 0 && _) eqn:C1 in R2.
  { apply andb_true_iff in C1. destruct C1 as [C1 C2]. apply ER in C1. subst y.
    destruct o; try discriminate; cbn [arithmetic] in V.
    - rewrite Z.mul_0_r in V. apply range_id in V; auto. subst. apply zero_covered; auto.
    - rewrite Z.add_0_r in V. apply range_id in V; auto. subst. eapply lhs_covered; eauto.
    - rewrite Z.sub_0_r in V. apply range_id in V; auto. subst. eapply lhs_covered; eauto.
    - destruct ((0 <=? 0) && (0 <? int_width (b_ty b))); [|discriminate].
      rewrite Z.pow_0_r, Z.mul_1_r, wrap_id in V by auto. injection V as <-. eapply lhs_covered; eauto.
    - destruct ((0 <=? 0) && (0 <? int_width (b_ty b))); [|discriminate].
      rewrite Z.pow_0_r, Z.div_1_r in V. injection V as <-. eapply lhs_covered; eauto. }
  clear C1.
  destruct (equivalent_to (b_rhs b) 1 && _) eqn:C1 in R2.
  { apply andb_true_iff in C1. destruct C1 as [C1 C2]. apply ER in C1. subst y.
    destruct o; try discriminate; cbn [arithmetic] in V.
    - rewrite Z.mul_1_r in V. apply range_id in V; auto. subst. eapply lhs_covered; eauto.
    - rewrite Z.quot_1_r in V. apply range_id in V; auto. subst. eapply lhs_covered; eauto. }
  clear C1.
  destruct (equivalent_to (b_lhs b) 0 && _) eqn:C1 in R2.
  { apply andb_true_iff in C1. destruct C1 as [C1 C2]. apply EL in C1. subst x.
    destruct GO as [[GO1 GO2]|GO].
    - assert (TR : in_type c (b_ty b) y).
      { destruct O as [[_ O]|[O _]]; [rewrite <- O; exact Y|].
        destruct (b_op b); discriminate. }
      destruct o; try discriminate; cbn [arithmetic] in V.
      + rewrite ?Z.mul_0_l in V. apply range_id in V; auto. subst. apply zero_covered; auto.
      + destruct (y =? 0) eqn:E; [discriminate|].
        rewrite Z.quot_0_l in V by lia. apply range_id in V; auto. subst.
        apply zero_covered; auto.
      + destruct (y =? 0) eqn:E; [discriminate|].
        destruct (in_range_or_wrap c (b_ty b) (0 ÷ y)); [|discriminate].
        rewrite Z.rem_0_l in V by lia. injection V as <-. apply zero_covered; auto.
      + rewrite ?Z.add_0_l in V. apply range_id in V; auto. subst. eapply rhs_covered; eauto.
    - destruct o; try discriminate; cbn [arithmetic] in V;
        (destruct ((0 <=? y) && (y <? int_width (b_ty b))); [|discriminate]).
      + rewrite ?Z.mul_0_l in V. rewrite wrap_id in V by auto. injection V as <-.
        apply zero_covered; auto.
      + assert (Q : 0 / 2 ^ y = 0) by (destruct (2 ^ y); reflexivity).
        assert (0 = v) by congruence. subst. apply zero_covered; auto. }
  clear C1.
  destruct (equivalent_to (b_lhs b) 1 && _) eqn:C1 in R2; [|discriminate].
  apply andb_true_iff in C1. destruct C1 as [C1 C2]. apply EL in C1. subst x.
  destruct o; try discriminate. destruct GO as [[GO1 GO2]|GO]; [|discriminate].
  assert (TR : in_type c (b_ty b) y).
  { destruct O as [[_ O]|[O _]]; [rewrite <- O; exact Y|]. destruct (b_op b); discriminate. }
  cbn [arithmetic] in V. rewrite Z.mul_1_l in V. apply range_id in V; auto. subst.
  eapply rhs_covered; eauto.
Qed.

Lemma zero_one_arith c t o v : is_integer t = true ->
  arithmetic c t o 0 1 = Some v -> is_signed c t = true -> v = 0 \/ v = 1 \/ v = -1.
Proof.
  intros I V S.
  destruct o; cbn [arithmetic] in V; try discriminate; unfold in_range_or_wrap in V;
    rewrite ?S in V; cbn in V.
  all: try (destruct (in_typeb c t _); [|discriminate]); try (injection V as <-; auto; fail).
  all: try (destruct (1 <? int_width t); [|discriminate]); injection V as <-; auto.
  left. change (Z.pow_pos 2 1) with 2. rewrite wrap_id; auto. apply in_type_0; auto.
Qed.

Lemma skipped_covered c b e x y l r m a v :
  arithmetic_node c b e x y ->
  binary_site false l r b = true -> binary_site true l r b = false ->
  is_signed c (b_ty b) = true ->
  In (a, m) (binary_mutants false b) -> binary_mutant_value c (b_ty b) x y m = Some v ->
  original_or_constant c e (arithmetic c (b_ty b) (b_op b) x y) v.
Proof.
  intros N S1 S2 S H V.
  pose proof N as (I & B & T & L & TL & O & X & Y & KL & KR & K).
  assert (C : equivalent_to (b_lhs b) 0 = true /\ equivalent_to (b_rhs b) 1 = true).
  { unfold binary_site in *. destruct (negb l || negb r); [discriminate|].
    destruct (is_assign (b_op b) && e_bitfield (b_lhs b)); [discriminate|].
    destruct (bop_eqb (b_op b) Comma); [discriminate|].
    destruct (true && _) eqn:E in S2; [|discriminate].
    cbn [andb] in E. apply andb_true_iff in E. exact E. }
  destruct C as [C1 C2].
  apply equivalent_int in C1; [|rewrite TL; exact I]. apply KL in C1. injection C1 as ->.
  apply equivalent_int in C2.
  2:{ destruct O as [[? ->]|[? ?]]; auto. }
  apply KR in C2. injection C2 as ->.
  assert (VV : v = 0 \/ v = 1 \/ v = -1).
  { destruct m; cbn in V; try discriminate; try (injection V as <-; auto).
    eapply zero_one_arith; eauto. }
  apply constant_kept; try (rewrite T; assumption); try assumption.
  rewrite T. tauto.
Qed.

(* Unary operators. *)
Lemma bool_constant_kept c e original k :
  is_bool (e_ty e) = true -> e_lvalue e = false -> e_binop e = None ->
  (forall v, e_boolval e = Some v -> original = Some (truth_number v)) ->
  k = 0 \/ k = 1 ->
  original_or_constant c e original k.
Proof.
  intros B L O K C.
  assert (E : exists t, k = truth_number t) by
    (destruct C as [->| ->]; [exists false|exists true]; reflexivity).
  destruct E as [t ->]. destruct (equivalent_to_bool e t) eqn:E.
  - left. apply K. unfold equivalent_to_bool in E. rewrite B in E. cbn in E.
    destruct (e_boolval e); [|discriminate]. apply eqb_prop in E. congruence.
  - right. unfold expr_mutants, constant_replacements, boolean_replacements.
    rewrite L, B. unfold boolean_replacement_redundant. rewrite O. cbn [andb negb when app].
    rewrite andb_true_r.
    destruct t.
    + exists ReplaceWithTrue, (RLit (if cpp c then LBool true else LInt 1)).
      split; [|destruct (cpp c); reflexivity].
      apply in_or_app. right. rewrite E. apply in_or_app. left. cbn. auto.
    + exists ReplaceWithFalse, (RLit (if cpp c then LBool false else LInt 0)).
      split; [|destruct (cpp c); reflexivity].
      apply in_or_app. right. rewrite E. apply in_or_app. left. apply in_or_app. right.
      rewrite ?andb_true_r. cbn. auto.
Qed.

Lemma promoted_width c t : is_integer t = true -> 32 <= int_width (promoted c t).
Proof.
  destruct t; cbn; intros; try lia; try discriminate. destruct (wchar_signed c); cbn; lia.
Qed.
Lemma promoted_int c t : is_integer t = true -> is_integer (promoted c t) = true.
Proof. destruct t; cbn; auto. destruct (wchar_signed c); auto. Qed.
Lemma promoted_signed c t : is_integer t = true -> is_signed c t = true ->
  is_signed c (promoted c t) = true.
Proof. destruct t; cbn; auto; try discriminate. intros _ ->. reflexivity. Qed.

Lemma in_type_small c t v : is_integer t = true -> is_bool t = false -> -1 <= v <= 1 ->
  (v < 0 -> is_signed c t = true) -> in_type c t v.
Proof.
  intros I B R N. pose proof (width_big t I B).
  assert (2 ^ 7 <= 2 ^ (int_width t - 1)) by (apply Z.pow_le_mono_r; lia).
  destruct (pow_split t I). change (2 ^ 7) with 128 in *. unfold in_type.
  destruct (is_signed c t); [lia|]. split; [|lia].
  destruct (Z_lt_ge_dec v 0); [specialize (N l); discriminate|lia].
Qed.

Lemma promoted_nobool c t : is_bool (promoted c t) = false.
Proof. destruct t; cbn; auto. destruct (wchar_signed c); auto. Qed.

Lemma signed_small c t v : is_integer t = true -> is_bool t = false -> -1 <= v <= 1 ->
  is_signed c t = true -> in_range_or_wrap c t v = Some v.
Proof.
  intros I B R S. unfold in_range_or_wrap. rewrite S.
  replace (in_typeb c t v) with true; [reflexivity|].
  symmetry. apply in_typeb_spec. apply in_type_small; auto.
Qed.

Lemma unsigned_minus_one c t : is_integer t = true -> is_signed c t = false ->
  in_range_or_wrap c t (-1) = Some (2 ^ int_width t - 1).
Proof.
  intros I S. destruct (pow_split t I). unfold in_range_or_wrap, wrap. rewrite S. cbn [andb].
  f_equal. rewrite <- (Z.mod_small (2 ^ int_width t - 1) (2 ^ int_width t)) by lia.
  replace (2 ^ int_width t - 1) with (-1 + 1 * 2 ^ int_width t) by lia.
  now rewrite Z.mod_add by lia.
Qed.

Lemma convert_int_ones c t : is_integer t = true ->
  convert c TInt (2 ^ int_width (promoted c t) - 1) = -1.
Proof.
  intros I. pose proof (promoted_width c t I) as W. pose proof (promoted_int c t I) as J.
  remember (int_width (promoted c t)) as w. clear Heqw.
  unfold convert, wrap. cbn [is_bool int_width is_signed andb].
  assert (E : (2 ^ w - 1) mod 2 ^ 32 = 2 ^ 32 - 1).
  { replace (2 ^ w - 1) with (2 ^ 32 - 1 + (2 ^ (w - 32) - 1) * 2 ^ 32).
    - rewrite Z.mod_add by (cbn; lia). apply Z.mod_small. cbn. lia.
    - rewrite Z.mul_sub_distr_r, <- Z.pow_add_r by lia.
      replace (w - 32 + 32) with w by lia. lia. }
  rewrite E. reflexivity.
Qed.

Lemma convert_bool c x : convert c TBool x = truth_number (negb (x =? 0)).
Proof. unfold convert. cbn. destruct (x =? 0); reflexivity. Qed.

Lemma convert_small c t v : is_integer t = true -> is_bool t = false -> -1 <= v <= 1 ->
  (v < 0 -> is_signed c t = true) -> convert c t v = v.
Proof.
  intros I B R N. unfold convert. rewrite B. apply wrap_id; auto. apply in_type_small; auto.
Qed.

(* A small value of the result type of a unary operator is covered. *)
Lemma result_covered c u e x v :
  unary_node c u e x ->
  (is_bool (u_ty u) = true -> v = 0 \/ v = 1) ->
  (is_bool (u_ty u) = false -> v = 0 \/ v = 1 \/ v = -1 /\ is_signed c (u_ty u) = true) ->
  original_or_constant c e
    (option_map (convert c (u_ty u)) (unary_arithmetic c (e_ty (u_sub u)) (u_op u) x)) v.
Proof.
  intros (IS & IU & O & LS & T & L & BO & X & KS & K & KB) VB VI.
  destruct (is_bool (u_ty u)) eqn:B.
  - apply bool_constant_kept; auto. now rewrite T.
  - apply constant_kept; auto; rewrite T; auto.
Qed.

Lemma uop_eqb_eq a b : uop_eqb a b = true -> a = b.
Proof. unfold uop_eqb. destruct (uop_eq_dec a b); [auto|discriminate]. Qed.
Lemma uop_eqb_refl a : uop_eqb a a = true.
Proof. unfold uop_eqb. destruct (uop_eq_dec a a); congruence. Qed.

Lemma unary_dropped c u e x i o v :
  unary_node c u e x -> unary_site true i u = true ->
  In o (replacement_uops false u) -> ~ In o (replacement_uops true u) ->
  unary_mutant_value c (e_ty (u_sub u)) (u_ty u) x (apply_uop o) = Some v ->
  original_or_constant c e
    (option_map (convert c (u_ty u)) (unary_arithmetic c (e_ty (u_sub u)) (u_op u) x)) v.
Proof.
  intros N S H J V.
  pose proof N as (IS & IU & O & LS & T & L & BO & X & KS & K & KB).
  unfold replacement_uops in H, J. rewrite filter_In in H, J. destruct H as [H F].
  assert (R : redundant_uop u o = true).
  { destruct (redundant_uop u o) eqn:E; [reflexivity|]. exfalso. apply J. split; [exact H|].
    cbn in F |- *. exact F. }
  assert (NE : o <> u_op u).
  { intros ->. rewrite uop_eqb_refl in F. discriminate. }
  clear J F.
  assert (Q : forall k, equivalent_to_int (u_sub u) k || equivalent_to_float (u_sub u) k
              = true -> x = k).
  { intros k Q. apply equivalent_int in Q; auto. apply KS in Q. congruence. }
  assert (PI := promoted_int c _ IS). assert (PB := promoted_nobool c (e_ty (u_sub u))).
  apply (result_covered c u e x v N).
  - intros B. assert (u_ty u = TBool) as TB by (destruct (u_ty u); try discriminate; auto).
    destruct o; cbn in R; unfold redundant_uop in R; cbn in R;
      rewrite ?andb_false_r in R; try discriminate; cbn in V;
      try (injection V as <-); rewrite ?TB, ?convert_bool.
    + destruct (in_range_or_wrap _ _ _); [|discriminate]. cbn in V. injection V as <-.
      rewrite TB, convert_bool. destruct (z =? 0); cbn; auto.
    + destruct (x =? 0); cbn; auto.
  - intros B. unfold redundant_uop in R.
    match type of R with (if ?b then _ else _) = _ => destruct b eqn:R1 end.
    + apply andb_true_iff in R1. destruct R1 as [R1 R2].
      assert (XX : x = 0 \/ x = 1 /\ equivalent_to (u_sub u) 1 = true).
      { unfold equivalent_to. rewrite !orb_true_iff in R1.
        destruct R1 as [[[R1|R1]|R1]|R1].
        - left. apply Q. now rewrite R1.
        - left. apply Q. now rewrite R1, orb_true_r.
        - right. split; [apply Q|]; now rewrite R1.
        - right. split; [apply Q|]; now rewrite R1, orb_true_r. }
      apply orb_true_iff in R2. destruct R2 as [R2|R2]; apply uop_eqb_eq in R2; subst o.
      * destruct XX as [->|[-> C1]]; cbn in V.
        -- destruct (in_range_or_wrap _ _ _) as [w|] eqn:W; [|discriminate].
           apply range_id in W; [|auto|apply in_type_0; auto]. subst w.
           cbn in V. injection V as <-. rewrite convert_small; auto; lia.
        -- destruct (u_op u) eqn:E; try contradiction.
           ++ exfalso. unfold unary_site in S. rewrite E in S. cbn in S. rewrite C1 in S.
              destruct (negb i); [discriminate|].
              rewrite orb_true_r in S. cbn in S. discriminate.
           ++ rewrite O in B |- *. destruct (cpp c); [discriminate|]. cbn in V.
              rewrite O in V.
              destruct (is_signed c (promoted c (e_ty (u_sub u)))) eqn:SG.
              ** rewrite signed_small in V; auto; [|lia]. cbn in V. injection V as <-.
                 right. right. split; [reflexivity|reflexivity].
              ** rewrite unsigned_minus_one in V; auto. cbn [option_map] in V.
                 rewrite convert_int_ones in V by auto. injection V as <-.
                 right. right. split; reflexivity.
      * cbn in V. injection V as <-.
        assert (QQ : forall b, convert c (u_ty u) (truth_number b) = truth_number b).
        { intros []; cbn; apply convert_small; auto; lia. }
        rewrite QQ. destruct (x =? 0); cbn; auto.
    + match type of R with (if ?b then _ else _) = _ => destruct b eqn:R2 end; [|discriminate].
      apply andb_true_iff in R2. destruct R2 as [R2 R3]. apply uop_eqb_eq in R3. subst o.
      apply Q in R2. subst x. cbn in V.
      pose proof (negative_signed _ _ X) as SG.
      rewrite signed_small in V; auto; [|lia|apply promoted_signed; auto].
      cbn in V. injection V as <-. rewrite convert_small; auto; lia.
Qed.

Lemma not_skipped c u e x i a m v :
  unary_node c u e x -> unary_site false i u = true -> unary_site true i u = false ->
  u_op u = Not -> is_signed c (u_ty u) = true ->
  In (a, m) (unary_mutants false u) ->
  unary_mutant_value c (e_ty (u_sub u)) (u_ty u) x m = Some v ->
  original_or_constant c e
    (option_map (convert c (u_ty u)) (unary_arithmetic c (e_ty (u_sub u)) (u_op u) x)) v.
Proof.
  intros N S1 S2 OP SG H V.
  pose proof N as (IS & IU & O & LS & T & L & BO & X & KS & K & KB).
  rewrite OP in O. destruct O as [TT PP].
  assert (XX : x = 0 \/ x = 1).
  { unfold unary_site in S1, S2. destruct (negb i); [discriminate|].
    rewrite OP in S1, S2. cbn in S1, S2.
    destruct (equivalent_to (u_sub u) 0 || equivalent_to (u_sub u) 1) eqn:E; [|discriminate].
    apply orb_true_iff in E. destruct E as [E|E]; apply equivalent_int in E; auto;
      apply KS in E; injection E as ->; auto. }
  assert (B : is_bool (u_ty u) = false) by (destruct (u_ty u); try reflexivity; discriminate).
  apply (result_covered c u e x v N); [congruence|]. intros _.
  assert (QQ : forall w, -1 <= w <= 1 -> convert c (u_ty u) w = w).
  { intros w R. apply convert_small; auto. }
  unfold unary_mutants in H. apply in_app_or in H. destruct H as [H|H].
  - apply in_map_iff in H. destruct H as (o & E & H). injection E as <- <-.
    unfold replacement_uops in H. apply filter_In in H. destruct H as [H F].
    rewrite OP in F. unfold valid_uop in F. rewrite LS in F. cbn in F, H.
    destruct o; cbn in F; try discriminate; try (intuition discriminate); cbn in V.
    + rewrite <- TT, PP, signed_small in V; auto; [|lia]. cbn in V. injection V as <-.
      rewrite QQ by lia. destruct XX as [->| ->]; auto.
    + destruct XX as [->| ->]; cbn in V; injection V as <-; rewrite QQ by lia; auto.
  - destruct H as [H|[]]. injection H as <- <-. cbn in V. injection V as <-.
    rewrite QQ by lia. tauto.
Qed.

Lemma insertion_dropped c e x a o v :
  plain_value c e x ->
  In (a, RPreParen o) (expr_mutants c false e) ->
  ~ In (a, RPreParen o) (expr_mutants c true e) ->
  unary_mutant_value c (e_ty e) (e_ty e) x (RPreParen o) = Some v ->
  original_or_constant c e (Some x) v.
Proof.
  intros (I & L & BO & LO & X & K & KB) H J V.
  assert (RB : redundant_before_binary c e = false).
  { unfold redundant_before_binary. now rewrite BO. }
  assert (RL : redundant_before_logical_operand c e = false).
  { unfold redundant_before_logical_operand. rewrite LO. destruct (cpp c); reflexivity. }
  assert (NC : forall opt, ~ In (a, RPreParen o) (constant_replacements c opt e)).
  { intros opt A. unfold constant_replacements, boolean_replacements, integer_replacements,
      float_replacements, when in A. rewrite L in A.
    repeat match type of A with context [if ?b then _ else _] => destruct b end;
      cbn in A; intuition discriminate. }
  unfold expr_mutants, lvalue_insertions in H, J. rewrite L in H, J. cbn [negb orb app] in H, J.
  rewrite in_app_iff in H, J. destruct H as [H|H]; [|destruct (NC _ H)].
  assert (J2 : ~ In (a, RPreParen o) (nonlvalue_insertions c true e)) by tauto.
  assert (SB : is_bool (e_ty e) = true -> v = 0 \/ v = 1).
  { intros B. assert (TB : e_ty e = TBool) by (destruct (e_ty e); try discriminate; auto).
    rewrite TB in V. cbn in V.
    destruct (unary_arithmetic c TBool o x) as [w|]; [|discriminate].
    cbn [option_map] in V. rewrite convert_bool in V. injection V as <-. destruct (w =? 0); cbn; auto. }
  assert (C : is_bool (e_ty e) = false ->
              (v = 0 \/ v = 1 \/ v = -1 /\ is_signed c (e_ty e) = true) \/ v = x).
  { intros B. unfold nonlvalue_insertions, redundant_insertion in H, J2.
    rewrite L, ?RB, ?RL, B, I in H, J2. cbn [negb orb andb when] in H, J2.
    assert (QQ : forall w, -1 <= w <= 1 -> (w < 0 -> is_signed c (e_ty e) = true) ->
                 convert c (e_ty e) w = w).
    { intros w R W. apply convert_small; auto. }
    assert (EQI : forall k, equivalent_to_int e k = true -> x = k).
    { intros k Q. unfold equivalent_to_int in Q. rewrite I in Q. cbn in Q.
      destruct (e_int e) eqn:Q2; [|discriminate]. apply Z.eqb_eq in Q. subst.
      specialize (K _ Q2). congruence. }
    assert (FL : is_float (e_ty e) = false).
    { unfold is_integer in I. destruct (is_float (e_ty e)); auto. }
    rewrite !in_app_iff in H, J2. destruct H as [H|[H|H]].
    - destruct H as [H|[]]. injection H as <- <-. left. cbn in V. injection V as <-.
      destruct (x =? 0); cbn; rewrite QQ; auto; lia.
    - destruct H as [H|[]]. injection H as <- <-.
      destruct (redundant_not c e) eqn:R.
      2:{ exfalso. apply J2. right. left. cbn. auto. }
      unfold redundant_not in R. apply andb_true_iff in R. destruct R as [SG R].
      cbn in V. injection V as <-. left.
      apply orb_true_iff in R. destruct R as [R|R]; apply EQI in R; subst x; cbn [Z.opp Z.sub].
      + rewrite wrap_id; [|apply promoted_int; auto|].
        2:{ apply in_type_small; auto using promoted_int, promoted_nobool; cbn; [lia|].
            intros _. apply promoted_signed; auto. }
        rewrite QQ; auto; cbn; lia.
      + rewrite wrap_id; [|apply promoted_int; auto|].
        2:{ apply in_type_small; auto using promoted_int, promoted_nobool; cbn; lia. }
        rewrite QQ; auto; cbn; lia.
    - destruct (is_signed c (e_ty e)) eqn:SG.
      2:{ rewrite FL in H. cbn in H. destruct H. }
      cbn in H. destruct H as [H|[]]. injection H as <- <-.
      destruct (redundant_minus c e) eqn:R.
      2:{ exfalso. apply J2. right. right. cbn. auto. }
      unfold redundant_minus in R. rewrite SG in R.
      unfold equivalent_to_float in R. rewrite FL in R. cbn in R.
      rewrite !orb_false_r in R.
      assert (XX : x = 0 \/ x = 1 \/ x = -1).
      { destruct (equivalent_to_int e 0) eqn:E0; [left; apply EQI; auto|].
        destruct (equivalent_to_int e 1) eqn:E1; [right; left; apply EQI; auto|].
        destruct (equivalent_to_int e (-1)) eqn:E2; [right; right; apply EQI; auto|].
        discriminate. }
      cbn in V.
      rewrite signed_small in V; auto using promoted_int, promoted_nobool;
        [|destruct XX as [->|[->| ->]]; lia|apply promoted_signed; auto].
      cbn in V. injection V as <-. left.
      destruct XX as [->|[->| ->]]; cbn [Z.opp]; rewrite QQ; auto; lia. }
  destruct (is_bool (e_ty e)) eqn:B.
  - apply bool_constant_kept; auto. intros t Q. now rewrite (KB t Q eq_refl).
  - destruct (C eq_refl) as [C2| ->]; [|left; reflexivity].
    apply constant_kept; auto.
Qed.

(* Removing a self-inverse operator. *)
Lemma wrap_add c t v : is_integer t = true -> wrap c t (v - 2 ^ int_width t) = wrap c t v.
Proof.
  intros I. destruct (pow_split t I). unfold wrap.
  replace (v - 2 ^ int_width t) with (v + (-1) * 2 ^ int_width t) by lia.
  now rewrite Z.mod_add by lia.
Qed.

Lemma not_not c t x : is_integer t = true -> in_type c t x ->
  wrap c t (- wrap c t (- x - 1) - 1) = x.
Proof.
  intros I X. destruct (pow_split t I) as [P Q].
  destruct (is_signed c t) eqn:S.
  - rewrite (wrap_id c t (- x - 1)); auto.
    + rewrite wrap_id; auto; [lia|].
      replace (- (- x - 1) - 1) with x by lia. exact X.
    + unfold in_type in *. rewrite S in *. lia.
  - rewrite <- (wrap_add c t (-x - 1)) by exact I.
    replace (wrap c t (- x - 1 - 2 ^ int_width t)) with (2 ^ int_width t - 1 - x).
    + replace (- (2 ^ int_width t - 1 - x) - 1) with (x - 2 ^ int_width t) by lia.
      rewrite wrap_add by exact I. apply wrap_id; auto.
    + rewrite wrap_add by exact I.
      rewrite <- (wrap_id c t (2 ^ int_width t - 1 - x)); auto.
      * replace (2 ^ int_width t - 1 - x) with (-x - 1 - (- 2 ^ int_width t)) by lia.
        rewrite <- (wrap_add c t (-x - 1 - - 2 ^ int_width t)) by exact I. f_equal. lia.
      * unfold in_type in *. rewrite S in *. lia.
Qed.

Lemma self_inverse_covered c u e x y :
  unary_node c u e x -> e_logical_operand e = false ->
  (u_op u = Minus -> is_signed c (u_ty u) = true) ->
  (u_op u = LNot -> cpp c = true /\ e_ty (u_sub u) = TBool) ->
  option_map (convert c (u_ty u))
    (unary_arithmetic c (e_ty (u_sub u)) (u_op u) x) = Some y ->
  original_or_constant c e (Some y) (convert c (u_ty u) x) \/
  insertion_gives c e y (convert c (u_ty u) x).
Proof.
  intros N LO HM HL OR.
  pose proof N as (IS & IU & O & LS & T & L & BO & X & KS & K & KB).
  rewrite OR in K, KB.
  assert (RB : redundant_before_binary c e = false).
  { unfold redundant_before_binary. now rewrite BO. }
  assert (RL : redundant_before_logical_operand c e = false).
  { unfold redundant_before_logical_operand. rewrite LO. destruct (cpp c); reflexivity. }
  assert (EI : is_integer (e_ty e) = true) by (rewrite T; exact IU).
  assert (FL : is_float (e_ty e) = false).
  { unfold is_integer in EI. destruct (is_float (e_ty e)); auto. }
  assert (EQI : forall k, equivalent_to_int e k = true -> y = k).
  { intros k Q. unfold equivalent_to_int in Q. rewrite EI in Q. cbn in Q.
    destruct (e_int e) eqn:Q2; [|discriminate]. apply Z.eqb_eq in Q. subst.
    specialize (K _ Q2). congruence. }
  destruct (u_op u) eqn:OP; try contradiction.
  - (* minus *)
    destruct O as [TT PP]. specialize (HM eq_refl).
    assert (B : is_bool (u_ty u) = false)
      by (destruct (u_ty u); try reflexivity; discriminate).
    cbn in OR. rewrite <- TT, PP in OR. rewrite <- TT in X.
    unfold in_range_or_wrap in OR. rewrite HM in OR.
    destruct (in_typeb c (u_ty u) (- x)) eqn:R; [|discriminate].
    apply in_typeb_spec in R. cbn in OR. unfold convert in OR. rewrite B in OR.
    rewrite wrap_id in OR by auto. injection OR as <-.
    unfold convert. rewrite B, wrap_id by auto.
    destruct (redundant_minus c e) eqn:RM.
    + left. unfold redundant_minus in RM. rewrite T, HM in RM.
      unfold equivalent_to_float in RM. rewrite FL in RM. cbn in RM.
      rewrite !orb_false_r in RM.
      assert (XX : x = 0 \/ x = 1 \/ x = -1).
      { destruct (equivalent_to_int e 0) eqn:E0; [apply EQI in E0; lia|].
        destruct (equivalent_to_int e 1) eqn:E1; [apply EQI in E1; lia|].
        destruct (equivalent_to_int e (-1)) eqn:E2; [apply EQI in E2; lia|].
        discriminate. }
      apply constant_kept; auto; rewrite T; auto. tauto.
    + right. exists InsertMinus, (RPreParen Minus). split.
      * unfold expr_mutants, nonlvalue_insertions, redundant_insertion.
        rewrite L, RB, RL, RM, T, HM. rewrite !in_app_iff. left. right. right. right.
        cbn. auto.
      * cbn. rewrite T, PP, Z.opp_involutive. unfold in_range_or_wrap. rewrite HM.
        replace (in_typeb c (u_ty u) x) with true by (symmetry; apply in_typeb_spec; auto).
        cbn. unfold convert. now rewrite B, wrap_id by auto.
  - (* bitwise not *)
    destruct O as [TT PP]. clear HM HL.
    assert (B : is_bool (u_ty u) = false).
    { rewrite <- PP. apply promoted_nobool. }
    cbn in OR. rewrite <- TT, PP in OR. rewrite <- TT in X.
    unfold convert in *. rewrite B in *.
    assert (WW : wrap c (u_ty u) (wrap c (u_ty u) (- x - 1)) = wrap c (u_ty u) (- x - 1)).
    { clear - IU. destruct (pow_split _ IU) as [P Q]. unfold wrap.
      pose proof (Z.mod_pos_bound (- x - 1) (2 ^ int_width (u_ty u))) as R.
      destruct (is_signed c (u_ty u)); cbn [andb].
      - destruct (2 ^ (int_width (u_ty u) - 1) <=? (- x - 1) mod 2 ^ int_width (u_ty u)) eqn:E.
        + replace ((- x - 1) mod 2 ^ int_width (u_ty u) - 2 ^ int_width (u_ty u))
            with ((- x - 1) mod 2 ^ int_width (u_ty u) + (-1) * 2 ^ int_width (u_ty u)) by lia.
          rewrite Z.mod_add by lia. rewrite Z.mod_mod by lia. rewrite E. lia.
        + rewrite Z.mod_mod by lia. rewrite E. reflexivity.
      - apply Z.mod_mod. lia. }
    rewrite WW in OR. injection OR as <-.
    rewrite (wrap_id c (u_ty u) x) by auto.
    destruct (redundant_not c e) eqn:RN.
    + left. unfold redundant_not in RN. rewrite T in RN. apply andb_true_iff in RN.
      destruct RN as [SG RN].
      assert (Y : wrap c (u_ty u) (- x - 1) = - x - 1).
      { apply wrap_id; auto. unfold in_type in *. rewrite SG in *. lia. }
      rewrite Y in *.
      assert (XX : x = 0 \/ x = -1).
      { apply orb_true_iff in RN. destruct RN as [RN|RN]; apply EQI in RN; lia. }
      apply constant_kept; auto; rewrite T; auto. tauto.
    + right. exists InsertNot, (RPreParen Not). split.
      * unfold expr_mutants, nonlvalue_insertions, redundant_insertion.
        rewrite L, RB, RL, RN, T, IU, B. rewrite !in_app_iff. left. right. right. left.
        cbn. auto.
      * cbn. rewrite T, PP. rewrite not_not by auto. cbn. unfold convert. rewrite B.
        rewrite wrap_id by auto. reflexivity.
  - (* logical not *)
    destruct (HL eq_refl) as [CPP SB]. rewrite CPP in O. clear HM HL.
    rewrite SB in X. rewrite O, SB in OR. cbn in OR.
    rewrite O, convert_bool. assert (XX : x = 0 \/ x = 1) by (unfold in_type in X; cbn in X; lia).
    assert (B : is_bool (e_ty e) = true) by (now rewrite T, O).
    destruct (redundant_lnot e) eqn:RN.
    + left. apply bool_constant_kept; auto.
      * intros v Q. apply KB; auto. now rewrite O.
      * destruct XX as [->| ->]; auto.
    + right. exists InsertLNot, (RPreParen LNot). split.
      * unfold expr_mutants, nonlvalue_insertions, redundant_insertion.
        rewrite L, RB, RL, RN, B. rewrite !in_app_iff. left. right. left.
        cbn. auto.
      * cbn. rewrite T, O, convert_bool.
        destruct XX as [->| ->]; cbn in OR; injection OR as <-; reflexivity.
Qed.

(* The operand itself stays a replacement of every other unary operator. *)
Lemma only_self_inverse_dropped u :
  ~ In (ReplaceWithOperand, RArg1) (unary_mutants true u) ->
  u_op u = LNot \/ u_op u = Minus \/ u_op u = Not.
Proof.
  intros H. destruct (self_inverse u) eqn:E.
  - unfold self_inverse in E. destruct (u_op u); try discriminate; auto.
  - exfalso. apply H. unfold unary_mutants. apply in_or_app. right. rewrite E. now left.
Qed.
