(* Proofs about floating-point mutants (C65). *)
From Coq Require Import String List ZArith Bool Lia SpecFloat.
From Verif Require Import Base Clang Gen GenExpr GenBinary GenUnary Sites FloatSpec.
Import ListNotations.
Local Open Scope Z_scope.

(** * Multiplying and dividing by one *)

Section Format.
Variables prec emax : Z.
Hypothesis precision : 1 < prec < emax.

Fixpoint shifted (m : positive) (k : nat) : positive :=
  match k with O => m | S k => xO (shifted m k) end.
Fixpoint times {A} (n : nat) (f : A -> A) (x : A) : A :=
  match n with O => x | S n => f (times n f x) end.
Lemma times_add {A} (f : A -> A) n k x : times (n + k) f x = times n f (times k f x).
Proof. induction n; cbn; congruence. Qed.
Lemma times_succ {A} (f : A -> A) n x : times (S n) f x = times n f (f x).
Proof. replace (S n) with (n + 1)%nat by lia. now rewrite times_add. Qed.

Lemma shifted_Z m k : Z.pos (shifted m k) = Z.pos m * 2 ^ Z.of_nat k.
Proof.
  induction k as [|k IH]; cbn [shifted].
  - now rewrite Z.mul_1_r.
  -
    change (Z.pos (shifted m k)~0) with (2 * Z.pos (shifted m k)).
    rewrite IH, Nat2Z.inj_succ, Z.pow_succ_r by lia. lia.
Qed.

Lemma digits_shifted m k :
  Z.pos (digits2_pos (shifted m k)) = Z.pos (digits2_pos m) + Z.of_nat k.
Proof.
  induction k as [|k IH]; cbn [shifted].
  - lia.
  - cbn [digits2_pos]. lia.
Qed.

Lemma iter_pos_nat {A} (f : A -> A) p x : iter_pos f p x = times (Pos.to_nat p) f x.
Proof.
  revert x. induction p as [p IH|p IH|]; intros x; cbn [iter_pos].
  - rewrite !IH, Pos2Nat.inj_xI.
    replace (S (2 * Pos.to_nat p)) with (Pos.to_nat p + (Pos.to_nat p + 1))%nat by lia.
    rewrite !times_add. reflexivity.
  - rewrite !IH, Pos2Nat.inj_xO.
    replace (2 * Pos.to_nat p)%nat with (Pos.to_nat p + Pos.to_nat p)%nat by lia.
    now rewrite times_add.
  - reflexivity.
Qed.

Lemma shr_exact m k :
  times k shr_1 {| shr_m := Z.pos (shifted m k); shr_r := false; shr_s := false |}
  = {| shr_m := Z.pos m; shr_r := false; shr_s := false |}.
Proof.
  induction k as [|k IH]; [reflexivity|].
  rewrite times_succ. cbn [shifted]. exact IH.
Qed.

Definition canonical (m : positive) (e : Z) : Prop :=
  fexp prec emax (Z.pos (digits2_pos m) + e) = e.

Lemma shr_fexp_exact m e k : canonical m e ->
  shr_fexp prec emax (Z.pos (shifted m k)) (e - Z.of_nat k) loc_Exact
  = ({| shr_m := Z.pos m; shr_r := false; shr_s := false |}, e).
Proof.
  intros C. unfold shr_fexp. cbn [Zdigits2 shr_record_of_loc].
  rewrite digits_shifted.
  replace (Z.pos (digits2_pos m) + Z.of_nat k + (e - Z.of_nat k))
    with (Z.pos (digits2_pos m) + e) by lia.
  rewrite C. replace (e - (e - Z.of_nat k)) with (Z.of_nat k) by lia.
  unfold shr. destruct k as [|k].
  - cbn. f_equal. lia.
  - cbn [Z.of_nat]. rewrite iter_pos_nat, SuccNat2Pos.id_succ, shr_exact. f_equal. lia.
Qed.

Lemma round_exact s m e k : canonical m e -> e <= emax - prec ->
  binary_round_aux prec emax s (Z.pos (shifted m k)) (e - Z.of_nat k) loc_Exact
  = S754_finite s m e.
Proof.
  intros C B. unfold binary_round_aux. rewrite shr_fexp_exact by exact C.
  cbn [shr_m loc_of_shr_record round_nearest_even].
  pose proof (shr_fexp_exact m e 0 C) as X. cbn [shifted Z.of_nat] in X.
  rewrite Z.sub_0_r in X. rewrite X. cbn [shr_m].
  replace (Z.leb e (emax - prec)) with true; [reflexivity|]. symmetry. apply Z.leb_le. lia.
Qed.

Definition unit_shift : nat := Z.to_nat (prec - 1).

Lemma unit_shift_Z : Z.of_nat unit_shift = prec - 1.
Proof. unfold unit_shift. lia. Qed.

Lemma fexp_one : fexp prec emax 1 = 1 - prec.
Proof. unfold fexp, emin. lia. Qed.

Lemma canonical_one : canonical (shifted 1 unit_shift) (1 - prec).
Proof.
  unfold canonical. rewrite digits_shifted, unit_shift_Z. cbn [digits2_pos].
  replace (1 + (prec - 1) + (1 - prec)) with 1 by lia. apply fexp_one.
Qed.

Lemma shift_pos_shifted p m : shift_pos p m = shifted m (Pos.to_nat p).
Proof.
  unfold shift_pos. rewrite Pos2Nat.inj_iter.
  induction (Pos.to_nat p) as [|k IH]; [reflexivity|]. cbn. now rewrite IH.
Qed.

Lemma one_finite : SFone prec emax = S754_finite false (shifted 1 unit_shift) (1 - prec).
Proof.
  unfold SFone, binary_round. cbn [digits2_pos]. change (1 + 0) with 1.
  rewrite fexp_one. unfold shl_align.
  destruct (1 - prec - 0) as [|p|p] eqn:E; [lia|lia|].
  rewrite shift_pos_shifted.
  replace (Pos.to_nat p) with unit_shift by (unfold unit_shift; lia).
  pose proof (round_exact false (shifted 1 unit_shift) (1 - prec) 0 canonical_one) as X.
  cbn [Z.of_nat] in X. rewrite Z.sub_0_r in X. apply X. lia.
Qed.

Lemma valid_finite s m e : valid_binary prec emax (S754_finite s m e) = true ->
  canonical m e /\ e <= emax - prec.
Proof.
  cbn [valid_binary]. unfold bounded, canonical_mantissa. intros H.
  apply andb_true_iff in H. destruct H as [A B]. apply Zeq_bool_eq in A.
  split; [exact A|]. now apply Z.leb_le in B.
Qed.

Lemma mul_one x : valid_binary prec emax x = true -> SFmul prec emax x (SFone prec emax) = x.
Proof.
  intros V. rewrite one_finite. destruct x as [s|s| |s m e]; cbn [SFmul].
  - now rewrite xorb_false_r.
  - now rewrite xorb_false_r.
  - reflexivity.
  - destruct (valid_finite s m e V) as [C B].
    replace (Z.pos (m * shifted 1 unit_shift)) with (Z.pos (shifted m unit_shift)).
    + rewrite xorb_false_r. replace (e + (1 - prec)) with (e - Z.of_nat unit_shift)
        by (rewrite unit_shift_Z; lia).
      now apply round_exact.
    + rewrite Pos2Z.inj_mul, !shifted_Z. lia.
Qed.

Lemma mul_comm x y : SFmul prec emax x y = SFmul prec emax y x.
Proof.
  destruct x as [s|s| |s m e], y as [s'|s'| |s' m' e']; cbn [SFmul]; try reflexivity;
    rewrite xorb_comm; try reflexivity.
  f_equal; [|lia]. f_equal. apply Pos.mul_comm.
Qed.

Lemma one_mul y : valid_binary prec emax y = true -> SFmul prec emax (SFone prec emax) y = y.
Proof. intros V. rewrite mul_comm. now apply mul_one. Qed.

Lemma fexp_mono a b : a <= b -> fexp prec emax a <= fexp prec emax b.
Proof. unfold fexp. lia. Qed.

Lemma div_one x : valid_binary prec emax x = true -> SFdiv prec emax x (SFone prec emax) = x.
Proof.
  intros V. rewrite one_finite. destruct x as [s|s| |s m e]; cbn [SFdiv].
  - now rewrite xorb_false_r.
  - now rewrite xorb_false_r.
  - reflexivity.
  - destruct (valid_finite s m e V) as [C B]. rewrite xorb_false_r.
    unfold SFdiv_core_binary. cbn [Zdigits2].
    rewrite digits_shifted, unit_shift_Z. cbn [digits2_pos].
    set (d := Z.pos (digits2_pos m)).
    replace (d + e - (1 + (prec - 1) + (1 - prec))) with (d + e - 1) by lia.
    set (f := fexp prec emax (d + e - 1)).
    assert (Lf : f <= e).
    { transitivity (fexp prec emax (d + e)); [apply fexp_mono; lia|].
      fold d in C. unfold canonical in C. fold d in C. lia. }
    rewrite Z.min_l by lia.
    destruct (e - (1 - prec) - f) as [|p|p] eqn:E; [lia| |lia].
    rewrite <- E. set (k := Z.to_nat (e - f)).
    assert (Ek : Z.of_nat k = e - f) by (unfold k; lia).
    rewrite Z.shiftl_mul_pow2 by lia.
    replace (Z.pos m * 2 ^ (e - (1 - prec) - f))
      with (Z.pos (shifted m k) * Z.pos (shifted 1 unit_shift)).
    2:{ rewrite !shifted_Z, Ek, unit_shift_Z.
        replace (e - (1 - prec) - f) with ((e - f) + (prec - 1)) by lia.
        rewrite Z.pow_add_r by lia. lia. }
    pose proof (Z_div_mod (Z.pos (shifted m k) * Z.pos (shifted 1 unit_shift))
                  (Z.pos (shifted 1 unit_shift)) ltac:(lia)) as D.
    destruct (Z.div_eucl _ _) as [q r]. destruct D as [D1 D2].
    assert (Q : q = Z.pos (shifted m k) /\ r = 0).
    { assert (Z.pos (shifted 1 unit_shift) * (Z.pos (shifted m k) - q) = r) by lia.
      assert (Z.pos (shifted m k) - q = 0) by nia. split; nia. }
    destruct Q as [-> ->].
    replace (new_location (Z.pos (shifted 1 unit_shift)) 0) with loc_Exact.
    + replace f with (e - Z.of_nat k) by lia. now apply round_exact.
    + unfold new_location. destruct (Z.even _); reflexivity.
Qed.

(** * Adding and subtracting zero *)

Lemma add_zero x : SFadd prec emax x (S754_zero false) = x \/
  is_zero x = true /\ SFadd prec emax x (S754_zero false) = S754_zero false.
Proof. destruct x as [[]|s| |s m e]; cbn; auto. Qed.

Lemma zero_add y : SFadd prec emax (S754_zero false) y = y \/
  is_zero y = true /\ SFadd prec emax (S754_zero false) y = S754_zero false.
Proof. destruct y as [[]|s| |s m e]; cbn; auto. Qed.

Lemma sub_zero x : SFsub prec emax x (S754_zero false) = x.
Proof. destruct x as [[]|s| |s m e]; cbn; auto. Qed.

(** * Mutants *)

Lemma float_not_integer t : is_float t = true -> is_integer t = false.
Proof. destruct t; cbn; congruence. Qed.

Lemma equivalent_float e k : is_float (e_ty e) = true ->
  equivalent_to e k = equivalent_to_float e k.
Proof.
  intros F. unfold equivalent_to, equivalent_to_int. now rewrite (float_not_integer _ F).
Qed.

Definition small (k : Z) : Prop := k = 0 \/ k = 1 \/ k = -1.

Lemma known_constant e v k : known_float prec emax e v -> small k ->
  equivalent_to_float e k = true -> float_constant prec emax k = Some v.
Proof.
  unfold known_float, equivalent_to_float. intros K S E.
  apply andb_true_iff in E. destruct E as [_ E].
  destruct (e_float e) as [f|]; [|discriminate].
  destruct S as [->|[->| ->]]; destruct f; try discriminate; exact K.
Qed.

Lemma constant_total k : small k -> exists w, float_constant prec emax k = Some w.
Proof. intros [->|[->| ->]]; cbn; eauto. Qed.

Lemma in_float_replacements c e k : is_float (e_ty e) = true -> e_lvalue e = false ->
  small k -> equivalent_to_float e k = false ->
  exists a, In (a, RLit (LFloat k)) (expr_mutants c true e).
Proof.
  intros F L S E. unfold expr_mutants, constant_replacements. rewrite L.
  unfold float_replacements. rewrite F.
  destruct S as [->|[->| ->]]; rewrite E; cbn [negb orb when];
    [exists ReplaceWithZeroFloat|exists ReplaceWithOneFloat|exists ReplaceWithMinusOneFloat];
    repeat (rewrite in_app_iff); cbn; tauto.
Qed.

Lemma constant_kept c e original k w : is_float (e_ty e) = true -> e_lvalue e = false ->
  known_float prec emax e original -> small k -> float_constant prec emax k = Some w ->
  float_constant_kept prec emax c e original w.
Proof.
  intros F L K S W. destruct (equivalent_to_float e k) eqn:E.
  - left. pose proof (known_constant e original k K S E). congruence.
  - right. destruct (in_float_replacements c e k F L S E) as (a & I). eauto.
Qed.

Section Node.
Variables (c : ctx) (b : binary) (e : expr) (x y : spec_float).
Hypothesis node : float_node prec emax b e x y.

Lemma node_constant k w : small k -> float_constant prec emax k = Some w ->
  float_kept prec emax c b e x y w.
Proof.
  destruct node as (F & Tl & Tr & O & Te & L & Vx & Vy & Kx & Ky & K). intros S W.
  assert (A : exists v, float_arithmetic prec emax (b_op b) x y = Some v).
  { cbn in O. repeat (destruct O as [O|O]; [rewrite <- O; cbn; eauto|]). destruct O. }
  destruct A as (v & A). left. exists v. split; [exact A|].
  eapply constant_kept; eauto. now rewrite Te.
Qed.

Lemma unit_constant_float a v : is_float (e_ty a) = true -> known_float prec emax a v ->
  unit_constant a = true -> exists k, small k /\ float_constant prec emax k = Some v.
Proof.
  intros F K U. unfold unit_constant, equivalent_to_int in U.
  rewrite (float_not_integer _ F) in U. cbn [andb orb] in U.
  rewrite !orb_true_iff in U. unfold small.
  destruct U as [[U|U]|[U|U]] || destruct U as [[[[U|U]|U]|U]|U];
    try discriminate; [exists 0|exists 1|exists (-1)];
    (split; [tauto|]); eapply known_constant; eauto; unfold small; tauto.
Qed.

Lemma not_relational : is_relational (b_op b) = false /\ is_assign (b_op b) = false.
Proof.
  destruct node as (_ & _ & _ & O & _). cbn in O.
  repeat (destruct O as [O|O]; [rewrite <- O; split; reflexivity|]). destruct O.
Qed.

Lemma left_kept : float_kept prec emax c b e x y x.
Proof.
  destruct (unit_constant (b_lhs b)) eqn:U.
  - destruct node as (F & Tl & Tr & O & Te & L & Vx & Vy & Kx & Ky & K).
    rewrite <- Tl in F. destruct (unit_constant_float _ _ F Kx U) as (k & S & W).
    eapply node_constant; eauto.
  - right. exists ReplaceWithLHS, RArg1. split; [|reflexivity].
    unfold binary_mutants, argument_replacements.
    destruct not_relational as [-> ->]. cbn [andb]. rewrite U. cbn.
    rewrite ?in_app_iff. cbn. tauto.
Qed.

Lemma right_kept : float_kept prec emax c b e x y y.
Proof.
  destruct (unit_constant (b_rhs b)) eqn:U.
  - destruct node as (F & Tl & Tr & O & Te & L & Vx & Vy & Kx & Ky & K).
    rewrite <- Tr in F. destruct (unit_constant_float _ _ F Ky U) as (k & S & W).
    eapply node_constant; eauto.
  - right. exists ReplaceWithRHS, RArg2. split; [|reflexivity].
    unfold binary_mutants, argument_replacements.
    destruct not_relational as [-> ->]. cbn [andb]. rewrite U. cbn.
    rewrite ?in_app_iff. cbn. tauto.
Qed.

Lemma zero_kept : float_kept prec emax c b e x y (S754_zero false).
Proof. apply (node_constant 0); [unfold small; tauto|reflexivity]. Qed.

Lemma mul_zero_result a s : SFmul prec emax a (S754_zero s) = S754_nan /\
    (is_infinite a = true \/ a = S754_nan) \/
  is_zero (SFmul prec emax a (S754_zero s)) = true.
Proof. destruct a; cbn; auto. Qed.

Lemma div_zero_result a s : SFdiv prec emax (S754_zero s) a = S754_nan /\
    (is_zero a = true \/ a = S754_nan) \/
  is_zero (SFdiv prec emax (S754_zero s) a) = true.
Proof. destruct a; cbn; auto. Qed.

(* An operand that is not a number makes every result so. *)
Lemma nan_arithmetic o p q : In o [Add; Sub; Mul; Div] -> p = S754_nan \/ q = S754_nan ->
  float_arithmetic prec emax o p q = Some S754_nan.
Proof.
  intros O N. cbn in O. repeat (destruct O as [O|O];
    [rewrite <- O; destruct N; subst; [destruct q|destruct p]; reflexivity|]). destruct O.
Qed.

Lemma nan_kept : x = S754_nan \/ y = S754_nan -> float_kept prec emax c b e x y S754_nan.
Proof.
  intros N. destruct node as (_ & _ & _ & O & _). left. exists S754_nan.
  split; [|left; reflexivity]. now apply nan_arithmetic.
Qed.

Lemma operators_lemma o v :
  In o (replacement_ops false b) -> float_arithmetic prec emax o x y = Some v ->
  new_nan o x y \/
  exists w, same_number v w /\ float_kept prec emax c b e x y w.
Proof.
  intros I V.
  destruct (redundant_op b o) eqn:R.
  2:{ right. exists v. split; [left; reflexivity|]. right. exists (bop_action o), (RBin o).
      split; [|exact V]. unfold binary_mutants, operator_replacements. apply in_app_iff. left.
      apply in_map_iff. exists o. split; [reflexivity|].
      unfold replacement_ops in *. rewrite filter_In in *. destruct I as [I C].
      split; [exact I|]. rewrite R. rewrite andb_false_l in C. rewrite andb_false_r. exact C. }
  pose proof node as (F & Tl & Tr & O & Te & L & Vx & Vy & Kx & Ky & K).
  assert (Fl : is_float (e_ty (b_lhs b)) = true) by (now rewrite Tl).
  assert (Fr : is_float (e_ty (b_rhs b)) = true) by (now rewrite Tr).
  assert (RB : redundant_boolean_op b o = false).
  { unfold redundant_boolean_op. cbn in O.
    repeat (destruct O as [O|O]; [rewrite <- O; reflexivity|]). destruct O. }
  unfold redundant_op in R. rewrite RB in R.
  destruct (redundant_arithmetic_op b o) eqn:A; [|discriminate]. clear R RB.
  unfold redundant_arithmetic_op in A. rewrite !equivalent_float in A by assumption.
  assert (K0l : equivalent_to_float (b_lhs b) 0 = true -> x = S754_zero false).
  { intros E. pose proof (known_constant _ _ 0 Kx ltac:(unfold small; tauto) E) as X.
    cbn in X. congruence. }
  assert (K1l : equivalent_to_float (b_lhs b) 1 = true -> x = SFone prec emax).
  { intros E. pose proof (known_constant _ _ 1 Kx ltac:(unfold small; tauto) E) as X.
    cbn [float_constant] in X. congruence. }
  assert (K0r : equivalent_to_float (b_rhs b) 0 = true -> y = S754_zero false).
  { intros E. pose proof (known_constant _ _ 0 Ky ltac:(unfold small; tauto) E) as X.
    cbn in X. congruence. }
  assert (K1r : equivalent_to_float (b_rhs b) 1 = true -> y = SFone prec emax).
  { intros E. pose proof (known_constant _ _ 1 Ky ltac:(unfold small; tauto) E) as X.
    cbn [float_constant] in X. congruence. }
  destruct ((equivalent_to_float (b_lhs b) 0 && equivalent_to_float (b_rhs b) 0) &&
            bop_eqb o Div); [discriminate|].
  destruct (equivalent_to_float (b_rhs b) 0 &&
            match o with Add | Sub | Shl | Shr | Mul | Rem => true | _ => false end) eqn:C1.
  { apply andb_true_iff in C1. destruct C1 as [E C1]. specialize (K0r E).
    destruct o; try discriminate; cbn [float_arithmetic] in V; try discriminate;
      injection V as V; rewrite K0r in V.
    - (* * *) destruct (mul_zero_result x false) as [[Z [Z'|Z']]|Z]; rewrite V in Z.
      + left. left. split; [reflexivity|]. left. split; [exact Z'|now rewrite K0r].
      + right. exists S754_nan. split; [left; congruence|]. apply nan_kept. auto.
      + right. exists (S754_zero false). split; [right; auto|]. apply zero_kept.
    - right. destruct (add_zero x) as [Z|[Z Z']].
      + exists x. split; [left; congruence|apply left_kept].
      + exists (S754_zero false). split; [left; congruence|apply zero_kept].
    - right. exists x. split; [left; rewrite <- V; apply sub_zero|apply left_kept]. }
  destruct (equivalent_to_float (b_rhs b) 1 && match o with Mul | Div => true | _ => false end)
    eqn:C2.
  { apply andb_true_iff in C2. destruct C2 as [E C2]. specialize (K1r E).
    right. exists x. split; [left|apply left_kept].
    destruct o; try discriminate; cbn [float_arithmetic] in V; injection V as <-;
      rewrite K1r; [apply mul_one|apply div_one]; assumption. }
  destruct (equivalent_to_float (b_lhs b) 0 &&
            match o with Add | Shl | Shr | Mul | Rem | Div => true | _ => false end) eqn:C3.
  { apply andb_true_iff in C3. destruct C3 as [E C3]. specialize (K0l E).
    destruct o; try discriminate; cbn [float_arithmetic] in V; try discriminate;
      injection V as V; rewrite K0l in V.
    - rewrite mul_comm in V. destruct (mul_zero_result y false) as [[Z [Z'|Z']]|Z]; rewrite V in Z.
      + left. left. split; [reflexivity|]. right. split; [now rewrite K0l|exact Z'].
      + right. exists S754_nan. split; [left; congruence|]. apply nan_kept. auto.
      + right. exists (S754_zero false). split; [right; auto|]. apply zero_kept.
    - destruct (div_zero_result y false) as [[Z [Z'|Z']]|Z]; rewrite V in Z.
      + left. right. split; [reflexivity|]. split; [now rewrite K0l|exact Z'].
      + right. exists S754_nan. split; [left; congruence|]. apply nan_kept. auto.
      + right. exists (S754_zero false). split; [right; auto|]. apply zero_kept.
    - right. destruct (zero_add y) as [Z|[Z Z']].
      + exists y. split; [left; congruence|apply right_kept].
      + exists (S754_zero false). split; [left; congruence|apply zero_kept]. }
  destruct (equivalent_to_float (b_lhs b) 1 && bop_eqb o Mul) eqn:C4.
  - apply andb_true_iff in C4. destruct C4 as [E C4]. specialize (K1l E).
    assert (o = Mul) by (destruct o; try discriminate; reflexivity). subst o. cbn [float_arithmetic] in V. injection V as V.
    right. exists y. split; [left|apply right_kept]. rewrite <- V, K1l. now apply one_mul.
  - discriminate.
Qed.
End Node.

(** * Operators on 0.0 and 1.0 *)

Lemma candidates_float b o : In (b_op b) [Add; Sub; Mul; Div] -> In o (candidate_ops b) ->
  In o arithmetic_ops.
Proof.
  unfold candidate_ops. intros O H. cbn in O.
  repeat (destruct O as [O|O]; [rewrite <- O in H; cbn in H;
    rewrite ?andb_false_r, ?app_nil_r in H; exact H|]). destruct O.
Qed.

Lemma skipped_lemma c b e x y l r a m v :
  float_node prec emax b e x y ->
  binary_site false l r b = true -> binary_site true l r b = false ->
  In (a, m) (binary_mutants false b) -> float_value prec emax m x y = Some v ->
  exists original, float_arithmetic prec emax (b_op b) x y = Some original /\
    float_constant_kept prec emax c e original v.
Proof.
  intros N Y X I V. pose proof N as (F & Tl & Tr & O & Te & L & Vx & Vy & Kx & Ky & K).
  assert (E : equivalent_to (b_lhs b) 0 && equivalent_to (b_rhs b) 1 = true).
  { unfold binary_site in X, Y. destruct (negb l || negb r); [discriminate|].
    destruct (is_assign (b_op b) && e_bitfield (b_lhs b)); [discriminate|].
    destruct (bop_eqb (b_op b) Comma); [discriminate|]. cbn [andb] in X.
    destruct (equivalent_to (b_lhs b) 0 && equivalent_to (b_rhs b) 1);
      [reflexivity|discriminate]. }
  apply andb_true_iff in E. destruct E as [El Er].
  rewrite equivalent_float in El by (now rewrite Tl).
  rewrite equivalent_float in Er by (now rewrite Tr).
  assert (S0 : small 0) by (unfold small; tauto).
  assert (S1 : small 1) by (unfold small; tauto).
  assert (S2 : small (-1)) by (unfold small; tauto).
  pose proof (known_constant _ _ 0 Kx S0 El) as X0. injection X0 as X0.
  pose proof (known_constant _ _ 1 Ky S1 Er) as Y1. injection Y1 as Y1.
  assert (A : exists w, float_arithmetic prec emax (b_op b) x y = Some w).
  { cbn in O. repeat (destruct O as [O|O]; [rewrite <- O; cbn; eauto|]). destruct O. }
  destruct A as (w & A). exists w. split; [exact A|].
  assert (G : exists k, small k /\ float_constant prec emax k = Some v).
  { unfold binary_mutants in I. apply in_app_iff in I. destruct I as [I|I].
    - unfold operator_replacements in I. apply in_map_iff in I. destruct I as (o & Q & I).
      injection Q as _ <-. cbn [float_value] in V.
      unfold replacement_ops in I. apply filter_In in I. destruct I as [I _].
      apply (candidates_float b o O) in I.
      pose proof one_finite as P.
      cbn in I; repeat (destruct I as [<-|I]); try destruct I; cbn [float_arithmetic] in V;
        try discriminate; injection V as V; rewrite <- X0, <- Y1 in V; subst v.
      + exists 1. split; [exact S1|]. cbn [float_constant]. now rewrite P.
      + exists 0. split; [exact S0|]. cbn [float_constant]. now rewrite P.
      + exists 0. split; [exact S0|]. cbn [float_constant]. now rewrite P.
      + exists (-1). split; [exact S2|]. cbn [float_constant]. now rewrite P.
    - unfold argument_replacements in I. cbn [andb negb orb when] in I.
      destruct (is_assign (b_op b)); [destruct I|]. cbn in I.
      destruct I as [I|[I|[]]]; injection I as _ <-; injection V as <-.
      + exists 0. split; [exact S0|]. now rewrite <- X0.
      + exists 1. split; [exact S1|]. now rewrite <- Y1. }
  destruct G as (k & S & G). eapply constant_kept; eauto. now rewrite Te.
Qed.

(** * Expressions and unary minus *)

Lemma expr_constant_kept c e x k w : float_expr prec emax e x -> small k ->
  float_constant prec emax k = Some w -> float_expr_kept prec emax c e x w.
Proof.
  intros (F & L & K & _) S W.
  destruct (constant_kept c e x k w F L K S W) as [E|(a & j & I & E)]; [now left|].
  right. exists a, (RLit (LFloat j)). auto.
Qed.

Lemma opp_one_small x k : small k -> float_constant prec emax k = Some x ->
  exists w j, same_number (SFopp x) w /\ small j /\ float_constant prec emax j = Some w.
Proof.
  intros [->|[->| ->]] V; injection V as <-.
  - exists (S754_zero false), 0. repeat split; [right; auto|left; auto].
  - exists (SFopp (SFone prec emax)), (-1). repeat split; [left; auto|right; auto].
  - exists (SFone prec emax), 1. repeat split; [left|right; auto].
    now rewrite one_finite.
Qed.

Lemma expr_lemma c e x a m v :
  float_expr prec emax e x -> In (a, m) (expr_mutants c false e) ->
  float_value prec emax m x x = Some v ->
  (exists w, same_number v w /\ float_expr_kept prec emax c e x w) \/
  cpp c = true /\ e_logical_operand e = true /\ is_zero v = is_zero x.
Proof.
  intros N I V. pose proof N as (F & L & K & B).
  pose proof (float_not_integer _ F) as NI.
  assert (NB : is_bool (e_ty e) = false) by (destruct (e_ty e); cbn in *; congruence).
  assert (NS : is_signed c (e_ty e) = false) by (destruct (e_ty e); cbn in *; congruence).
  unfold expr_mutants in I. rewrite !in_app_iff in I.
  assert (C : forall k, m = RLit (LFloat k) -> small k ->
    exists w, same_number v w /\ float_expr_kept prec emax c e x w).
  { intros k -> S. exists v. split; [left; reflexivity|]. cbn in V.
    eapply expr_constant_kept; eauto. }
  assert (M : m = RPreParen Minus \/ exists k, m = RLit (LFloat k) /\ small k).
  { unfold lvalue_insertions, nonlvalue_insertions, constant_replacements,
      boolean_replacements, integer_replacements, float_replacements in I.
    rewrite L, NI, NB, NS, F in I. cbn in I. rewrite ?in_app_iff in I. cbn in I.
    rewrite ?orb_true_r in I. cbn in I. unfold small.
    repeat match type of I with
    | _ \/ _ => destruct I as [I|I]
    | False => destruct I
    | (_, _) = (_, _) => injection I as _ <-
    end; eauto 8. }
  destruct M as [->|(k & -> & S)]; [|left; eauto].
  cbn in V. injection V as <-.
  destruct (redundant_insertion c e Minus) eqn:R.
  2:{ left. exists (SFopp x). split; [left; reflexivity|]. right.
      exists InsertMinus, (RPreParen Minus). split; [|reflexivity].
      unfold expr_mutants, nonlvalue_insertions. rewrite L, F, R, orb_true_r.
      rewrite ?in_app_iff. cbn. tauto. }
  unfold redundant_insertion in R.
  destruct (redundant_before_binary c e) eqn:RB.
  { exfalso. unfold redundant_before_binary in RB. destruct (e_binop e) as [o|]; [|discriminate].
    cbn in B. repeat (destruct B as [B|B]; [rewrite <- B in RB; discriminate|]). destruct B. }
  destruct (redundant_before_logical_operand c e) eqn:RL.
  { right. unfold redundant_before_logical_operand in RL. destruct (cpp c); [|discriminate].
    cbn in RL. repeat split; auto. now destruct x. }
  left.
  assert (U : exists k, small k /\ equivalent_to_float e k = true).
  { unfold redundant_minus, equivalent_to_int in R. rewrite NI in R. cbn in R.
    rewrite ?andb_false_r, ?orb_false_r in R. unfold small.
    destruct (equivalent_to_float e 0) eqn:E0; [exists 0; tauto|].
    destruct (equivalent_to_float e 1) eqn:E1; [exists 1; tauto|].
    destruct (equivalent_to_float e (-1)) eqn:E2; [exists (-1); tauto|].
    cbn in R. rewrite ?andb_false_r in R. discriminate. }
  destruct U as (k & S & E).
  pose proof (known_constant e x k K S E) as W.
  destruct (opp_one_small x k S W) as (w & j & Q & S' & W').
  exists w. split; [exact Q|]. eapply expr_constant_kept; eauto.
Qed.

Lemma opp_opp x : SFopp (SFopp x) = x.
Proof. destruct x; cbn; rewrite ?negb_involutive; reflexivity. Qed.

(* Whatever the mutants of -x compute, those of -x as an expression compute too. *)
Lemma minus_lemma c u e x a m v :
  float_minus_node prec emax u e x ->
  In (a, m) (unary_mutants false u) -> float_value prec emax m x x = Some v ->
  (exists w, same_number v w /\ float_expr_kept prec emax c e (SFopp x) w) \/
  cpp c = true /\ e_logical_operand e = true /\ is_zero v = is_zero (SFopp x).
Proof.
  intros N I V. pose proof N as (O & F & Ts & Ls & Lu & Te & E & K).
  assert (Fs : is_float (e_ty (u_sub u)) = true) by (now rewrite Ts).
  pose proof (float_not_integer _ Fs) as NI.
  assert (M : m = RPre LNot \/ m = RArg1 /\ v = x).
  { unfold unary_mutants in I. apply in_app_iff in I. destruct I as [I|I].
    - left. apply in_map_iff in I. destruct I as (o & Q & I). injection Q as _ <-.
      unfold replacement_uops in I. apply filter_In in I. destruct I as [I P].
      unfold valid_uop in P. rewrite O, Ls, Lu, Fs in P.
      cbn in I; repeat (destruct I as [<-|I]); try destruct I; cbn in P; try discriminate.
      reflexivity.
    - right. cbn in I. destruct I as [I|[]]. injection I as _ <-. cbn in V.
      split; congruence. }
  destruct M as [->|[-> ->]].
  - left. cbn in V. exists v. split; [left; reflexivity|].
    unfold float_truth in V. destruct (is_zero x);
      eapply expr_constant_kept; eauto; unfold small; tauto.
  - destruct (expr_lemma c e (SFopp x) InsertMinus (RPreParen Minus) x E) as [H|H]; auto.
    + unfold expr_mutants, nonlvalue_insertions. destruct E as (Fe & Le & _).
      rewrite Le, Fe, orb_true_r. rewrite ?in_app_iff. cbn. tauto.
    + cbn. now rewrite opp_opp.
Qed.
End Format.
