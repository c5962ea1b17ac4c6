(* Proofs about subsumption. *)
From Coq Require Import String List ZArith Bool Lia.
From Verif Require Import Base Clang Gen GenExpr GenBinary SubsumeSpec.
Import ListNotations.

Lemma uncon_int e k : unconstrained e -> equivalent_to_int e k = false.
Proof. intros (A & _). unfold equivalent_to_int. rewrite A. apply andb_false_r. Qed.
Lemma uncon_float e k : unconstrained e -> equivalent_to_float e k = false.
Proof. intros (_ & A & _). unfold equivalent_to_float. rewrite A. apply andb_false_r. Qed.
Lemma uncon_bool e k : unconstrained e -> equivalent_to_bool e k = false.
Proof. intros (_ & _ & A). unfold equivalent_to_bool. rewrite A. apply andb_false_r. Qed.
Lemma uncon_arith b o :
  unconstrained (b_lhs b) -> unconstrained (b_rhs b) -> redundant_arithmetic_op b o = false.
Proof.
  intros L R. unfold redundant_arithmetic_op, equivalent_to.
  rewrite !uncon_int, !uncon_float by assumption. reflexivity.
Qed.
Lemma uncon_unit e : unconstrained e -> unit_constant e = false.
Proof. intros U. unfold unit_constant. rewrite !uncon_int, !uncon_float by assumption. reflexivity. Qed.

Lemma replacement_ops_eq opt b g :
  unconstrained (b_lhs b) -> unconstrained (b_rhs b) ->
  candidate_ops b = g ->
  (forall o, In o g -> valid_op b o = true) ->
  replacement_ops opt b
  = filter (fun o => negb (bop_eqb o (b_op b) || (opt && redundant_boolean_op b o))) g.
Proof.
  intros L R E V. unfold replacement_ops. rewrite E. apply filter_ext_in. intros o I.
  unfold redundant_op. rewrite uncon_arith, V by assumption.
  destruct (redundant_boolean_op b o), opt, (bop_eqb o (b_op b)); reflexivity.
Qed.

Lemma valid_plain b o :
  match o with LAnd | LOr | LT | LE | GT | GE | EQ | NE => true | _ => false end = true ->
  valid_op b o = true.
Proof.
  unfold valid_op. intros H. destruct o; try discriminate H; rewrite andb_false_r; reflexivity.
Qed.

Section Comparison.
  Variables (c : ctx) (b : binary) (e : expr) (P : Type) (ord : P -> ordering)
            (suite : P -> Prop).
  Hypothesis REL : is_relational (b_op b) = true.
  Hypothesis SAME : same_node c b e.
  Hypothesis NB : is_bool (e_ty (b_lhs b)) = false.

  Let original p := comparison_value (b_op b) (ord p).
  Let mutant m p := comparison_mutant (b_op b) (ord p) m.

  Hypothesis KEPT_OP : forall a m, In (a, m) (binary_mutants true b) ->
    kills suite original (mutant m).
  Hypothesis KEPT_EXPR : forall a m, In (a, m) (expr_mutants c true e) ->
    kills suite original (mutant m).

  Lemma ops opt : replacement_ops opt b
    = filter (fun o => negb (bop_eqb o (b_op b) || (opt && redundant_boolean_op b o)))
        relational_ops.
  Proof.
    destruct SAME as (_ & _ & _ & _ & L & R).
    apply replacement_ops_eq; auto.
    - unfold candidate_ops. rewrite NB. destruct (b_op b); try discriminate REL; reflexivity.
    - intros o I. apply valid_plain.
      repeat (destruct I as [<-|I]; [reflexivity|]). destruct I.
  Qed.

  (* An ordering seen by the suite. *)
  Definition seen (r : ordering) : Prop := exists p, suite p /\ ord p = r.

  Lemma kills_seen (f g : ordering -> option Z) :
    kills suite (fun p => f (ord p)) (fun p => g (ord p)) <->
    exists r, seen r /\ g r <> f r.
  Proof.
    split.
    - intros (p & I & N). exists (ord p). split; auto. exists p. auto.
    - intros (r & (p & I & <-) & N). exists p. auto.
  Qed.

  Lemma kept_op o : In o (replacement_ops true b) ->
    exists r, seen r /\ comparison_value o r <> comparison_value (b_op b) r.
  Proof.
    intros I. apply (kills_seen (comparison_value (b_op b)) (comparison_value o)).
    apply (KEPT_OP (bop_action o) (RBin o)). apply in_or_app. left.
    apply in_map_iff. exists o. auto.
  Qed.

  Lemma kept_expr a m : In (a, m) (expr_mutants c true e) ->
    exists r, seen r /\
      comparison_mutant (b_op b) r m <> comparison_value (b_op b) r.
  Proof.
    intros I.
    apply (kills_seen (comparison_value (b_op b)) (fun r => comparison_mutant (b_op b) r m)).
    exact (KEPT_EXPR a m I).
  Qed.

  (* The constant that must be kept. *)
  Lemma constant_kept :
    exists a l, In (a, RLit l) (expr_mutants c true e) /\
      literal_number l = number match b_op b with GE | LE | NE => true | _ => false end.
  Proof.
    destruct SAME as (B & LV & T & U & _ & _).
    unfold expr_mutants, constant_replacements. rewrite LV.
    unfold boolean_replacements, integer_replacements, float_replacements,
      boolean_replacement_redundant.
    rewrite !uncon_int, !uncon_bool, !uncon_float, B, T by assumption.
    destruct (cpp c); destruct (b_op b); try discriminate REL; cbn;
      try (exists ReplaceWithFalse, (LBool false); split; [|reflexivity]; cbn;
           rewrite in_app_iff; cbn; tauto);
      try (exists ReplaceWithTrue, (LBool true); split; [|reflexivity]; cbn;
           rewrite in_app_iff; cbn; tauto);
      try (exists ReplaceWithZeroInt, (LInt 0); split; [|reflexivity]; cbn;
           rewrite in_app_iff; cbn; tauto);
      try (exists ReplaceWithOneInt, (LInt 1); split; [|reflexivity]; cbn;
           rewrite in_app_iff; cbn; tauto).
  Qed.

  (* The mutants of the node without optimisation. *)
  Lemma unoptimised_expr a m :
    In (a, m) (expr_mutants c false e) ->
    (exists l, m = RLit l /\
       (literal_number l = 0 \/ literal_number l = 1 \/ literal_number l = -1)%Z)
    \/ m = RPreParen LNot \/ m = RPreParen Not \/ m = RPreParen Minus.
  Proof.
    destruct SAME as (B & LV & T & U & _ & _). intros I.
    unfold expr_mutants, lvalue_insertions, nonlvalue_insertions, constant_replacements,
      boolean_replacements, integer_replacements, float_replacements in I.
    rewrite LV, T in I. destruct (cpp c); cbn in I;
      repeat (destruct I as [I|I]; [injection I as <- <-; eauto 10|]); try destruct I.
  Qed.

  Lemma orderings_needed :
    match b_op b with
    | LT => seen Less /\ seen Equal /\ (seen Greater \/ seen Unordered)
    | GT => seen Greater /\ seen Equal /\ (seen Less \/ seen Unordered)
    | LE => seen Less /\ seen Equal /\ (seen Greater \/ seen Unordered)
    | GE => seen Greater /\ seen Equal /\ (seen Less \/ seen Unordered)
    | EQ => seen Less /\ seen Greater /\ seen Equal
    | NE => seen Equal /\ ((seen Less /\ seen Greater) \/ seen Unordered)
    | _ => False
    end.
  Proof.
    destruct constant_kept as (a & l & IL & NL).
    destruct (kept_expr a (RLit l) IL) as (r0 & S0 & D0).
    cbn [comparison_mutant] in D0.
    assert (K : forall o, In o (replacement_ops true b) ->
      exists r, seen r /\ comparison_value o r <> comparison_value (b_op b) r)
      by exact kept_op.
    rewrite ops in K.
    assert (K' : forall o, In o relational_ops -> bop_eqb o (b_op b) = false ->
      redundant_boolean_op b o = false ->
      exists r, seen r /\ comparison_value o r <> comparison_value (b_op b) r).
    { intros o I E F. apply K. apply filter_In. split; auto. rewrite E, F. reflexivity. }
    clear K. unfold redundant_boolean_op in K'.
    destruct (b_op b) eqn:O; try discriminate REL; cbn in NL.
    - (* LT *)
      destruct (K' LE) as (r1 & S1 & D1); [cbn; tauto|reflexivity..|].
      destruct (K' NE) as (r2 & S2 & D2); [cbn; tauto|reflexivity..|].
      cbn in D0. rewrite NL in D0.
      destruct r0, r1, r2; cbn in *; try congruence; auto.
    - (* GT *)
      destruct (K' GE) as (r1 & S1 & D1); [cbn; tauto|reflexivity..|].
      destruct (K' NE) as (r2 & S2 & D2); [cbn; tauto|reflexivity..|].
      cbn in D0. rewrite NL in D0.
      destruct r0, r1, r2; cbn in *; try congruence; auto.
    - (* LE *)
      destruct (K' LT) as (r1 & S1 & D1); [cbn; tauto|reflexivity..|].
      destruct (K' EQ) as (r2 & S2 & D2); [cbn; tauto|reflexivity..|].
      cbn in D0. rewrite NL in D0.
      destruct r0, r1, r2; cbn in *; try congruence; auto.
    - (* GE *)
      destruct (K' GT) as (r1 & S1 & D1); [cbn; tauto|reflexivity..|].
      destruct (K' EQ) as (r2 & S2 & D2); [cbn; tauto|reflexivity..|].
      cbn in D0. rewrite NL in D0.
      destruct r0, r1, r2; cbn in *; try congruence; auto.
    - (* EQ *)
      destruct (K' LE) as (r1 & S1 & D1); [cbn; tauto|reflexivity..|].
      destruct (K' GE) as (r2 & S2 & D2); [cbn; tauto|reflexivity..|].
      cbn in D0. rewrite NL in D0.
      destruct r0, r1, r2; cbn in *; try congruence; auto.
    - (* NE *)
      destruct (K' LT) as (r1 & S1 & D1); [cbn; tauto|reflexivity..|].
      destruct (K' GT) as (r2 & S2 & D2); [cbn; tauto|reflexivity..|].
      cbn in D0. rewrite NL in D0.
      destruct r0, r1, r2; cbn in *; try congruence; auto.
  Qed.

  Lemma dropped_op o : In o (replacement_ops false b) ->
    kills suite original (mutant (RBin o)).
  Proof.
    intros I. unfold original, mutant. cbn [comparison_mutant].
    apply (kills_seen (comparison_value (b_op b)) (comparison_value o)).
    rewrite ops in I. apply filter_In in I. destruct I as [I E].
    pose proof orderings_needed as N.
    destruct (b_op b) eqn:O; try contradiction;
      repeat (destruct I as [<-|I]; [|]); try destruct I; try discriminate E;
      decompose [and or] N; clear N;
      match goal with
      | S : seen ?r |- _ => exists r; split; [exact S|]; cbn; congruence
      end.
  Qed.

  Lemma dropped_expr a m : In (a, m) (expr_mutants c false e) ->
    kills suite original (mutant m).
  Proof.
    intros I. apply unoptimised_expr in I.
    unfold original, mutant.
    apply (kills_seen (comparison_value (b_op b)) (fun r => comparison_mutant (b_op b) r m)).
    pose proof orderings_needed as N.
    destruct I as [(l & -> & L)|[->|[->| ->]]]; cbn [comparison_mutant wrapped_value];
      [destruct L as [L|[L|L]]; rewrite L| | |];
      destruct (b_op b) eqn:O; try contradiction; decompose [and or] N; clear N;
      match goal with
      | S : seen ?r |- _ => exists r; split; [exact S|]; cbn; congruence
      end.
  Qed.
End Comparison.

Section Connective.
  Variables (c : ctx) (b : binary) (e : expr) (P : Type) (operands : P -> bool * bool)
            (suite : P -> Prop).
  Hypothesis CPP : cpp c = true.
  Hypothesis LOG : is_logical (b_op b) = true.
  Hypothesis SAME : same_node c b e.
  Hypothesis TL : e_ty (b_lhs b) = TBool.
  Hypothesis TR : e_ty (b_rhs b) = TBool.
  Hypothesis VL : e_lvalue (b_lhs b) = false.
  Hypothesis VR : e_lvalue (b_rhs b) = false.

  Let original p := connective_value (b_op b) (operands p).

  Hypothesis KEPT_OP : forall a m, In (a, m) (binary_mutants true b) ->
    kills suite original (fun p => connective_mutant (b_op b) (operands p) m).
  Hypothesis KEPT_EXPR : forall a m, In (a, m) (expr_mutants c true e) ->
    kills suite original (fun p => connective_mutant (b_op b) (operands p) m).

  Lemma cops opt : replacement_ops opt b
    = filter (fun o => negb (bop_eqb o (b_op b) || (opt && redundant_boolean_op b o)))
        [LAnd; LOr; EQ; NE].
  Proof.
    destruct SAME as (_ & _ & _ & _ & L & R).
    apply replacement_ops_eq; auto.
    - unfold candidate_ops. destruct (b_op b); try discriminate LOG;
        rewrite TL; reflexivity.
    - intros o I. apply valid_plain.
      repeat (destruct I as [<-|I]; [reflexivity|]). destruct I.
  Qed.

  Definition tried (xy : bool * bool) : Prop := exists p, suite p /\ operands p = xy.

  Lemma kills_tried (f g : bool * bool -> option Z) :
    kills suite (fun p => f (operands p)) (fun p => g (operands p)) <->
    exists r, tried r /\ g r <> f r.
  Proof.
    split.
    - intros (p & I & N). exists (operands p). split; auto. exists p. auto.
    - intros (r & (p & I & <-) & N). exists p. auto.
  Qed.

  Lemma kept_binary a m : In (a, m) (binary_mutants true b) ->
    exists r, tried r /\ connective_mutant (b_op b) r m <> connective_value (b_op b) r.
  Proof.
    intros H.
    apply (kills_tried (connective_value (b_op b)) (fun r => connective_mutant (b_op b) r m)).
    exact (KEPT_OP a m H).
  Qed.

  Lemma kept_wrapper a m : In (a, m) (expr_mutants c true e) ->
    exists r, tried r /\ connective_mutant (b_op b) r m <> connective_value (b_op b) r.
  Proof.
    intros H.
    apply (kills_tried (connective_value (b_op b)) (fun r => connective_mutant (b_op b) r m)).
    exact (KEPT_EXPR a m H).
  Qed.

  Lemma all_pairs_tried x y : tried (x, y).
  Proof.
    destruct SAME as (B & LV & T & U & UL & UR).
    assert (OP : In (RBin (if bop_eqb (b_op b) LAnd then EQ else NE))
                    (map snd (binary_mutants true b))).
    { unfold binary_mutants, operator_replacements. rewrite map_app, map_map, in_app_iff.
      left. cbn [snd]. rewrite cops. unfold redundant_boolean_op.
      destruct (b_op b); try discriminate LOG; cbn; tauto. }
    assert (A1 : In (ReplaceWithLHS, RArg1) (binary_mutants true b)).
    { unfold binary_mutants, argument_replacements. rewrite in_app_iff. right.
      rewrite !uncon_unit by assumption.
      destruct (b_op b); try discriminate LOG; cbn; tauto. }
    assert (A2 : In (ReplaceWithRHS, RArg2) (binary_mutants true b)).
    { unfold binary_mutants, argument_replacements. rewrite in_app_iff. right.
      rewrite !uncon_unit by assumption.
      destruct (b_op b); try discriminate LOG; cbn; tauto. }
    assert (K : exists a l, In (a, RLit l) (expr_mutants c true e) /\
       literal_number l = number (negb (bop_eqb (b_op b) LAnd))).
    { unfold expr_mutants, constant_replacements. rewrite LV.
      unfold boolean_replacements, integer_replacements, float_replacements,
        boolean_replacement_redundant.
      rewrite !uncon_int, !uncon_bool, !uncon_float, B, T, CPP by assumption.
      destruct (b_op b); try discriminate LOG; cbn.
      - exists ReplaceWithFalse, (LBool false). split; [|reflexivity].
        rewrite in_app_iff. cbn. tauto.
      - exists ReplaceWithTrue, (LBool true). split; [|reflexivity].
        rewrite in_app_iff. cbn. tauto. }
    apply in_map_iff in OP. destruct OP as ([a m] & Em & OP). cbn in Em. subst m.
    destruct K as (a' & l & K & L).
    destruct (kept_binary _ _ OP) as ([x1 y1] & T1 & D1).
    destruct (kept_binary _ _ A1) as ([x2 y2] & T2 & D2).
    destruct (kept_binary _ _ A2) as ([x3 y3] & T3 & D3).
    destruct (kept_wrapper _ _ K) as ([x4 y4] & T4 & D4).
    cbn [connective_mutant] in D4.
    destruct (b_op b); try discriminate LOG; cbn in *; rewrite L in D4; cbn in D4;
      destruct x1, y1; cbn in D1; try congruence;
      destruct x2, y2; cbn in D2; try congruence;
      destruct x3, y3; cbn in D3; try congruence;
      destruct x4, y4; cbn in D4; try congruence;
      destruct x, y; assumption.
  Qed.

  Lemma kill_by (g : bool * bool -> option Z) :
    (exists x y, g (x, y) <> connective_value (b_op b) (x, y)) ->
    kills suite original (fun p => g (operands p)).
  Proof.
    intros (x & y & N). unfold original.
    apply (kills_tried (connective_value (b_op b)) g). exists (x, y).
    split; auto. apply all_pairs_tried.
  Qed.

  Lemma connective_dropped a m : In (a, m) (binary_mutants false b) ->
    kills suite original (fun p => connective_mutant (b_op b) (operands p) m).
  Proof.
    intros I. apply (kill_by (fun r => connective_mutant (b_op b) r m)).
    unfold binary_mutants in I. apply in_app_iff in I. destruct I as [I|I].
    - unfold operator_replacements in I. apply in_map_iff in I.
      destruct I as (o & E & I). injection E as _ <-. rewrite cops in I.
      apply filter_In in I. destruct I as [I E]. cbn [connective_mutant].
      destruct (b_op b); try discriminate LOG;
        repeat (destruct I as [<-|I]); try destruct I; try discriminate E; cbn;
        solve [exists true, false; cbn; congruence | exists true, true; cbn; congruence
              | exists false, false; cbn; congruence | exists false, true; cbn; congruence].
    - unfold argument_replacements in I.
      destruct (b_op b); try discriminate LOG; cbn in I;
        repeat (destruct I as [I|I]; [injection I as <- <-|]); try destruct I; cbn;
        solve [exists true, false; cbn; congruence | exists true, true; cbn; congruence
              | exists false, false; cbn; congruence | exists false, true; cbn; congruence].
  Qed.

  Lemma bool_mutants opt (e' : expr) a m :
    e_ty e' = TBool -> e_lvalue e' = false ->
    In (a, m) (expr_mutants c opt e') ->
    m = RPreParen LNot \/ m = RLit (LBool true) \/ m = RLit (LBool false).
  Proof.
    intros T LV I.
    unfold expr_mutants, lvalue_insertions, nonlvalue_insertions, constant_replacements,
      boolean_replacements, integer_replacements, float_replacements in I.
    rewrite LV, T, CPP in I. cbn in I.
    destruct (_ || _) in I; cbn in I;
    repeat match type of I with
           | In _ (when ?x _ ++ _) => destruct x; cbn in I
           | In _ ((when ?x _ ++ _) ++ _) => destruct x; cbn in I
           | In _ (_ :: (when ?x _ ++ _) ++ _) => destruct x; cbn in I
           | _ \/ In _ ((when ?x _ ++ _) ++ _) => destruct x; cbn in I
           | _ \/ _ \/ In _ ((when ?x _) ++ _) => destruct x; cbn in I
           | _ \/ In _ ((when ?x _) ++ _) => destruct x; cbn in I
           | In _ ((when ?x _) ++ _) => destruct x; cbn in I
           end;
    repeat (destruct I as [I|I]; [injection I as <- <-; auto|]); try destruct I.
  Qed.

  Lemma connective_dropped_expr a m : In (a, m) (expr_mutants c false e) ->
    kills suite original (fun p => connective_mutant (b_op b) (operands p) m).
  Proof.
    destruct SAME as (B & LV & T & _). rewrite CPP in T.
    intros I. apply (kill_by (fun r => connective_mutant (b_op b) r m)).
    apply bool_mutants in I; auto.
    destruct I as [->|[->| ->]]; destruct (b_op b); try discriminate LOG; cbn;
      solve [exists true, false; cbn; congruence | exists true, true; cbn; congruence
            | exists false, false; cbn; congruence | exists false, true; cbn; congruence].
  Qed.

  Lemma left_dropped a m : In (a, m) (expr_mutants c false (b_lhs b)) ->
    kills suite original (fun p => left_operand_mutant (b_op b) (operands p) m).
  Proof.
    intros I. apply (kill_by (fun r => left_operand_mutant (b_op b) r m)).
    apply bool_mutants in I; auto.
    destruct I as [->|[->| ->]]; destruct (b_op b); try discriminate LOG; cbn;
      solve [exists true, false; cbn; congruence | exists true, true; cbn; congruence
            | exists false, false; cbn; congruence | exists false, true; cbn; congruence].
  Qed.

  Lemma right_dropped a m : In (a, m) (expr_mutants c false (b_rhs b)) ->
    kills suite original (fun p => right_operand_mutant (b_op b) (operands p) m).
  Proof.
    intros I. apply (kill_by (fun r => right_operand_mutant (b_op b) r m)).
    apply bool_mutants in I; auto.
    destruct I as [->|[->| ->]]; destruct (b_op b); try discriminate LOG; cbn;
      solve [exists true, false; cbn; congruence | exists true, true; cbn; congruence
            | exists false, false; cbn; congruence | exists false, true; cbn; congruence].
  Qed.
End Connective.
