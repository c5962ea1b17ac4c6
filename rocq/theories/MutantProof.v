(* Proofs about MutantSpec.v. *)
From Coq Require Import String List ZArith Bool Lia.
From Verif Require Import Base Clang Gen GenExpr GenBinary GenUnary GenStmt Mutation GenSpec
  RunSpec TreeSpec GenProof PreludeSpec Prelude Lang Cst Runtime SimSpec SimRel SimMutate SimTop MutantSpec.
Import ListNotations.

Definition no_info : loc_info :=
  {| start_line := 0; start_column := 0; end_line := 0; end_column := 0; snippet := "" |}.

Section Proof.
Variable L : lang.
Variable c : ctx.
Variable o : options.
Notation opt := (optimise o).
Notation tm := (tm L).
Notation den := (den L c).
Notation count := (mutants_in L c opt).
Notation spec E := (SimSpec.spec L c opt false E).

Lemma spec_count rest E t : forall id, snd (SimSpec.spec L c opt rest E t id) = id + count t.
Proof.
  induction t as [s v|k ps last IH|e sub IH|b l w1 w2 r IHl IHr|u w sub IH|s sub IH]
    using cst_induction; intro id.
  - cbn. lia.
  - rewrite (spec_node L c o). cbn [snd mutants_in].
    revert id. induction IH as [|[s p] ps Hp F IHF]; intro id; cbn; [lia|].
    specialize (Hp id). cbn in Hp. destruct (SimSpec.spec L c opt rest E p id) as [x i].
    cbn in Hp. subst i. specialize (IHF (id + count p)).
    destruct (spec_all L c o rest E ps (id + count p)). cbn in *. lia.
  - cbn. specialize (IH id). destruct (SimSpec.spec L c opt rest E sub id). cbn in *. lia.
  - cbn. specialize (IHl id). destruct (SimSpec.spec L c opt rest E l id) as [x i]. cbn in IHl. subst i.
    specialize (IHr (id + count l)). destruct (SimSpec.spec L c opt rest E r (id + count l)).
    cbn in *. lia.
  - cbn. specialize (IH id). destruct (SimSpec.spec L c opt rest E sub id). cbn in *. lia.
  - cbn. specialize (IH id). destruct (SimSpec.spec L c opt rest E sub id). cbn in *. lia.
Qed.
Lemma spec_program_count rest E p : forall id,
  snd (spec_program L c opt rest E p id) = id + mutants_of L c opt p.
Proof.
  induction p as [|[f t] p IH]; intro id; cbn; [lia|].
  pose proof (spec_count rest E t id) as Q. destruct (SimSpec.spec L c opt rest E t id) as [x i]. cbn in Q. subst i.
  specialize (IH (id + count t)). destruct (spec_program L c opt rest E p (id + count t)). cbn in *.
  unfold mutants_of in *. cbn. lia.
Qed.
Lemma mutate_count p : snd (mutate_program L c o p 0) = mutants_of L c opt p.
Proof.
  rewrite (proj1 (program_ids L c o false (fun _ => false) p 0)). rewrite spec_program_count. reflexivity.
Qed.

Lemma bin_meaning_some b a : In a (binary_actions c opt b) -> exists op, bin_meaning a = Some op.
Proof.
  unfold binary_actions. destruct (c_logical c b).
  - unfold c_logical_actions. destruct (bop_eqb (b_op b) LAnd); intros [<-|[<-|[<-|[]]]]; cbn; eauto.
  - intro I. apply in_map_iff in I as ([a' op] & <- & I).
    exists op. exact (binary_mutants_meaning opt b (a', op) I).
Qed.

(** * One change *)

Section One.
Variable E : nat -> bool.
Variable i : nat.
Hypothesis Only : forall j, E j = Nat.eqb i j.

Lemma first_one {A} (acts : list A) : forall id, id <= i < id + List.length acts ->
  first_enabled E id acts = nth_error acts (i - id).
Proof.
  induction acts as [|a acts IH]; intros id H; cbn in *; [lia|].
  rewrite Only. destruct (Nat.eqb_spec i id) as [->|Ne].
  - rewrite Nat.sub_diag. reflexivity.
  - rewrite IH by lia. replace (i - id) with (S (i - S id)) by lia. reflexivity.
Qed.
Lemma first_other {A} (acts : list A) : forall id, ~ id <= i < id + List.length acts ->
  first_enabled E id acts = None.
Proof.
  induction acts as [|a acts IH]; intros id H; cbn in *; auto.
  rewrite Only. destruct (Nat.eqb_spec i id) as [->|Ne]; [lia|]. apply IH. lia.
Qed.
Lemma spec_other t id : SimSpec.well_formed L c t = true -> ~ id <= i < id + count t ->
  fst (spec E t id) = den t.
Proof.
  intros Wf H. apply spec_none; auto. rewrite spec_count. intros j Hj. rewrite Only.
  apply Nat.eqb_neq. lia.
Qed.

Lemma spec_one t : forall id, SimSpec.well_formed L c t = true -> id <= i < id + count t ->
  one_change L c opt t (i - id) (fst (spec E t id)).
Proof.
  induction t as [s v|k ps last IH|e sub IH|b l w1 w2 r IHl IHr|u w sub IH|s sub IH]
    using cst_induction; intros id Wf H; cbn [mutants_in] in H.
  - lia.
  - rewrite (spec_node L c o). cbn [fst SimSpec.well_formed] in *.
    apply andb_true_iff in Wf as [Sk Wf].
    assert (Q : exists pre s p post j x, ps = pre ++ (s, p) :: post /\
      i - id = mutants_of L c opt pre + j /\ one_change L c opt p j x /\
      fst (spec_all L c o false E ps id) =
      map (fun p => den (snd p)) pre ++ x :: map (fun p => den (snd p)) post).
    { clear Sk. revert id H. induction IH as [|[s p] ps Hp F IHF]; intros id H; cbn in H; [lia|].
      cbn in Wf. apply andb_true_iff in Wf as [W1 W2]. cbn [spec_all].
      pose proof (spec_count false E p id) as Q. pose proof (spec_other p id W1) as So.
      specialize (Hp id W1). cbn [snd] in Hp.
      destruct (spec E p id) as [x j]. cbn [fst snd] in *. subst j.
      destruct (le_lt_dec (id + count p) i) as [Le|Lt].
      - destruct (IHF W2 (id + count p)) as (pre & s' & p' & post & j & y & -> & Qj & Ch & Qf); [lia|].
        destruct (spec_all L c o false E (pre ++ (s', p') :: post) (id + count p)) as [ys jj].
        cbn [fst] in *. exists ((s, p) :: pre), s', p', post, j, y. subst ys.
        rewrite So by lia. repeat split; auto. unfold mutants_of in *. cbn. lia.
      - assert (Qr : fst (spec_all L c o false E ps (id + count p)) = map (fun p => den (snd p)) ps).
        { clear IHF H F Hp So. assert (Hl : i < id + count p) by lia. revert W2 Hl.
          generalize (id + count p). clear Lt W1. induction ps as [|[s2 q] qs IHq]; intros n W2 Hl; auto.
          cbn in W2. apply andb_true_iff in W2 as [W2 W3]. cbn [spec_all].
          pose proof (spec_count false E q n) as Q. pose proof (spec_other q n W2) as So.
          destruct (spec E q n) as [x' j]. cbn in Q, So. subst j.
          specialize (IHq (n + count q) W3). destruct (spec_all L c o false E qs (n + count q)).
          cbn in *. rewrite So, IHq by lia. reflexivity. }
        destruct (spec_all L c o false E ps (id + count p)) as [ys jj]. cbn [fst] in *. subst ys.
        exists [], s, p, ps, (i - id), x. repeat split; auto. apply Hp. lia. }
    destruct Q as (pre & s & p & post & j & x & -> & -> & Ch & ->). apply change_below_node. exact Ch.
  - cbn [SimSpec.well_formed SimSpec.spec] in *. apply andb_true_iff in Wf as [Go Wf].
    pose proof (spec_count false E sub id) as Q. pose proof (spec_other sub id Wf) as So.
    specialize (IH id Wf). destruct (spec E sub id) as [x j]. cbn [fst snd] in *. subst j.
    unfold expr_choice. destruct (le_lt_dec (id + count sub) i) as [Le|Lt].
    + rewrite first_one by (rewrite map_length; lia). rewrite So by lia.
      destruct (nth_error (map fst (expr_mutants c opt e)) (i - (id + count sub))) as [a|] eqn:Na.
      * pose proof (nth_error_In _ _ Na) as I. apply in_map_iff in I as ([a' op] & Qa & I). cbn in Qa. subst a'.
        pose proof (expr_mutants_meaning c opt e (a, op) I) as Me. cbn [fst snd] in Me. cbn [choice]. rewrite Me. cbn [with_choice].
        replace (i - id) with (count sub + (i - (id + count sub))) by lia.
        exact (change_expr L c opt e sub _ a op Na Me).
      * apply nth_error_None in Na. rewrite map_length in Na. lia.
    + rewrite first_other by lia. cbn. apply change_below_expr. apply IH. lia.
  - cbn [SimSpec.well_formed SimSpec.spec] in *.
    apply andb_true_iff in Wf as [Wf Wr]. apply andb_true_iff in Wf as [Go Wl].
    pose proof (spec_count false E l id) as Ql. pose proof (spec_other l id Wl) as Sl.
    specialize (IHl id Wl). destruct (spec E l id) as [x j]. cbn [fst snd] in *. subst j.
    pose proof (spec_count false E r (id + count l)) as Qr.
    pose proof (spec_other r (id + count l) Wr) as Sr.
    specialize (IHr (id + count l) Wr). destruct (spec E r (id + count l)) as [y j]. cbn [fst snd] in *. subst j.
    unfold binary_choice.
    destruct (le_lt_dec (id + count l + count r) i) as [Le|Lt].
    + rewrite first_one by lia. rewrite Sl, Sr by lia.
      destruct (nth_error (binary_actions c opt b) (i - (id + count l + count r))) as [a|] eqn:Na.
      * destruct (bin_meaning_some b a (nth_error_In _ _ Na)) as [op Me]. cbn [choice]. rewrite Me. cbn [with_choice].
        replace (i - id) with (count l + count r + (i - (id + count l + count r))) by lia.
        exact (change_binary L c opt b l w1 w2 r _ a op Na Me).
      * apply nth_error_None in Na. lia.
    + rewrite first_other by lia. cbn [choice with_choice].
      assert (Q : (if c_logical c b then c_logical_term L c b (RBin (b_op b)) x y
                   else binary_term L c b (RBin (b_op b)) x y) = binary_term L c b (RBin (b_op b)) x y)
        by (destruct (c_logical c b); reflexivity).
      unfold site_expression. cbn [andb].
      change (one_change L c opt (CBin b l w1 w2 r) (i - id)
        (if c_logical c b then c_logical_term L c b (RBin (b_op b)) x y
         else binary_term L c b (RBin (b_op b)) x y)).
      rewrite Q. destruct (le_lt_dec (id + count l) i) as [Le2|Lt2].
      * rewrite Sl by lia. replace (i - id) with (count l + (i - (id + count l))) by lia.
        apply change_right. apply IHr. lia.
      * rewrite Sr by lia. apply change_left. apply IHl. lia.
  - cbn [SimSpec.well_formed SimSpec.spec] in *. apply andb_true_iff in Wf as [Go Wf].
    pose proof (spec_count false E sub id) as Q. pose proof (spec_other sub id Wf) as So.
    specialize (IH id Wf). destruct (spec E sub id) as [x j]. cbn [fst snd] in *. subst j.
    unfold unary_choice. destruct (le_lt_dec (id + count sub) i) as [Le|Lt].
    + rewrite first_one by (rewrite map_length; lia). rewrite So by lia.
      destruct (nth_error (map fst (unary_mutants opt u)) (i - (id + count sub))) as [a|] eqn:Na.
      * pose proof (nth_error_In _ _ Na) as I. apply in_map_iff in I as ([a' op] & Qa & I). cbn in Qa. subst a'.
        pose proof (unary_mutants_meaning opt u (a, op) I) as Me. cbn [fst snd] in Me. cbn [choice]. rewrite Me. cbn [with_choice].
        replace (i - id) with (count sub + (i - (id + count sub))) by lia.
        exact (change_unary L c opt u w sub _ a op Na Me).
      * apply nth_error_None in Na. rewrite map_length in Na. lia.
    + rewrite first_other by lia. cbn [choice with_choice].
      change (one_change L c opt (CUn u w sub) (i - id) (unary_term L c u (original_unary (u_op u)) x)).
      rewrite (unary_same L c u x Go). apply change_below_unary. apply IH. lia.
  - cbn [SimSpec.well_formed SimSpec.spec] in *.
    pose proof (spec_count false E sub id) as Q. pose proof (spec_other sub id Wf) as So.
    specialize (IH id Wf). destruct (spec E sub id) as [x j]. cbn [fst snd] in *. subst j.
    rewrite Only. destruct (Nat.eqb_spec i (id + count sub)) as [->|Ne].
    + replace (id + count sub - id) with (count sub) by lia. apply change_stmt.
    + apply change_below_stmt. apply IH. lia.
Qed.

Lemma spec_others p : forall id, well_formed_program L c p = true ->
  ~ id <= i < id + mutants_of L c opt p ->
  fst (spec_program L c opt false E p id) = map (fun x => (fst x, den (snd x))) p.
Proof.
  induction p as [|[f t] p IH]; intros id Wf H; cbn; auto.
  cbn in Wf. apply andb_true_iff in Wf as [W1 W2]. unfold mutants_of in H. cbn in H.
  pose proof (spec_count false E t id) as Q. pose proof (spec_other t id W1) as So.
  destruct (spec E t id) as [x j]. cbn in Q, So. subst j.
  specialize (IH (id + count t) W2). destruct (spec_program L c opt false E p (id + count t)).
  cbn in *. unfold mutants_of in IH. rewrite So, IH by lia. reflexivity.
Qed.
Lemma spec_one_program p : forall id, well_formed_program L c p = true ->
  id <= i < id + mutants_of L c opt p ->
  one_change_program L c opt p (i - id) (fst (spec_program L c opt false E p id)).
Proof.
  induction p as [|[f t] p IH]; intros id Wf H; [cbn in H; lia|].
  cbn [spec_program]. cbn in Wf. apply andb_true_iff in Wf as [W1 W2].
  unfold mutants_of in H. cbn in H.
  pose proof (spec_count false E t id) as Q. pose proof (spec_other t id W1) as So.
  pose proof (spec_one t id W1) as Sn.
  destruct (spec E t id) as [x j]. cbn [fst snd] in *. subst j.
  specialize (IH (id + count t) W2). pose proof (spec_others p (id + count t) W2) as Sp.
  unfold mutants_of in *.
  destruct (spec_program L c opt false E p (id + count t)) as [q j]. cbn [fst] in *.
  destruct (le_lt_dec (id + count t) i) as [Le|Lt].
  - rewrite So by lia. destruct IH as [p1 g t' p2 j' y -> Qj Ch]; [lia|].
    apply (change_function L c opt _ _ ((f, t) :: p1) g t' p2 j' y); auto.
    unfold mutants_of in *. cbn. lia.
  - rewrite Sp by lia. apply (change_function L c opt _ _ [] f t p (i - id) x); auto. apply Sn. lia.
Qed.
End One.

(* The change is determined by the mutant. *)
Lemma below_first {A} E (acts : list A) id j : (forall k, E k = Nat.eqb j k) -> j < id ->
  first_enabled E id acts = None.
Proof. intros Only H. apply (first_other E j Only). lia. Qed.
Lemma one_change_range t i x : one_change L c opt t i x -> i < count t.
Proof.
  induction 1; cbn [mutants_in]; try lia.
  - unfold mutants_of. induction pre as [|[s' q] pre IH]; cbn in *; lia.
  - assert (k < List.length (map fst (expr_mutants c opt e))) by (apply nth_error_Some; congruence).
    rewrite map_length in *. lia.
  - assert (k < List.length (binary_actions c opt b)) by (apply nth_error_Some; congruence). lia.
  - assert (k < List.length (map fst (unary_mutants opt u))) by (apply nth_error_Some; congruence).
    rewrite map_length in *. lia.
Qed.
Lemma one_change_spec t i x : one_change L c opt t i x -> SimSpec.well_formed L c t = true ->
  forall E id, (forall j, E j = Nat.eqb (id + i) j) -> fst (spec E t id) = x.
Proof.
  intro Ch. induction Ch as [k pre s p post last i x Ch IH|e sub i x Ch IH|e sub k a op Na Me
    |b l w1 w2 r i x Ch IH|b l w1 w2 r i x Ch IH|b l w1 w2 r k a op Na Me
    |u w sub i x Ch IH|u w sub k a op Na Me|s sub i x Ch IH|s sub]; intros Wf E id Only;
    try pose proof (one_change_range _ _ _ Ch) as Rg.
  - rewrite (spec_node L c o). cbn [fst SimSpec.well_formed] in *. apply andb_true_iff in Wf as [Sk Wf].
    f_equal. clear Sk. revert id Only. induction pre as [|[s' q] pre IHp]; intros id Only.
    + cbn in Wf. apply andb_true_iff in Wf as [W1 W2]. cbn [app map spec_all].
      specialize (IH W1 E id Only). pose proof (spec_count false E p id) as Q.
      destruct (spec E p id) as [y j]. cbn in IH, Q. subst y j.
      assert (Qr : fst (spec_all L c o false E post (id + count p)) = map (fun p => den (snd p)) post).
      { assert (Hl : id + (mutants_of L c opt [] + i) < id + count p) by (cbn; lia).
        revert W2 Hl. generalize (id + count p) as n. clear - Only.
        induction post as [|[s2 q] qs IHq]; intros n W2 Hl; auto.
        cbn in W2. apply andb_true_iff in W2 as [W2 W3]. cbn [spec_all].
        pose proof (spec_count false E q n) as Q. pose proof (spec_other E _ Only q n W2) as So.
        destruct (spec E q n) as [x' j]. cbn in Q, So. subst j.
        specialize (IHq (n + count q) W3). destruct (spec_all L c o false E qs (n + count q)).
        cbn in *. rewrite So, IHq by lia. reflexivity. }
      destruct (spec_all L c o false E post (id + count p)). cbn in *. subst. reflexivity.
    + cbn in Wf. apply andb_true_iff in Wf as [W1 W2]. cbn [app map spec_all].
      pose proof (spec_count false E q id) as Q. pose proof (spec_other E _ Only q id W1) as So.
      destruct (spec E q id) as [y j]. cbn in Q, So. subst j.
      specialize (IHp W2 (id + count q)).
      destruct (spec_all L c o false E (pre ++ (s, p) :: post) (id + count q)). cbn [fst] in *.
      rewrite So by (unfold mutants_of; cbn; lia). rewrite IHp; [reflexivity|].
      intro j. rewrite Only. f_equal. unfold mutants_of. cbn. lia.
  - cbn [SimSpec.well_formed SimSpec.spec] in *. apply andb_true_iff in Wf as [Go Wf].
    specialize (IH Wf E id Only). pose proof (spec_count false E sub id) as Q.
    destruct (spec E sub id) as [y j]. cbn [fst snd] in *. subst y j.
    unfold expr_choice. rewrite (below_first E _ _ (id + i)) by (auto; lia). reflexivity.
  - cbn [SimSpec.well_formed SimSpec.spec] in *. apply andb_true_iff in Wf as [Go Wf].
    pose proof (spec_count false E sub id) as Q. pose proof (spec_other E _ Only sub id Wf) as So.
    destruct (spec E sub id) as [y j]. cbn [fst snd] in *. subst j. rewrite So by lia.
    assert (k < List.length (map fst (expr_mutants c opt e))) by (apply nth_error_Some; congruence).
    unfold expr_choice. rewrite (first_one E _ Only) by lia.
    replace (id + (count sub + k) - (id + count sub)) with k by lia.
    rewrite Na. cbn [choice]. rewrite Me. reflexivity.
  - cbn [SimSpec.well_formed SimSpec.spec] in *.
    apply andb_true_iff in Wf as [Wf Wr]. apply andb_true_iff in Wf as [Go Wl].
    specialize (IH Wl E id Only). pose proof (spec_count false E l id) as Q.
    destruct (spec E l id) as [y j]. cbn [fst snd] in *. subst y j.
    pose proof (spec_count false E r (id + count l)) as Q.
    pose proof (spec_other E _ Only r (id + count l) Wr) as So.
    destruct (spec E r (id + count l)) as [y j]. cbn [fst snd] in *. subst j. rewrite So by lia.
    unfold binary_choice. rewrite (below_first E _ _ (id + i)) by (auto; lia).
    cbn [choice with_choice andb]. destruct (c_logical c b); reflexivity.
  - cbn [SimSpec.well_formed SimSpec.spec] in *.
    apply andb_true_iff in Wf as [Wf Wr]. apply andb_true_iff in Wf as [Go Wl].
    pose proof (spec_count false E l id) as Q. pose proof (spec_other E _ Only l id Wl) as So.
    destruct (spec E l id) as [y j]. cbn [fst snd] in *. subst j. rewrite So by lia.
    assert (Only' : forall j, E j = Nat.eqb (id + count l + i) j)
      by (intro j; rewrite Only; f_equal; lia).
    specialize (IH Wr E (id + count l) Only'). pose proof (spec_count false E r (id + count l)) as Q.
    destruct (spec E r (id + count l)) as [z j]. cbn [fst snd] in *. subst z j.
    unfold binary_choice. rewrite (below_first E _ _ (id + count l + i)) by (auto; lia).
    cbn [choice with_choice andb]. destruct (c_logical c b); reflexivity.
  - cbn [SimSpec.well_formed SimSpec.spec] in *.
    apply andb_true_iff in Wf as [Wf Wr]. apply andb_true_iff in Wf as [Go Wl].
    pose proof (spec_count false E l id) as Q. pose proof (spec_other E _ Only l id Wl) as Sl.
    destruct (spec E l id) as [y j]. cbn [fst snd] in *. subst j. rewrite Sl by lia.
    pose proof (spec_count false E r (id + count l)) as Q.
    pose proof (spec_other E _ Only r (id + count l) Wr) as Sr.
    destruct (spec E r (id + count l)) as [z j]. cbn [fst snd] in *. subst j. rewrite Sr by lia.
    assert (k < List.length (binary_actions c opt b)) by (apply nth_error_Some; congruence).
    unfold binary_choice. rewrite (first_one E _ Only) by lia.
    replace (id + (count l + count r + k) - (id + count l + count r)) with k by lia.
    rewrite Na. cbn [choice]. rewrite Me. reflexivity.
  - cbn [SimSpec.well_formed SimSpec.spec] in *. apply andb_true_iff in Wf as [Go Wf].
    specialize (IH Wf E id Only). pose proof (spec_count false E sub id) as Q.
    destruct (spec E sub id) as [y j]. cbn [fst snd] in *. subst y j.
    unfold unary_choice. rewrite (below_first E _ _ (id + i)) by (auto; lia).
    exact (unary_same L c u x Go).
  - cbn [SimSpec.well_formed SimSpec.spec] in *. apply andb_true_iff in Wf as [Go Wf].
    pose proof (spec_count false E sub id) as Q. pose proof (spec_other E _ Only sub id Wf) as So.
    destruct (spec E sub id) as [y j]. cbn [fst snd] in *. subst j. rewrite So by lia.
    assert (k < List.length (map fst (unary_mutants opt u))) by (apply nth_error_Some; congruence).
    unfold unary_choice. rewrite (first_one E _ Only) by lia.
    replace (id + (count sub + k) - (id + count sub)) with k by lia.
    rewrite Na. cbn [choice]. rewrite Me. reflexivity.
  - cbn [SimSpec.well_formed SimSpec.spec] in *.
    specialize (IH Wf E id Only). pose proof (spec_count false E sub id) as Q.
    destruct (spec E sub id) as [y j]. cbn [fst snd] in *. subst y j.
    rewrite Only. destruct (Nat.eqb_spec (id + i) (id + count sub)); [lia|reflexivity].
  - cbn [SimSpec.well_formed SimSpec.spec] in *.
    pose proof (spec_count false E sub id) as Q.
    destruct (spec E sub id) as [y j]. cbn [fst snd] in *. subst j.
    rewrite Only, Nat.eqb_refl. reflexivity.
Qed.
Lemma one_change_program_spec p i q : one_change_program L c opt p i q ->
  well_formed_program L c p = true -> q = fst (spec_program L c opt false (Nat.eqb i) p 0).
Proof.
  intros [p1 f t p2 j x -> -> Ch] Wf. pose proof (one_change_range _ _ _ Ch) as Rg.
  enough (H : forall id E, (forall k, E k = Nat.eqb (id + (mutants_of L c opt p1 + j)) k) ->
    fst (spec_program L c opt false E (p1 ++ (f, t) :: p2) id) =
    map (fun x => (fst x, den (snd x))) p1 ++ (f, x) :: map (fun x => (fst x, den (snd x))) p2)
    by (symmetry; apply (H 0); reflexivity).
  induction p1 as [|[g s] p1 IH]; intros id E Only; cbn in Wf; apply andb_true_iff in Wf as [W1 W2].
  - cbn [app spec_program map]. pose proof (one_change_spec _ _ _ Ch W1 E id Only) as Q1.
    pose proof (spec_count false E t id) as Q. destruct (spec E t id) as [y n]. cbn in Q1, Q. subst y n.
    pose proof (spec_others E _ Only p2 (id + count t) W2) as So.
    destruct (spec_program L c opt false E p2 (id + count t)). cbn in *. rewrite So by lia. reflexivity.
  - cbn [app spec_program map]. pose proof (spec_other E _ Only s id W1) as So.
    pose proof (spec_count false E s id) as Q. destruct (spec E s id) as [y n]. cbn in So, Q. subst n.
    specialize (IH W2 (id + count s) E).
    destruct (spec_program L c opt false E (p1 ++ (f, t) :: p2) (id + count s)). cbn [fst] in *.
    rewrite So by (unfold mutants_of; cbn; lia). rewrite IH; [reflexivity|].
    intro k. rewrite Only. f_equal. unfold mutants_of. cbn. lia.
Qed.

(** * The smallest enabled mutant *)

Lemma first_smallest {A} E E' (acts : list A) : forall id,
  smallest E (id, List.length acts) = smallest E' (id, List.length acts) ->
  first_enabled E id acts = first_enabled E' id acts.
Proof.
  unfold smallest. cbn [fst snd].
  assert (Ge : forall E n id j, find E (seq (S id) n) = Some j -> id < j).
  { intros E0 n id j Q. apply find_some in Q as [I _]. apply in_seq in I. lia. }
  induction acts as [|a acts IH]; intros id H; cbn in *; auto.
  destruct (E id) eqn:Q1, (E' id) eqn:Q2; auto.
  - symmetry in H. apply Ge in H. lia.
  - apply Ge in H. lia.
Qed.

Lemma spec_smallest E E' t : forall id,
  (forall s, In s (sites_in L c opt t id) -> smallest E s = smallest E' s) ->
  spec E t id = spec E' t id.
Proof.
  induction t as [s v|k ps last IH|e sub IH|b l w1 w2 r IHl IHr|u w sub IH|s sub IH]
    using cst_induction; intros id H.
  - reflexivity.
  - rewrite !(spec_node L c o). cbn [sites_in] in H.
    assert (Q : spec_all L c o false E ps id = spec_all L c o false E' ps id).
    { revert id H. induction IH as [|[s p] ps Hp F IHF]; intros id H; auto. cbn [spec_all].
      cbn [snd] in Hp. rewrite <- (Hp id) by (intros x Hx; apply H, in_or_app; auto).
      pose proof (spec_count false E p id) as Qc. destruct (spec E p id) as [x j]. cbn in Qc. subst j.
      rewrite (IHF (id + count p)) by (intros z Hz; apply H, in_or_app; auto). reflexivity. }
    rewrite Q. reflexivity.
  - cbn [SimSpec.spec sites_in] in *. rewrite <- (IH id) by (intros x Hx; apply H, in_or_app; auto).
    pose proof (spec_count false E sub id) as Qc. destruct (spec E sub id) as [x j]. cbn in Qc. subst j.
    unfold expr_choice. rewrite (first_smallest E E'); auto.
    rewrite map_length. apply H, in_or_app. right. left. reflexivity.
  - cbn [SimSpec.spec sites_in] in *. rewrite <- (IHl id) by (intros x Hx; apply H, in_or_app; auto).
    pose proof (spec_count false E l id) as Qc. destruct (spec E l id) as [x j]. cbn in Qc. subst j.
    rewrite <- (IHr (id + count l)) by (intros z Hz; apply H, in_or_app; right; apply in_or_app; auto).
    pose proof (spec_count false E r (id + count l)) as Qc.
    destruct (spec E r (id + count l)) as [y j]. cbn in Qc. subst j.
    unfold binary_choice. rewrite (first_smallest E E'); auto.
    apply H, in_or_app. right. apply in_or_app. right. left. reflexivity.
  - cbn [SimSpec.spec sites_in] in *. rewrite <- (IH id) by (intros x Hx; apply H, in_or_app; auto).
    pose proof (spec_count false E sub id) as Qc. destruct (spec E sub id) as [x j]. cbn in Qc. subst j.
    unfold unary_choice. rewrite (first_smallest E E'); auto.
    rewrite map_length. apply H, in_or_app. right. left. reflexivity.
  - cbn [SimSpec.spec sites_in] in *. rewrite <- (IH id) by (intros x Hx; apply H, in_or_app; auto).
    pose proof (spec_count false E sub id) as Qc. destruct (spec E sub id) as [x j]. cbn in Qc. subst j.
    assert (Q : smallest E (id + count sub, 1) = smallest E' (id + count sub, 1))
      by (apply H, in_or_app; right; left; reflexivity).
    unfold smallest in Q. cbn in Q. destruct (E (id + count sub)), (E' (id + count sub)); auto; discriminate.
Qed.
Lemma spec_smallest_program E E' p : forall id,
  (forall s, In s (sites_of L c opt p id) -> smallest E s = smallest E' s) ->
  spec_program L c opt false E p id = spec_program L c opt false E' p id.
Proof.
  induction p as [|[f t] p IH]; intros id H; cbn; auto. cbn in H.
  rewrite <- (spec_smallest E E' t id) by (intros x Hx; apply H, in_or_app; auto).
  pose proof (spec_count false E t id) as Qc. destruct (spec E t id) as [x j]. cbn in Qc. subst j.
  rewrite (IH (id + count t)) by (intros z Hz; apply H, in_or_app; auto). reflexivity.
Qed.

(* ... also for the operands that are evaluated although they are not needed *)
Lemma logical_three b : c_logical c b = true -> List.length (binary_actions c opt b) = 3.
Proof. unfold binary_actions. intros ->. reflexivity. Qed.
Lemma logical_smallest E E' b id x y : c_logical c b = true ->
  smallest E (id, 3) = smallest E' (id, 3) ->
  E id || negb (E (S id)) || negb (E (S (S id))) = true ->
  E' id || negb (E' (S id)) || negb (E' (S (S id))) = true ->
  c_logical_with_rest L c E b id x y = c_logical_with_rest L c E' b id x y.
Proof.
  unfold smallest, c_logical_with_rest. cbn. intros _ Q A A'.
  destruct (E id), (E' id); try reflexivity; cbn in *;
    destruct (E (S id)), (E' (S id)), (E (S (S id))), (E' (S (S id))); cbn in *; try reflexivity;
    try discriminate; injection Q; lia.
Qed.
Lemma smallest_exact E E' t : forall id,
  (forall s, In s (sites_in L c opt t id) -> smallest E s = smallest E' s) ->
  apart L c opt E t id = true -> apart L c opt E' t id = true ->
  SimSpec.spec L c opt true E t id = SimSpec.spec L c opt true E' t id.
Proof.
  induction t as [s v|k ps last IH|e sub IH|b l w1 w2 r IHl IHr|u w sub IH|s sub IH]
    using cst_induction; intros id H A A'.
  - reflexivity.
  - rewrite !(spec_node L c o). cbn [sites_in apart] in H, A, A'.
    assert (Q : spec_all L c o true E ps id = spec_all L c o true E' ps id).
    { revert id H A A'. induction IH as [|[s p] ps Hp F IHF]; intros id H A A'; auto. cbn [spec_all].
      apply andb_true_iff in A as [A1 A2]. apply andb_true_iff in A' as [A1' A2'].
      cbn [snd] in Hp. rewrite <- (Hp id) by (auto; intros x Hx; apply H, in_or_app; auto).
      pose proof (spec_count true E p id) as Qc. destruct (SimSpec.spec L c opt true E p id) as [x j].
      cbn in Qc. subst j.
      rewrite (IHF (id + count p)) by (auto; intros z Hz; apply H, in_or_app; auto). reflexivity. }
    rewrite Q. reflexivity.
  - cbn [SimSpec.spec sites_in apart] in *.
    rewrite <- (IH id) by (auto; intros x Hx; apply H, in_or_app; auto).
    pose proof (spec_count true E sub id) as Qc.
    destruct (SimSpec.spec L c opt true E sub id) as [x j]. cbn in Qc. subst j.
    unfold expr_choice. rewrite (first_smallest E E'); auto.
    rewrite map_length. apply H, in_or_app. right. left. reflexivity.
  - cbn [SimSpec.spec sites_in apart] in *.
    rewrite !andb_true_iff in A, A'. destruct A as [[A1 A2] A3], A' as [[A1' A2'] A3'].
    rewrite <- (IHl id) by (auto; intros x Hx; apply H, in_or_app; auto).
    pose proof (spec_count true E l id) as Qc.
    destruct (SimSpec.spec L c opt true E l id) as [x j]. cbn in Qc. subst j.
    rewrite <- (IHr (id + count l)) by (auto; intros z Hz; apply H, in_or_app; right; apply in_or_app; auto).
    pose proof (spec_count true E r (id + count l)) as Qc.
    destruct (SimSpec.spec L c opt true E r (id + count l)) as [y j]. cbn in Qc. subst j.
    assert (Q : smallest E (id + count l + count r, List.length (binary_actions c opt b)) =
                smallest E' (id + count l + count r, List.length (binary_actions c opt b)))
      by (apply H, in_or_app; right; apply in_or_app; right; left; reflexivity).
    destruct (c_logical c b) eqn:Cl.
    + cbn [andb negb orb] in *. rewrite logical_three in Q by exact Cl.
      rewrite (logical_smallest E E') by assumption. reflexivity.
    + cbn [andb]. unfold binary_choice. rewrite (first_smallest E E'); auto.
  - cbn [SimSpec.spec sites_in apart] in *.
    rewrite <- (IH id) by (auto; intros x Hx; apply H, in_or_app; auto).
    pose proof (spec_count true E sub id) as Qc.
    destruct (SimSpec.spec L c opt true E sub id) as [x j]. cbn in Qc. subst j.
    unfold unary_choice. rewrite (first_smallest E E'); auto.
    rewrite map_length. apply H, in_or_app. right. left. reflexivity.
  - cbn [SimSpec.spec sites_in apart] in *.
    rewrite <- (IH id) by (auto; intros x Hx; apply H, in_or_app; auto).
    pose proof (spec_count true E sub id) as Qc.
    destruct (SimSpec.spec L c opt true E sub id) as [x j]. cbn in Qc. subst j.
    assert (Q : smallest E (id + count sub, 1) = smallest E' (id + count sub, 1))
      by (apply H, in_or_app; right; left; reflexivity).
    unfold smallest in Q. cbn in Q. destruct (E (id + count sub)), (E' (id + count sub)); auto; discriminate.
Qed.
Lemma smallest_exact_program E E' p : forall id,
  (forall s, In s (sites_of L c opt p id) -> smallest E s = smallest E' s) ->
  apart_program L c opt E p id = true -> apart_program L c opt E' p id = true ->
  spec_program L c opt true E p id = spec_program L c opt true E' p id.
Proof.
  induction p as [|[f t] p IH]; intros id H A A'; cbn in *; auto.
  apply andb_true_iff in A as [A1 A2]. apply andb_true_iff in A' as [A1' A2'].
  rewrite <- (smallest_exact E E' t id) by (auto; intros x Hx; apply H, in_or_app; auto).
  pose proof (spec_count true E t id) as Qc. destruct (SimSpec.spec L c opt true E t id) as [x j].
  cbn in Qc. subst j.
  rewrite (IH (id + count t)) by (auto; intros z Hz; apply H, in_or_app; auto). reflexivity.
Qed.
Lemma apart_cpp E t : cpp c = true -> forall id, apart L c opt E t id = true.
Proof.
  intro C. assert (Nl : forall b, c_logical c b = false) by (intro b; unfold c_logical; rewrite C; reflexivity).
  induction t as [s v|k ps last IH|e sub IH|b l w1 w2 r IHl IHr|u w sub IH|s sub IH]
    using cst_induction; intro id; cbn [apart]; auto.
  - revert id. induction IH as [|[s p] ps Hp F IHF]; intro id; auto.
    rewrite Hp. apply IHF.
  - rewrite IHl, IHr, Nl. reflexivity.
Qed.
Lemma apart_cpp_program E p : cpp c = true -> forall id, apart_program L c opt E p id = true.
Proof.
  intro C. induction p as [|[f t] p IH]; intro id; cbn; auto. rewrite apart_cpp by exact C. apply IH.
Qed.

(** * Mutants that need their operands *)

Lemma kept_ok R bs cpp17 used delayed sub t : operand_kept used delayed = true ->
  dropped_ok L c R bs cpp17 used delayed sub t.
Proof. intro H. apply orb_true_iff in H as [->| ->]; [left|right; left]; reflexivity. Qed.

Lemma keeps_drops E R bs cpp17 t : forall id,
  keeps L c opt E t id = true -> drops L c opt R bs cpp17 E t id.
Proof.
  induction t as [s v|k ps last IH|e sub IH|b l w1 w2 r IHl IHr|u w sub IH|s sub IH]
    using cst_induction; intros id H; cbn [keeps drops] in *; auto.
  - revert id H. induction IH as [|[s p] ps Hp F IHF]; intros id H; auto.
    apply andb_true_iff in H as [H1 H2]. split; [apply Hp; exact H1|].
    rewrite spec_count. apply IHF. exact H2.
  - apply andb_true_iff in H as [H1 H2]. split; auto.
    pose proof (spec_count false E sub id) as Qc. destruct (spec E sub id) as [x j]. cbn in Qc. subst j.
    intros r Q. rewrite Q in H2. apply kept_ok. exact H2.
  - rewrite !andb_true_iff in H. destruct H as [[[H1 H2] H3] H4]. rewrite spec_count.
    split; auto. split; auto.
    pose proof (spec_count false E l id) as Qc. destruct (spec E l id) as [x j]. cbn in Qc. subst j.
    pose proof (spec_count false E r (id + count l)) as Qc.
    destruct (spec E r (id + count l)) as [y j]. cbn in Qc. subst j. split.
    + intros op Q. rewrite Q in H3. cbn [kept] in H3. apply andb_true_iff in H3 as [H3 H5].
      split; apply kept_ok; auto.
    + intro Cl. rewrite Cl in H4. cbn [negb orb] in H4.
      rewrite !orb_true_iff, !negb_true_iff in H4. tauto.
  - apply andb_true_iff in H as [H1 H2]. split; auto.
    pose proof (spec_count false E sub id) as Qc. destruct (spec E sub id) as [x j]. cbn in Qc. subst j.
    intros r Q. rewrite Q in H2. apply kept_ok. exact H2.
Qed.
Lemma keeps_drops_program E R bs cpp17 p : forall id,
  keeps_program L c opt E p id = true -> drops_program L c opt R bs cpp17 E p id.
Proof.
  induction p as [|[f t] p IH]; intros id H; cbn in *; auto.
  apply andb_true_iff in H as [H1 H2]. rewrite spec_count. auto using keeps_drops.
Qed.

Lemma kept_expr E e id : off E id (List.length (expr_mutants c opt e)) ->
  kept (fun r => operand_kept (uses1 r) (cpp c && e_side_effects e)) (expr_choice c opt E e id) = true.
Proof. intro O. rewrite (off_expr c o) by exact O. reflexivity. Qed.
Lemma kept_unary E u id : off E id (List.length (unary_mutants opt u)) ->
  kept (fun r => operand_kept (uses1 r) (unary_delayed c u)) (unary_choice opt E u id) = true.
Proof.
  intro O. rewrite (off_unary o) by exact O. cbn [kept].
  destruct (u_op u); reflexivity.
Qed.
Lemma kept_binary E b id : off E id (List.length (binary_actions c opt b)) ->
  kept (fun op =>
          operand_kept (uses1 op) (lhs_delayed c b) &&
          operand_kept
            (uses2 op || is_logical (b_op b) && match op with RBin _ => true | _ => false end)
            (rhs_delayed c b))
    (binary_choice c opt E b id) &&
  (negb (c_logical c b) || E id || negb (E (S id)) || negb (E (S (S id)))) = true.
Proof.
  intro O. rewrite (off_binary c o) by exact O. cbn.
  destruct (is_logical (b_op b)); cbn;
    (destruct (c_logical c b) eqn:Cl; auto; cbn [negb orb];
     unfold binary_actions in O; rewrite Cl in O;
     rewrite (O (S id)) by (cbn; lia); destruct (E id); reflexivity).
Qed.
Lemma off_part E id n id' n' : off E id n -> id <= id' -> id' + n' <= id + n -> off E id' n'.
Proof. intros O H1 H2 i Hi. apply O. lia. Qed.

Lemma keeps_off E t : forall id, off E id (count t) -> keeps L c opt E t id = true.
Proof.
  induction t as [s v|k ps last IH|e sub IH|b l w1 w2 r IHl IHr|u w sub IH|s sub IH]
    using cst_induction; intros id O; cbn [keeps mutants_in] in *; auto.
  - revert id O. induction IH as [|[s p] ps Hp F IHF]; intros id O; auto. cbn in O.
    apply andb_true_iff. split.
    + apply Hp. cbn. eapply off_part; eauto; lia.
    + apply IHF. eapply off_part; eauto; lia.
  - apply andb_true_iff. split; [apply IH|apply kept_expr]; eapply off_part; eauto; lia.
  - rewrite <- andb_assoc, kept_binary by (eapply off_part; eauto; lia).
    rewrite IHl, IHr by (eapply off_part; eauto; lia). reflexivity.
  - apply andb_true_iff. split; [apply IH|apply kept_unary]; eapply off_part; eauto; lia.
  - apply IH. eapply off_part; eauto; lia.
Qed.

Lemma logical_first_range t i : forall id, c_logical_first L c opt t id i = true ->
  id <= i < id + count t.
Proof.
  induction t as [s v|k ps last IH|e sub IH|b l w1 w2 r IHl IHr|u w sub IH|s sub IH]
    using cst_induction; intros id H; cbn [c_logical_first mutants_in] in *; try discriminate.
  - revert id H. induction IH as [|[s p] ps Hp F IHF]; intros id H; [discriminate|].
    cbn. apply orb_true_iff in H as [H|H].
    + specialize (Hp id H). cbn in Hp. lia.
    + specialize (IHF _ H). lia.
  - specialize (IH _ H). lia.
  - rewrite !orb_true_iff in H. destruct H as [[H|H]|H].
    + specialize (IHl _ H). lia.
    + specialize (IHr _ H). lia.
    + apply andb_true_iff in H as [Cl H]. apply Nat.eqb_eq in H. subst i.
      unfold binary_actions. rewrite Cl. cbn. lia.
  - specialize (IH _ H). lia.
  - specialize (IH _ H). lia.
Qed.

Lemma keeps_first E t i : (forall j, E j = Nat.eqb i j) ->
  forall id, c_logical_first L c opt t id i = true -> keeps L c opt E t id = true.
Proof.
  intro Only.
  assert (Off : forall id n, ~ id <= i < id + n -> off E id n).
  { intros id n H j Hj. rewrite Only. apply Nat.eqb_neq. lia. }
  induction t as [s v|k ps last IH|e sub IH|b l w1 w2 r IHl IHr|u w sub IH|s sub IH]
    using cst_induction; intros id H; cbn [c_logical_first keeps] in *; auto.
  - revert id H. induction IH as [|[s p] ps Hp F IHF]; intros id H; [discriminate|].
    apply andb_true_iff. apply orb_true_iff in H as [H|H].
    + split; [apply Hp; exact H|]. pose proof (logical_first_range _ _ _ H) as Rg.
      assert (Hl : i < id + count p) by lia. clear - Off Hl. revert Hl. generalize (id + count p).
      induction ps as [|[s q] qs IH]; intros n Hl; auto. apply andb_true_iff. split.
      * apply keeps_off, Off. lia.
      * apply IH. lia.
    + split; [|apply IHF; exact H]. apply keeps_off, Off.
      assert (Rg : id + count p <= i).
      { clear - H. revert H. generalize (id + count p). clear id.
        induction ps as [|[s q] qs IH]; intros n H; [discriminate|].
        apply orb_true_iff in H as [H|H].
        - pose proof (logical_first_range _ _ _ H). lia.
        - specialize (IH _ H). lia. }
      lia.
  - pose proof (logical_first_range _ _ _ H). apply andb_true_iff. split; [apply IH; exact H|].
    apply kept_expr, Off. lia.
  - rewrite !orb_true_iff in H. destruct H as [[H|H]|H].
    + pose proof (logical_first_range _ _ _ H).
      rewrite <- andb_assoc, kept_binary, IHl by (auto; apply Off; lia).
      rewrite (keeps_off E r) by (apply Off; lia). reflexivity.
    + pose proof (logical_first_range _ _ _ H).
      rewrite <- andb_assoc, kept_binary, IHr by (auto; apply Off; lia).
      rewrite (keeps_off E l) by (apply Off; lia). reflexivity.
    + apply andb_true_iff in H as [Cl H]. apply Nat.eqb_eq in H.
      rewrite (keeps_off E l), (keeps_off E r) by (apply Off; lia). rewrite <- H. cbn [andb].
      rewrite (Only i), Nat.eqb_refl, orb_true_r. cbn [orb]. rewrite andb_true_r.
      unfold binary_choice, binary_actions. rewrite Cl. unfold c_logical_actions. cbn [first_enabled].
      rewrite Only, Nat.eqb_refl.
      assert (Lo : is_logical (b_op b) = true).
      { unfold c_logical in Cl. apply andb_true_iff in Cl. tauto. }
      rewrite Lo. destruct (bop_eqb (b_op b) LAnd); reflexivity.
  - pose proof (logical_first_range _ _ _ H). apply andb_true_iff. split; [apply IH; exact H|].
    apply kept_unary, Off. lia.
Qed.
Lemma keeps_off_program E p : forall id, off E id (mutants_of L c opt p) ->
  keeps_program L c opt E p id = true.
Proof.
  induction p as [|[f t] p IH]; intros id O; cbn in *; auto. unfold mutants_of in O. cbn in O.
  apply andb_true_iff. split.
  - apply keeps_off. eapply off_part; eauto; lia.
  - apply IH. unfold mutants_of. eapply off_part; eauto; lia.
Qed.
Lemma keeps_first_program E p i : (forall j, E j = Nat.eqb i j) ->
  forall id, c_logical_first_program L c opt p id i = true -> keeps_program L c opt E p id = true.
Proof.
  intro Only.
  assert (Off : forall id n, ~ id <= i < id + n -> off E id n).
  { intros id n H j Hj. rewrite Only. apply Nat.eqb_neq. lia. }
  induction p as [|[f t] p IH]; intros id H; cbn in *; auto.
  apply andb_true_iff. apply orb_true_iff in H as [H|H].
  - pose proof (logical_first_range _ _ _ H). split; [eapply keeps_first; eauto|].
    apply keeps_off_program, Off. lia.
  - split; [|auto]. apply keeps_off, Off.
    assert (Rg : id + count t <= i).
    { clear - H. revert H. generalize (id + count t). clear id.
      induction p as [|[g s] q IH]; intros n H; [discriminate|].
      apply orb_true_iff in H as [H|H].
      - pose proof (logical_first_range _ _ _ H). lia.
      - specialize (IH _ H). lia. }
    lia.
Qed.

(** * Without optimisation every site has a mutant *)

Lemma productive_noopt t : SimSpec.well_formed L c t = true -> productive L c false t = true.
Proof.
  induction t as [s v|k ps last IH|e sub IH|b l w1 w2 r IHl IHr|u w sub IH|s sub IH]
    using cst_induction; intros Wf; cbn [SimSpec.well_formed productive] in *; auto.
  - apply andb_true_iff in Wf as [_ Wf]. induction IH as [|[s p] ps Hp F IHF]; auto.
    cbn in *. apply andb_true_iff in Wf as [W1 W2]. rewrite Hp, IHF; auto.
  - apply andb_true_iff in Wf as [Go Wf]. rewrite IH by exact Wf. rewrite andb_true_r.
    assert (H : 0 < mutant_count c false (MutExpr e no_info)).
    { apply C21_lemma. cbn. intro Lv. unfold good_expr in Go. rewrite Lv in Go. exact Go. }
    cbn [mutant_count] in H. apply negb_true_iff, Nat.eqb_neq. lia.
  - apply andb_true_iff in Wf as [Wf Wr]. apply andb_true_iff in Wf as [Go Wl].
    rewrite IHl, IHr by auto. rewrite !andb_true_r.
    assert (H : 0 < mutant_count c false (MutBinary b no_info no_info no_info)).
    { apply C21_lemma. cbn. intros Q. unfold good_binary in Go. rewrite Q in Go. discriminate. }
    cbn [mutant_count] in H. apply negb_true_iff, Nat.eqb_neq. lia.
  - apply andb_true_iff in Wf as [Go Wf]. rewrite IH by exact Wf. rewrite andb_true_r.
    assert (H : 0 < mutant_count c false (MutUnary u no_info no_info)).
    { apply C21_lemma. cbn. intros Q. unfold good_unary in Go. rewrite Q in Go. discriminate. }
    cbn [mutant_count] in H. apply negb_true_iff, Nat.eqb_neq. lia.
Qed.
Lemma productive_noopt_program p : opt = false -> well_formed_program L c p = true ->
  productive_program L c o p = true.
Proof.
  unfold well_formed_program, productive_program. intros Q Wf. rewrite Q.
  rewrite forallb_forall in *. intros x I. apply productive_noopt. auto.
Qed.

(** * Programs *)

Variable cpp17 : bool.
Notation mutants p := (snd (mutate_program L c o p 0)).
Notation mutated p := (body_of L c (fst (mutate_program L c o p 0))).

Lemma listed_one f i j : listed f [Z.of_nat (f + i)] j = Nat.eqb i j.
Proof.
  unfold listed. cbn [existsb]. rewrite orb_false_r. apply eq_iff_eq_true.
  rewrite Z.eqb_eq, Nat.eqb_eq. lia.
Qed.

Lemma one_lemma f v i p g args :
  track o = false ->
  variable_lists v [Z.of_nat (f + i)] -> int_safe f (Z.of_nat (f + i)) ->
  well_formed_program L c p = true -> i < mutants p ->
  (cpp17 = true -> sequenced_program L c p = true) ->
  exists q, one_change_program L c opt p i q /\
    (drops_program L c opt no_runtime (lookup_body L q) cpp17 (Nat.eqb i) p 0 ->
     behaves_like L c cpp17 (selecting f (mutants p) (cpp c) v) (initial_tls (mutants p))
       (mutated p) (call L g args) (lookup_body L q) (call L g args)).
Proof.
  intros T V S Wf Li Sq. rewrite mutate_count in Li.
  exists (fst (spec_program L c opt false (Nat.eqb i) p 0)). split.
  - pose proof (spec_one_program (Nat.eqb i) i (fun j => eq_refl) p 0 Wf) as H.
    rewrite Nat.sub_0_r in H. apply H. lia.
  - assert (Q : spec_program L c opt false (Nat.eqb i) p 0 =
                spec_program L c opt false (listed f [Z.of_nat (f + i)]) p 0).
    { apply spec_smallest_program. intros s _. unfold smallest.
      induction (seq (fst s) (snd s)) as [|j l IH]; cbn [find]; auto. rewrite listed_one.
      destruct (Nat.eqb i j); auto. }
    rewrite Q. intro Dr. apply selected_lemma; auto.
    revert Dr. set (bs := lookup_body L _). clearbody bs. clear - L.
    (* drops depends on the values of E only *)
    assert (Ext : forall E E' bs t id, (forall j, E j = E' j) ->
      drops L c opt no_runtime bs cpp17 E t id -> drops L c opt no_runtime bs cpp17 E' t id).
    { intros E E' bs0 t id Ee.
      assert (Fe : forall A (l : list A) id, first_enabled E id l = first_enabled E' id l).
      { induction l as [|a l IH]; intro j; cbn; auto. rewrite Ee, IH. reflexivity. }
      assert (Se : forall t id, spec E t id = spec E' t id).
      { intros t0 id0. apply spec_smallest. intros s _. unfold smallest.
        induction (seq (fst s) (snd s)) as [|j l IH]; cbn; auto. rewrite Ee. destruct (E' j); auto. }
      revert id. induction t as [s v|k ps last IH|e sub IH|b l w1 w2 r IHl IHr|u w sub IH|s sub IH]
        using cst_induction; intros id H; cbn [drops] in *; auto.
      - revert id H. induction IH as [|[s q] ps Hp F IHF]; intros id H; auto.
        destruct H as [H1 H2]. split; [apply Hp; exact H1|]. rewrite <- Se. apply IHF. exact H2.
      - rewrite <- Se. destruct H as [H1 H2]. split; auto. destruct (spec E sub id).
        intros r Q. apply H2. unfold expr_choice in *. rewrite Fe. exact Q.
      - rewrite <- !Se. destruct H as (H1 & H2 & H3). split; auto. split; auto.
        destruct (spec E l id) as [x j]. rewrite <- !Se. destruct (spec E r j) as [y j2].
        destruct H3 as [H3 H4]. split.
        + intros op Q. apply H3. unfold binary_choice in *. rewrite Fe. exact Q.
        + intro Cl. rewrite <- !Ee. auto.
      - rewrite <- Se. destruct H as [H1 H2]. split; auto. destruct (spec E sub id).
        intros r Q. apply H2. unfold unary_choice in *. rewrite Fe. exact Q. }
    generalize 0 as id. induction p as [|[h t] p IH]; intros id Dr; cbn in *; auto.
    destruct Dr as [D1 D2]. split.
    + eapply Ext; [|exact D1]. intro j. symmetry. apply listed_one.
    + rewrite spec_count in *. auto.
Qed.

Lemma one_kept_lemma f v i p g args :
  track o = false ->
  variable_lists v [Z.of_nat (f + i)] -> int_safe f (Z.of_nat (f + i)) ->
  well_formed_program L c p = true -> i < mutants p ->
  (cpp17 = true -> sequenced_program L c p = true) ->
  keeps_program L c opt (Nat.eqb i) p 0 = true ->
  exists q, one_change_program L c opt p i q /\
    behaves_like L c cpp17 (selecting f (mutants p) (cpp c) v) (initial_tls (mutants p))
      (mutated p) (call L g args) (lookup_body L q) (call L g args).
Proof.
  intros T V S Wf Li Sq K.
  destruct (one_lemma f v i p g args T V S Wf Li Sq) as (q & Ch & B).
  exists q. split; auto. apply B. apply keeps_drops_program. exact K.
Qed.

Lemma smallest_lemma f v zs zs' p g args :
  track o = false ->
  variable_lists v zs -> Forall (int_safe f) zs -> well_formed_program L c p = true ->
  (cpp17 = true -> sequenced_program L c p = true) ->
  (forall s, In s (sites_of L c opt p 0) -> smallest (listed f zs) s = smallest (listed f zs') s) ->
  let bs := lookup_body L (fst (spec_program L c opt false (listed f zs') p 0)) in
  drops_program L c opt no_runtime bs cpp17 (listed f zs) p 0 ->
  behaves_like L c cpp17 (selecting f (mutants p) (cpp c) v) (initial_tls (mutants p))
    (mutated p) (call L g args) bs (call L g args).
Proof.
  intros T V S Wf Sq Sm bs Dr. unfold bs in *.
  rewrite <- (spec_smallest_program (listed f zs) (listed f zs') p 0 Sm) in *.
  apply selected_lemma; auto.
Qed.

Lemma one_removed f v i p g args :
  track o = false -> enables f v [Z.of_nat (f + i)] -> well_formed_program L c p = true ->
  i < mutants p -> (cpp17 = true -> sequenced_program L c p = true) ->
  removals_only_program L c opt (Nat.eqb i) p 0 ->
  exists q, one_change_program L c opt p i q /\
    behaves_like L c cpp17 (selecting f (mutants p) (cpp c) v) (initial_tls (mutants p))
      (mutated p) (call L g args) (lookup_body L q) (call L g args).
Proof.
  intros T [V S] Wf Li Sq Ro.
  destruct (one_lemma f v i p g args T V (Forall_inv S) Wf Li Sq) as (q & Ch & B).
  exists q. split; auto. apply B. apply removals_drops_program. exact Ro.
Qed.

Lemma smallest_exact_lemma f v zs zs' p g args :
  track o = false ->
  variable_lists v zs -> Forall (int_safe f) zs -> well_formed_program L c p = true ->
  (cpp17 = true -> sequenced_program L c p = true) ->
  (forall s, In s (sites_of L c opt p 0) -> smallest (listed f zs) s = smallest (listed f zs') s) ->
  cpp c = true \/
  apart_program L c opt (listed f zs) p 0 = true /\ apart_program L c opt (listed f zs') p 0 = true ->
  behaves_like L c cpp17 (selecting f (mutants p) (cpp c) v) (initial_tls (mutants p))
    (mutated p) (call L g args)
    (lookup_body L (fst (spec_program L c opt true (listed f zs') p 0))) (call L g args).
Proof.
  intros T V S Wf Sq Sm A.
  assert (A2 : apart_program L c opt (listed f zs) p 0 = true /\
               apart_program L c opt (listed f zs') p 0 = true)
    by (destruct A; auto; split; apply apart_cpp_program; auto).
  rewrite <- (smallest_exact_program (listed f zs) (listed f zs') p 0 Sm) by apply A2.
  apply exact_lemma; auto.
Qed.
End Proof.
