From Coq Require Import String List ZArith Bool Lia.
From Verif Require Import Base Clang Gen GenExpr GenBinary GenUnary GenStmt Mutation GenSpec
  GenProof Prelude Lang Cst Runtime SimSpec SimRel SimMutate SimTop SimProgress QuietSpec QuietProof MutantSpec
  MutantProof.
Import ListNotations.

Section Top.
Variable L : lang.
Variable c : ctx.
Variable o : options.
Notation opt := (optimise o).
Notation tm := (tm L).
Variable E : nat -> bool.
Notation next := (QuietSpec.next L c opt E).
Notation no_increment := (QuietSpec.no_increment L c opt E).
Notation quiet_only := (QuietSpec.quiet_only L c opt).
Notation specT := (spec L c opt true E).

Lemma next_true t id : snd (specT t id) = next t id.
Proof.
  unfold next. destruct (same_ids L c o true E t id) as [A _], (same_ids L c o false E t id) as [B _].
  congruence.
Qed.

(** * Terms without effects *)

Lemma pure_rvalue x : pure L (snd x) = true -> pure L (rvalue x) = true.
Proof. destruct x as [[] t]; cbn; intro H; rewrite ?H; auto. Qed.
Lemma pure_lvalue x : pure L (snd x) = true -> pure L (lvalue x) = true.
Proof. destruct x as [[] t]; cbn; auto. Qed.

(* Operations that change nothing *)
Definition calm (r : rhs) : bool :=
  match r with
  | RPre q | RPreParen q | RPost q => negb (is_incdec q)
  | RBin q => negb (is_assign q)
  | _ => true
  end.
Lemma pure_expression r x1 x2 : calm r = true -> pure L (snd x1) = true -> pure L (snd x2) = true ->
  pure L (snd (expression L c r x1 x2)) = true.
Proof.
  intros Ca P1 P2. pose proof (pure_rvalue _ P1) as R1. pose proof (pure_rvalue _ P2) as R2.
  destruct r as [| |q|q|q|q|q]; cbn in *; auto.
  all: try (unfold unary_expression; destruct q; cbn in *; try discriminate; rewrite ?R1; reflexivity).
  all: destruct q; cbn in *; try discriminate; rewrite ?R1, ?R2; reflexivity.
Qed.
Lemma pure_with_rest r d1 d2 x1 x2 : calm r = true -> pure L (snd x1) = true -> pure L (snd x2) = true ->
  pure L (snd (site_expression L c true r d1 d2 x1 x2)) = true.
Proof.
  intros Ca P1 P2. pose proof (pure_expression r x1 x2 Ca P1 P2) as P. cbn [site_expression].
  unfold expression_with_rest.
  destruct r; auto; destruct d1, d2; cbn in *; rewrite ?P1, ?P2, ?P; reflexivity.
Qed.
Lemma pure_expr_site e z x : (forall a, pure L (snd a) = true -> pure L (snd (z a)) = true) ->
  pure L x = true -> pure L (expr_site L e z x) = true.
Proof.
  intros Z P. unfold expr_site.
  match goal with |- context [rvalue ?z] => assert (Q : pure L (rvalue z) = true) end.
  { apply pure_rvalue, Z. destruct (e_lvalue e); cbn; rewrite P; reflexivity. }
  destruct (e_init_list_cast e); cbn [pure forallb pure_kind quiet_kind orb andb]; rewrite Q; reflexivity.
Qed.
Lemma pure_unary_site u z x : (forall a, pure L (snd a) = true -> pure L (snd (z a)) = true) ->
  pure L x = true -> pure L (unary_site L c u z x) = true.
Proof.
  intros Z P. unfold unary_site.
  match goal with |- context [rvalue ?z] => assert (Q : pure L (snd z) = true) end.
  { apply Z. destruct (e_lvalue (u_sub u)); cbn; rewrite P; reflexivity. }
  destruct (cpp c && u_lvalue u); [apply pure_lvalue; exact Q|].
  apply pure_rvalue in Q. cbn [pure forallb pure_kind quiet_kind orb andb]. rewrite Q. reflexivity.
Qed.
Lemma pure_binary_site b z x y : is_assign (b_op b) = false ->
  (forall a a', pure L (snd a) = true -> pure L (snd a') = true -> pure L (snd (z a a')) = true) ->
  pure L x = true -> pure L y = true -> pure L (binary_site L c b z x y) = true.
Proof.
  intros As Z P1 P2. unfold binary_site, binary_operands. rewrite As. cbn [andb fst snd].
  match goal with |- context [rvalue ?z] => assert (Q : pure L (rvalue z) = true) end.
  { apply pure_rvalue, Z; cbn; rewrite ?P1, ?P2; reflexivity. }
  cbn [pure forallb pure_kind quiet_kind orb andb]. rewrite Q. reflexivity.
Qed.

Lemma first_in {A} (acts : list A) : forall id a, first_enabled E id acts = Some a -> In a acts.
Proof.
  induction acts as [|x acts IH]; intros id a; cbn; [discriminate|].
  destruct (E id); [intro Q; injection Q as <-; auto|eauto].
Qed.

Lemma fits_calm r : fits_op r false = true -> calm r = true.
Proof. destruct r as [| |q|q|q|q|q]; cbn; auto; try (destruct q; cbn; auto; discriminate). Qed.

Lemma calm_expr e id r : ~ inserts_increment c opt E e id -> expr_choice c opt E e id = Some r -> calm r = true.
Proof.
  intros NI. unfold expr_choice, inserts_increment in *.
  destruct (first_enabled E id (map fst (expr_mutants c opt e))) as [a|] eqn:Q; cbn [choice].
  - unfold expr_meaning. intro H. injection H as <-.
    destruct (increments a) eqn:I; [exfalso; eauto|].
    destruct a; try discriminate; cbn; try reflexivity; destruct (cpp c); reflexivity.
  - intro H. injection H as <-. reflexivity.
Qed.
Lemma calm_unary u id r : good_unary c u = true -> is_incdec (u_op u) = false ->
  unary_choice opt E u id = Some r -> calm r = true.
Proof.
  intros Go Ni. unfold unary_choice.
  destruct (first_enabled E id (map fst (unary_mutants opt u))) as [a|] eqn:Q; cbn [choice].
  - intro M. apply first_in in Q. apply in_map_iff in Q as (m & <- & Q).
    rewrite (unary_mutants_meaning opt u m Q) in M. injection M as <-.
    destruct (unary_operation L c o u (snd m) Go (in_map snd _ _ Q)) as [F _].
    replace (e_lvalue (u_sub u)) with false in F; [apply fits_calm; exact F|].
    apply andb_true_iff in Go as [_ Go]. unfold good_places in Go. rewrite Ni in Go.
    destruct (e_lvalue (u_sub u)); auto.
  - intro H. injection H as <-. destruct (u_op u); cbn in *; auto; discriminate.
Qed.
Lemma calm_binary b id r : good_binary b = true -> is_assign (b_op b) = false -> c_logical c b = false ->
  binary_choice c opt E b id = Some r -> calm r = true.
Proof.
  intros Go As Cl. unfold binary_choice, binary_actions. rewrite Cl.
  destruct (first_enabled E id (map fst (binary_mutants opt b))) as [a|] eqn:Q; cbn [choice].
  - intro M. apply first_in in Q. apply in_map_iff in Q as (m & <- & Q).
    rewrite (binary_mutants_meaning opt b m Q) in M. injection M as <-.
    destruct (binary_operation L c o b (snd m) Go (or_intror (in_map snd _ _ Q))) as [F _].
    rewrite As in F. apply fits_calm. exact F.
  - intro H. injection H as <-. cbn. rewrite As. reflexivity.
Qed.

Lemma pure_choice f r : (forall q, r = Some q -> pure L (f q) = true) -> pure L (with_choice L f r) = true.
Proof. destruct r; cbn; auto. Qed.

Lemma pure_c_logical b id x y : c_logical c b = true -> pure L x = true -> pure L y = true ->
  pure L (c_logical_with_rest L c E b id x y) = true.
Proof.
  intros Cl P1 P2. unfold c_logical_with_rest.
  assert (As : is_assign (b_op b) = false).
  { unfold c_logical in Cl. apply andb_true_iff in Cl as [_ Cl] || idtac.
    destruct (b_op b); auto; cbn in *; rewrite ?andb_false_r in Cl; discriminate. }
  destruct (E id).
  - apply pure_binary_site; auto. intros. apply pure_expression; auto. destruct (b_op b); reflexivity.
  - destruct (E (S (S id))), (E (S id)); cbn; rewrite P1, P2; reflexivity.
Qed.

Lemma pure_spec t : forall id, SimSpec.well_formed L c t = true -> no_effects L t = true ->
  no_increment t id -> pure L (fst (specT t id)) = true.
Proof.
  induction t as [s v|k ps last IH|e sub IH|b l w1 w2 r IHl IHr|u w sub IH|s sub IH]
    using cst_induction; intros id Wf Ne Ni.
  - reflexivity.
  - rewrite (spec_node L c o). cbn [fst]. cbn [SimSpec.well_formed no_effects] in *.
    apply andb_true_iff in Wf as [_ Wf]. apply andb_true_iff in Ne as [Qk Ne].
    cbn [pure]. unfold pure_kind. rewrite Qk. cbn [orb andb]. clear Qk.
    revert id Ni. induction IH as [|[s p] ps Hp F IHF]; intros id Ni; auto.
    cbn in Wf, Ne. apply andb_true_iff in Wf as [W1 W2]. apply andb_true_iff in Ne as [N1 N2].
    destruct Ni as [I1 I2]. cbn [spec_all]. specialize (Hp id W1 N1 I1). cbn [snd] in Hp.
    pose proof (next_true p id) as Nx. destruct (specT p id) as [x i]. cbn [fst snd] in *. subst i.
    specialize (IHF W2 N2 _ I2). destruct (spec_all L c o true E ps _). cbn [fst forallb] in *.
    rewrite Hp, IHF. reflexivity.
  - cbn [SimSpec.well_formed no_effects QuietSpec.no_increment SimSpec.spec] in *.
    apply andb_true_iff in Wf as [_ Wf]. destruct Ni as [I1 I2].
    specialize (IH id Wf Ne I1). pose proof (next_true sub id) as Nx.
    destruct (specT sub id) as [x i]. cbn [fst snd] in *. subst i.
    apply pure_choice. intros q Q. apply pure_expr_site; auto.
    intros a Pa. apply pure_with_rest; auto. eapply calm_expr; eauto.
  - cbn [SimSpec.well_formed no_effects QuietSpec.no_increment SimSpec.spec] in *.
    apply andb_true_iff in Wf as [Wf Wr]. apply andb_true_iff in Wf as [Go Wl].
    apply andb_true_iff in Ne as [Ne Nr]. apply andb_true_iff in Ne as [As Nl].
    apply negb_true_iff in As. destruct Ni as [I1 I2].
    specialize (IHl id Wl Nl I1). pose proof (next_true l id) as Nx.
    destruct (specT l id) as [x i]. cbn [fst snd] in *. subst i.
    specialize (IHr _ Wr Nr I2). pose proof (next_true r (next l id)) as Nx.
    destruct (specT r (next l id)) as [y j]. cbn [fst snd] in *. subst j.
    cbn [andb]. destruct (c_logical c b) eqn:Cl.
    + apply pure_c_logical; auto.
    + apply pure_choice. intros q Q. apply pure_binary_site; auto.
      intros. apply pure_with_rest; auto. eapply calm_binary; eauto.
  - cbn [SimSpec.well_formed no_effects QuietSpec.no_increment SimSpec.spec] in *.
    apply andb_true_iff in Wf as [Go Wf]. apply andb_true_iff in Ne as [Ic Ne].
    apply negb_true_iff in Ic.
    specialize (IH id Wf Ne Ni). pose proof (next_true sub id) as Nx.
    destruct (specT sub id) as [x i]. cbn [fst snd] in *. subst i.
    apply pure_choice. intros q Q. apply pure_unary_site; auto.
    intros a Pa. apply pure_with_rest; auto. eapply calm_unary; eauto.
  - discriminate Ne.
Qed.

Lemma pure_den t : SimSpec.well_formed L c t = true -> no_effects L t = true -> pure L (den L c t) = true.
Proof.
  induction t as [s v|k ps last IH|e sub IH|b l w1 w2 r IHl IHr|u w sub IH|s sub IH]
    using cst_induction; intros Wf Ne.
  - reflexivity.
  - cbn [SimSpec.well_formed no_effects] in *.
    apply andb_true_iff in Wf as [Sk Wf]. apply andb_true_iff in Ne as [Qk Ne].
    assert (D : den L c (CNode k ps last) = N k (map (fun p => den L c (snd p)) ps))
      by (destruct k; try discriminate; reflexivity).
    rewrite D. cbn [pure]. unfold pure_kind. rewrite Qk. cbn [orb andb]. clear Qk Sk D.
    induction IH as [|[s p] ps Hp F IHF]; auto.
    cbn in Wf, Ne. apply andb_true_iff in Wf as [W1 W2]. apply andb_true_iff in Ne as [N1 N2].
    cbn [map forallb]. cbn [snd] in Hp. cbn [snd]. rewrite Hp, IHF; auto.
  - cbn [SimSpec.well_formed no_effects den] in *.
    apply andb_true_iff in Wf as [_ Wf]. apply pure_expr_site; auto.
  - cbn [SimSpec.well_formed no_effects den] in *.
    apply andb_true_iff in Wf as [Wf Wr]. apply andb_true_iff in Wf as [Go Wl].
    apply andb_true_iff in Ne as [Ne Nr]. apply andb_true_iff in Ne as [As Nl].
    apply pure_binary_site; auto; [apply negb_true_iff; exact As|].
    intros. apply pure_expression; auto.
  - cbn [SimSpec.well_formed no_effects den] in *.
    apply andb_true_iff in Wf as [Go Wf]. apply andb_true_iff in Ne as [Ic Ne].
    apply pure_unary_site; auto. intros. apply pure_expression; auto.
    unfold written_unary. destruct (is_prefix (u_op u)); exact Ic.
  - discriminate Ne.
Qed.

(** * Terms that are written *)

Definition written_kind (k : kind L) : bool :=
  match k with
  | KM _ _ | KLambda _ | KRemovable _ | KRecord _ _ | KInCall _ | KLoop | KSwitched => false
  | _ => true
  end.
Fixpoint writtn (t : tm) : bool :=
  match t with RV _ | RL _ => true | N k args => written_kind k && forallb writtn args end.
Lemma er_written t : writtn t = true -> forall h, er L h t t.
Proof.
  induction t as [v|l|k args IH] using tm_induction; intros W h; try constructor.
  - cbn in W. apply andb_true_iff in W as [K _]. destruct k; try discriminate; reflexivity.
  - cbn in W. apply andb_true_iff in W as [_ W]. generalize 0.
    induction IH as [|a args Ha F IHF]; intro i; constructor; cbn in W;
      apply andb_true_iff in W as [W1 W2]; auto.
Qed.
Lemma written_rvalue x : writtn (snd x) = true -> writtn (rvalue x) = true.
Proof. destruct x as [[] t]; cbn; intro H; rewrite ?H; auto. Qed.
Lemma written_lvalue x : writtn (snd x) = true -> writtn (lvalue x) = true.
Proof. destruct x as [[] t]; cbn; auto. Qed.
Lemma written_expression r x1 x2 : writtn (snd x1) = true -> writtn (snd x2) = true ->
  writtn (snd (expression L c r x1 x2)) = true.
Proof.
  intros P1 P2. pose proof (written_rvalue _ P1) as R1. pose proof (written_rvalue _ P2) as R2.
  pose proof (written_lvalue _ P1) as R3.
  destruct r as [| |q|q|q|q|q]; cbn in *; auto.
  all: try (unfold unary_expression; destruct q; cbn in *; rewrite ?R1, ?R3; reflexivity).
  all: destruct q; cbn in *; rewrite ?R1, ?R2, ?R3; reflexivity.
Qed.
Lemma written_den t : SimSpec.well_formed L c t = true -> as_written L t = true -> writtn (den L c t) = true.
Proof.
  induction t as [s v|k ps last IH|e sub IH|b l w1 w2 r IHl IHr|u w sub IH|s sub IH]
    using cst_induction; intros Wf Ne.
  - reflexivity.
  - cbn [SimSpec.well_formed as_written] in *.
    apply andb_true_iff in Wf as [Sk Wf].
    assert (D : den L c (CNode k ps last) = N k (map (fun p => den L c (snd p)) ps))
      by (destruct k; try discriminate; reflexivity).
    rewrite D. cbn [writtn].
    assert (K : written_kind k = true) by (destruct k; try discriminate; reflexivity).
    assert (Ne' : forallb (fun p => as_written L (snd p)) ps = true) by (destruct k; try discriminate; exact Ne).
    rewrite K. cbn [andb]. clear Ne Sk D K.
    induction IH as [|[s p] ps Hp F IHF]; auto.
    cbn in Wf, Ne'. apply andb_true_iff in Wf as [W1 W2]. apply andb_true_iff in Ne' as [N1 N2].
    cbn [map forallb]. cbn [snd] in Hp. cbn [snd]. rewrite Hp, IHF; auto.
  - cbn [SimSpec.well_formed as_written den] in *.
    apply andb_true_iff in Wf as [_ Wf]. unfold expr_term, expr_site.
    match goal with |- context [rvalue ?z] => assert (Q : writtn (rvalue z) = true) end.
    { apply written_rvalue. cbn. destruct (e_lvalue e); cbn; rewrite IH; auto. }
    destruct (e_init_list_cast e); cbn [writtn forallb written_kind andb]; rewrite Q; reflexivity.
  - cbn [SimSpec.well_formed as_written den] in *.
    apply andb_true_iff in Wf as [Wf Wr]. apply andb_true_iff in Wf as [Go Wl].
    apply andb_true_iff in Ne as [Nl Nr]. unfold binary_term, binary_site.
    match goal with |- context [rvalue ?z] => assert (Q : writtn (snd z) = true) end.
    { apply written_expression; unfold binary_operands; destruct (is_assign (b_op b)); cbn;
        rewrite ?IHl, ?IHr; auto. }
    destruct (is_assign (b_op b) && cpp c); [apply written_lvalue; exact Q|].
    apply written_rvalue in Q. cbn [writtn forallb written_kind andb]. rewrite Q. reflexivity.
  - cbn [SimSpec.well_formed as_written den] in *.
    apply andb_true_iff in Wf as [_ Wf]. unfold unary_term, unary_site.
    match goal with |- context [rvalue ?z] => assert (Q : writtn (snd z) = true) end.
    { apply written_expression; destruct (e_lvalue (u_sub u)); cbn; rewrite ?IH; auto. }
    destruct (cpp c && u_lvalue u); [apply written_lvalue; exact Q|].
    apply written_rvalue in Q. cbn [writtn forallb written_kind andb]. rewrite Q. reflexivity.
  - cbn [SimSpec.well_formed as_written den] in *. auto.
Qed.

(** * Where nothing is enabled *)

Lemma none_c_logical b id x y : c_logical c b = true -> off E id (length (binary_actions c opt b)) ->
  c_logical_with_rest L c E b id x y = binary_term L c b (RBin (b_op b)) x y.
Proof.
  intros Cl O. unfold c_logical_with_rest.
  assert (Len : length (binary_actions c opt b) = 3) by (unfold binary_actions; rewrite Cl; reflexivity).
  rewrite Len in O. rewrite !O by lia.
  unfold c_logical in Cl. unfold binary_term, binary_site, binary_operands.
  destruct (b_op b); cbn in *; rewrite ?andb_false_r in Cl; try discriminate; reflexivity.
Qed.

Lemma quiet_false t : forall id, SimSpec.well_formed L c t = true -> quiet_only false E t id ->
  fst (specT t id) = den L c t.
Proof.
  induction t as [s v|k ps last IH|e sub IH|b l w1 w2 r IHl IHr|u w sub IH|s sub IH]
    using cst_induction; intros id Wf Q; cbn [QuietSpec.quiet_only] in Q;
    (destruct Q as [[Q _]|Q]; [discriminate|]).
  - reflexivity.
  - rewrite (spec_node L c o). cbn [fst SimSpec.well_formed] in *. apply andb_true_iff in Wf as [Sk Wf].
    assert (D : den L c (CNode k ps last) = N k (map (fun p => den L c (snd p)) ps))
      by (destruct k; try discriminate; reflexivity).
    rewrite D. f_equal. clear D Sk. revert id Q. generalize 0.
    induction IH as [|[s p] ps Hp F IHF]; intros n id Q; auto.
    cbn in Wf. apply andb_true_iff in Wf as [W1 W2]. destruct Q as [Q1 Q2]. cbn [andb] in Q1.
    cbn [spec_all map snd]. specialize (Hp id W1 Q1). pose proof (next_true p id) as Nx. cbn [snd] in Hp.
    destruct (specT p id) as [x i]. cbn [fst snd] in *. subst x i.
    specialize (IHF W2 _ _ Q2). destruct (spec_all L c o true E ps _). cbn [fst] in *. congruence.
  - cbn [SimSpec.well_formed den SimSpec.spec] in *. apply andb_true_iff in Wf as [_ Wf].
    destruct Q as [Q1 Q2]. specialize (IH id Wf Q1). pose proof (next_true sub id) as Nx.
    destruct (specT sub id) as [x i]. cbn [fst snd] in *. subst x i.
    rewrite off_expr by exact Q2. reflexivity.
  - cbn [SimSpec.well_formed den SimSpec.spec] in *. apply andb_true_iff in Wf as [Wf Wr].
    apply andb_true_iff in Wf as [Go Wl]. destruct Q as (Q1 & Q2 & Q3).
    specialize (IHl id Wl Q1). pose proof (next_true l id) as Nx.
    destruct (specT l id) as [x i]. cbn [fst snd] in *. subst x i.
    specialize (IHr _ Wr Q2). pose proof (next_true r (next l id)) as Nx.
    destruct (specT r (next l id)) as [y j]. cbn [fst snd] in *. subst y j.
    cbn [andb]. destruct (c_logical c b) eqn:Cl.
    + apply none_c_logical; auto.
    + rewrite off_binary by exact Q3. reflexivity.
  - cbn [SimSpec.well_formed den SimSpec.spec] in *. apply andb_true_iff in Wf as [Go Wf].
    destruct Q as [Q1 Q2]. specialize (IH id Wf Q1). pose proof (next_true sub id) as Nx.
    destruct (specT sub id) as [x i]. cbn [fst snd] in *. subst x i.
    rewrite off_unary by exact Q2. cbn [with_choice].
    transitivity (unary_term L c u (original_unary (u_op u)) (den L c sub)); [|apply unary_same; exact Go].
    unfold unary_term. destruct (u_op u); reflexivity.
  - cbn [SimSpec.well_formed den SimSpec.spec] in *.
    destruct Q as [Q1 Q2]. specialize (IH id Wf Q1). pose proof (next_true sub id) as Nx.
    destruct (specT sub id) as [x i]. cbn [fst snd] in *. subst x i. rewrite Q2. reflexivity.
Qed.

(** * The common program *)

Lemma both t : forall h id, SimSpec.well_formed L c t = true -> as_written L t = true ->
  quiet_only h E t id ->
  exists x, er L h (den L c t) x /\ er L h (fst (specT t id)) x.
Proof.
  assert (Same : forall t id, SimSpec.well_formed L c t = true -> as_written L t = true ->
    quiet_only false E t id -> forall h, exists x, er L h (den L c t) x /\ er L h (fst (specT t id)) x).
  { intros t0 id Wf Wr Q h. exists (den L c t0). rewrite quiet_false by auto.
    split; apply er_written, written_den; auto. }
  induction t as [s v|k ps last IH|e sub IH|b l w1 w2 r IHl IHr|u w sub IH|s sub IH]
    using cst_induction; intros h id Wf Wr Q.
  - exists (RV v). split; constructor.
  - rewrite (spec_node L c o). cbn [QuietSpec.quiet_only] in Q.
    destruct Q as [(_ & Q & _)|Q]; [discriminate|].
    cbn [fst SimSpec.well_formed as_written] in *. apply andb_true_iff in Wf as [Sk Wf].
    assert (D : den L c (CNode k ps last) = N k (map (fun p => den L c (snd p)) ps))
      by (destruct k; try discriminate; reflexivity).
    assert (Wr' : forallb (fun p => as_written L (snd p)) ps = true) by (destruct k; try discriminate; exact Wr).
    assert (Ins : forall i, inside L h k i = h && component L k i).
    { intro i. destruct k; try discriminate; cbn; unfold part; cbn; rewrite ?orb_false_r; reflexivity. }
    assert (Pl : forall n, plain L k n = true) by (intro n; destruct k; try discriminate; reflexivity).
    assert (F : exists xs, ers L h k 0 (map (fun p => den L c (snd p)) ps) xs /\
                           ers L h k 0 (fst (spec_all L c o true E ps id)) xs).
    { clear D Wr Sk Pl. revert id Q. generalize 0.
      induction IH as [|[s p] ps Hp F IHF]; intros n id Q.
      - exists []. split; constructor.
      - cbn in Wf, Wr'. apply andb_true_iff in Wf as [W1 W2]. apply andb_true_iff in Wr' as [R1 R2].
        destruct Q as [Q1 Q2]. cbn [spec_all map snd]. cbn [snd] in Hp.
        destruct (Hp _ id W1 R1 Q1) as (x & X1 & X2). pose proof (next_true p id) as Nx.
        destruct (specT p id) as [y i]. cbn [fst snd] in *. subst i.
        destruct (IHF W2 R2 _ _ Q2) as (xs & Y1 & Y2).
        destruct (spec_all L c o true E ps _). cbn [fst] in *.
        exists (x :: xs). split; constructor; auto; rewrite Ins; assumption. }
    destruct F as (xs & F1 & F2). exists (N k xs). rewrite D. split; constructor; auto.
  - apply Same; auto. cbn [QuietSpec.quiet_only] in *. destruct Q as [(_ & Q & _)|Q]; [discriminate|]. right. exact Q.
  - apply Same; auto. cbn [QuietSpec.quiet_only] in *. destruct Q as [(_ & Q & _)|Q]; [discriminate|]. right. exact Q.
  - apply Same; auto. cbn [QuietSpec.quiet_only] in *. destruct Q as [(_ & Q & _)|Q]; [discriminate|]. right. exact Q.
  - cbn [QuietSpec.quiet_only] in Q. destruct Q as [(-> & Q & Ni)|(Q1 & Q2)].
    + clear IH. cbn [quiet_statement] in Q. destruct sub as [|k ps last| | | |]; try discriminate.
      destruct k; try discriminate. destruct ps as [|[w e] [|]]; try discriminate.
      cbn [SimSpec.well_formed forallb snd] in Wf. apply andb_true_iff in Wf as [_ Wf]. apply andb_true_iff in Wf as [Wf _].
      cbn [QuietSpec.no_increment] in Ni. destruct Ni as [Ni _].
      pose proof (pure_spec e id Wf Q Ni) as P. pose proof (pure_den e Wf Q) as P0.
      exists skip. split; [cbn; constructor; exact P0|].
      cbn [SimSpec.spec]. destruct (specT e id) as [x i]. cbn [fst] in *.
      destruct (E i); [apply er_written; reflexivity|constructor; exact P].
    + cbn [SimSpec.well_formed as_written den SimSpec.spec] in *.
      destruct (IH h id Wf Wr Q1) as (x & X1 & X2). pose proof (next_true sub id) as Nx.
      destruct (specT sub id) as [y i]. cbn [fst snd] in *. subst i. rewrite Q2. eauto.
Qed.

Lemma both_program p : forall id, well_formed_program L c p = true -> as_written_program L p = true ->
  quiet_only_program L c opt E p id ->
  exists p0, forall f,
    match body_of L c p f, lookup_body L (fst (spec_program L c opt true E p id)) f, lookup_body L p0 f with
    | Some s, Some s', Some x => er L true s x /\ er L true s' x
    | None, None, None => True
    | _, _, _ => False
    end.
Proof.
  induction p as [|[g t] p IH]; intros id Wf Wr Q.
  - exists []. intro f. exact I.
  - cbn in Wf, Wr, Q. apply andb_true_iff in Wf as [W1 W2]. apply andb_true_iff in Wr as [R1 R2].
    destruct Q as [Q1 Q2]. destruct (both t true id W1 R1 Q1) as (x & X1 & X2).
    destruct (IH _ W2 R2 Q2) as [p0 H]. exists ((g, x) :: p0). intro f.
    cbn. pose proof (next_true t id) as Nx. destruct (specT t id) as [y i]. cbn [fst snd] in *. subst i.
    destruct (spec_program L c opt true E p (next t id)) as [q j]. cbn [fst] in *. cbn.
    destruct (String.eqb f g); auto. apply H.
Qed.


(** * Behaviour *)

Variable cpp17 : bool.
Hypothesis Reads : reads_are_quiet L.
Variable p : list (string * cst L).
Hypothesis Wf : well_formed_program L c p = true.
Hypothesis Wr : as_written_program L p = true.
Hypothesis Q : quiet_only_program L c opt E p 0.
Notation changed := (lookup_body L (fst (spec_program L c opt true E p 0))).
Notation original := (body_of L c p).

Lemma written_inactive g s : original g = Some s -> active s = false.
Proof.
  clear Q Reads. induction p as [|[h t] q IH]; cbn in *; [discriminate|].
  apply andb_true_iff in Wf as [W1 W2]. apply andb_true_iff in Wr as [R1 R2].
  destruct (String.eqb g h); [|auto]. intro H. injection H as <-.
  pose proof (written_den t W1 R1) as W. clear - W. revert W. generalize (den L c t). intro x.
  induction x as [v|l|k args IH] using tm_induction; intro W; auto.
  cbn in W. apply andb_true_iff in W as [K W].
  assert (A : existsb active args = false).
  { clear K. induction IH as [|a args Ha F IHF]; auto. cbn in *. apply andb_true_iff in W as [W1 W2].
    rewrite Ha, IHF; auto. }
  destruct k; try discriminate K; exact A.
Qed.

Section Call.
Variable e : env L.
Variable m : mem L.
Variable g : string.
Variable args : list (val L + loc L).
Notation t := (call L g args).
Notation never := (undefined L no_runtime c original cpp17 e m tt t).

Lemma er_call : er L false t t.
Proof.
  apply er_written. cbn. induction args as [|[v|l] as' IH]; cbn; auto.
Qed.
Lemma tidy_call : tidy L cpp17 t.
Proof. apply tidy_inactive. apply call_inactive. Qed.

Lemma back_and_forth x : steps L no_runtime c changed cpp17 e (m, tt, t) x ->
  never \/ exists y, steps L no_runtime c original cpp17 e (m, tt, t) (fst x, y) /\
    (final (snd x) = true -> y = snd x).
Proof.
  intro St. destruct (both_program p 0 Wf Wr Q) as [p0 B].
  assert (I1 : forall g s, changed g = Some s -> active s = false).
  { intros h s H. specialize (B h). rewrite H in B. destruct (original h) eqn:O; [|contradiction].
    destruct (lookup_body L p0 h); [|contradiction]. destruct B as [B1 B2].
    rewrite (er_active _ _ _ _ B2), <- (er_active _ _ _ _ B1). eapply written_inactive; eauto. }
  assert (I0 : forall g s, lookup_body L p0 g = Some s -> active s = false).
  { intros h s H. specialize (B h). rewrite H in B. destruct (original h) eqn:O, (changed h); try contradiction.
    destruct B as [B1 B2]. rewrite <- (er_active _ _ _ _ B1). eapply written_inactive; eauto. }
  assert (R1 : forall f, match changed f, lookup_body L p0 f with
    | Some s, Some s0 => er L true s s0 | None, None => True | _, _ => False end).
  { intro f. specialize (B f). destruct (original f), (changed f), (lookup_body L p0 f); tauto. }
  assert (R0 : forall f, match original f, lookup_body L p0 f with
    | Some s, Some s0 => er L true s s0 | None, None => True | _, _ => False end).
  { intro f. specialize (B f). destruct (original f), (changed f), (lookup_body L p0 f); tauto. }
  destruct (forward L no_runtime c cpp17 Reads changed (lookup_body L p0) I1 I0 R1 e _ _ St false t er_call)
    as (y & S2 & Er).
  destruct (backward L no_runtime c cpp17 Reads original (lookup_body L p0) written_inactive I0 R0 e _ _ S2
    false t er_call tidy_call) as [U|(z & S3 & Er2 & _)]; [left; exact U|].
  right. exists z. split; [exact S3|]. intro F. cbn [snd fst] in *.
  pose proof (er_final _ _ _ _ Er F) as ->.
  rewrite <- (er_final_false _ _ _ Er2) in F. symmetry. apply (er_final _ _ _ _ Er2 F).
Qed.

Lemma quiet_finishes m' r : finishes L no_runtime c changed cpp17 e m tt t m' r ->
  never \/ finishes L no_runtime c original cpp17 e m tt t m' r.
Proof.
  intros (d & St & F). destruct (back_and_forth _ St) as [U|(y & S2 & H)]; auto.
  right. exists d. cbn in *. rewrite (H F) in S2. auto.
Qed.
Lemma quiet_reaches m' : reaches L no_runtime c changed cpp17 e m tt t m' ->
  never \/ reaches L no_runtime c original cpp17 e m tt t m'.
Proof.
  intros (d & x & St). destruct (back_and_forth _ St) as [U|(y & S2 & H)]; auto.
  right. exists d, y. exact S2.
Qed.
Lemma quiet_diverges : diverges L no_runtime c changed cpp17 e m tt t -> ~ never ->
  diverges L no_runtime c original cpp17 e m tt t.
Proof.
  intros Dv U. destruct (both_program p 0 Wf Wr Q) as [p0 B].
  assert (I1 : forall g s, changed g = Some s -> active s = false).
  { intros h s H. specialize (B h). rewrite H in B. destruct (original h) eqn:O; [|contradiction].
    destruct (lookup_body L p0 h); [|contradiction]. destruct B as [B1 B2].
    rewrite (er_active _ _ _ _ B2), <- (er_active _ _ _ _ B1). eapply written_inactive; eauto. }
  assert (I0 : forall g s, lookup_body L p0 g = Some s -> active s = false).
  { intros h s H. specialize (B h). rewrite H in B. destruct (original h) eqn:O, (changed h); try contradiction.
    destruct B as [B1 B2]. rewrite <- (er_active _ _ _ _ B1). eapply written_inactive; eauto. }
  assert (R1 : forall f, match changed f, lookup_body L p0 f with
    | Some s, Some s0 => er L true s s0 | None, None => True | _, _ => False end).
  { intro f. specialize (B f). destruct (original f), (changed f), (lookup_body L p0 f); tauto. }
  assert (R0 : forall f, match original f, lookup_body L p0 f with
    | Some s, Some s0 => er L true s s0 | None, None => True | _, _ => False end).
  { intro f. specialize (B f). destruct (original f), (changed f), (lookup_body L p0 f); tauto. }
  pose proof (forward_diverges L no_runtime c cpp17 Reads changed (lookup_body L p0) I1 I0 R1 e m tt t false t
    er_call Dv) as D0.
  exact (backward_diverges L no_runtime c cpp17 Reads original (lookup_body L p0) written_inactive I0 R0 e m tt
    false t t er_call tidy_call D0 U).
Qed.
End Call.
End Top.

Lemma quiet_lemma L c o cpp17 f v zs p g args :
  track o = false -> enables f v zs -> well_formed_program L c p = true ->
  (cpp17 = true -> sequenced_program L c p = true) -> as_written_program L p = true ->
  reads_are_quiet L -> quiet_only_program L c (optimise o) (listed f zs) p 0 ->
  unnoticed L c o cpp17 f v p g args.
Proof.
  intros T En Wf Sq Wr Re Q.
  pose proof (exact_lemma L c o cpp17 f v zs p g args T (proj1 En) (proj2 En) Wf Sq) as B.
  split; intros e m.
  - intros m' r F. apply (same_results _ _ _ _ _ _ _ _ _ B) in F.
    exact (quiet_finishes L c o (listed f zs) cpp17 Re p Wf Wr Q e m g args m' r F).
  - intros m' F. apply (same_memories _ _ _ _ _ _ _ _ _ B) in F.
    exact (quiet_reaches L c o (listed f zs) cpp17 Re p Wf Wr Q e m g args m' F).
  - intros F. apply (same_divergence _ _ _ _ _ _ _ _ _ B) in F.
    exact (quiet_diverges L c o (listed f zs) cpp17 Re p Wf Wr Q e m g args F).
Qed.
