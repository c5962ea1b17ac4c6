(* The mutated tree, with its calls resolved in the text, and the mutated tree of the model. *)
From Coq Require Import String Ascii List Arith NArith ZArith Bool Lia.
From Verif Require Import Base Clang Gen GenExpr GenBinary GenUnary GenStmt Mutation GenSpec
  ClashSpec TypeSpec CText FunText FunSpec GenProof CTextProof FunProof FunProof2 FunProof3.
From Verif Require Import NestSpec Lang Cst SimSpec SimRel SimProof SimMutate TextLang TextLangProof.
Import ListNotations.
Local Open Scope string_scope.

Section Tree.
Variable L : lang.
Variable c : ctx.
Variable o : options.
Variable ds : list fdef.
Notation tm := (tm L).
Notation sim := (sim L c ds).
Notation td := (text_den L c ds).
Notation dn := (den L c).

(** * Calls *)

Definition fits (p : param) (a a' : tm) : Prop :=
  match p with
  | TypeSpec.Direct q => is_lambda a = false /\ sim a a'
  | TypeSpec.Delayed q => exists b b',
      a = N (KLambda (plain_text c q)) [b] /\ a' = N (KLambda (plain_text c q)) [b'] /\ sim b b'
  end.

Lemma fits_shape p a a' : fits p a a' -> is_lambda a = is_function (param_type c p).
Proof.
  destruct p as [q|q]; cbn.
  - intros [-> _]. destruct q as [t|t [] []|t [] []]; reflexivity.
  - intros (b & b' & -> & _). reflexivity.
Qed.
Lemma fits_given p a a' : sane p -> fits p a a' ->
  sim (given L (param_type c p) a) (pass L c (param_text c p) a').
Proof.
  destruct p as [q|q]; cbn [sane fits].
  - intros S [_ H]. apply sim_passed; assumption.
  - intros [S P] (b & b' & -> & -> & H). apply sim_passed_lambda; assumption.
Qed.

Lemma sim_call1 f d result p1 p2 id s t t' last s' last' :
  reads c ds f d false result p1 p2 -> fits p1 (td t) (dn t') ->
  sim (td (CNode (KM f id) [(s, t)] last)) (dn (CNode (KM f id) [(s', t')] last')).
Proof.
  intros Rd F. cbn [text_den den map snd app]. rewrite (fits_shape _ _ _ F).
  pose proof (reads_resolved _ _ _ _ _ _ _ _ Rd) as E.
  pose proof (reads_definition _ _ _ _ _ _ _ _ Rd) as D.
  assert (Sy : symbol_of d = symbol [is_function (param_type c p1); false] (mf_name f)).
  { rewrite D. reflexivity. }
  rewrite <- Sy, E.
  eapply sim_call; [exact Rd|]. rewrite D.
  cbn [fd_params definition params app given_all].
  rewrite (wf_params _ _ _ _ _ _ (reads_well_formed _ _ _ _ _ _ _ _ Rd)).
  cbn [pass_all]. constructor; [|constructor].
  apply fits_given; [exact (reads_first _ _ _ _ _ _ _ _ Rd)|assumption].
Qed.
Lemma sim_call2 f d result p1 p2 id s t t' u u' x last s' x' last' :
  reads c ds f d true result p1 p2 -> fits p1 (td t) (dn t') -> fits p2 (td u) (dn u') ->
  sim (td (CNode (KM f id) [(s, t); (x, u)] last))
    (dn (CNode (KM f id) [(s', t'); (x', u')] last')).
Proof.
  intros Rd F G. cbn [text_den den map snd app].
  rewrite (fits_shape _ _ _ F), (fits_shape _ _ _ G).
  pose proof (reads_resolved _ _ _ _ _ _ _ _ Rd) as E.
  pose proof (reads_definition _ _ _ _ _ _ _ _ Rd) as D.
  assert (Sy : symbol_of d = symbol [is_function (param_type c p1);
                                     is_function (param_type c p2); false] (mf_name f)).
  { rewrite D. reflexivity. }
  rewrite <- Sy, E.
  eapply sim_call; [exact Rd|]. rewrite D.
  cbn [fd_params definition params app given_all].
  rewrite (wf_params _ _ _ _ _ _ (reads_well_formed _ _ _ _ _ _ _ _ Rd)).
  cbn [pass_all]. constructor; [|constructor; [|constructor]]; apply fits_given; try assumption.
  - exact (reads_first _ _ _ _ _ _ _ _ Rd).
  - exact (reads_second _ _ _ _ _ _ _ _ Rd).
Qed.

(* The functions at a place *)
Definition place_reads (x : place) : Prop :=
  match x with
  | PExpr e => exists d, reads c ds (expr_function c o e) d false (TypeSpec.ByValue (e_ty e))
                           (expr_param c e) nothing
  | PBin b =>
      if c_logical c b then
        forall f, In f (c_logical_functions c o b) ->
          exists d t, reads c ds f d false (TypeSpec.ByValue t)
                        (TypeSpec.Direct (TypeSpec.ByValue t)) nothing
      else exists d, reads c ds (binary_function c o b) d true (binary_result c b)
                       (binary_param c b) (binary_param2 c b)
  | PUn u => clang_unary c u /\
      exists d, reads c ds (unary_function c o u) d false (unary_result c u)
                  (unary_param c u) nothing
  | PStmt _ => True
  end.

(** * No lambda expressions *)

Lemma call_no_lambda f id ps last : is_lambda (td (CNode (KM f id) ps last)) = false.
Proof. cbn [text_den]. destruct (resolved _ _); reflexivity. Qed.
Lemma call1_no_lambda f id s a t : is_lambda (td (call1 L f id s a t)) = false.
Proof. apply call_no_lambda. Qed.

Lemma mutated_no_lambda t id : SimSpec.well_formed L c t = true ->
  is_lambda (td (fst (mutate L c o t id))) = false.
Proof.
  destruct t as [s v|k ps last|e sub|b l w1 w2 r|u w sub|s sub]; intros W.
  - reflexivity.
  - rewrite mutate_node. cbn [fst SimSpec.well_formed] in *. apply andb_prop in W.
    destruct W as [W _]. destruct k; try discriminate W; reflexivity.
  - cbn [mutate]. destruct (mutate L c o sub id) as [sub' id']. cbn [fst]. unfold mutated_expr.
    destruct (e_init_list_cast e); [reflexivity|].
    destruct (cpp c && e_side_effects e); [apply call1_no_lambda|].
    destruct (negb (cpp c) && e_lvalue e); [apply call1_no_lambda|apply call_no_lambda].
  - cbn [mutate]. destruct (mutate L c o l id) as [l' i1], (mutate L c o r i1) as [r' i2].
    cbn [fst]. destruct (c_logical c b); [apply call1_no_lambda|apply call_no_lambda].
  - cbn [mutate]. destruct (mutate L c o sub id) as [sub' id']. cbn [fst]. unfold mutated_unary.
    destruct (unary_delayed c u); [apply call1_no_lambda|].
    destruct (negb (cpp c) && is_incdec (u_op u)); [apply call1_no_lambda|apply call_no_lambda].
  - cbn [mutate]. destruct (mutate L c o sub id) as [sub' id']. cbn [fst]. unfold mutated_stmt.
    destruct (track o); reflexivity.
Qed.

(** * The tree *)

Lemma lambda_fits q s last a :
  sim (td a) (dn a) ->
  fits (TypeSpec.Delayed q) (td (CNode (KLambda (plain_text c q)) [(s, a)] last))
    (dn (CNode (KLambda (plain_text c q)) [(s, a)] last)).
Proof. intros H. exists (td a), (dn a). split; [reflexivity|]. split; [reflexivity|assumption]. Qed.

Lemma addr_fits q s a last : sim (td a) (dn a) ->
  fits (TypeSpec.Direct q) (td (CNode KAddr [(s, a)] last)) (dn (CNode KAddr [(s, a)] last)).
Proof. intros H. split; [reflexivity|]. apply sim_one; [discriminate|assumption]. Qed.

Lemma lhs_type_plain b : binary_lhs_type c b = plain_text c (binary_plain c b).
Proof.
  unfold binary_lhs_type, binary_plain. destruct (is_assign (b_op b)); [|reflexivity].
  destruct (cpp c), (e_volatile (b_lhs b)); reflexivity.
Qed.

Lemma good_expr_const e : good_expr e = true -> e_lvalue e = true -> e_const e = false.
Proof.
  unfold good_expr, can_mutate_lvalue. intros G Hl. rewrite Hl in G. cbn in G.
  destruct (e_const e); [discriminate|reflexivity].
Qed.

Lemma sim_mutated_expr e id t : good_expr e = true -> place_reads (PExpr e) ->
  is_lambda (td t) = false -> sim (td t) (dn t) ->
  sim (td (mutated_expr L c o e id t)) (dn (mutated_expr L c o e id t)).
Proof.
  intros G [d Rd] La H. unfold mutated_expr.
  rewrite (input_type_plain c e (good_expr_const e G)).
  cbv zeta. unfold expr_param in Rd.
  assert (A : forall x y s last, sim (td x) (dn x) ->
    sim (td (CNode (KAt y) [(s, x)] last)) (dn (CNode (KAt y) [(s, x)] last))).
  { intros. apply (sim_one L c ds (KAt y)); [discriminate|assumption]. }
  destruct (cpp c && e_side_effects e) eqn:X.
  - destruct (e_init_list_cast e); [apply A|];
      (eapply sim_call1; [exact Rd|]; apply lambda_fits; assumption).
  - destruct (negb (cpp c) && e_lvalue e).
    + destruct (e_init_list_cast e); [apply A|];
        (eapply sim_call1; [exact Rd|]; apply addr_fits; assumption).
    + destruct (e_init_list_cast e); [apply A|];
        (eapply sim_call1; [exact Rd|]; split; assumption).
Qed.

Lemma sim_mutated_unary u id w t : good_unary c u = true -> place_reads (PUn u) ->
  is_lambda (td t) = false -> sim (td t) (dn t) ->
  sim (td (mutated_unary L c o u id w t)) (dn (mutated_unary L c o u id w t)).
Proof.
  intros G [Cu [d Rd]] La H. unfold mutated_unary, unary_input_type.
  assert (K : e_lvalue (u_sub u) = true -> e_const (u_sub u) = false).
  { unfold clang_unary in Cu. destruct (u_op u); intuition congruence. }
  rewrite (input_type_plain c (u_sub u) K).
  cbv zeta. unfold unary_param in Rd.
  destruct (unary_delayed c u).
  - eapply sim_call1; [exact Rd|]; apply lambda_fits; assumption.
  - destruct (negb (cpp c) && is_incdec (u_op u)).
    + eapply sim_call1; [exact Rd|]; apply addr_fits; assumption.
    + eapply sim_call1; [exact Rd|]; split; assumption.
Qed.

Lemma sim_mutated_binary b id l w1 w2 r : c_logical c b = false -> place_reads (PBin b) ->
  is_lambda (td l) = false -> sim (td l) (dn l) ->
  is_lambda (td r) = false -> sim (td r) (dn r) ->
  sim (td (mutated_binary L c o b id l w1 w2 r)) (dn (mutated_binary L c o b id l w1 w2 r)).
Proof.
  intros Cl. cbn [place_reads]. rewrite Cl. intros [d Rd] La H Lb K.
  unfold mutated_binary, lambda. rewrite lhs_type_plain. cbv zeta.
  eapply sim_call2; [exact Rd| |].
  - unfold binary_param. destruct (lhs_delayed c b); [apply lambda_fits; assumption|].
    destruct (negb (cpp c) && is_assign (b_op b)); [apply addr_fits; assumption|].
    split; assumption.
  - unfold binary_param2, binary_rhs_type. destruct (rhs_delayed c b).
    + apply (lambda_fits (TypeSpec.ByValue (e_ty (b_rhs b)))). assumption.
    + split; assumption.
Qed.

Lemma sim_value_of_type t x y : sim x y -> sim_operand L c ds (value_of_type t x) (value_of_type t y).
Proof. intros H. split; [reflexivity|]. apply sim_one; [discriminate|assumption]. Qed.
Lemma sim_object_of x y : sim x y -> sim_operand L c ds (object x) (object y).
Proof. intros H. split; [reflexivity|]. apply sim_one; [discriminate|assumption]. Qed.

Lemma sim_binary_term b r x x' y y' : sim x x' -> sim y y' ->
  sim (binary_term L c b r x y) (binary_term L c b r x' y').
Proof.
  intros H K. unfold binary_term, binary_site.
  assert (O : sim_operand L c ds
    (expression L c r (fst (binary_operands L b x y)) (snd (binary_operands L b x y)))
    (expression L c r (fst (binary_operands L b x' y')) (snd (binary_operands L b x' y')))).
  { apply sim_expression; unfold binary_operands; cbn [fst snd].
    - destruct (is_assign (b_op b)); [apply sim_object_of|apply sim_value_of_type]; assumption.
    - apply sim_value_of_type. assumption. }
  destruct (is_assign (b_op b) && cpp c); [now apply sim_lvalue|].
  apply sim_one; [discriminate|]. now apply sim_rvalue.
Qed.

Lemma sim_mutated_logical b id l w1 w2 r : c_logical c b = true -> place_reads (PBin b) ->
  is_lambda (td l) = false -> sim (td l) (dn l) ->
  is_lambda (td r) = false -> sim (td r) (dn r) ->
  sim (td (mutated_c_logical L c o b id l w1 w2 r)) (dn (mutated_c_logical L c o b id l w1 w2 r)).
Proof.
  intros Cl. cbn [place_reads]. rewrite Cl. intros Rd La H Lb K.
  unfold mutated_c_logical.
  assert (X : sim (td (if track o then l else call1 L (c_logical_lhs_function c o b) id "" l ""))
    (dn (if track o then l else call1 L (c_logical_lhs_function c o b) id "" l ""))).
  { destruct (track o) eqn:T; [assumption|].
    destruct (Rd (c_logical_lhs_function c o b)) as (d & t & Rd1).
    { unfold c_logical_functions. rewrite T. now left. }
    eapply sim_call1; [exact Rd1|]. split; assumption. }
  assert (Y : sim (td (if track o then r else call1 L (c_logical_rhs_function c o b) id "" r ""))
    (dn (if track o then r else call1 L (c_logical_rhs_function c o b) id "" r ""))).
  { destruct (track o) eqn:T; [assumption|].
    destruct (Rd (c_logical_rhs_function c o b)) as (d & t & Rd1).
    { unfold c_logical_functions. rewrite T. right. now left. }
    eapply sim_call1; [exact Rd1|]. split; assumption. }
  destruct (Rd (c_logical_outer_function c o b)) as (d & t & Rd1).
  { unfold c_logical_functions. apply in_app_iff. right. now left. }
  cbv zeta. eapply sim_call1; [exact Rd1|]. split; [|].
  - cbn [text_den]. unfold binary_term, binary_site.
    assert (A : is_assign (b_op b) = false).
    { unfold c_logical in Cl. destruct (b_op b), (cpp c); try discriminate Cl; reflexivity. }
    rewrite A. reflexivity.
  - cbn [text_den den]. apply sim_binary_term; assumption.
Qed.

Lemma sim_tree t : SimSpec.well_formed L c t = true ->
  (forall x, In x (places t) -> place_reads x) ->
  forall id, sim (td (fst (mutate L c o t id))) (dn (fst (mutate L c o t id))).
Proof.
  induction t as [s v|k ps last IH|e sub IH|b l w1 w2 r IHl IHr|u w sub IH|s sub IH]
    using cst_induction; intros W P id.
  - constructor.
  - rewrite mutate_node. cbn [fst SimSpec.well_formed places] in *. apply andb_prop in W.
    destruct W as [Sk W].
    assert (A : Forall2 sim (map (fun p => td (snd p)) (fst (mutate_all L c o ps id)))
                  (map (fun p => dn (snd p)) (fst (mutate_all L c o ps id)))).
    { clear Sk k. revert id. induction IH as [|[s p] ps Hp F IHF]; intros id; [constructor|].
      cbn [forallb snd flat_map mutate_all] in *. apply andb_prop in W. destruct W as [W1 W2].
      assert (P1 : forall x, In x (places p) -> place_reads x).
      { intros x Hx. apply P. apply in_app_iff. now left. }
      assert (P2 : forall x, In x (flat_map (fun q => places (snd q)) ps) -> place_reads x).
      { intros x Hx. apply P. apply in_app_iff. now right. }
      specialize (Hp W1 P1 id). destruct (mutate L c o p id) as [p' i1].
      specialize (IHF W2 P2 i1). destruct (mutate_all L c o ps i1) as [ps' i2].
      cbn [fst map snd] in *. constructor; assumption. }
    destruct k; try discriminate Sk; (constructor; [discriminate|exact A]).
  - cbn [mutate SimSpec.well_formed places] in *. apply andb_prop in W. destruct W as [G W].
    assert (P1 : forall x, In x (places sub) -> place_reads x).
    { intros x Hx. apply P. apply in_app_iff. now left. }
    specialize (IH W P1 id). pose proof (mutated_no_lambda sub id W) as La.
    destruct (mutate L c o sub id) as [sub' i1]. cbn [fst] in *.
    apply sim_mutated_expr; auto. apply P. apply in_app_iff. right. now left.
  - cbn [mutate SimSpec.well_formed places] in *. apply andb_prop in W. destruct W as [W Wr].
    apply andb_prop in W. destruct W as [G Wl].
    assert (P1 : forall x, In x (places l) -> place_reads x).
    { intros x Hx. apply P. apply in_app_iff. now left. }
    assert (P2 : forall x, In x (places r) -> place_reads x).
    { intros x Hx. apply P. apply in_app_iff. right. apply in_app_iff. now left. }
    assert (P3 : place_reads (PBin b)).
    { apply P. apply in_app_iff. right. apply in_app_iff. right. now left. }
    specialize (IHl Wl P1 id). pose proof (mutated_no_lambda l id Wl) as La.
    destruct (mutate L c o l id) as [l' i1].
    specialize (IHr Wr P2 i1). pose proof (mutated_no_lambda r i1 Wr) as Lb.
    destruct (mutate L c o r i1) as [r' i2]. cbn [fst] in *.
    destruct (c_logical c b) eqn:Cl; [apply sim_mutated_logical|apply sim_mutated_binary]; auto.
  - cbn [mutate SimSpec.well_formed places] in *. apply andb_prop in W. destruct W as [G W].
    assert (P1 : forall x, In x (places sub) -> place_reads x).
    { intros x Hx. apply P. apply in_app_iff. now left. }
    specialize (IH W P1 id). pose proof (mutated_no_lambda sub id W) as La.
    destruct (mutate L c o sub id) as [sub' i1]. cbn [fst] in *.
    apply sim_mutated_unary; auto. apply P. apply in_app_iff. right. now left.
  - cbn [mutate SimSpec.well_formed places] in *.
    assert (P1 : forall x, In x (places sub) -> place_reads x).
    { intros x Hx. apply P. apply in_app_iff. now left. }
    specialize (IH W P1 id). destruct (mutate L c o sub id) as [sub' i1]. cbn [fst] in *.
    unfold mutated_stmt. destruct (track o); (apply sim_one; [discriminate|assumption]).
Qed.

Lemma sim_program p : forallb (fun x => SimSpec.well_formed L c (snd x)) p = true ->
  (forall x, In x (source_places p) -> place_reads x) ->
  forall id g, match text_body_of L c ds (fst (mutate_program L c o p id)) g,
                     body_of L c (fst (mutate_program L c o p id)) g with
               | Some t, Some t' => sim t t' | None, None => True | _, _ => False end.
Proof.
  induction p as [|[f t] p IH]; intros W P id g; [exact I|].
  cbn [forallb snd source_places flat_map mutate_program] in *. apply andb_prop in W.
  destruct W as [W1 W2].
  assert (P1 : forall x, In x (places t) -> place_reads x).
  { intros x Hx. apply P. apply in_app_iff. now left. }
  assert (P2 : forall x, In x (source_places p) -> place_reads x).
  { intros x Hx. apply P. apply in_app_iff. now right. }
  pose proof (sim_tree t W1 P1 id) as S. destruct (mutate L c o t id) as [t' i1].
  specialize (IH W2 P2 i1 g). destruct (mutate_program L c o p i1) as [p' i2].
  cbn [fst text_body_of body_of] in *. destruct (String.eqb g f); assumption.
Qed.
End Tree.
