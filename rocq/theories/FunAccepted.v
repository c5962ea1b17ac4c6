(* Definitions read from the text are accepted (C68). *)
From Coq Require Import String Ascii List Arith NArith ZArith Bool Lia.
From Verif Require Import Base Clang Gen GenExpr GenBinary GenUnary GenStmt Mutation Sites GenSpec
  ClashSpec TypeSpec CText FunText FunSpec GenProof TypeProof FunProof FunProof2 FunProof3 FunTop.
Import ListNotations.
Local Open Scope string_scope.

Lemma returns_of two p1 p2 f e : In e (all_returns (body two p1 p2 f)) ->
  exists r, In r (returned f) /\ e = rhs_tree two (access_of p1) (access_of p2) r.
Proof.
  unfold body, pieces, returned. intros H.
  set (x := access_of p1) in *. set (y := access_of p2) in *.
  assert (O : exists r, In r (mf_orig f :: map snd (mf_lines f)) /\
    rhs_tree two x y (mf_orig f) = rhs_tree two x y r).
  { exists (mf_orig f). split; [now left|reflexivity]. }
  assert (T : forall e', In e' (all_returns
      (fold_right (fun (p : piece) s => CSeq (snd p) s)
         (CSeq (CReturn (Some (rhs_tree two x y (mf_orig f)))) CSkip)
         match mf_track f with Some k => [(record_tokens k, record_stmt k)] | None => [] end)) ->
      e' = rhs_tree two x y (mf_orig f)).
  { intros e'. destruct (mf_track f) as [k|]; cbn; intros I; intuition congruence. }
  assert (L : forall ls, incl ls (mf_lines f) -> forall e', In e' (all_returns
      (fold_right (fun (p : piece) s => CSeq (snd p) s)
         (CSeq (CReturn (Some (rhs_tree two x y (mf_orig f)))) CSkip)
         (map (fun l => (line_tokens two x y l, line_stmt two x y l)) ls ++
          match mf_track f with Some k => [(record_tokens k, record_stmt k)] | None => [] end)%list)) ->
      exists r, In r (mf_orig f :: map snd (mf_lines f)) /\ e' = rhs_tree two x y r).
  { induction ls as [|l ls IH]; intros S e' I; cbn [map app] in I.
    - apply T in I. now rewrite I.
    - cbn [fold_right snd] in I. cbn [all_returns line_stmt] in I.
      destruct I as [<-|I].
      + exists (snd l). split; [right; apply in_map, S; now left|reflexivity].
      + apply IH; [|exact I]. intros z Z. apply S. now right. }
  destruct (mf_fast f); cbn [app fold_right snd] in H.
  - cbn [all_returns fast_stmt] in H. destruct H as [<-|H]; [exact O|].
    eapply L; [|exact H]. apply incl_refl.
  - eapply L; [|exact H]. apply incl_refl.
Qed.

Lemma params_names c two p1 p2 : NoDup (map snd (params c two p1 p2)).
Proof.
  destruct two; cbn; repeat constructor; cbn; intuition discriminate.
Qed.

Lemma well_formed_accepted c cpp17 es id two result p1 p2 f k :
  well_formed c two result p1 p2 f -> compiles c cpp17 f k -> passed c es f id ->
  accepted c cpp17 es id (definition c two result p1 p2 f) k.
Proof.
  destruct k as [[args replaced] converted].
  intros W (ps & res & P & R & A & B & K) (ps' & P' & Q).
  set (qs := if two then [p1; p2] else [p1]).
  assert (M : map fst (mf_params f) = map (param_text c) qs).
  { rewrite (wf_params _ _ _ _ _ _ W). unfold qs. destruct two; reflexivity. }
  assert (Inj : forall l l', map (param_text c) l = map (param_text c) l' -> l = l').
  { induction l as [|p l IH]; intros [|q l'] E; try discriminate E; [reflexivity|].
    injection E as E1 E2. f_equal; [now apply (param_text_determines c)|now apply IH]. }
  assert (ps = qs) by (apply Inj; congruence). subst ps.
  assert (ps' = qs) by (apply Inj; congruence). subst ps'.
  assert (res = result).
  { rewrite (wf_result _ _ _ _ _ _ W) in R.
    assert (E : Direct result = Direct res) by now apply (param_text_determines c).
    congruence. }
  subst res. split; [apply params_names|].
  exists qs, result. cbn [definition fd_result fd_params fd_body fd_name].
  split; [reflexivity|]. split; [unfold qs, params; destruct two; reflexivity|].
  split; [exact A|]. split; [|split; [exact K|exact Q]].
  intros e I. apply returns_of in I. destruct I as (r & I & ->).
  replace (combine (map snd (params c two p1 p2)) qs) with (env two p1 p2)
    by (unfold qs; destruct two; reflexivity).
  rewrite yields_tree.
  - specialize (B r I). rewrite (wf_access _ _ _ _ _ _ W) in B. exact B.
  - destruct I as [<-|I]; [apply W|].
    apply in_map_iff in I. destruct I as (l & <- & I).
    pose proof (wf_lines _ _ _ _ _ _ W) as F. rewrite Forall_forall in F. now apply F.
Qed.

Lemma C68_accepted_lemma c cpp17 o m first id w :
  clang_node c m -> is_site (optimise o) m ->
  is_xvalue w = false -> the_object w <> VectorElement ->
  (cpp c = false -> the_object w <> RegisterVariable) ->
  (forall e, first_operand m = Some e -> consistent e w) ->
  original_accepted c cpp17 m w ->
  (cpp c = true -> ~ steps_bool m) ->
  let a := apply_mutation c o m first id in
  exists ds, read_functions (concat_strings (a_decls a)) = Some ds /\
    Forall2 (accepted c cpp17 (a_edits a) (id - first)) ds (calls_of c o m w).
Proof.
  intros CN Si X V R K A NB a.
  enough (E : exists ds, Forall2 read_as (a_decls a) ds /\
    Forall2 (accepted c cpp17 (a_edits a) (id - first)) ds (calls_of c o m w)).
  { destruct E as (ds & E & F). exists ds. split; [now apply functions_read|exact F]. }
  unfold a. clear a. destruct m as [e i|b i i1 i2|u i i1|s i];
    cbn [apply_mutation a_decls a_edits calls_of clang_node first_operand] in *.
  - eexists [_]. split; (constructor; [|constructor]).
    + apply function_read, expr_well_formed, CN.
    + apply well_formed_accepted; [now apply expr_well_formed| |apply expr_passed, CN].
      apply expr_compiles; auto.
  - change (negb (cpp c) && is_logical (b_op b)) with (c_logical c b).
    destruct (c_logical c b) eqn:CL.
    + assert (H : Forall2 (fun f k => compiles c cpp17 f k /\ In f (c_logical_functions c o b))
        (c_logical_functions c o b)
        ((if track o then []
          else [([expr_operand (b_lhs b) w], expr_operand (b_lhs b) w, true);
                ([expr_operand (b_rhs b) ordinary], expr_operand (b_rhs b) ordinary, true)])
         ++ [([binary_operand c b], binary_operand c b, true)])).
      { apply Forall2_in_l; [apply logical_compiles; auto|]. auto. }
      revert H. generalize ((if track o then []
          else [([expr_operand (b_lhs b) w], expr_operand (b_lhs b) w, true);
                ([expr_operand (b_rhs b) ordinary], expr_operand (b_rhs b) ordinary, true)])
         ++ [([binary_operand c b], binary_operand c b, true)])%list as ks.
      generalize (c_logical_functions c o b) at 2 3 as fs. intros fs ks H.
      induction H as [|f k fs ks [H I] F IH]; [exists []; split; constructor|].
      destruct IH as (ds & D1 & D2).
      destruct (logical_well_formed _ _ _ _ I) as (t & W).
      eexists (_ :: ds). split; constructor.
      * exact (function_read _ _ _ _ _ _ W).
      * exact D1.
      * apply well_formed_accepted; [exact W|exact H|]. now apply logical_passed.
      * exact D2.
    + eexists [_]. split; (constructor; [|constructor]).
      * apply function_read, binary_well_formed, CN.
      * apply well_formed_accepted; [apply binary_well_formed, CN| |apply binary_passed].
        eapply binary_compiles; eauto.
  - eexists [_]. split; (constructor; [|constructor]).
    + apply function_read, unary_well_formed, CN.
    + apply well_formed_accepted; [now apply unary_well_formed| |apply unary_passed, CN].
      eapply unary_compiles; eauto.
  - exists []. split; constructor.
Qed.
