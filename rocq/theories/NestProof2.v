(* Brackets in nested rewrites, and the files of a run. *)
From Coq Require Import String Ascii List Bool Arith Lia.
From Verif Require Import Base Clang Gen GenExpr GenBinary GenUnary GenStmt Rewriter Mutation
  MutTree Run TreeSpec RunSpec RunProof RewriterProof Lang Cst
  MutTreeProof PreludeText RunProof2 SimMutate NestSpec NestProof.
Import ListNotations.
Local Open Scope string_scope.

(** * Brackets *)

Lemma scan_app s t st : scan (s ++ t) st = match scan s st with Some st => scan t st | None => None end.
Proof.
  revert st. induction s as [|a s IH]; intro st; cbn [scan append]; auto.
  destruct (Ascii.eqb a "("); auto. destruct (Ascii.eqb a "["); auto. destruct (Ascii.eqb a "{"); auto.
  destruct (Ascii.eqb a ")" || Ascii.eqb a "]" || Ascii.eqb a "}"); auto.
  destruct st as [|b st]; auto. destruct (Ascii.eqb a b); auto.
Qed.
Definition bracket (a : ascii) : bool :=
  existsb (Ascii.eqb a) ["("; ")"; "["; "]"; "{"; "}"]%char.
Fixpoint plain (s : string) : bool :=
  match s with EmptyString => true | String a s => negb (bracket a) && plain s end.
Lemma plain_app s t : plain (s ++ t) = plain s && plain t.
Proof. induction s as [|a s IH]; cbn [plain append]; auto. rewrite IH, andb_assoc. reflexivity. Qed.
Lemma plain_balanced s : plain s = true -> balanced s.
Proof.
  induction s as [|a s IH]; intros P st; auto. cbn [plain] in P. apply andb_true_iff in P.
  destruct P as [N P]. unfold bracket in N. cbn [existsb] in N. cbn [scan].
  destruct (Ascii.eqb a "("); [discriminate|]. destruct (Ascii.eqb a ")"); [discriminate|].
  destruct (Ascii.eqb a "["); [discriminate|]. destruct (Ascii.eqb a "]"); [discriminate|].
  destruct (Ascii.eqb a "{"); [discriminate|]. destruct (Ascii.eqb a "}"); [discriminate|].
  apply IH. exact P.
Qed.
Lemma balanced_app s t : balanced s -> balanced t -> balanced (s ++ t).
Proof. intros S T st. rewrite scan_app, S. apply T. Qed.

Lemma plain_underscore s : plain s = true -> plain (space_to_underscore s) = true.
Proof.
  unfold space_to_underscore. induction s as [|a s IH]; auto. cbn [map_string plain]. intro H.
  apply andb_true_iff in H. destruct H as [H1 H2]. rewrite IH by exact H2.
  destruct (Ascii.eqb a " "); [reflexivity|rewrite H1; reflexivity].
Qed.
Lemma plain_ty c t : plain (ty_name c t) = true.
Proof. destruct t; cbn [ty_name]; try reflexivity. destruct (prints_bool c); reflexivity. Qed.
Lemma plain_nat n : plain (string_of_nat n) = true.
Proof.
  unfold string_of_nat, string_of_N. induction (BinNat.N.to_uint (BinNat.N.of_nat n)); auto.
Qed.
Ltac plain := repeat first
  [ rewrite !plain_app | rewrite plain_ty | rewrite plain_nat
  | rewrite plain_underscore
  | match goal with |- context [if ?b then _ else _] => destruct b end
  | reflexivity ].
Lemma plain_expr_name c o e : plain (expr_function_name c o e) = true.
Proof.
  unfold expr_function_name, optimisation_specifier, constant_suffix. rewrite !plain_app.
  repeat (apply andb_true_iff; split); plain.
Qed.
Lemma plain_bop b : plain (bop_name b) = true.
Proof. destruct b; reflexivity. Qed.
Lemma plain_uop b : plain (uop_name b) = true.
Proof. destruct b; reflexivity. Qed.
Lemma plain_bop_str b : plain (bop_str b) = true.
Proof. destruct b; reflexivity. Qed.
Lemma plain_uop_str b : plain (uop_str b) = true.
Proof. destruct b; reflexivity. Qed.
Lemma plain_binary_name c o b : plain (binary_function_name c o b) = true.
Proof.
  unfold binary_function_name, constant_suffix. rewrite !plain_app, plain_bop.
  repeat (apply andb_true_iff; split); plain.
Qed.
Lemma plain_unary_name c o u : plain (unary_function_name c o u) = true.
Proof.
  unfold unary_function_name. cbv zeta. rewrite !plain_app, plain_uop.
  repeat (apply andb_true_iff; split); plain.
Qed.
Lemma plain_input c e : plain (input_type c e) = true.
Proof. unfold input_type, cpp_type_modifiers, c_type_modifiers. plain. Qed.
Lemma plain_lhs c b : plain (binary_lhs_type c b) = true.
Proof. unfold binary_lhs_type. plain. Qed.
Lemma plain_rhs c b : plain (binary_rhs_type c b) = true.
Proof. unfold binary_rhs_type. plain. Qed.

Ltac scanning := repeat first
  [ progress cbn [scan append Ascii.eqb Bool.eqb orb]
  | rewrite scan_app
  | match goal with H : balanced ?x |- context [scan ?x ?st] => rewrite (H st) end
  | reflexivity ].
Lemma balanced_nat n : balanced (string_of_nat n).
Proof. apply plain_balanced, plain_nat. Qed.

Section Balanced.
Variable L : lang.
Variable c : ctx.
Variable o : options.

Lemma expr_balanced e id (sub : cst L) : balanced (text sub) ->
  balanced (text (mutated_expr L c o e id sub)).
Proof.
  intro B. rewrite expr_text. unfold expr_prefix, expr_suffix. intro st.
  pose proof (plain_balanced _ (plain_expr_name c (optimise o) e)) as B1.
  pose proof (plain_balanced _ (plain_input c e)) as B2.
  pose proof (balanced_nat id) as B3.
  set (paren := match e_binop e with Some Comma => true | _ => false end).
  replace (match e_binop e with Some Comma => "(" | _ => "" end) with (if paren then "(" else "")
    by (unfold paren; destruct (e_binop e) as [[]|]; reflexivity).
  replace (match e_binop e with Some Comma => ")" | _ => "" end) with (if paren then ")" else "")
    by (unfold paren; destruct (e_binop e) as [[]|]; reflexivity).
  revert B B1 B2 B3. generalize (expr_function_name c (optimise o) e), (string_of_nat id), (text sub).
  generalize (negb (cpp c) && e_lvalue e && ends_with_star (input_type c e)).
  generalize (input_type c e), paren.
  clear. intros ty paren ptr name ids x B B1 B2 B3.
  destruct (e_init_list_cast e) as [t|].
  - pose proof (plain_balanced _ (plain_ty c t)) as B4. revert B4. generalize (ty_name c t).
    intros tn B4.
    destruct (e_preceded_by_ident e), (cpp c && e_side_effects e), (e_cxx11_constant e), ptr, paren;
      scanning.
  - destruct (e_preceded_by_ident e), (cpp c && e_side_effects e), (e_cxx11_constant e), ptr, paren;
      scanning.
Qed.
Lemma unary_balanced u id w (sub : cst L) : balanced (text sub) -> balanced w ->
  balanced (text (mutated_unary L c o u id w sub)).
Proof.
  intros B Bw. unfold mutated_unary. intro st.
  pose proof (plain_balanced _ (plain_unary_name c (optimise o) u)) as B1.
  pose proof (plain_balanced _ (plain_input c (u_sub u) : plain (unary_input_type c u) = true)) as B2.
  pose proof (balanced_nat id) as B3.
  destruct (unary_delayed c u), (negb (cpp c) && is_incdec (u_op u));
    rewrite ?text_one, ?text_call1, ?text_one;
    change (mf_name (unary_function c o u)) with (unary_function_name c (optimise o) u);
    destruct (is_prefix (u_op u)), (negb (e_cxx11_constant (u_sub u)));
    scanning.
Qed.
Lemma binary_balanced b id w1 w2 (l r : cst L) : balanced (text l) -> balanced (text r) ->
  balanced w1 -> balanced w2 -> balanced (text (mutated_binary L c o b id l w1 w2 r)).
Proof.
  intros Bl Br Bw1 Bw2. unfold mutated_binary, lambda. intro st. cbn [text map fst snd concat_strings].
  pose proof (plain_balanced _ (plain_binary_name c (optimise o) b)) as B1.
  pose proof (plain_balanced _ (plain_lhs c b)) as B2.
  pose proof (plain_balanced _ (plain_rhs c b)) as B4.
  pose proof (balanced_nat id) as B3.
  change (mf_name (binary_function c o b)) with (binary_function_name c (optimise o) b).
  destruct (lhs_delayed c b), (negb (cpp c) && is_assign (b_op b)), (rhs_delayed c b);
    rewrite ?text_one; scanning.
Qed.
Lemma c_logical_balanced b id w1 w2 (l r : cst L) : balanced (text l) -> balanced (text r) ->
  balanced w1 -> balanced w2 -> balanced (text (mutated_c_logical L c o b id l w1 w2 r)).
Proof.
  intros Bl Br Bw1 Bw2. unfold mutated_c_logical. intro st. rewrite text_call1. cbn [text].
  change (mf_name (c_logical_outer_function c o b))
    with (binary_function_name c (optimise o) b ++ "_outer").
  pose proof (plain_balanced _ (plain_binary_name c (optimise o) b)) as B1.
  pose proof (plain_balanced _ (plain_bop_str (b_op b))) as B2.
  pose proof (balanced_nat id) as B3.
  destruct (track o); [scanning|]. rewrite !text_call1.
  change (mf_name (c_logical_lhs_function c o b))
    with (binary_function_name c (optimise o) b ++ "_lhs").
  change (mf_name (c_logical_rhs_function c o b))
    with (binary_function_name c (optimise o) b ++ "_rhs"). scanning.
Qed.
Lemma stmt_balanced s id (sub : cst L) : balanced (text sub) ->
  balanced (text (mutated_stmt L o s id sub)).
Proof.
  intros B st. unfold mutated_stmt, stmt_open, stmt_close.
  pose proof (balanced_nat id) as B3.
  destruct (track o); rewrite text_one; [scanning|].
  destruct (s_ext_comment s), (s_ext_semi s), (s_next_hash s); cbn [negb andb nl]; scanning.
Qed.

Fixpoint all_balanced (ps : list (string * cst L)) : Prop :=
  match ps with
  | [] => True
  | (_, p) :: ps => sites_balanced p /\ all_balanced ps
  end.

Lemma scan_mutated t : sites_balanced t ->
  forall id st, scan (text (fst (mutate L c o t id))) st = scan (text t) st.
Proof.
  induction t as [s v|k ps last IH|e sub IH|b l w1 w2 r IHl IHr|u w sub IH|s sub IH]
    using cst_induction; intros B id st.
  - reflexivity.
  - rewrite mutate_node. cbn [fst text]. change (all_balanced ps) in B.
    rewrite !scan_app.
    replace (scan (concat_strings (map (fun p => fst p ++ text (snd p)) (fst (mutate_all L c o ps id)))) st)
      with (scan (concat_strings (map (fun p => fst p ++ text (snd p)) ps)) st); auto.
    symmetry. revert B id st. induction IH as [|[s p] ps IHp _ IHps]; intros B id st; auto.
    destruct B as [Bp Bps]. cbn [mutate_all snd] in *.
    specialize (IHp Bp id). destruct (mutate L c o p id) as [p' id'].
    specialize (IHps Bps id'). destruct (mutate_all L c o ps id') as [ps' id''].
    cbn [fst snd map concat_strings] in *. rewrite !scan_app.
    destruct (scan s st) as [st'|]; auto. rewrite IHp. destruct (scan (text p) st'); auto.
  - destruct B as [B Bs]. cbn [mutate text]. specialize (IH Bs id).
    destruct (mutate L c o sub id) as [sub' id']. cbn [fst] in *.
    rewrite B. apply expr_balanced. intro st'. rewrite IH. apply B.
  - destruct B as ([Bl Sl] & [Br Sr] & B1 & B2). cbn [mutate].
    specialize (IHl Sl id). destruct (mutate L c o l id) as [l' id'].
    specialize (IHr Sr id'). destruct (mutate L c o r id') as [r' id''].
    cbn [fst text] in *.
    assert (B : balanced (text l ++ w1 ++ bop_str (b_op b) ++ w2 ++ text r)).
    { repeat apply balanced_app; auto. apply plain_balanced, plain_bop_str. }
    rewrite B. destruct (c_logical c b).
    + apply c_logical_balanced; auto; intro st'; [rewrite IHl; apply Bl|rewrite IHr; apply Br].
    + apply binary_balanced; auto; intro st'; [rewrite IHl; apply Bl|rewrite IHr; apply Br].
  - destruct B as [[B Bs] Bw]. cbn [mutate text]. specialize (IH Bs id).
    destruct (mutate L c o sub id) as [sub' id']. cbn [fst] in *.
    assert (Bt : balanced (un_text (u_op u) w (text sub))).
    { unfold un_text. destruct (is_prefix (u_op u)); repeat apply balanced_app; auto;
        apply plain_balanced, plain_uop_str. }
    rewrite Bt. apply unary_balanced; auto. intro st'. rewrite IH. apply B.
  - destruct B as [B Bs]. cbn [mutate text]. specialize (IH Bs id).
    destruct (mutate L c o sub id) as [sub' id']. cbn [fst] in *.
    rewrite B. apply stmt_balanced. intro st'. rewrite IH. apply B.
Qed.
End Balanced.

(** * The files of a run *)

Section Files.
Variable L : lang.
Variable c : ctx.
Variable o : options.

Fixpoint zip (gaps : list string) (p : list (string * cst L)) : list (string * cst L) :=
  match gaps, p with
  | g :: gaps, (_, t) :: p => (g, t) :: zip gaps p
  | _, _ => []
  end.
Lemma zip_text p : forall gaps, texts L (zip gaps p) = source gaps p.
Proof.
  induction p as [|[f t] p IH]; intros [|g gaps]; auto. unfold texts in *.
  cbn [zip map concat_strings fst snd source]. rewrite IH, sapp_assoc. reflexivity.
Qed.
Lemma zip_placed p : forall gaps off, source_placed gaps p off -> placed_all L (zip gaps p) off.
Proof.
  induction p as [|[f t] p IH]; intros [|g gaps] off H; cbn in *; auto; try contradiction.
  destruct H. split; auto.
Qed.
Lemma zip_places p : forall gaps off, source_placed gaps p off ->
  flat_map (fun p => places (snd p)) (zip gaps p) = source_places p.
Proof.
  induction p as [|[f t] p IH]; intros [|g gaps] off H; cbn in *; auto; try contradiction.
  destruct H as [_ H]. rewrite (IH _ _ H). reflexivity.
Qed.
Lemma zip_mutate p : forall gaps off id, source_placed gaps p off ->
  mutate_all L c o (zip gaps p) id =
  (zip gaps (fst (mutate_program L c o p id)), snd (mutate_program L c o p id)).
Proof.
  induction p as [|[f t] p IH]; intros [|g gaps] off id H; cbn [zip mutate_all mutate_program];
    auto; try contradiction.
  destruct H as [_ H]. destruct (mutate L c o t id) as [t' id1].
  rewrite (IH _ _ id1 H). destruct (mutate_program L c o p id1). reflexivity.
Qed.
Lemma file_rewrite pre gaps p last ms first num :
  source_placed gaps p (String.length pre) -> separated (source_places p) ->
  map place_of ms = source_places p -> forall decls,
  exists l, NoDup l /\ (forall d, In d l <-> In d decls) /\
  rewrite (pre ++ source gaps p ++ last)
    (edits_from c o first first ms ++ prelude_edits c o first num (String.length pre) decls)%list =
  pre ++ prelude_text c o first num ++ concat_strings l ++
  source gaps (fst (mutate_program L c o p 0)) ++ last.
Proof.
  intros P Ap M decls. exists (rev (sorted_decls decls)). split; [|split].
  - apply NoDup_rev, sorted_nodup, sorted_decls_sorted.
  - intros d. rewrite <- in_rev. apply sorted_decls_in.
  - set (t := CNode (L := L) KWrong (zip gaps p) "").
    assert (T : text t = source gaps p).
    { unfold t. cbn [text]. fold (texts L (zip gaps p)). rewrite zip_text, sapp_nil_r. reflexivity. }
    assert (Pt : placed t (String.length (pre ++ ""))).
    { rewrite sapp_nil_r. exact (zip_placed _ _ _ P). }
    assert (Pl : places t = source_places p) by exact (zip_places _ _ _ P).
    assert (Mt : text (fst (mutate L c o t 0)) = source gaps (fst (mutate_program L c o p 0))).
    { unfold t. rewrite mutate_node, (zip_mutate _ _ _ 0 P). cbn [fst text].
      fold (texts L (zip gaps (fst (mutate_program L c o p 0)))). rewrite zip_text, sapp_nil_r.
      reflexivity. }
    rewrite <- Pl in Ap, M.
    destruct (nested_cells L c o pre "" t last Pt Ap) as [Q1 Q2]. cbn [append] in Q1, Q2.
    rewrite T in Q1, Q2. rewrite Mt in Q2.
    unfold rewrite. rewrite apply_edits_app, prelude_edits_apply.
    rewrite edits_from_places, Nat.sub_diag, M by lia.
    rewrite (update_nth_ext _ _
       (fun x => ((prelude_text c o first num ++ concat_strings (rev (sorted_decls decls)))
                  ++ fst x, snd x))) by (intros; rewrite sapp_assoc; reflexivity).
    rewrite render_prepend.
    2:{ rewrite apply_edits_length, cells_length, length_app. lia. }
    transitivity (pre ++ (prelude_text c o first num ++ concat_strings (rev (sorted_decls decls)))
                  ++ (source gaps (fst (mutate_program L c o p 0)) ++ last)).
    + f_equal; [exact Q1|f_equal; exact Q2].
    + rewrite !sapp_assoc. reflexivity.
Qed.

End Files.

Lemma written_nested o bt fs n t :
  In (n, t) (rs_written (run o bt fs)) ->
  exists d1 f d2 u,
    distinct [] fs = (d1 ++ f :: d2)%list /\ f_name f = n /\ f_unit f = Some u /\
    forall L pre gaps (p : list (string * cst L)) last,
      f_text f = pre ++ source gaps p ++ last ->
      ui_prelude_offset u = String.length pre -> ui_rewrites u = [] ->
      map place_of (post (ui_tree u)) = source_places p ->
      source_placed gaps p (String.length pre) -> separated (source_places p) ->
      exists l, NoDup l /\
        (forall d, In d l <-> exists m g, In m (post (ui_tree u)) /\
                                In g (site_functions (ui_ctx u) o m) /\ d = print_mfun g) /\
        t = pre ++ prelude_text (ui_ctx u) o (list_sum (map (offers o) d1)) (offers o f)
            ++ concat_strings l
            ++ source gaps (fst (mutate_program L (ui_ctx u) o p 0)) ++ last.
Proof.
  intros H. rewrite run_written in H. apply output_split in H.
  destruct H as (d1 & f & u & d2 & E & U & N & H). simpl in H.
  exists d1, f, d2, u. repeat (split; [assumption|]).
  intros L pre gaps p last Tx Off Rw Ms Pl Ap.
  set (id := list_sum (map (offers o) d1)) in *.
  unfold handle_unit in H. rewrite apply_mutations_id in H.
  destruct (apply_mutations_effects (ui_ctx u) o true id (tidy (ui_tree u))) as (Ee & Ed).
  rewrite Ee, Ed in H.
  destruct (Nat.eqb_spec id (id + tree_total (ui_ctx u) (optimise o) (tidy (ui_tree u))))
    as [C|C]; [discriminate|].
  cbn [h_output] in H. injection H as <-.
  rewrite Rw, Off, Tx, post_tidy. cbn [app].
  destruct (file_rewrite L (ui_ctx u) o pre gaps p last (post (ui_tree u)) id
              (id + tree_total (ui_ctx u) (optimise o) (tidy (ui_tree u)) - id) Pl Ap Ms
              (map print_mfun (flat_map (site_functions (ui_ctx u) o) (post (ui_tree u)))))
    as (l & Nd & S & T).
  exists l. split; [exact Nd|]. split.
  - intro d. rewrite S, in_map_iff. split.
    + intros (g & <- & Hg). apply in_flat_map in Hg. destruct Hg as (m & Hm & Hg). eauto.
    + intros (m & g & Hm & Hg & ->). exists g. split; auto. apply in_flat_map. eauto.
  - rewrite T. rewrite (offers_unit _ _ _ U).
    replace (id + tree_total (ui_ctx u) (optimise o) (tidy (ui_tree u)) - id)
      with (tree_total (ui_ctx u) (optimise o) (tidy (ui_tree u))) by lia.
    reflexivity.
Qed.
