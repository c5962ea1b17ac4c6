(* The option adds comments and changes nothing else. *)
From Coq Require Import String Ascii List Bool Arith Lia Permutation.
From Verif Require Import Base Clang Gen GenExpr GenBinary GenUnary GenStmt Mutation MutTree TreeSpec
  MutTreeProof Rewriter RunProof RewriterProof Run Visitor VisitorTree NestSpec GrammarSpec
  GrammarProof NodeTypes NodeTypesSpec.
Import ListNotations.
Local Open Scope string_scope.

(** * Comments *)

Lemma well_closed t : well_named t -> closed (says t).
Proof.
  intros W a b E.
  assert (N : forall s, (forall x, In x (list_ascii_of_string s) -> alnum x = true \/ x = " "%char) ->
              forall a b, s <> a ++ "*/" ++ b).
  { clear. intros s N a b ->. destruct (N "*"%char) as [H|H]; try discriminate.
    clear N. induction a as [|x a IH]; [now left|now right]. }
  refine (N _ _ a b E). intros x X. unfold says in X.
  assert (A : forall s t, list_ascii_of_string (s ++ t) =
              (list_ascii_of_string s ++ list_ascii_of_string t)%list)
    by (clear; induction s; intro; cbn; [|rewrite IHs]; reflexivity).
  rewrite !A in X. cbn in X. apply in_app_iff in X.
  destruct X as [X|[<-|X]]; [left; apply W; now left|now right|left; apply W; now right].
Qed.

Lemma after name t : identifier ("__dredd_" ++ name) -> well_named t ->
  commented [says t] (("__dredd_" ++ name) ++ "(") (("__dredd_" ++ name) ++ type_comment t ++ "(").
Proof.
  intros I W. unfold type_comment.
  replace (("__dredd_" ++ name) ++ "(") with ("__dredd_" ++ name ++ "(")
    by (rewrite sapp_assoc; reflexivity).
  replace (("__dredd_" ++ name) ++ ("/*" ++ nt_class t ++ " " ++ nt_address t ++ "*/") ++ "(")
    with ("__dredd_" ++ name ++ "/*" ++ says t ++ "*/(")
    by (unfold says; rewrite !sapp_assoc; reflexivity).
  constructor; [exact I|now apply well_closed].
Qed.

Lemma after_name f t : identifier f -> (exists name, f = "__dredd_" ++ name) -> well_named t ->
  commented [says t] (f ++ "(") (f ++ type_comment t ++ "(").
Proof. intros I (name & ->) W. now apply after. Qed.

Lemma commented_before ws a b s : commented ws a b -> commented ws (s ++ a) (s ++ b).
Proof. intro C. exact (commented_app [] s s ws a b (commented_same s) C). Qed.
Lemma commented_after ws a b s : commented ws a b -> commented ws (a ++ s) (b ++ s).
Proof. intro C. rewrite <- (app_nil_r ws). apply commented_app; [exact C|constructor]. Qed.

(** * Edits *)

(* Comments with the offsets at which they are inserted *)
Inductive commented_edits : list (nat * string) -> list edit -> list edit -> Prop :=
| ce_nil : commented_edits [] [] []
| ce_same ws e es es' : commented_edits ws es es' -> commented_edits ws (e :: es) (e :: es')
| ce_before ws off w s s' es es' : commented [w] s s' -> commented_edits ws es es' ->
    commented_edits ((off, w) :: ws) (InsertBefore off s :: es) (InsertBefore off s' :: es').

Lemma ce_refl es : commented_edits [] es es.
Proof. induction es; now constructor. Qed.
Lemma ce_app ws es es' ws2 es2 es2' : commented_edits ws es es' -> commented_edits ws2 es2 es2' ->
  commented_edits (ws ++ ws2) (es ++ es2) (es' ++ es2').
Proof. intros A B. induction A; cbn; try constructor; auto. Qed.

Definition comments (c : ctx) (mt : typed_mutation) : list (nat * string) :=
  if described c mt then [(place (fst mt), says (snd mt))] else [].

Ltac named := eexists; rewrite ?sapp_assoc; reflexivity.
Lemma expr_named c o e : exists n, expr_function_name c o e = "__dredd_" ++ n.
Proof. unfold expr_function_name. eexists. instantiate (1 := "replace_expr_" ++ _). reflexivity. Qed.
Lemma binary_named c o b : exists n, binary_function_name c o b = "__dredd_" ++ n.
Proof. unfold binary_function_name. eexists. instantiate (1 := "replace_binary_operator_" ++ _). reflexivity. Qed.
Lemma unary_named c o u : exists n, unary_function_name c o u = "__dredd_" ++ n.
Proof. unfold unary_function_name. eexists. instantiate (1 := "replace_unary_operator_" ++ _). reflexivity. Qed.

Lemma mutation_commented c o mt first id : well_named (snd mt) ->
  commented_edits (comments c mt) (a_edits (apply_mutation c o (fst mt) first id))
    (a_edits (apply_mutation_shown c o mt first id)).
Proof.
  destruct mt as [m t]. cbn [fst snd]. intro W. unfold comments, described. cbn [fst snd].
  destruct m as [e info|b i1 i2 i3|u i1 i2|s info]; cbn [apply_mutation_shown apply_mutation a_edits place].
  - unfold expr_edits, expr_edits_shown. constructor; [|apply ce_refl].
    unfold expr_prefix, expr_prefix_shown. do 2 apply commented_before.
    rewrite <- !sapp_assoc. do 3 apply commented_after. rewrite sapp_assoc.
    apply after_name; [apply expr_identifier|apply expr_named|exact W].
  - assert (E : match b_op b with LAnd | LOr => cpp c | _ => true end = negb (c_logical c b))
      by (unfold c_logical, is_logical; destruct (b_op b), (cpp c); reflexivity).
    rewrite E. destruct (c_logical c b); cbn [negb]; [apply ce_refl|].
    unfold binary_edits, binary_edits_shown. constructor. constructor; [|apply ce_refl].
    rewrite <- !sapp_assoc. apply commented_after. rewrite sapp_assoc.
    apply after_name; [|apply binary_named|exact W].
    rewrite <- (sapp_nil_r (binary_function_name _ _ _)). apply binary_identifier.
    apply word_b; reflexivity.
  - unfold unary_edits, unary_edits_shown. constructor. constructor; [|apply ce_refl].
    rewrite <- !sapp_assoc. do 2 apply commented_after. rewrite sapp_assoc.
    apply after_name; [apply unary_identifier|apply unary_named|exact W].
  - unfold stmt_edits, stmt_edits_shown. constructor; [|apply ce_refl].
    unfold stmt_open, stmt_open_shown. destruct (track o).
    + change (commented [says t]
        (("__dredd_record_covered_mutants" ++ "(") ++ string_of_nat (id - first) ++ ", 1); ")
        (("__dredd_record_covered_mutants" ++ type_comment t ++ "(") ++ string_of_nat (id - first) ++ ", 1); ")).
      apply commented_after. apply (after "record_covered_mutants"); [|exact W].
      apply identifier_dredd. apply word_b. reflexivity.
    + change (commented [says t]
        ("if (!" ++ ("__dredd_enabled_mutation" ++ "(") ++ string_of_nat (id - first) ++ ")) { ")
        ("if (!" ++ ("__dredd_enabled_mutation" ++ type_comment t ++ "(") ++ string_of_nat (id - first) ++ ")) { ")).
      apply commented_before, commented_after. apply (after "enabled_mutation"); [|exact W].
      apply identifier_dredd. apply word_b. reflexivity.
Qed.

(** * Applying a tree *)

Definition related (ws : list (nat * string)) (st st' : astate) : Prop :=
  st_nodes st' = st_nodes st /\ st_id st' = st_id st /\ st_decls st' = st_decls st /\
  commented_edits ws (st_edits st) (st_edits st').

Lemma apply_one_related c o bt first idx ws st st' mt : well_named (snd mt) ->
  related ws st st' ->
  related (ws ++ comments c mt) (apply_one c o bt first idx st (fst mt))
    (apply_one_shown c o bt first idx st' mt).
Proof.
  intros W (N & I & D & E). unfold apply_one, apply_one_shown.
  pose proof (mutation_commented c o mt first (st_id st') W) as H.
  assert (A : a_group (apply_mutation_shown c o mt first (st_id st')) =
              a_group (apply_mutation c o (fst mt) first (st_id st')) /\
              a_next (apply_mutation_shown c o mt first (st_id st')) =
              a_next (apply_mutation c o (fst mt) first (st_id st')) /\
              a_decls (apply_mutation_shown c o mt first (st_id st')) =
              a_decls (apply_mutation c o (fst mt) first (st_id st')))
    by (destruct mt; repeat split).
  destruct A as (A1 & A2 & A3). unfold related. cbn [st_nodes st_id st_decls st_edits].
  rewrite A1, A2, A3, N, D. rewrite I in *. repeat split. now apply ce_app.
Qed.

Lemma apply_ones_related c o bt first idx ms : Forall (fun mt => well_named (snd mt)) ms ->
  forall ws st st', related ws st st' ->
  related (ws ++ flat_map (comments c) ms)
    (fold_left (apply_one c o bt first idx) (map fst ms) st)
    (fold_left (apply_one_shown c o bt first idx) ms st').
Proof.
  induction 1 as [|m ms W _ IH]; intros ws st st' R; cbn [map fold_left flat_map].
  - now rewrite app_nil_r.
  - rewrite app_assoc. apply IH. now apply apply_one_related.
Qed.

Lemma apply_tree_related c o bt first t :
  Forall (fun mt => well_named (snd mt)) (post t) ->
  forall idx ws st st', related ws st st' ->
  related (ws ++ flat_map (comments c) (post t))
    (apply_tree c o bt first idx (map_tree fst t) st)
    (apply_tree_shown c o bt first idx t st').
Proof.
  induction t as [ms ks IH] using tree_ind'. cbn [post]. intros W idx ws st st' R.
  apply Forall_app in W. destruct W as [Wk Wm].
  cbn [map_tree apply_tree apply_tree_shown]. rewrite flat_map_app, app_assoc.
  apply apply_ones_related; [exact Wm|]. clear Wm ms.
  revert ws st st' R Wk. induction IH as [|k ks H _ IH]; intros ws st st' R W;
    cbn [map flat_map] in *; [now rewrite app_nil_r|].
  apply Forall_app in W. destruct W as [W1 W2]. rewrite flat_map_app, app_assoc.
  apply IH; [|exact W2].
  assert (R' : related ws (add_child idx st) (add_child idx st')).
  { destruct R as (N & I & D & E). unfold related, add_child. cbn [st_nodes st_id st_decls st_edits].
    rewrite N. auto. }
  destruct R as (N & _). rewrite N. now apply H.
Qed.

(** * Text *)

Inductive commented_cells : list string -> list cell -> list cell -> Prop :=
| cc_nil : commented_cells [] [] []
| cc_cons w ws a a' s cs cs' : commented w a a' -> commented_cells ws cs cs' ->
    commented_cells (w ++ ws) ((a, s) :: cs) ((a', s) :: cs').

Lemma cells_render ws cs cs' : commented_cells ws cs cs' -> commented ws (render cs) (render cs').
Proof.
  induction 1 as [|w ws a a' s cs cs' C _ IH]; [constructor|].
  change (commented (w ++ ws) ((a ++ s) ++ render cs) ((a' ++ s) ++ render cs')).
  apply commented_app; [now apply commented_after|exact IH].
Qed.

Lemma cells_refl cs : commented_cells [] cs cs.
Proof.
  induction cs as [|[a s] cs IH]; [constructor|].
  exact (cc_cons [] [] a a s cs cs (commented_same a) IH).
Qed.

Lemma cells_update w f f' ws cs cs' :
  (forall v a a' s, commented v a a' -> exists v' b b' s', Permutation v' (w ++ v) /\
     commented v' b b' /\ f (a, s) = (b, s') /\ f' (a', s) = (b', s')) ->
  commented_cells ws cs cs' -> forall off,
  exists ws', Permutation ws' ((if Nat.ltb off (List.length cs) then w else []) ++ ws) /\
    commented_cells ws' (update_nth off f cs) (update_nth off f' cs').
Proof.
  intros F C. induction C as [|v ws a a' s cs cs' Ca Cs IH]; intros off.
  - exists []. destruct off; cbn; split; constructor.
  - destruct off as [|off]; cbn [update_nth].
    + destruct (F v a a' s Ca) as (v' & b & b' & s' & P & Cb & -> & ->).
      exists (v' ++ ws)%list. split; [|now constructor].
      cbn [List.length]. replace (Nat.ltb 0 (S (List.length cs))) with true by reflexivity.
      rewrite app_assoc. now apply Permutation_app_tail.
    + destruct (IH off) as (ws' & P & C'). exists (v ++ ws')%list. split; [|now constructor].
      cbn [List.length]. change (Nat.ltb (S off) (S (List.length cs))) with (Nat.ltb off (List.length cs)).
      rewrite P. apply Permutation_app_swap_app.
Qed.

Lemma cells_keep f f' ws cs cs' :
  (forall v a a' s, commented v a a' -> exists b b' s',
     commented v b b' /\ f (a, s) = (b, s') /\ f' (a', s) = (b', s')) ->
  commented_cells ws cs cs' -> forall off, exists ws', Permutation ws' ws /\
    commented_cells ws' (update_nth off f cs) (update_nth off f' cs').
Proof.
  intros F C off. destruct (cells_update [] f f' ws cs cs') with (off := off) as (ws' & P & C').
  - intros v a a' s Ca. destruct (F v a a' s Ca) as (b & b' & s' & Cb & E & E').
    exists v, b, b', s'. repeat split; auto.
  - exact C.
  - exists ws'. split; [|exact C']. now destruct (Nat.ltb off (List.length cs)).
Qed.

Lemma cells_blank n : forall off ws cs cs', commented_cells ws cs cs' ->
  exists ws', Permutation ws' ws /\ commented_cells ws' (blank off n cs) (blank off n cs').
Proof.
  induction n as [|n IH]; intros off ws cs cs' C; cbn [blank]; [now exists ws|].
  destruct (cells_keep (fun x => (fst x, "")) (fun x => (fst x, "")) ws cs cs') with (off := off)
    as (ws1 & P1 & C1); [|exact C|].
  { intros v a a' s Ca. now exists a, a', "". }
  destruct (IH (S off) _ _ _ C1) as (ws2 & P2 & C2). exists ws2. split; [now rewrite P2|exact C2].
Qed.

Lemma cells_edit e ws cs cs' : commented_cells ws cs cs' ->
  exists ws', Permutation ws' ws /\ commented_cells ws' (apply_edit e cs) (apply_edit e cs').
Proof.
  intro C. destruct e as [off s|off s|off len s]; cbn [apply_edit].
  - apply cells_keep; [|exact C]. intros v a a' u Ca. exists (s ++ a), (s ++ a'), u.
    split; [now apply commented_before|split; reflexivity].
  - apply cells_keep; [|exact C]. intros v a a' u Ca. exists (a ++ s), (a' ++ s), u.
    split; [now apply commented_after|split; reflexivity].
  - destruct (cells_blank len off _ _ _ C) as (ws1 & P1 & C1).
    destruct (cells_keep (fun x => (fst x, s)) (fun x => (fst x, s)) ws1 (blank off len cs) (blank off len cs')) with (2 := C1) (off := off)
      as (ws2 & P2 & C2).
    { intros v a a' u Ca. now exists a, a', s. }
    exists ws2. split; [now rewrite P2|exact C2].
Qed.

Definition within (n : nat) (x : nat * string) : bool := Nat.ltb (fst x) n.

Lemma cells_edits xs es es' : commented_edits xs es es' -> forall ws cs cs',
  commented_cells ws cs cs' ->
  exists ws', Permutation ws' (ws ++ map snd (filter (within (List.length cs)) xs)) /\
    commented_cells ws' (apply_edits es cs) (apply_edits es' cs').
Proof.
  induction 1 as [|xs e es es' _ IH|xs off w s s' es es' Cs _ IH]; intros ws cs cs' C.
  - exists ws. cbn. now rewrite app_nil_r.
  - cbn [apply_edits fold_left]. destruct (cells_edit e _ _ _ C) as (ws1 & P1 & C1).
    destruct (IH _ _ _ C1) as (ws2 & P2 & C2). exists ws2. split; [|exact C2].
    rewrite apply_edit_length in P2. now rewrite P2, P1.
  - cbn [apply_edits fold_left].
    destruct (cells_update [w] (fun x => (s ++ fst x, snd x)) (fun x => (s' ++ fst x, snd x)) ws cs cs')
      with (off := off) as (ws1 & P1 & C1); [|exact C|].
    { intros v a a' u Ca. exists (w :: v)%list, (s ++ a), (s' ++ a'), u.
      repeat split; [apply Permutation_refl|exact (commented_app [w] s s' v a a' Cs Ca)]. }
    destruct (IH _ _ _ C1) as (ws2 & P2 & C2). exists ws2. split; [|exact C2].
    rewrite update_nth_length in P2. rewrite P2, P1. cbn [filter].
    change (within (List.length cs) (off, w)) with (Nat.ltb off (List.length cs)).
    destruct (Nat.ltb off (List.length cs)); cbn [app map]; [|reflexivity].
    cbn [snd]. apply Permutation_middle.
Qed.

Lemma rewrite_commented text xs es es' : commented_edits xs es es' ->
  exists ws, Permutation ws (map snd (filter (within (S (String.length text))) xs)) /\
    commented ws (rewrite text es) (rewrite text es').
Proof.
  intro C. destruct (cells_edits _ _ _ C [] _ _ (cells_refl (cells_of text))) as (ws & P & Cc).
  exists ws. split; [|now apply cells_render].
  rewrite cells_length in P. exact P.
Qed.

(** * A file *)

Definition named_unit (u : typed_unit) : Prop := Forall (fun mt => well_named (snd mt)) (post (tu_tree u)).

Lemma handle_commented o bt text u id : named_unit u ->
  let h := handle_unit o bt text (plain_unit u) id in
  let h' := handle_unit_shown o bt text u id in
  h_next h' = h_next h /\ h_info h' = h_info h /\
  match h_output h, h_output h' with
  | None, None => True
  | Some s, Some s' => exists ws, commented ws s s' /\
      Permutation ws (map (fun mt => says (snd mt))
        (filter (fun mt => described (tu_ctx u) mt && (Nat.leb (place (fst mt)) (String.length text)))
           (post (tu_tree u))))
  | _, _ => False
  end.
Proof.
  intro W. unfold handle_unit, handle_unit_shown, apply_mutations. cbn [plain_unit ui_ctx ui_tree ui_rewrites ui_prelude_offset].
  rewrite map_tidy.
  destruct (apply_tree_related (tu_ctx u) o bt id (tidy (tu_tree u))) with (idx := 0)
    (ws := @nil (nat * string)) (st := initial_astate id) (st' := initial_astate id)
    as (N & I & D & E).
  { now rewrite post_tidy. }
  { repeat split. constructor. }
  rewrite N, I, D. destruct (Nat.eqb id _); [repeat split|].
  cbn [h_next h_info h_output]. repeat split.
  match goal with |- exists ws, commented ws (rewrite text (?a ++ ?b)%list) _ /\ _ =>
    destruct (rewrite_commented text _ _ _ (ce_app _ _ _ _ _ _ E (ce_refl b))) as (ws & P & C)
  end.
  exists ws. split; [exact C|]. etransitivity; [exact P|]. rewrite app_nil_r. cbn [app].
  rewrite post_tidy. apply Permutation_refl'. clear.
  enough (G : forall l : list typed_mutation,
    map snd (filter (within (S (String.length text))) (flat_map (comments (tu_ctx u)) l)) =
    map (fun mt => says (snd mt)) (filter (fun mt => described (tu_ctx u) mt
      && Nat.leb (place (fst mt)) (String.length text)) l)) by exact (G (post (tu_tree u))).
  intro l. induction l as [|mt ms IH]; [reflexivity|].
  cbn [flat_map filter]. rewrite filter_app, map_app, IH. unfold comments at 1.
  destruct (described (tu_ctx u) mt); cbn [app filter map andb]; [|reflexivity].
  replace (within (S (String.length text)) (place (fst mt), says (snd mt)))
    with (Nat.leb (place (fst mt)) (String.length text))
    by (unfold within; cbn [fst]; destruct (Nat.leb_spec (place (fst mt)) (String.length text));
        symmetry; [apply Nat.ltb_lt|apply Nat.ltb_ge]; lia).
  destruct (Nat.leb (place (fst mt)) (String.length text)); reflexivity.
Qed.

(** * A run *)

Definition same_run (st st' : rstate) : Prop :=
  rs_id st' = rs_id st /\ rs_processed st' = rs_processed st /\ rs_info st' = rs_info st /\
  Forall2 (fun w w' => fst w' = fst w /\ exists ws, commented ws (snd w) (snd w'))
    (rs_written st) (rs_written st').

Lemma process_commented o bt st st' f :
  (forall u, tf_unit f = Some u -> named_unit u) -> same_run st st' ->
  same_run (process_file o bt st (plain_file f)) (process_file_shown o bt st' f).
Proof.
  intros W (I & P & N & Wr). unfold process_file, process_file_shown.
  cbn [plain_file f_name f_text f_unit]. rewrite P.
  destruct (string_mem _ _); [repeat split; auto|].
  destruct (tf_unit f) as [u|]; [|repeat split; cbn; auto; congruence].
  destruct (handle_commented o bt (tf_text f) u (rs_id st) (W _ eq_refl)) as (H1 & H2 & H3).
  rewrite I. unfold same_run. cbn [rs_id rs_processed rs_info rs_written]. rewrite H1, H2, N.
  repeat split.
  destruct (h_output (handle_unit _ _ _ _ _)), (h_output (handle_unit_shown _ _ _ _ _));
    try contradiction; [|exact Wr].
  apply Forall2_app; [exact Wr|]. constructor; [|constructor]. cbn. split; [reflexivity|].
  destruct H3 as (ws & C & _). now exists ws.
Qed.

Lemma run_commented o bt fs : (forall f u, In f fs -> tf_unit f = Some u -> named_unit u) ->
  same_run (run o bt (map plain_file fs)) (run_shown o bt fs).
Proof.
  unfold run, run_from, run_shown. intro W.
  assert (G : forall st st', same_run st st' ->
    same_run (fold_left (process_file o bt) (map plain_file fs) st)
             (fold_left (process_file_shown o bt) fs st')).
  { induction fs as [|f fs IH]; intros st st' R; [exact R|]. cbn [map fold_left].
    apply IH; [intros; eapply W; eauto; now right|].
    apply process_commented; [intros; eapply W; eauto; now left|exact R]. }
  apply G. repeat split. constructor.
Qed.

Lemma run_only_comments o build_tree fs :
  (forall f u mt, In f fs -> tf_unit f = Some u -> In mt (post (tu_tree u)) ->
   well_named (snd mt)) ->
  let st := run o build_tree (map plain_file fs) in
  let st' := run_shown o build_tree fs in
  rs_id st' = rs_id st /\ rs_info st' = rs_info st /\
  Forall2 (fun w w' => fst w' = fst w /\ exists ws, commented ws (snd w) (snd w'))
    (rs_written st) (rs_written st').
Proof.
  intros W st st'. destruct (run_commented o build_tree fs) as (I & _ & N & Wr); [|auto].
  intros f u F U. apply Forall_forall. eauto.
Qed.

Lemma unit_described o build_tree text u id s :
  (forall mt, In mt (post (tu_tree u)) -> well_named (snd mt)) ->
  (forall mt, In mt (post (tu_tree u)) -> place (fst mt) <= String.length text) ->
  h_output (handle_unit o build_tree text (plain_unit u) id) = Some s ->
  exists s' ws, h_output (handle_unit_shown o build_tree text u id) = Some s' /\
    commented ws s s' /\
    Permutation ws (map (fun mt => says (snd mt)) (filter (described (tu_ctx u)) (post (tu_tree u)))).
Proof.
  intros W L E.
  destruct (handle_commented o build_tree text u id) as (_ & _ & H); [now apply Forall_forall|].
  rewrite E in H. destruct (h_output (handle_unit_shown _ _ _ _ _)) as [s'|]; [|contradiction].
  destruct H as (ws & C & P). exists s', ws. split; [reflexivity|]. split; [exact C|].
  rewrite P. apply Permutation_map.
  rewrite (filter_ext_in _ (described (tu_ctx u))); [apply Permutation_refl|].
  intros mt I. rewrite (proj2 (Nat.leb_le _ _) (L mt I)). apply andb_true_r.
Qed.

Lemma unit_described_cpp o build_tree text u id s :
  cpp (tu_ctx u) = true ->
  (forall mt, In mt (post (tu_tree u)) -> well_named (snd mt)) ->
  (forall mt, In mt (post (tu_tree u)) -> place (fst mt) <= String.length text) ->
  h_output (handle_unit o build_tree text (plain_unit u) id) = Some s ->
  exists s' ws, h_output (handle_unit_shown o build_tree text u id) = Some s' /\
    commented ws s s' /\
    Permutation ws (map (fun mt => says (snd mt)) (post (tu_tree u))).
Proof.
  intros C W L E. destruct (unit_described o build_tree text u id s W L E) as (s' & ws & H & Cm & P).
  exists s', ws. split; [exact H|]. split; [exact Cm|]. rewrite P. apply Permutation_map.
  rewrite (filter_ext_in _ (fun _ => true)).
  - enough (G : forall l : list typed_mutation, filter (fun _ => true) l = l)
      by exact (Permutation_refl' (G _)).
    intro l. induction l as [|x l IH]; cbn; congruence.
  - intros mt _. unfold described. rewrite C.
    destruct (fst mt) as [|b ? ? ?| |]; try reflexivity. destruct (b_op b); reflexivity.
Qed.
