(* C71: the lines of written files. *)
From Coq Require Import String Ascii List Arith NArith ZArith Bool Lia.
From Coq Require Import DecimalString.
From Verif Require Import Base Clang Gen GenExpr GenBinary GenUnary GenStmt Mutation MutTree TreeSpec
  Rewriter RewriterProof PreludeText Run RunSpec RunProof RunProof2 LineSpec LineProof.
Import ListNotations.
Local Open Scope string_scope.

(** * No newlines in what is inserted for expressions *)

Lemma newlines_type c t : newlines (ty_name c t) = 0.
Proof. destruct t; cbn; try reflexivity. destruct (prints_bool c); reflexivity. Qed.
Lemma newlines_underscore s : newlines (space_to_underscore s) = newlines s.
Proof.
  unfold space_to_underscore. induction s as [|x s IH]; [reflexivity|]. cbn [map_string newlines].
  rewrite IH. destruct (Ascii.eqb_spec x " ") as [->|N]; reflexivity.
Qed.
Lemma newlines_number n : newlines (string_of_nat n) = 0.
Proof. unfold string_of_nat, string_of_N. induction (N.to_uint (N.of_nat n)); auto. Qed.

Ltac flat :=
  repeat (rewrite newlines_app || rewrite newlines_type || rewrite newlines_underscore
          || rewrite newlines_number);
  repeat match goal with
         | |- context [if ?b then _ else _] => destruct b
         | |- context [match ?x with Some _ => _ | None => _ end] => destruct x
         | |- context [match ?x with Comma => _ | _ => _ end] => destruct x
         end;
  repeat (rewrite newlines_app || rewrite newlines_type || rewrite newlines_underscore
          || rewrite newlines_number);
  try reflexivity.

Lemma newlines_expr_name c b e : newlines (expr_function_name c b e) = 0.
Proof. unfold expr_function_name, optimisation_specifier. flat. Qed.
Lemma newlines_bop_name x : newlines (bop_name x) = 0.
Proof. destruct x; reflexivity. Qed.
Lemma newlines_uop_name x : newlines (uop_name x) = 0.
Proof. destruct x; reflexivity. Qed.
Lemma newlines_suffix s e : newlines s = 0 -> newlines (constant_suffix s e) = 0.
Proof. intros H. unfold constant_suffix. flat; rewrite H; reflexivity. Qed.
Lemma newlines_binary_name c b x : newlines (binary_function_name c b x) = 0.
Proof.
  unfold binary_function_name. rewrite !newlines_app, newlines_bop_name. 
  destruct (b && negb (is_assign (b_op x))); rewrite ?newlines_app, ?newlines_suffix by reflexivity; flat.
Qed.
Lemma newlines_unary_name c b x : newlines (unary_function_name c b x) = 0.
Proof. unfold unary_function_name. cbv zeta. rewrite !newlines_app, newlines_uop_name. flat. Qed.
Lemma newlines_input c e : newlines (input_type c e) = 0.
Proof. unfold input_type, cpp_type_modifiers, c_type_modifiers. flat. Qed.
Lemma newlines_lhs c b : newlines (binary_lhs_type c b) = 0.
Proof. unfold binary_lhs_type. flat. Qed.
Lemma newlines_prefix c o e : newlines (expr_prefix c o e) = 0.
Proof.
  unfold expr_prefix. rewrite !newlines_app, newlines_expr_name.
  destruct (e_binop e) as [[]|], (e_init_list_cast e), (cpp c && e_side_effects e), (e_cxx11_constant e);
    rewrite ?newlines_app, ?newlines_input; flat.
Qed.
Lemma newlines_expr_suffix c e n : newlines (expr_suffix c e n) = 0.
Proof.
  unfold expr_suffix. rewrite !newlines_app, newlines_number.
  destruct (e_binop e) as [[]|]; flat.
Qed.

Lemma binary_flat c o b id : forall e, In e (binary_edits c o b id) -> newlines (inserted_text e) = 0.
Proof.
  intros e H. unfold binary_edits in H. cbn [In] in H.
  destruct H as [<-|[<-|[<-|[<-|[<-|[]]]]]]; cbn [inserted_text]; rewrite ?newlines_app, ?newlines_binary_name;
    destruct (lhs_delayed c b), (rhs_delayed c b), (negb (cpp c) && is_assign (b_op b));
    unfold binary_rhs_type;
    rewrite ?newlines_app, ?newlines_lhs, ?newlines_type, ?newlines_number; reflexivity.
Qed.
Lemma unary_flat c o u id : forall e, In e (unary_edits c o u id) -> newlines (inserted_text e) = 0.
Proof.
  intros e H. unfold unary_edits in H. cbn [In] in H.
  destruct H as [<-|[<-|[<-|[]]]]; cbn [inserted_text]; unfold unary_input_type;
    rewrite ?newlines_app, ?newlines_unary_name;
    destruct (unary_delayed c u), (e_cxx11_constant (u_sub u)), (negb (cpp c) && is_incdec (u_op u));
    cbn [negb]; rewrite ?newlines_app, ?newlines_input, ?newlines_number; reflexivity.
Qed.
Lemma logical_flat c o b id : forall e, In e (c_logical_edits c o b id) -> newlines (inserted_text e) = 0.
Proof.
  intros e H. unfold c_logical_edits in H. cbv zeta in H. apply in_app_iff in H.
  assert (E : exists k s, (e = InsertBefore k (binary_function_name c (optimise o) b ++ s) /\ newlines s = 0)
                         \/ e = InsertAfterToken k (", " ++ string_of_nat id ++ ")")).
  { destruct (track o); cbn [negb when In] in H;
      repeat (destruct H as [H|H]; try contradiction); subst;
      try (eexists; exists ""; right; reflexivity);
      eexists; eexists; left; (split; [reflexivity|reflexivity]). }
  destruct E as (k & s & [(-> & N)| ->]); cbn [inserted_text]; rewrite !newlines_app;
    rewrite ?newlines_binary_name, ?newlines_number, ?N; reflexivity.
Qed.
Lemma expr_flat c o b id : forall e, In e (expr_edits c o b id) -> newlines (inserted_text e) = 0.
Proof.
  intros e [<-|[<-|[]]]; cbn [inserted_text]; [apply newlines_prefix|apply newlines_expr_suffix].
Qed.

Lemma inserts_flat l k : (forall e, In e l -> newlines (inserted_text e) = 0) -> inserts_all_by l k = 0.
Proof.
  intros H. unfold inserts_all_by. induction l as [|e l IH]; [reflexivity|].
  cbn [map list_sum fold_right]. unfold list_sum in IH. rewrite IH by (intros; apply H; now right).
  specialize (H e (or_introl eq_refl)). destruct e; cbn [inserts_by inserted_text] in *;
    try destruct (Nat.leb _ _); lia.
Qed.
Lemma inserts_app l1 l2 k : inserts_all_by (l1 ++ l2)%list k = inserts_all_by l1 k + inserts_all_by l2 k.
Proof. unfold inserts_all_by. rewrite map_app. apply list_sum_app. Qed.

Definition break_of (o : options) (k : nat) (m : mutation) : nat :=
  if track o then 0 else if breaks_line m && site_ends_by k m then 1 else 0.
Lemma site_inserts c o m first id k :
  inserts_all_by (a_edits (apply_mutation c o m first id)) k = break_of o k m.
Proof.
  destruct m as [e i|b i il ir|u i is|s i]; cbn [apply_mutation a_edits].
  - rewrite inserts_flat by apply expr_flat. unfold break_of. now destruct (track o).
  - destruct (c_logical c b); rewrite inserts_flat by (apply logical_flat || apply binary_flat);
      unfold break_of; now destruct (track o).
  - rewrite inserts_flat by apply unary_flat. unfold break_of. now destruct (track o).
  - unfold stmt_edits, stmt_open, break_of, inserts_all_by, stmt_close.
    destruct (track o); cbn [map list_sum fold_right inserts_by breaks_line site_ends_by];
      rewrite !newlines_app, newlines_number.
    + destruct (Nat.leb _ _); reflexivity.
    + destruct (s_ext_comment s), (s_ext_semi s), (s_next_hash s), (Nat.leb (r_begin (s_range s)) k),
        (Nat.leb (r_end (s_range s)) k); reflexivity.
Qed.
Lemma sites_insert c o first ms k : forall id,
  inserts_all_by (edits_from c o first id ms) k = list_sum (map (break_of o k) ms).
Proof.
  induction ms as [|m ms IH]; intros id; [reflexivity|]. cbn [edits_from map].
  rewrite inserts_app, site_inserts, IH. reflexivity.
Qed.
Lemma breaks_counted o u k : list_sum (map (break_of o k) (post (ui_tree u))) = new_lines_by o u k.
Proof.
  unfold new_lines_by, break_of. induction (post (ui_tree u)) as [|m l IH]; [now destruct (track o)|].
  cbn [map filter]. destruct (track o); [exact IH|].
  destruct (breaks_line m && site_ends_by k m); cbn [List.length];
    unfold list_sum in *; cbn [fold_right]; rewrite IH; lia.
Qed.

(** * What is replaced *)

Lemma site_covers c o m first id e k : In e (a_edits (apply_mutation c o m first id)) ->
  covers e k = true -> in_operator c m k.
Proof.
  assert (C : forall off n s, 0 < n -> covers (ReplaceText off n s) k = true -> off <= k < off + n).
  { intros off n s P H. cbn [covers] in H. apply orb_true_iff in H. destruct H as [H|H].
    - apply Nat.eqb_eq in H. lia.
    - apply andb_true_iff in H. destruct H as [A B]. apply Nat.leb_le in A. apply Nat.ltb_lt in B. lia. }
  destruct m as [x i|b i il ir|u i is|s i]; cbn [apply_mutation a_edits in_operator].
  - intros [<-|[<-|[]]] H; discriminate H.
  - unfold c_logical. destruct (negb (cpp c) && is_logical (b_op b)) eqn:L.
    + intros H V. unfold c_logical_edits in H. cbv zeta in H. apply in_app_iff in H.
      destruct (track o); cbn [negb when In] in H;
      repeat (destruct H as [H|H]; try contradiction); subst; discriminate V.
    + intros [<-|[<-|[<-|[<-|[<-|[]]]]]] V; try discriminate V. split.
      * destruct (cpp c); [now left|right; exact L].
      * apply (C _ _ _) in V; [assumption|]. destruct (b_op b); cbn; lia.
  - intros [<-|[<-|[<-|[]]]] V; try discriminate V.
    apply C in V; [assumption|]. destruct (u_op u); cbn; lia.
  - unfold stmt_edits. destruct (track o); intros H V; cbn [In] in H;
      repeat (destruct H as [<-|H]; [discriminate V|]); contradiction.
Qed.
Lemma sites_in c o first ms e : forall id, In e (edits_from c o first id ms) ->
  exists m id, In m ms /\ In e (a_edits (apply_mutation c o m first id)).
Proof.
  induction ms as [|m ms IH]; intros id H; [contradiction|]. cbn [edits_from] in H.
  apply in_app_iff in H. destruct H as [H|H].
  - exists m, id. split; [now left|assumption].
  - destruct (IH _ H) as (m' & id' & I & E). exists m', id'. split; [now right|assumption].
Qed.

Lemma site_replaces c o m first id e : In e (a_edits (apply_mutation c o m first id)) ->
  match e with ReplaceText _ _ s => newlines s = 0 | _ => True end.
Proof.
  destruct m as [x i|b i il ir|u i is|s i]; cbn [apply_mutation a_edits].
  - intros H. apply expr_flat in H. now destruct e.
  - destruct (c_logical c b); intros H; [apply logical_flat in H|apply binary_flat in H]; now destruct e.
  - intros H. apply unary_flat in H. now destruct e.
  - unfold stmt_edits. destruct (track o); intros H; cbn [In] in H;
      repeat (destruct H as [<-|H]; [exact I|]); contradiction.
Qed.

Lemma site_inserted_at c o m first id e k : In e (a_edits (apply_mutation c o m first id)) ->
  match e with
  | InsertBefore off _ | InsertAfterToken off _ => off
  | ReplaceText _ _ _ => S k
  end = k -> In k (site_ends m).
Proof.
  assert (Q : S k = k -> False) by lia.
  destruct m as [x i|b i il ir|u i is|s i]; cbn [apply_mutation a_edits site_ends ends_of app].
  - intros [<-|[<-|[]]]; cbn; tauto.
  - destruct (c_logical c b).
    + intros H. unfold c_logical_edits in H. cbv zeta in H. apply in_app_iff in H.
      destruct (track o); cbn [negb when In] in H;
      repeat (destruct H as [H|H]; try contradiction); subst; cbn; tauto.
    + intros [<-|[<-|[<-|[<-|[<-|[]]]]]]; cbn; tauto.
  - intros [<-|[<-|[<-|[]]]]; cbn; tauto.
  - unfold stmt_edits. destruct (track o); intros H; cbn [In] in H;
      repeat (destruct H as [<-|H]; [cbn; tauto|]); contradiction.
Qed.

(** * What is added ends a line *)

Definition ends_line (s : string) : Prop := exists s', s = s' ++ nl.
Lemma ends_line_app a b : ends_line b -> ends_line (a ++ b).
Proof. intros (s & ->). exists (a ++ s). now rewrite sapp_assoc. Qed.
Lemma ends_line_nl : ends_line nl.
Proof. now exists "". Qed.
Lemma prelude_ends c o i n : ends_line (prelude_text c o i n).
Proof.
  unfold prelude_text. apply ends_line_app.
  destruct (cpp c), (track o); [unfold tracking_prelude_cpp|unfold regular_prelude_cpp|
    unfold tracking_prelude_c|unfold regular_prelude_c];
  repeat first [exact ends_line_nl | apply ends_line_app].
Qed.
Lemma function_ends c o m g : In g (site_functions c o m) -> ends_line (print_mfun g).
Proof.
  intros H. assert (E : ends_line (mf_close g)).
  { destruct m as [x i|b i il ir|u i is|s i]; cbn [site_functions] in H.
    - destruct H as [<-|[]]. repeat apply ends_line_app. exact ends_line_nl.
    - destruct (c_logical c b).
      + unfold c_logical_functions in H.
        destruct (track o); cbn [negb when In app] in H;
        repeat (destruct H as [<-|H]; [repeat first [exact ends_line_nl | apply ends_line_app]|]); contradiction.
      + destruct H as [<-|[]]. repeat apply ends_line_app. exact ends_line_nl.
    - destruct H as [<-|[]]. repeat apply ends_line_app. exact ends_line_nl.
    - contradiction. }
  unfold print_mfun. repeat apply ends_line_app. exact E.
Qed.
Lemma concat_ends p l : ends_line p -> Forall ends_line l -> ends_line (p ++ concat_strings l).
Proof.
  intros P F. revert p P. induction F as [|s l S F IH]; intros p P; cbn [concat_strings].
  - now rewrite sapp_nil_r.
  - rewrite <- sapp_assoc. apply IH. now apply ends_line_app.
Qed.

(** * Written files *)

Lemma get_last s : forall n, String.length (s ++ nl) = S n -> get n (s ++ nl) = Some line_feed.
Proof.
  induction s as [|x s IH]; intros n H; cbn in H.
  - injection H as <-. reflexivity.
  - injection H as <-. destruct (String.length (s ++ nl)) as [|k] eqn:E; [|now apply IH].
    rewrite append_length in E. cbn in E. lia.
Qed.
Lemma prefix_get a b k : k < String.length a -> get k (a ++ b) = get k a.
Proof.
  revert k. induction a as [|x a IH]; intros k H; cbn in H; [lia|]. destruct k; [reflexivity|].
  cbn. apply IH. lia.
Qed.

Lemma firstn_update {A} (f : A -> A) n : forall k l, k <= n ->
  firstn k (update_nth n f l) = firstn k l.
Proof.
  induction n as [|n IH]; intros k l H.
  - replace k with 0 by lia. reflexivity.
  - destruct k as [|k]; [reflexivity|]. destruct l as [|x l]; [reflexivity|].
    cbn [update_nth firstn]. now rewrite IH by lia.
Qed.
Lemma firstn_upto {A} (l : list A) d : forall i n, i < n -> n <= List.length l ->
  firstn n l = (firstn i l ++ [nth i l d] ++ firstn (n - S i) (skipn (S i) l))%list.
Proof.
  induction l as [|x l IH]; intros i n H L; cbn in L; [lia|].
  destruct n as [|n]; [lia|]. destruct i as [|i].
  - cbn [firstn nth skipn app Nat.sub]. now rewrite Nat.sub_0_r.
  - cbn [firstn nth]. change (skipn (S (S i)) (x :: l)) with (skipn (S i) l).
    change (S n - S (S i)) with (n - S i). rewrite (IH i n) by lia. reflexivity.
Qed.

Lemma C71_full o bt fs n t :
  (forall f, In f fs -> well_placed f) ->
  In (n, t) (rs_written (run o bt fs)) ->
  exists f u added front back,
    In f fs /\ Run.f_name f = n /\ f_unit f = Some u /\
    t = front ++ added ++ back /\
    (exists id num rest, added = prelude_text (ui_ctx u) o id num ++ rest) /\
    let text := f_text f in
    let off := ui_prelude_offset u in
    (in_one_line u text ->
     exists pos : nat -> nat,
       (forall i j, i <= j -> j <= String.length text -> pos i <= pos j) /\
       (forall i j, i < j -> j <= String.length text -> kept u i -> pos i < pos j) /\
       (forall i, i < off -> pos i <= String.length front) /\
       (forall i, off <= i -> i <= String.length text ->
          String.length front + String.length added <= pos i) /\
       (forall i, i < String.length text -> kept u i -> get (pos i) t = get i text) /\
       (forall i, i <= String.length text ->
          line_at t (pos i) =
          line_at text i + (if Nat.leb off i then newlines added else 0) + new_lines_by o u i) /\
       (forall i j, i <= j -> j <= String.length text -> line_begins text i -> line_ends text j ->
          untouched u i j -> off <= i \/ j < off ->
          line_begins t (pos i) /\ line_ends t (pos j) /\ pos j = pos i + (j - i) /\
          substring (pos i) (j - i) t = substring i (j - i) text)).
Proof.
  intros W H. rewrite run_written in H. apply output_split in H.
  destruct H as (d1 & f & u & d2 & E & U & N & H). simpl in H.
  set (id := list_sum (map (offers o) d1)) in *.
  unfold handle_unit in H. rewrite apply_mutations_id in H.
  destruct (apply_mutations_effects (ui_ctx u) o true id (tidy (ui_tree u))) as (Ee & Ed).
  rewrite Ee, Ed in H.
  destruct (Nat.eqb_spec id (id + tree_total (ui_ctx u) (optimise o) (tidy (ui_tree u))))
    as [C|C]; [discriminate|].
  cbn [h_output] in H. injection H as <-.
  assert (If : In f fs).
  { assert (In f (RunSpec.distinct [] fs)) as I by (rewrite E; apply in_elt). apply distinct_in in I. tauto. }
  rewrite post_tidy in *.
  set (num := id + tree_total (ui_ctx u) (optimise o) (tidy (ui_tree u)) - id) in *.
  set (decls := map print_mfun (flat_map (site_functions (ui_ctx u) o) (post (ui_tree u)))) in *.
  set (c := ui_ctx u) in *. set (off := ui_prelude_offset u) in *.
  set (text := f_text f) in *.
  set (sites := edits_from c o id id (post (ui_tree u))) in *.
  set (added := prelude_text c o id num ++ concat_strings (rev (sorted_decls decls))).
  assert (Wp : off <= String.length text) by (now apply W).
  assert (Ends : ends_line added).
  { apply concat_ends; [apply prelude_ends|]. apply Forall_forall. intros d Hd.
    rewrite <- in_rev in Hd. rewrite sorted_decls_in in Hd. unfold decls in Hd. apply in_map_iff in Hd.
    destruct Hd as (g & <- & Hd). apply in_flat_map in Hd. destruct Hd as (m & _ & Hd).
    now apply (function_ends c o m). }
  pose (es := (sites ++ ui_rewrites u)%list).
  pose (all := (es ++ prelude_edits c o id num off decls)%list).
  rewrite app_assoc. fold es. fold all.
  (* the cell at the place of the prelude *)
  assert (Same : forall x k, effs (prelude_edits c o id num off decls) k x =
                             if Nat.eqb k off then (added ++ fst x, snd x) else x).
  { intros x k. pose proof (apply_edits_nth (prelude_edits c o id num off decls) (repeat x (S k)) k) as A.
    rewrite prelude_edits_apply, update_nth_nth in A.
    rewrite nth_error_repeat in A by lia. cbn [option_map] in A.
    destruct (Nat.eqb k off); injection A as A; rewrite <- A; [|reflexivity].
    unfold added. now rewrite sapp_assoc. }
  assert (Effs : forall x k, effs all k x = effs (prelude_edits c o id num off decls) k (effs es k x)).
  { intros x k. unfold all, effs. apply fold_left_app. }
  assert (AllIn : forall e, In e all -> In e es \/ exists s, e = InsertBefore off s).
  { intros e He. unfold all in He. apply in_app_iff in He. destruct He as [He|He]; [now left|right].
    unfold prelude_edits in He. apply in_app_iff in He. destruct He as [He|[<-|[]]].
    - apply in_map_iff in He. destruct He as (s & <- & _). now exists s.
    - now eexists. }
  assert (Count : forall k, inserts_all_by (prelude_edits c o id num off decls) k =
                            if Nat.leb off k then newlines added else 0).
  { intros k. unfold prelude_edits. rewrite inserts_app. unfold added. rewrite newlines_app.
    assert (L : forall l, inserts_all_by (map (InsertBefore off) l) k =
                          if Nat.leb off k then newlines (concat_strings (rev l)) else 0).
    { induction l as [|s l IH]; [cbn; now destruct (Nat.leb off k)|]. cbn [map rev].
      change (InsertBefore off s :: map (InsertBefore off) l)%list
        with ([InsertBefore off s] ++ map (InsertBefore off) l)%list.
      rewrite inserts_app, IH, concat_strings_app, newlines_app. cbn [concat_strings].
      rewrite sapp_nil_r. unfold inserts_all_by. cbn [map list_sum fold_right inserts_by].
      destruct (Nat.leb off k); lia. }
    rewrite L. unfold inserts_all_by. cbn [map list_sum fold_right inserts_by].
    destruct (Nat.leb off k); lia. }
  destruct (C28_text_lemma text es off Wp) as (front & back & Tx).
  exists f, u, added, (render (firstn off (apply_edits es (cells_of text)))),
    (render (skipn off (apply_edits es (cells_of text)))).
  clear front back Tx.
  split; [assumption|]. split; [assumption|]. split; [assumption|].
  split. { unfold all, rewrite. rewrite apply_edits_app, prelude_edits_apply.
    rewrite (update_nth_ext _ _ (fun x => (added ++ fst x, snd x)))
      by (intros; unfold added; rewrite sapp_assoc; reflexivity).
    apply render_prepend. rewrite apply_edits_length, cells_length. lia. }
  split. { unfold added. eexists. eexists. eexists. reflexivity. }
  intros text' off' (One & Rw).
  change text' with text in *. change off' with off in *. clear text' off'.
  assert (Kept : forall k, kept u k -> untouched_char all k).
  { intros k (K1 & K2) e He. apply AllIn in He. destruct He as [He|(s & ->)]; [|reflexivity].
    destruct (covers e k) eqn:V; [|reflexivity]. exfalso.
    unfold es in He. apply in_app_iff in He. destruct He as [He|He].
    - apply sites_in in He. destruct He as (m & id' & Im & He).
      apply (K1 m Im). eapply site_covers; eassumption.
    - apply (K2 e He). destruct e as [a s|a s|a len s]; try discriminate V. cbn [covers in_constant] in *.
      apply orb_true_iff in V. destruct V as [V|V]; [left; now apply Nat.eqb_eq|right].
      apply andb_true_iff in V. destruct V as [A B]. apply Nat.leb_le in A. apply Nat.ltb_lt in B. lia. }
  assert (Hr : forall e, In e all -> match e with ReplaceText _ _ s => newlines s = 0 | _ => True end).
  { intros e He. apply AllIn in He. destruct He as [He|(s & ->)]; [|exact I].
    unfold es in He. apply in_app_iff in He. destruct He as [He|He].
    - apply sites_in in He. destruct He as (m & id' & _ & He). eapply site_replaces; eassumption.
    - apply Rw in He. now destruct e. }
  assert (Hl : forall k, get k text = Some line_feed -> untouched_char all k).
  { intros k G. apply Kept, One, G. }
  assert (Cs : cs text all = update_nth off (fun x => (added ++ fst x, snd x))
                              (apply_edits es (cells_of text))).
  { unfold cs, all. rewrite apply_edits_app, prelude_edits_apply. apply update_nth_ext.
    intros; unfold added; rewrite sapp_assoc; reflexivity. }
  assert (Fr : render (firstn off (cs text all)) = render (firstn off (apply_edits es (cells_of text)))).
  { rewrite Cs. f_equal. apply firstn_update. lia. }
  exists (pos text all). split; [|split; [|split; [|split; [|split; [|split]]]]].
  - intros i j A B. now apply pos_mono.
  - intros i j A B K. apply pos_strict; [lia|now apply Kept|assumption|assumption].
  - intros i A. rewrite <- Fr. unfold pos, before.
    rewrite (firstn_upto (cs text all) ("", "") i off) by (rewrite ?cs_length; lia).
    rewrite !render_app. unfold render at 3. cbn [map concat_strings]. unfold cell_text.
    fold (cell_at text all i). rewrite !append_length. lia.
  - intros i A B. transitivity (pos text all off); [|now apply pos_mono].
    unfold pos, before. rewrite Fr, append_length. apply Nat.add_le_mono_l.
    rewrite cell_at_eq by assumption. rewrite Effs, Same, Nat.eqb_refl. cbn [fst].
    rewrite append_length. lia.
  - intros i A K. apply kept_get; [assumption|now apply Kept].
  - intros i A. rewrite (line_number text all Hr Hl i A). unfold all. rewrite inserts_app, Count.
    unfold es. rewrite inserts_app, (inserts_flat (ui_rewrites u)) by assumption.
    unfold sites. rewrite sites_insert, breaks_counted. lia.
  - intros i j A B Lb Le Un Off.
    assert (Nothing : forall k, i <= k <= j -> forall e, In e es ->
       match e with InsertBefore a _ | InsertAfterToken a _ => a <> k | ReplaceText _ _ _ => True end).
    { intros k Hk e He. destruct (Un k Hk) as (_ & U1 & U2).
      unfold es in He. apply in_app_iff in He. destruct He as [He|He].
      - apply sites_in in He. destruct He as (m & id' & Im & He).
        pose proof (fun Q => U1 m Im (site_inserted_at c o m id id' e k He Q)) as X.
        destruct e; [exact X|exact X|exact I].
      - apply U2 in He. destruct e; [exact He|exact He|exact I]. }
    assert (Rest : forall k, i < k <= j -> nothing_at all k).
    { intros k Hk e He. apply AllIn in He. destruct He as [He|(s & ->)].
      - apply (Nothing k); [lia|assumption].
      - lia. }
    assert (St : before text all (i + (j - i)) = before text all i ++ substring i (j - i) text).
    { apply stretch; [lia| |].
      - intros k Hk. apply Kept. apply (Un k). lia.
      - intros k Hk. apply Rest. lia. }
    replace (i + (j - i)) with j in St by lia.
    assert (Ln : String.length (substring i (j - i) text) = j - i).
    { clear -A B. revert i j A B. induction text as [|x s IH]; intros i j A B; cbn in B.
      - assert (i = 0) by lia. assert (j = 0) by lia. subst. reflexivity.
      - destruct i as [|i].
        + rewrite Nat.sub_0_r. destruct j as [|j]; [reflexivity|]. cbn [substring String.length]. f_equal.
          specialize (IH 0 j ltac:(lia) ltac:(lia)). now rewrite Nat.sub_0_r in IH.
        + destruct j as [|j]; [lia|]. cbn [Nat.sub substring]. apply IH; lia. }
    assert (Pj : pos text all j = pos text all i + (j - i)).
    { unfold pos. now rewrite St, append_length, Ln. }
    split; [|split; [|split]].
    + (* begins *)
      assert (Ai : i <= String.length text) by lia.
      assert (Fi : fst (cell_at text all i) = if Nat.eqb i off then added else "").
      { rewrite cell_at_eq by assumption. rewrite Effs, Same.
        assert (Z : forall x, fst x = "" -> fst (effs es i x) = "").
        { intros x Hx. rewrite effs_fst_nothing; [assumption|]. intros e He. apply Nothing; [lia|assumption]. }
        destruct (Nat.eqb i off); cbn [fst].
        - rewrite Z; [now rewrite sapp_nil_r|]. now destruct (get i text).
        - apply Z. now destruct (get i text). }
      assert (Bi : before text all i = "" \/ ends_line (before text all i)).
      { unfold before. rewrite Fi. destruct (Nat.eqb_spec i off) as [->|No].
        - right. now apply ends_line_app.
        - rewrite sapp_nil_r. destruct Lb as [->|(k & -> & G)]; [now left|right].
          rewrite (firstn_S (cs text all) ("", "") k) by (rewrite cs_length; lia).
          rewrite render_app. apply ends_line_app. unfold render. cbn [map concat_strings].
          rewrite sapp_nil_r. unfold cell_text. apply ends_line_app.
          fold (cell_at text all k). rewrite (kept_cell text all k line_feed G) by (try lia; now apply Hl).
          exact ends_line_nl. }
      destruct Bi as [Z|(s & Z)].
      * left. unfold pos. now rewrite Z.
      * right. assert (P : pos text all i = S (String.length s)).
        { unfold pos. rewrite Z, append_length. cbn. lia. }
        exists (String.length s). split; [assumption|].
        rewrite (text_split text all i Ai), Z.
        rewrite prefix_get by (rewrite append_length; cbn; lia).
        apply get_last. rewrite append_length. cbn. lia.
    + (* ends *)
      destruct (Nat.eq_dec j (String.length text)) as [->|Nj].
      * left. rewrite (text_split text all (String.length text)) by lia. unfold pos.
        rewrite get_app. unfold behind. rewrite cell_at_eq by lia. rewrite get_end.
        rewrite effs_snd by (apply Kept, Un; lia).
        rewrite skipn_all2 by (rewrite cs_length; lia). reflexivity.
      * destruct Le as [G|G]; [destruct (get_lt text j ltac:(lia)) as (x & Gx); congruence|].
        right. rewrite kept_get; [assumption|lia|]. now apply Hl.
    + exact Pj.
    + assert (Aj : j <= String.length text) by lia.
      rewrite (text_split text all j Aj), St. rewrite sapp_assoc. unfold pos.
      rewrite <- Ln at 1. apply substring_mid.
Qed.

Lemma C71_lemma o bt fs n t :
  (forall f, In f fs -> well_placed f) ->
  In (n, t) (rs_written (run o bt fs)) ->
  exists f u added front back,
    In f fs /\ Run.f_name f = n /\ f_unit f = Some u /\
    t = front ++ added ++ back /\ String.prefix "// DREDD PRELUDE START" added = true /\
    let text := f_text f in
    let off := ui_prelude_offset u in
    (in_one_line u text ->
     exists pos : nat -> nat,
       (forall i j, i <= j -> j <= String.length text -> pos i <= pos j) /\
       (forall i j, i < j -> j <= String.length text -> kept u i -> pos i < pos j) /\
       (forall i, i < off -> pos i <= String.length front) /\
       (forall i, off <= i -> i <= String.length text ->
          String.length front + String.length added <= pos i) /\
       (forall i, i < String.length text -> kept u i -> get (pos i) t = get i text) /\
       (forall i, i <= String.length text ->
          line_at t (pos i) =
          line_at text i + (if Nat.leb off i then newlines added else 0) + new_lines_by o u i) /\
       (forall i j, i <= j -> j <= String.length text -> line_begins text i -> line_ends text j ->
          untouched u i j -> off <= i \/ j < off ->
          line_begins t (pos i) /\ line_ends t (pos j) /\ pos j = pos i + (j - i) /\
          substring (pos i) (j - i) t = substring i (j - i) text)).
Proof.
  intros W H. destruct (C71_full o bt fs n t W H)
    as (f & u & added & front & back & I & N & U & T & (id & num & rest & P) & R).
  exists f, u, added, front, back. repeat (split; [assumption|]). split; [|exact R].
  rewrite P. unfold prelude_text, prelude_start_comment. reflexivity.
Qed.

Lemma C71_constant_lemma o bt fs n t :
  (forall f, In f fs -> well_placed f) ->
  (track o = true \/
   forall f u m, In f fs -> f_unit f = Some u -> In m (post (ui_tree u)) -> breaks_line m = false) ->
  In (n, t) (rs_written (run o bt fs)) ->
  exists f u shift,
    In f fs /\ Run.f_name f = n /\ f_unit f = Some u /\
    let text := f_text f in
    (in_one_line u text ->
     exists pos : nat -> nat,
       (forall i, i < String.length text -> kept u i -> get (pos i) t = get i text) /\
       (forall i, i <= String.length text ->
          line_at t (pos i) =
          line_at text i + (if Nat.leb (ui_prelude_offset u) i then shift else 0))).
Proof.
  intros W B H. destruct (C71_lemma o bt fs n t W H) as (f & u & added & front & back & I & N & U & _ & _ & R).
  exists f, u, (newlines added). split; [exact I|]. split; [exact N|]. split; [exact U|]. intros text One.
  destruct (R One) as (p & _ & _ & _ & _ & G & L & _). exists p. split; [exact G|]. intros i Hi.
  rewrite (L i Hi). assert (Z : new_lines_by o u i = 0); [|rewrite Z; apply Nat.add_0_r].
  unfold new_lines_by. destruct B as [->|B]; [reflexivity|]. destruct (track o); [reflexivity|].
  assert (A : forall m, In m (post (ui_tree u)) -> breaks_line m = false) by (intros m; now apply (B f)).
  induction (post (ui_tree u)) as [|m l IH]; [reflexivity|]. cbn [filter].
  rewrite (A m) by now left. cbn [andb]. apply IH. intros; apply A; now right.
Qed.
