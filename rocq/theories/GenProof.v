(* Facts about the generators. *)
From Coq Require Import String Ascii List Arith ZArith Bool Lia.
From Verif Require Import Base Clang Gen GenExpr GenBinary GenUnary GenStmt Mutation GenSpec
  RunSpec RunProof RewriterProof.
Import ListNotations.

(** * C07 *)

Lemma number_from_nth {A} (l : list A) : forall base k,
  nth_error (number_from base l) k =
  match nth_error l k with Some x => Some (base + k, x) | None => None end.
Proof.
  induction l as [|x l IH]; intros base k.
  - destruct k; reflexivity.
  - destruct k; simpl; [rewrite Nat.add_0_r; reflexivity|].
    rewrite IH. rewrite Nat.add_succ_r. reflexivity.
Qed.

Lemma number_from_length {A} (l : list A) : forall k,
  List.length (number_from k l) = List.length l.
Proof. induction l; intros; simpl; auto. Qed.

Lemma tests_match_intro {A} (meaning : A -> option rhs) base (ms : list (A * rhs)) :
  (forall m, In m ms -> meaning (fst m) = Some (snd m)) ->
  tests_match meaning base (number_from base (map fst ms)) (number_from 0 (map snd ms)).
Proof.
  intros H. split; [rewrite !number_from_length, !map_length; reflexivity|].
  intros k x a E. rewrite number_from_nth in E.
  rewrite nth_error_map in E. destruct (nth_error ms k) as [m|] eqn:Em; [|discriminate].
  simpl in E. injection E as <- <-. split; [reflexivity|].
  exists (snd m). split; [apply H; eapply nth_error_In; eassumption|].
  rewrite number_from_nth, nth_error_map, Em. reflexivity.
Qed.

Lemma when_in {A} b (l : list A) x : In x (when b l) -> b = true /\ In x l.
Proof. destruct b; simpl; tauto. Qed.

Lemma expr_mutants_meaning c opt e m :
  In m (expr_mutants c opt e) -> expr_meaning c (fst m) = Some (snd m).
Proof.
  unfold expr_mutants, lvalue_insertions, nonlvalue_insertions, constant_replacements,
    boolean_replacements, integer_replacements, float_replacements.
  intros H.
  repeat match goal with
         | H : In _ (_ ++ _) |- _ => apply in_app_iff in H; destruct H as [H|H]
         | H : In _ (when _ _) |- _ => apply when_in in H; destruct H as (_ & H)
         | H : In _ (if ?b then _ else _) |- _ => destruct b
         | H : In _ [] |- _ => contradiction
         | H : In _ (_ :: _) |- _ => destruct H as [<-|H]; [reflexivity|]
         end.
Qed.

Lemma candidate_not_comma b o : In o (candidate_ops b) -> o <> Comma.
Proof.
  unfold candidate_ops. destruct (find _ _) as [g|] eqn:F; [|intros []].
  apply find_some in F. destruct F as (F & _). intros H ->.
  apply in_app_iff in H. destruct H as [H|H].
  - simpl in F. intuition (subst g; simpl in H; intuition discriminate).
  - apply in_app_iff in H. destruct H as [H|H]; apply when_in in H; simpl in H;
      intuition discriminate.
Qed.

Lemma binary_mutants_meaning opt b m :
  In m (binary_mutants opt b) -> bin_meaning (fst m) = Some (snd m).
Proof.
  unfold binary_mutants, operator_replacements, argument_replacements. intros H.
  apply in_app_iff in H. destruct H as [H|H].
  - rewrite in_map_iff in H. destruct H as (o & <- & H).
    unfold replacement_ops in H. apply filter_In in H. destruct H as (H & _).
    apply candidate_not_comma in H. destruct o; try reflexivity. contradiction.
  - repeat match goal with
         | H : In _ (_ ++ _) |- _ => apply in_app_iff in H; destruct H as [H|H]
         | H : In _ (when _ _) |- _ => apply when_in in H; destruct H as (_ & H)
         | H : In _ (if ?b then _ else _) |- _ => destruct b
         | H : In _ [] |- _ => contradiction
         | H : In _ (_ :: _) |- _ => destruct H as [<-|H]; [reflexivity|]
         end.
Qed.

Lemma unary_mutants_meaning opt u m :
  In m (unary_mutants opt u) -> un_meaning (fst m) = Some (snd m).
Proof.
  unfold unary_mutants. intros H. apply in_app_iff in H. destruct H as [H|H].
  - rewrite in_map_iff in H. destruct H as (o & <- & H).
    unfold replacement_uops in H. apply filter_In in H. destruct H as (H & _).
    simpl in H. intuition (subst; reflexivity).
  - apply when_in in H. destruct H as (_ & [<-|[]]). reflexivity.
Qed.

Lemma apply_uop_original o : apply_uop o = original_unary o.
Proof. destruct o; reflexivity. Qed.

Lemma calls_expr c o e n : calls (expr_edits c o e n) (expr_function_name c (optimise o) e) n.
Proof.
  unfold expr_edits. split.
  - do 3 eexists. left. f_equal. unfold expr_prefix.
    set (name := expr_function_name c (optimise o) e).
    match goal with |- (?A ++ ?B ++ name ++ "(" ++ ?R)%string = _ =>
      rewrite <- (sapp_assoc A B) end. reflexivity.
  - do 3 eexists. exists [InsertBefore (r_begin (e_range e)) (expr_prefix c o e)]. split.
    + cbn [app]. do 2 f_equal. unfold expr_suffix.
      match goal with |- InsertAfterToken _ (?A ++ ?B ++ ?C ++ ", " ++ ?R)%string = _ =>
        rewrite <- (sapp_assoc B C), <- (sapp_assoc A) end. reflexivity.
    + destruct (e_init_list_cast e); auto.
Qed.

Lemma calls_unary c o u n :
  calls (unary_edits c o u n) (unary_function_name c (optimise o) u) n.
Proof.
  unfold unary_edits. cbn zeta. split.
  - do 3 eexists. right. left. f_equal.
    set (name := unary_function_name c (optimise o) u).
    instantiate (2 := ""%string). reflexivity.
  - do 3 eexists. eexists (_ :: _ :: nil). split.
    + cbn [app]. do 3 f_equal. f_equal.
      match goal with |- (?A ++ ?B ++ ", " ++ ?N ++ ")")%string = _ =>
        rewrite <- (sapp_assoc A B) end.
      instantiate (1 := ""%string). reflexivity.
    + auto.
Qed.

Lemma calls_binary c o b n :
  calls (binary_edits c o b n) (binary_function_name c (optimise o) b) n.
Proof.
  unfold binary_edits. cbn zeta. split.
  - do 3 eexists. right. left. f_equal.
    instantiate (2 := ""%string). reflexivity.
  - do 3 eexists. eexists (_ :: _ :: _ :: _ :: nil). split.
    + cbn [app]. do 5 f_equal. f_equal. instantiate (1 := ""%string). reflexivity.
    + auto.
Qed.

Lemma C07_lemma c o m first id :
  track o = false ->
  let a := apply_mutation c o m first id in
  match m, a_group a with
  | MutExpr e _, GroupReplaceExpr _ l =>
      let f := expr_function c o e in
      tests_match (expr_meaning c) id l (mf_lines f) /\ mf_orig f = RArg1 /\
      calls (a_edits a) (mf_name f) (id - first) /\ a_decls a = [print_mfun f]
  | MutBinary b _ _ _, GroupReplaceBinary _ _ _ op l =>
      op = b_op b /\
      (c_logical c b = false ->
       let f := binary_function c o b in
       tests_match bin_meaning id l (mf_lines f) /\ mf_orig f = RBin op /\
       calls (a_edits a) (mf_name f) (id - first) /\ a_decls a = [print_mfun f])
  | MutUnary u _ _, GroupReplaceUnary _ _ op l =>
      let f := unary_function c o u in
      op = u_op u /\
      tests_match un_meaning id l (mf_lines f) /\ mf_orig f = original_unary op /\
      calls (a_edits a) (mf_name f) (id - first) /\ a_decls a = [print_mfun f]
  | MutStmt s _, GroupRemoveStmt id' _ =>
      id' = id /\
      a_edits a = [InsertBefore (r_begin (s_range s))
                     ("if (!__dredd_enabled_mutation(" ++ string_of_nat (id - first)
                      ++ ")) { ")%string;
                   InsertAfterToken (r_end (s_range s)) (stmt_close s)]
  | _, _ => False
  end.
Proof.
  intros T. cbn zeta. destruct m as [e i|b i il ir|u i is|s i]; cbn [apply_mutation a_group].
  - cbn [expr_function mf_lines mf_orig mf_name a_edits a_decls]. rewrite T. cbn [negb when].
    split; [apply tests_match_intro, expr_mutants_meaning|].
    split; [reflexivity|]. split; [apply calls_expr|reflexivity].
  - split; [reflexivity|]. intros L. cbn [a_edits a_decls]. rewrite L.
    cbn [binary_function mf_lines mf_orig mf_name]. rewrite T. cbn [negb when].
    unfold binary_actions. rewrite L.
    split; [apply tests_match_intro, binary_mutants_meaning|].
    split; [reflexivity|]. split; [apply calls_binary|reflexivity].
  - split; [reflexivity|]. cbn [unary_function mf_lines mf_orig mf_name a_edits a_decls].
    rewrite T. cbn [negb when].
    split; [apply tests_match_intro, unary_mutants_meaning|].
    split; [apply apply_uop_original|]. split; [apply calls_unary|reflexivity].
  - split; [reflexivity|]. cbn [a_edits]. unfold stmt_edits, stmt_open. rewrite T. reflexivity.
Qed.

Lemma C07_c_logical_lemma c o b i il ir first id :
  track o = false -> c_logical c b = true ->
  let a := apply_mutation c o (MutBinary b i il ir) first id in
  exists fl fr fo l,
    a_group a = GroupReplaceBinary i il ir (b_op b) l /\
    a_decls a = [print_mfun fl; print_mfun fr; print_mfun fo] /\
    (let close := (", " ++ string_of_nat (id - first) ++ ")")%string in
     a_edits a = [InsertBefore (r_begin (e_range (b_lhs b))) (mf_name fl ++ "(")%string;
                  InsertAfterToken (r_end (e_range (b_lhs b))) close;
                  InsertBefore (r_begin (e_range (b_rhs b))) (mf_name fr ++ "(")%string;
                  InsertAfterToken (r_end (e_range (b_rhs b))) close;
                  InsertBefore (r_begin (b_range b)) (mf_name fo ++ "(")%string;
                  InsertAfterToken (r_end (b_range b)) close]) /\
    c_logical_encoded (b_op b) fl fr fo id l.
Proof.
  intros T L. cbn zeta.
  exists (c_logical_lhs_function c o b), (c_logical_rhs_function c o b),
    (c_logical_outer_function c o b), (number_from id (c_logical_actions b)).
  cbn [apply_mutation a_group a_decls a_edits]. unfold binary_actions. rewrite L.
  split; [reflexivity|]. split; [unfold c_logical_functions; rewrite T; reflexivity|].
  split.
  { unfold c_logical_edits. rewrite T. cbn [negb when app].
    unfold c_logical_lhs_function, c_logical_rhs_function, c_logical_outer_function.
    cbn [c_logical_fun mf_name]. rewrite !sapp_assoc. reflexivity. }
  assert (Q : b_op b = LAnd \/ b_op b = LOr)
    by (unfold c_logical in L; destruct (b_op b), (cpp c); auto; discriminate).
  unfold c_logical_encoded, helper_result, c_logical_lhs_function, c_logical_rhs_function,
    c_logical_outer_function, c_logical_actions, c_logical_unit.
  cbn [c_logical_fun mf_lines mf_orig]. rewrite T.
  split; [reflexivity|]. split; [reflexivity|]. split; [reflexivity|].
  destruct Q as [->| ->]; cbn [bop_eqb negb when number_from List.length].
  all: split; [intros [] []; reflexivity|split].
  all: try (intros [|[|[|k]]] x y H; cbn in H; try lia; destruct x, y; reflexivity).
  all: intros [|[|[|k]]] i' a H; cbn in H; try (destruct k; discriminate); injection H as <- <-;
    (split; [lia|]); intros [] []; reflexivity.
Qed.

(** * C21 *)

Lemma in_nonempty {A} (x : A) l : In x l -> 0 < List.length l.
Proof. destruct l; simpl; [contradiction | lia]. Qed.
Lemma app_nonempty_l {A} (l l' : list A) : 0 < List.length l -> 0 < List.length (l ++ l').
Proof. rewrite app_length. lia. Qed.
Lemma app_nonempty_r {A} (l l' : list A) : 0 < List.length l' -> 0 < List.length (l ++ l').
Proof. rewrite app_length. lia. Qed.

Lemma C21_lemma c m : plausible m -> 0 < mutant_count c false m.
Proof.
  destruct m as [e i|b i il ir|u i is|s i]; cbn [plausible mutant_count]; intros P.
  - unfold expr_mutants. destruct (e_lvalue e) eqn:L.
    + apply app_nonempty_l, app_nonempty_l. unfold lvalue_insertions.
      rewrite L, (P eq_refl). simpl. lia.
    + apply app_nonempty_r. unfold constant_replacements. rewrite L.
      unfold boolean_replacements, integer_replacements, float_replacements.
      unfold is_integer. destruct (e_ty e); simpl; lia.
  - unfold binary_actions. destruct (c_logical c b) eqn:L; [simpl; lia|].
    rewrite map_length. unfold binary_mutants.
    destruct (is_assign (b_op b)) eqn:A.
    + apply app_nonempty_l. unfold operator_replacements. rewrite map_length.
      apply (in_nonempty (if bop_eqb (b_op b) Assign then AddAssign else Assign)).
      unfold replacement_ops. apply filter_In. split.
      * unfold candidate_ops. destruct (b_op b) eqn:Eo; try discriminate;
          apply in_or_app; left; cbn; tauto.
      * unfold valid_op. destruct (b_op b) eqn:Eo; try discriminate; cbn;
          rewrite andb_false_r; reflexivity.
    + apply app_nonempty_r. unfold argument_replacements. rewrite A. simpl. lia.
  - unfold unary_mutants. apply app_nonempty_r. simpl. lia.
  - lia.
Qed.

(** * C23 *)

Lemma sublist_refl {A} (l : list A) : sublist l l.
Proof. induction l; constructor; assumption. Qed.
Lemma sublist_nil_l {A} (l : list A) : sublist [] l.
Proof. induction l; constructor; assumption. Qed.
Lemma sublist_app {A} (a a' b b' : list A) :
  sublist a a' -> sublist b b' -> sublist (a ++ b) (a' ++ b').
Proof. induction 1; simpl; intros; try constructor; auto. Qed.
Lemma sublist_when {A} b b' (l l' : list A) :
  (b = true -> b' = true) -> sublist l l' -> sublist (when b l) (when b' l').
Proof.
  destruct b; intros H S; simpl; [|apply sublist_nil_l]. rewrite H by reflexivity. exact S.
Qed.
Lemma sublist_map {A B} (f : A -> B) l l' : sublist l l' -> sublist (map f l) (map f l').
Proof. induction 1; simpl; constructor; assumption. Qed.
Lemma sublist_filter {A} (p q : A -> bool) l :
  (forall x, p x = true -> q x = true) -> sublist (filter p l) (filter q l).
Proof.
  intros H. induction l as [|x l IH]; simpl; [constructor|].
  destruct (p x) eqn:E.
  - rewrite (H _ E). constructor; assumption.
  - destruct (q x); [constructor|]; assumption.
Qed.

Ltac sub :=
  repeat first [ apply sublist_refl
               | apply sublist_app
               | apply sublist_when; [solve [auto]|]
               | apply sublist_nil_l ].

Lemma expr_sublist c e : sublist (expr_mutants c true e) (expr_mutants c false e).
Proof.
  unfold expr_mutants, lvalue_insertions, nonlvalue_insertions, constant_replacements,
    boolean_replacements, integer_replacements, float_replacements.
  cbn [negb orb]. destruct (e_lvalue e); sub.
Qed.

Lemma binary_sublist b : sublist (binary_mutants true b) (binary_mutants false b).
Proof.
  unfold binary_mutants, operator_replacements, argument_replacements, replacement_ops.
  apply sublist_app.
  - apply sublist_map, sublist_filter. intros x.
    destruct (bop_eqb x (b_op b)), (valid_op b x); simpl; auto.
  - cbn [negb orb andb]. destruct (is_relational (b_op b)); [sub|].
    destruct (is_assign (b_op b)); sub.
Qed.

Lemma unary_sublist u : sublist (unary_mutants true u) (unary_mutants false u).
Proof.
  unfold unary_mutants, replacement_uops. apply sublist_app.
  - apply sublist_map, sublist_filter. intros x.
    destruct (uop_eqb x (u_op u)), (valid_uop u x); simpl; auto.
  - cbn [negb orb]. sub.
Qed.

Lemma C23_lemma c m :
  match m with
  | MutExpr e _ => sublist (expr_mutants c true e) (expr_mutants c false e)
  | MutBinary b _ _ _ => sublist (binary_actions c true b) (binary_actions c false b) /\
                         sublist (binary_mutants true b) (binary_mutants false b)
  | MutUnary u _ _ => sublist (unary_mutants true u) (unary_mutants false u)
  | MutStmt _ _ => True
  end.
Proof.
  destruct m as [e i|b i il ir|u i is|s i]; auto using expr_sublist, unary_sublist.
  split; [|apply binary_sublist]. unfold binary_actions.
  destruct (c_logical c b); [apply sublist_refl|apply sublist_map, binary_sublist].
Qed.
