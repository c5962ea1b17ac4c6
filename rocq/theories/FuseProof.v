(* Inserted texts and the tokens next to them. *)
From Coq Require Import String Ascii List Bool Arith Lia.
From Verif Require Import Base Clang Gen GenExpr GenBinary GenUnary GenStmt Rewriter Mutation
  MutTree Run TreeSpec RunSpec RunProof RewriterProof Lang Cst NestSpec NestProof.
Import ListNotations.
Local Open Scope string_scope.

Lemma ends_app s t : t <> "" -> ends_ident (s ++ t) = ends_ident t.
Proof.
  intro N. induction s as [|a s IH]; auto. cbn [append ends_ident].
  destruct (s ++ t) eqn:E; [|exact IH]. destruct s, t; try discriminate. congruence.
Qed.
Lemma ends_if (b : bool) s t : ends_ident s = false -> ends_ident t = false ->
  ends_ident (if b then s else t) = false.
Proof. destruct b; auto. Qed.
Lemma ends_app_if s t : t <> "" -> ends_ident t = false -> ends_ident (s ++ t) = false.
Proof. intros N H. rewrite ends_app; auto. Qed.
Lemma ends_app_or s t : ends_ident s = false -> ends_ident t = false -> ends_ident (s ++ t) = false.
Proof.
  intros S T. destruct t as [|a t].
  - rewrite sapp_nil_r. exact S.
  - apply ends_app_if; [discriminate|exact T].
Qed.
Lemma app_cons s a t : s ++ String a t = (s ++ String a "") ++ t.
Proof. rewrite sapp_assoc. reflexivity. Qed.

Definition quiet (e : edit) : Prop :=
  match e with
  | InsertBefore _ s => ends_ident s = false
  | InsertAfterToken _ s => starts_ident s = false /\ ends_ident s = false
  | ReplaceText _ _ s => starts_ident s = false
  end.

Lemma expr_quiet c o e id x : In x (expr_edits c o e id) -> quiet x.
Proof.
  intros [<-|[<-|[]]]; cbn [quiet].
  - unfold expr_prefix. rewrite <- !sapp_assoc.
    apply ends_app_or; [|destruct (e_binop e) as [[]|]; reflexivity].
    apply ends_app_or; [|apply ends_if; reflexivity].
    destruct (cpp c && e_side_effects e).
    + apply ends_app_or; [apply ends_app_if; [discriminate|reflexivity]|].
      destruct (e_cxx11_constant e); rewrite ?sapp_nil_r, <- ?sapp_assoc;
        (apply ends_app_if; [discriminate|reflexivity]).
    + rewrite sapp_nil_r. apply ends_app_if; [discriminate|reflexivity].
  - unfold expr_suffix. split.
    + destruct (e_binop e) as [[]|]; destruct (negb (cpp c) && e_lvalue e && _), (cpp c && e_side_effects e),
        (e_cxx11_constant e); reflexivity.
    + rewrite <- !sapp_assoc. apply ends_app_or; [|destruct (e_init_list_cast e); reflexivity].
      apply ends_app_if; [discriminate|reflexivity].
Qed.
Lemma binary_quiet c o b id x : In x (binary_edits c o b id) -> quiet x.
Proof.
  intros H. unfold binary_edits in H. cbv zeta in H.
  destruct H as [<-|[<-|[<-|[<-|[<-|[]]]]]]; cbn [quiet].
  - reflexivity.
  - destruct (lhs_delayed c b); [|destruct (negb (cpp c) && is_assign (b_op b))];
      rewrite <- ?sapp_assoc, ?sapp_nil_r; (apply ends_app_if; [discriminate|reflexivity]).
  - destruct (lhs_delayed c b); [|destruct (negb (cpp c) && is_assign (b_op b))]; split; reflexivity.
  - destruct (rhs_delayed c b); [|reflexivity]. rewrite <- ?sapp_assoc.
    apply ends_app_if; [discriminate|reflexivity].
  - split; [destruct (rhs_delayed c b); reflexivity|]. rewrite <- !sapp_assoc.
    apply ends_app_if; [discriminate|reflexivity].
Qed.
Lemma c_logical_quiet c o b id x : In x (c_logical_edits c o b id) -> quiet x.
Proof.
  intros H. unfold c_logical_edits in H.
  assert (P : forall s, ends_ident (s ++ "_lhs(") = false /\ ends_ident (s ++ "_rhs(") = false /\
                        ends_ident (s ++ "_outer(") = false).
  { intro s. repeat split; (apply ends_app_if; [discriminate|reflexivity]). }
  assert (C : starts_ident (", " ++ string_of_nat id ++ ")") = false /\
              ends_ident (", " ++ string_of_nat id ++ ")") = false).
  { split; [reflexivity|]. rewrite <- sapp_assoc. apply ends_app_if; [discriminate|reflexivity]. }
  destruct (P (binary_function_name c (optimise o) b)) as (P1 & P2 & P3).
  destruct (track o); cbn [negb when app In] in H; repeat destruct H as [<-|H]; try contradiction;
    cbn [quiet]; auto.
Qed.
Lemma unary_quiet c o u id x : In x (unary_edits c o u id) -> quiet x.
Proof.
  intros H. unfold unary_edits in H. cbv zeta in H.
  destruct H as [<-|[<-|[<-|[]]]]; cbn [quiet].
  - reflexivity.
  - rewrite <- !sapp_assoc. apply ends_app_or; [|apply ends_if; reflexivity].
    destruct (unary_delayed c u); [|rewrite sapp_nil_r; apply ends_app_if; [discriminate|reflexivity]].
    destruct (negb (e_cxx11_constant (u_sub u))); rewrite ?sapp_nil_r, <- ?sapp_assoc;
      (apply ends_app_if; [discriminate|reflexivity]).
  - split.
    + destruct (unary_delayed c u), (negb (cpp c) && is_incdec (u_op u)),
        (negb (e_cxx11_constant (u_sub u))); reflexivity.
    + rewrite <- !sapp_assoc. apply ends_app_if; [discriminate|reflexivity].
Qed.
Lemma stmt_quiet o s id x : In x (stmt_edits o s id) -> quiet x.
Proof.
  intros H. unfold stmt_edits in H. destruct H as [<-|H]; cbn [quiet].
  - unfold stmt_open. destruct (track o); rewrite <- ?sapp_assoc;
      (apply ends_app_if; [discriminate|reflexivity]).
  - destruct (track o); [contradiction|]. destruct H as [<-|[]]. cbn [quiet].
    unfold stmt_close. destruct (s_ext_comment s), (s_ext_semi s), (s_next_hash s);
      split; reflexivity.
Qed.

Lemma in_front_in es i s : In s (in_front es i) -> In (InsertBefore i s) es.
Proof.
  induction es as [|e es IH]; cbn [in_front]; auto.
  destruct e as [j x|j x|j n x]; intro H; [|right; auto|right; auto].
  apply in_app_iff in H. destruct H as [H|H]; [right; auto|].
  destruct (Nat.eqb_spec j i); cbn [andb] in H; [|contradiction]. subst.
  destruct (negb (String.eqb x "")); [|contradiction]. destruct H as [->|[]]. left. reflexivity.
Qed.
Lemma behind_in es i s : In s (behind es i) -> In (InsertAfterToken i s) es.
Proof.
  induction es as [|e es IH]; cbn [behind]; auto.
  destruct e as [j x|j x|j n x]; intro H; [right; auto| |right; auto].
  apply in_app_iff in H. destruct H as [H|H]; [|right; auto].
  destruct (Nat.eqb_spec j i); cbn [andb] in H; [|contradiction]. subst.
  destruct (negb (String.eqb x "")); [|contradiction]. destruct H as [->|[]]. left. reflexivity.
Qed.
Lemma in_front_app e1 e2 i : in_front (e1 ++ e2) i = (in_front e2 i ++ in_front e1 i)%list.
Proof.
  induction e1 as [|e e1 IH]; cbn [in_front app]; [rewrite app_nil_r; reflexivity|].
  destruct e as [j x|j x|j n x]; auto. rewrite IH, app_assoc. reflexivity.
Qed.

Lemma edits_quiet c o first ms : forall id x, In x (edits_from c o first id ms) -> quiet x.
Proof.
  induction ms as [|m ms IH]; intros id x H; [contradiction|].
  cbn [edits_from] in H. apply in_app_iff in H. destruct H as [H|H]; [|eauto].
  destruct m as [e i|b i1 i2 i3|u i1 i2|s i]; cbn [apply_mutation a_edits] in H.
  - eapply expr_quiet; eauto.
  - destruct (c_logical c b); [eapply c_logical_quiet|eapply binary_quiet]; eauto.
  - eapply unary_quiet; eauto.
  - eapply stmt_quiet; eauto.
Qed.

Lemma C41_inserted_lemma c o first id ms i s :
  (In s (in_front (edits_from c o first id ms) i) -> ends_ident s = false) /\
  (In s (behind (edits_from c o first id ms) i) -> starts_ident s = false /\ ends_ident s = false).
Proof.
  split; intro H.
  - apply in_front_in in H. exact (edits_quiet _ _ _ _ _ _ H).
  - apply behind_in in H. exact (edits_quiet _ _ _ _ _ _ H).
Qed.

Lemma alnum_ident a : ident_char a = false -> alnum a = false.
Proof. unfold ident_char. intro H. apply orb_false_iff in H. destruct H as [H _].
  apply orb_false_iff in H. tauto. Qed.

Lemma C41_outermost_lemma c o first id ms1 e info ms2 text i s rest :
  r_begin (e_range e) = i ->
  knows_before text (MutExpr e info) ->
  before ident_char text i = before alnum text i ->
  in_front (edits_from c o first
    (id + total c (optimise o) ms1 + mutant_count c (optimise o) (MutExpr e info)) ms2) i = [] ->
  in_front (edits_from c o first id (ms1 ++ MutExpr e info :: ms2)) i = (s :: rest)%list ->
  starts_ident s = true -> before ident_char text i = false.
Proof.
  intros B K A N F St. rewrite A. cbn [knows_before] in K. rewrite B in K. rewrite <- K.
  rewrite edits_from_app, in_front_app in F. cbn [edits_from apply_mutation a_edits] in F.
  rewrite in_front_app, N in F. cbn [app in_front expr_edits] in F. rewrite B, Nat.eqb_refl in F.
  destruct (String.eqb_spec (expr_prefix c o e) "") as [E|E].
  - exfalso. unfold expr_prefix in E. destruct (e_preceded_by_ident e); [discriminate|].
    destruct (e_init_list_cast e); discriminate.
  - cbn [andb negb app] in F. injection F as <- _. unfold expr_prefix in St.
    destruct (e_preceded_by_ident e); [discriminate|reflexivity].
Qed.
