(* Functions that have been read from text are executed like the functions they were printed
   from. *)
From Coq Require Import String Ascii List Arith NArith ZArith Bool Lia.
From Verif Require Import Base Clang Gen GenExpr GenBinary GenUnary GenStmt Mutation GenSpec
  ClashSpec TypeSpec CText FunText FunSpec GenProof CTextProof FunProof FunProof2 FunProof3.
From Verif Require Import Lang Cst SimSpec SimRel SimProof SimMutate TextLang.
Import ListNotations.
Local Open Scope string_scope.

(** * Types *)

Lemma words_name c t : type_named (FunSpec.words c t) = Some t.
Proof. destruct t; cbn [FunSpec.words]; try destruct (prints_bool c); reflexivity. Qed.
Lemma same_words_refl l : same_words l l = true.
Proof. induction l as [|a l IH]; cbn; [reflexivity|]. now rewrite String.eqb_refl. Qed.
Lemma same_type_refl t : same_type t t = true.
Proof. induction t; cbn; auto using same_words_refl. Qed.

Definition passing_of (p : plain) : passing :=
  match p with
  | TypeSpec.ByValue _ => ByValue
  | TypeSpec.ByReference _ _ _ => ByReference
  | TypeSpec.ByPointer _ _ _ => ByPointer
  end.
(* Types that are not const *)
Definition plain_sane (p : plain) : Prop :=
  match p with
  | TypeSpec.ByValue _ => True
  | TypeSpec.ByReference _ _ k | TypeSpec.ByPointer _ _ k => k = false
  end.
Definition sane (p : param) : Prop :=
  match p with
  | TypeSpec.Direct p => plain_sane p
  | TypeSpec.Delayed p => plain_sane p /\ passing_of p <> ByPointer
  end.

Lemma way_plain c p : plain_sane p -> way (plain_type c p) = Some (passing_of p, plain_ty p).
Proof.
  destruct p as [t|t [] k|t [] k]; cbn; intros E; rewrite ?E; cbn; now rewrite words_name.
Qed.
Lemma declared_plain c p : plain_sane p ->
  declared c (plain_text c p) = Some (Direct (passing_of p) (plain_ty p)) /\
  declared c (wrap_function true (plain_text c p)) = Some (Delayed (passing_of p) (plain_ty p)).
Proof.
  intros S. apply declared_spelling.
  destruct p as [t|t [] k|t [] k]; cbn in S; rewrite ?S; cbn; auto 10.
Qed.
Lemma read_plain c p : read_type (plain_text c p) = Some (plain_type c p).
Proof.
  unfold plain_text, qualified, ty_name, plain_type, FunSpec.words. destruct c as [? pb ? ?].
  cbn [prints_bool].
  destruct p as [ty|ty [] []|ty [] []]; destruct ty; try destruct pb; vm_compute; reflexivity.
Qed.
Lemma writes_plain c p : writes_type (plain_text c p) (plain_type c p) = true.
Proof. unfold writes_type. rewrite read_plain. apply same_type_refl. Qed.

(** * Terms *)

(* What has been read of a function *)
Record reads (c : ctx) (ds : list fdef) (f : mfun) (d : fdef) (two : bool) (result : plain)
  (p1 p2 : param) : Prop := {
  reads_well_formed : FunProof2.well_formed c two result p1 p2 f;
  reads_definition : d = definition c two result p1 p2 f;
  reads_resolved : resolved ds (symbol_of d) = Some d;
  reads_first : sane p1;
  reads_second : sane p2;
  reads_result : plain_sane result /\ passing_of result <> ByPointer;
  reads_fast : mf_fast f = true -> mf_track f = None
}.

Section Sim.
Variable L : lang.
Variable R : runtime.
Variable c : ctx.
Variable ds : list fdef.
Notation tm := (tm L).

Inductive sim : tm -> tm -> Prop :=
| sim_value v : sim (RV v) (RV v)
| sim_object l : sim (RL l) (RL l)
| sim_node k args args' : (forall f id, k <> KM f id) -> Forall2 sim args args' ->
    sim (N k args) (N k args')
| sim_call f d two result p1 p2 id args args' :
    reads c ds f d two result p1 p2 -> Forall2 sim args args' ->
    sim (N (KM (called (symbol_of d)) id) args) (N (KM f id) args').

Definition sim_operand (x y : operand L) : Prop := fst x = fst y /\ sim (snd x) (snd y).

Lemma sim_wrong : sim (N KWrong []) (N KWrong []).
Proof. constructor; [discriminate|constructor]. Qed.
Lemma sim_wrong_operand : sim_operand wrong (false, N KWrong []).
Proof. split; [reflexivity|apply sim_wrong]. Qed.
Lemma sim_one k a b : (forall f id, k <> KM f id) -> sim a b -> sim (N k [a]) (N k [b]).
Proof. intros. constructor; auto. Qed.
Lemma sim_two k a b a' b' : (forall f id, k <> KM f id) -> sim a a' -> sim b b' ->
  sim (N k [a; b]) (N k [a'; b']).
Proof. intros. constructor; auto. Qed.
Lemma sim_rvalue x y : sim_operand x y -> sim (rvalue x) (rvalue y).
Proof.
  intros [E S]. unfold rvalue. rewrite E. destruct (fst y); [|assumption].
  apply sim_one; [discriminate|assumption].
Qed.
Lemma sim_lvalue x y : sim_operand x y -> sim (lvalue x) (lvalue y).
Proof.
  intros [E S]. unfold lvalue. rewrite E. destruct (fst y); [assumption|apply sim_wrong].
Qed.
Lemma sim_unary_expression o x y : sim_operand x y ->
  sim_operand (unary_expression L c o x) (unary_expression L c o y).
Proof.
  intros S. unfold unary_expression. destruct (is_incdec o); split; cbn; try reflexivity;
    (apply sim_one; [discriminate|]); auto using sim_lvalue, sim_rvalue.
Qed.
Lemma sim_expression r x1 x2 y1 y2 : sim_operand x1 y1 -> sim_operand x2 y2 ->
  sim_operand (expression L c r x1 x2) (expression L c r y1 y2).
Proof.
  intros S1 S2. destruct r; cbn [expression]; auto using sim_unary_expression.
  - destruct (is_incdec o); split; cbn; try reflexivity; [|apply sim_wrong].
    apply sim_one; [discriminate|now apply sim_lvalue].
  - destruct (is_logical o); [|destruct (is_assign o); [|destruct (bop_eqb o Comma)]];
      split; cbn; try reflexivity; try apply sim_wrong;
      (apply sim_two; [discriminate| |]); auto using sim_lvalue, sim_rvalue.
  - split; [reflexivity|constructor].
Qed.

(** * Arguments *)

Lemma sim_passed p a b : plain_sane p -> sim a b ->
  sim (given L (plain_type c p) a) (pass L c (param_text c (TypeSpec.Direct p)) b).
Proof.
  intros S H. unfold pass. cbn [param_text].
  rewrite (proj1 (declared_plain c p S)).
  assert (E : given L (plain_type c p) a =
    match way (plain_type c p) with
    | Some (ByValue, t) => N (KAt t) [a]
    | Some (ByReference, _) => N KLv [a]
    | Some (ByPointer, _) => a
    | None => N KWrong []
    end) by (destruct p; reflexivity).
  rewrite E, way_plain by assumption.
  destruct (passing_of p); auto; (apply sim_one; [discriminate|assumption]).
Qed.
Lemma sim_passed_lambda p a b : plain_sane p -> passing_of p <> ByPointer -> sim a b ->
  sim (given L (FFunction (plain_type c p)) (N (KLambda (plain_text c p)) [a]))
    (pass L c (param_text c (TypeSpec.Delayed p)) (N (KLambda (plain_text c p)) [b])).
Proof.
  intros S P H. unfold pass.
  change (param_text c (TypeSpec.Delayed p)) with (wrap_function true (plain_text c p)).
  rewrite (proj2 (declared_plain c p S)), String.eqb_refl.
  cbn [given]. rewrite writes_plain, way_plain by assumption.
  destruct (passing_of p); try contradiction;
    (apply sim_one; [discriminate|]; apply sim_one; [discriminate|assumption]).
Qed.

(** * Bodies *)

Lemma means_access p x a b ps : sane p ->
  bound L ps x = option_map (pair (param_type c p)) a ->
  match a with Some a => sim a b | None => b = N KWrong [] end ->
  sim_operand (means L c ps (access_tree (access_of p) x))
    (accessed L c (param_text c p) (access_of p) b).
Proof.
  intros S B H.
  destruct p as [p|p].
  - cbn [param_text sane] in *. unfold accessed. rewrite (proj1 (declared_plain c p S)).
    destruct p as [t|t v k|t v k];
      cbn [access_of access_tree passing_of means number_literal];
      try (change (prefix_operator "*") with (@None uop); cbn [String.eqb Ascii.eqb Bool.eqb]);
      rewrite B; (destruct a as [a|]; [|subst b; cbn; apply sim_wrong_operand]);
      destruct H; cbn; try apply sim_wrong_operand; split; cbn; try reflexivity;
      repeat constructor; discriminate.
  - destruct S as [S P]. unfold accessed.
    change (param_text c (TypeSpec.Delayed p)) with (wrap_function true (plain_text c p)).
    rewrite (proj2 (declared_plain c p S)).
    cbn [access_of access_tree means number_literal]. rewrite B.
    destruct p as [t|t v k|t v k]; try (exfalso; now apply P); cbn [passing_of].
    + destruct a as [a|]; [|subst b; cbn; apply sim_wrong_operand].
      destruct H as [| |k args args' K H|]; cbn; try apply sim_wrong_operand.
      destruct k; try apply sim_wrong_operand.
      destruct H as [|? ? ? ? E H]; try apply sim_wrong_operand.
      destruct H; try apply sim_wrong_operand. now split.
    + destruct a as [a|]; [|subst b; cbn; apply sim_wrong_operand].
      destruct H as [| |kk args args' K H|]; cbn; try apply sim_wrong_operand.
      destruct kk; try apply sim_wrong_operand.
      destruct H as [|? ? ? ? E H]; try apply sim_wrong_operand.
      destruct H; try apply sim_wrong_operand. now split.
Qed.

Lemma means_tree two x y ps r x1 x2 : usual two r = true ->
  sim_operand (means L c ps (access_tree x (name1 two))) x1 ->
  (two = true -> sim_operand (means L c ps (access_tree y "arg2")) x2) ->
  sim_operand (means L c ps (rhs_tree two x y r)) (expression L c r x1 x2).
Proof.
  intros U A1 A2. unfold rhs_tree.
  set (t1 := access_tree x (name1 two)) in *. set (t2 := access_tree y "arg2") in *.
  assert (N1 : forall s, number_literal L (EUn s t1) = None).
  { intros s. subst t1. destruct x; cbn; repeat (destruct s as [|[[] [] [] [] [] [] [] []] s]; try reflexivity). }
  destruct r as [| |o|o|o|o|l]; cbn [tree expression].
  - assumption.
  - apply A2, U.
  - assert (E : means L c ps (EUn (sign1 o) t1) =
              unary_expression L c (as_prefix o) (means L c ps t1)).
    { cbn [means]. rewrite N1. destruct o; try discriminate U; reflexivity. }
    rewrite E. now apply sim_unary_expression.
  - destruct o; try discriminate U; cbn; (split; [reflexivity|]); cbn;
      (apply sim_one; [discriminate|now apply sim_lvalue]).
  - assert (E : means L c ps (EUn (sign1 o) t1) =
              unary_expression L c (as_prefix o) (means L c ps t1)).
    { cbn [means]. rewrite N1. destruct o; try discriminate U; reflexivity. }
    rewrite E. now apply sim_unary_expression.
  - cbn [usual] in U. apply andb_true_iff in U as [-> U]. specialize (A2 eq_refl).
    destruct o; try discriminate U; cbn; (split; [reflexivity|]); cbn;
      (apply sim_two; [discriminate| |]); auto using sim_lvalue, sim_rvalue.
  - destruct l as [z|z|b]; cbn [usual] in U;
      try (apply small_cases in U; destruct U as [->|[->| ->]]); cbn;
      (split; [reflexivity|constructor]).
Qed.

(** * Calls *)

Section Body.
Variables (two : bool) (result : plain) (p1 p2 : param) (f : mfun).
Let tree_of (r : rhs) : cexpr := rhs_tree two (access_of p1) (access_of p2) r.

Lemma execute_lines id lines rest d :
  execute R id (fold_right (fun p s => CSeq (snd p) s) rest
    (map (fun l => (line_tokens two (access_of p1) (access_of p2) l,
                    line_stmt two (access_of p1) (access_of p2) l)) lines)) d =
  match first_test R lines id d with
  | None => None
  | Some (d, Some r) => Some (d, Some (tree_of r))
  | Some (d, None) => execute R id rest d
  end.
Proof.
  revert d. induction lines as [|[k r] lines IH]; intros d; [reflexivity|].
  cbn [map fold_right snd execute first_test line_stmt condition id_of String.eqb Ascii.eqb
       Bool.eqb fst].
  change (String.eqb "__dredd_enabled_mutation" "__dredd_enabled_mutation") with true.
  cbn iota. rewrite Nat2N.id.
  destruct (rt_query R (id + k) d) as [[d' []]|]; [reflexivity| |reflexivity]. apply IH.
Qed.

Lemma execute_body id d : (mf_fast f = true -> mf_track f = None) ->
  execute R id (body two p1 p2 f) d =
  match tested R f id d with
  | None => None
  | Some (d, Some r) => Some (d, Some (tree_of r))
  | Some (d, None) =>
      match recorded_call R f id d with
      | None => None
      | Some d => Some (d, Some (tree_of (mf_orig f)))
      end
  end.
Proof.
  intros F. unfold body, pieces. rewrite !fold_right_app.
  assert (K : forall d, execute R id (fold_right (fun p s => CSeq (snd p) s)
      (CSeq (CReturn (Some (tree_of (mf_orig f)))) CSkip)
      match mf_track f with Some k => [(record_tokens k, record_stmt k)] | None => [] end) d =
    match recorded_call R f id d with
    | None => None
    | Some d => Some (d, Some (tree_of (mf_orig f)))
    end).
  { intros d'. unfold recorded_call. destruct (mf_track f) as [k|]; [|reflexivity].
    cbn [fold_right snd execute record_stmt id_of].
    change (String.eqb "__dredd_record_covered_mutants" "__dredd_record_covered_mutants") with true.
    change (String.eqb "local_mutation_id" "local_mutation_id") with true.
    cbn iota. rewrite Nat2N.id. destruct (rt_record R id k d'); reflexivity. }
  unfold tested. destruct (mf_fast f) eqn:M; cbn [andb app fold_right].
  - cbn [snd execute fast_stmt condition].
    change (String.eqb "!" "!" && String.eqb "__dredd_some_mutation_enabled"
      "__dredd_some_mutation_enabled") with true. cbn iota.
    destruct (rt_flag R id d); cbn [negb].
    + rewrite execute_lines. destruct (first_test R (mf_lines f) id d) as [[d' []]|];
        [reflexivity| |reflexivity]. apply K.
    + unfold recorded_call. rewrite F by reflexivity. reflexivity.
  - rewrite execute_lines. destruct (first_test R (mf_lines f) id d) as [[d' []]|];
      [reflexivity| |reflexivity]. apply K.
Qed.
End Body.

Lemma sim_nth args args' i : Forall2 sim args args' ->
  match nth_error args i with Some a => sim a (argument args' i)
  | None => argument args' i = N KWrong [] end.
Proof.
  intros H. revert i. induction H as [|a b args args' S H IH]; intros [|i]; cbn; auto.
  apply IH.
Qed.

Lemma bound_first two p1 p2 (args : list tm) :
  bound L (combine (params c two p1 p2) args) (name1 two) =
  option_map (pair (param_type c p1)) (nth_error args 0).
Proof. destruct two, args as [|a args]; reflexivity. Qed.
Lemma bound_second p1 p2 (args : list tm) :
  bound L (combine (params c true p1 p2) args) "arg2" =
  option_map (pair (param_type c p2)) (nth_error args 1).
Proof. destruct args as [|a [|b args]]; reflexivity. Qed.

Lemma sim_returned q x y : plain_sane q -> passing_of q <> ByPointer -> sim_operand x y ->
  sim (gives_back L (plain_type c q) x) (returned L c (plain_text c q) y).
Proof.
  intros S P H. unfold gives_back, returned.
  rewrite way_plain, (proj1 (declared_plain c q S)) by assumption.
  destruct (passing_of q); try contradiction; [|now apply sim_lvalue].
  apply sim_one; [discriminate|now apply sim_rvalue].
Qed.

Lemma call_same f d two result p1 p2 id args args' rt :
  reads c ds f d two result p1 p2 -> Forall2 sim args args' ->
  match call_text L R c d id args rt, call_mutator L R c f id args' rt with
  | Some (rt1, t), Some (rt2, t') => rt1 = rt2 /\ sim t t'
  | None, None => True
  | _, _ => False
  end.
Proof.
  intros [W -> _ S1 S2 [S3 P3] F] H. unfold call_text, call_mutator.
  cbn [fd_body definition fd_result fd_params]. rewrite execute_body by assumption.
  assert (B : forall r, usual two r = true ->
    sim (gives_back L (plain_type c result)
           (means L c (combine (params c two p1 p2) args)
              (rhs_tree two (access_of p1) (access_of p2) r)))
      (mutator_body L c f args' r)).
  { intros r U. unfold mutator_body. rewrite (wf_result _ _ _ _ _ _ W).
    apply sim_returned; auto. rewrite (wf_access _ _ _ _ _ _ W). cbn [fst snd].
    unfold parameter. rewrite (wf_params _ _ _ _ _ _ W).
    apply means_tree; [assumption| |].
    - replace (match nth_error (if two then _ else _) 0 with Some p => fst p | None => "" end)
        with (param_text c p1) by (destruct two; reflexivity).
      apply (means_access _ _ (nth_error args 0)); auto; [apply bound_first|].
      exact (sim_nth args args' 0 H).
    - intros ->. cbn [nth_error fst].
      apply (means_access _ _ (nth_error args 1)); auto; [apply bound_second|].
      exact (sim_nth args args' 1 H). }
  assert (T : forall d' r, tested R f id rt = Some (d', Some r) -> usual two r = true).
  { unfold tested. destruct (mf_fast f && negb (rt_flag R id rt)); [discriminate|].
    intros d' r. pose proof (wf_lines _ _ _ _ _ _ W) as Q. revert rt.
    induction Q as [|[k r0] l U Q IH]; intros rt; cbn [first_test]; [discriminate|].
    destruct (rt_query R (id + k) rt) as [[rt' []]|]; [|apply IH|discriminate].
    intros E. injection E as _ <-. exact U. }
  destruct (tested R f id rt) as [[d' [r|]]|] eqn:E; [| |exact I].
  - split; [reflexivity|]. apply B. eapply T. reflexivity.
  - destruct (recorded_call R f id d') as [d2|]; [|exact I]. split; [reflexivity|].
    apply B, (wf_orig _ _ _ _ _ _ W).
Qed.

(** * Steps *)

Lemma sim_final t t' : sim t t' -> final t = final t'.
Proof.
  intros H. destruct H as [| |k args args' K F|]; try reflexivity.
  destruct k; try reflexivity; cbn [final]; destruct F as [|? ? ? ? S F]; try reflexivity.
  destruct F; [|reflexivity]. now destruct S.
Qed.
Lemma sim_active t : forall t', sim t t' -> active t = active t'.
Proof.
  induction t as [v|l|k args IH] using tm_induction; intros t' H; inversion H; subst;
    try reflexivity.
  - assert (E : existsb active args = existsb active args').
    { clear H. match goal with X : Forall2 sim args args' |- _ =>
        revert IH; induction X as [|a b l l' S X IHX]; intros IH; [reflexivity|] end.
      inversion IH; subst. cbn. f_equal; auto. }
    destruct k; cbn [active]; auto.
  - cbn [active].
    clear H. match goal with X : Forall2 sim args args' |- _ =>
      revert IH; induction X as [|a b l l' S X IHX]; intros IH; [reflexivity|] end.
    inversion IH; subst. cbn. f_equal; auto.
Qed.
Lemma sims_active args args' : Forall2 sim args args' -> existsb active args = existsb active args'.
Proof. induction 1; cbn; [reflexivity|]. f_equal; auto using sim_active. Qed.
Lemma sims_final args args' : Forall2 sim args args' -> forallb final args = forallb final args'.
Proof. induction 1; cbn; [reflexivity|]. f_equal; auto using sim_final. Qed.
Lemma sim_is_result t t' : sim t t' -> is_result t = is_result t'.
Proof. now destruct 1. Qed.
Lemma sim_result t t' : sim t t' -> is_result t = true -> t = t'.
Proof. destruct 1; try discriminate; reflexivity. Qed.
Lemma sims_results args args' : Forall2 sim args args' -> results args = results args'.
Proof.
  induction 1 as [|a b l l' S H IH]; [reflexivity|]. unfold results in *. cbn [flat_map].
  rewrite IH. now destruct S.
Qed.
Lemma sims_is_result args args' : Forall2 sim args args' ->
  forallb is_result args = forallb is_result args'.
Proof. induction 1; cbn; [reflexivity|]. f_equal; auto using sim_is_result. Qed.
Lemma sim_skip : sim skip skip.
Proof. constructor; [discriminate|constructor]. Qed.
Lemma sim_sequence l l' : Forall2 sim l l' -> sim (sequence l) (sequence l').
Proof.
  induction 1; cbn; [apply sim_skip|]. apply sim_two; [discriminate|assumption..].
Qed.
Lemma sim_from_label p labels ts ss : Forall2 sim ts ss ->
  match from_label L p labels ts, from_label L p labels ss with
  | Some l, Some l' => Forall2 sim l l' | None, None => True | _, _ => False end.
Proof.
  intros H. revert labels. induction H as [|t s ts ss S H IH]; intros [|ls labels]; cbn; auto.
  destruct (has_label p ls); [now constructor|]. apply IH.
Qed.
Lemma sim_switch labels v ts ss : Forall2 sim ts ss ->
  Forall2 sim (switch_body L labels v ts) (switch_body L labels v ss).
Proof.
  intros H. unfold switch_body.
  match goal with |- context [from_label L ?p labels ts] =>
    pose proof (sim_from_label p labels ts ss H) as A end.
  destruct (from_label _ _ labels ts), (from_label _ _ labels ss); try contradiction; auto.
  match goal with |- context [from_label L ?p labels ts] =>
    pose proof (sim_from_label p labels ts ss H) as B end.
  destruct (from_label _ _ labels ts), (from_label _ _ labels ss); try contradiction; auto.
Qed.

Variables bt bm : string -> option tm.
Hypothesis B : forall g, match bt g, bm g with
  | Some t, Some t' => sim t t' | None, None => True | _, _ => False end.
Variable cpp17 : bool.

Definition same_outcome (x y : outcome L R) : Prop :=
  match x, y with
  | Some (m, d, t), Some (m', d', t') => m = m' /\ d = d' /\ sim t t'
  | None, None => True
  | _, _ => False
  end.

Lemma same_next m d t t' : sim t t' -> same_outcome (Some (m, d, t)) (Some (m, d, t')).
Proof. intros. repeat split; auto. Qed.

Ltac look :=
  match goal with
  | |- same_outcome None None => exact I
  | |- same_outcome (Some _) (Some _) => apply same_next
  | S : sim ?a ?b |- same_outcome ?x _ =>
      match x with context [match a with _ => _ end] => destruct S end
  | H : Forall2 sim ?l ?l' |- same_outcome ?x _ =>
      match x with context [match l with _ => _ end] => destruct H end
  | |- same_outcome (match ?x with _ => _ end) _ =>
      match x with context [match _ with _ => _ end] => fail 1 | _ => destruct x end
  end; cbn beta iota.

Lemma head_same e m d k args args' : (forall f id, k <> KM f id) -> Forall2 sim args args' ->
  same_outcome (head L R c bt e m d k args) (head L R c bm e m d k args').
Proof.
  intros K H. destruct k; try (exfalso; eapply K; reflexivity); cbn [head].
  all: try solve [repeat look; try (constructor; try discriminate); auto].
  - (* KIncDec *)
    repeat look. destruct o; try constructor; destruct (cpp c); constructor.
  - repeat look. destruct (cpp c); constructor.
  - repeat look. destruct (truth L v); assumption.
  - destruct H as [|a a' l l' Sa H]; [exact I|]. destruct H as [|b b' l l' Sb H]; [exact I|].
    destruct H; [|exact I]. rewrite (sim_is_result a a' Sa). destruct (is_result a'); [|exact I].
    apply same_next. assumption.
  - pose proof (sims_is_result args args' H) as E. destruct H as [|a a' l l' Sa H]; [exact I|].
    rewrite E. destruct (forallb is_result (a' :: l')); [|exact I].
    apply same_next. assumption.
  - rewrite (sims_is_result args args' H), (sims_results args args' H).
    destruct (forallb is_result args'); [|exact I].
    pose proof (B f) as Bf. destruct (bt f) as [s|], (bm f) as [s'|]; try contradiction.
    + destruct (enter L f (results args') m) as [[e' m']|]; [|exact I].
      apply same_next. apply sim_one; [discriminate|assumption].
    + destruct (library L f (results args') m) as [[v m']|]; [|exact I].
      apply same_next. constructor.
  - destruct H as [|a a' l l' Sa H]; [exact I|]. destruct H; [|exact I].
    rewrite (sim_is_result a a' Sa). destruct (is_result a'); [|exact I].
    apply same_next. apply sim_skip.
  - repeat look. destruct (truth L v); assumption.
  - destruct H as [|b b' l l' Sb H]; [exact I|]. destruct H as [|s s' l l' Ss H]; [exact I|].
    destruct H; [|exact I]. apply same_next.
    repeat first [assumption|apply sim_skip|constructor|discriminate].
  - destruct H as [|b b' l l' Sb H]; [exact I|]. destruct H as [|s s' l l' Ss H]; [exact I|].
    destruct H; [|exact I]. apply same_next.
    repeat first [assumption|apply sim_skip|constructor|discriminate].
  - destruct H as [|b b' l l' Sb H]; [exact I|]. destruct H as [|i i' l l' Si H]; [exact I|].
    destruct H as [|s s' l l' Ss H]; [exact I|].
    destruct H; [|exact I]. apply same_next.
    repeat first [assumption|apply sim_skip|constructor|discriminate].
  - destruct H as [|a a' l l' Sa H]; [exact I|]. destruct Sa; try exact I.
    apply same_next. apply sim_one; [discriminate|]. apply sim_sequence, sim_switch. assumption.
  - destruct H as [|a a' l l' Sa H]; [exact I|]. destruct H; [|exact I].
    destruct (rt_query R id d) as [[d' b]|]; [|exact I]. apply same_next.
    destruct b; [apply sim_skip|assumption].
Qed.

Lemma its_turn_same k pre pre' post post' : Forall2 sim pre pre' -> Forall2 sim post post' ->
  its_turn cpp17 k pre post = its_turn cpp17 k pre' post'.
Proof.
  intros H K. unfold its_turn. rewrite (sims_final _ _ H), (sims_final _ _ K). reflexivity.
Qed.

Lemma put_same (F G : tm -> tm) o o' : same_outcome o o' ->
  (forall t t', sim t t' -> sim (F t) (G t')) ->
  same_outcome (put L R o F) (put L R o' G).
Proof.
  intros H K. destruct o as [[[m d] t]|], o' as [[[m' d'] t']|]; try contradiction; [|exact I].
  destruct H as [-> [-> S]]. apply same_next. auto.
Qed.

Lemma sims_length args args' : Forall2 sim args args' -> List.length args = List.length args'.
Proof. induction 1; cbn; auto. Qed.
Lemma finals_same args args' (k : kind L) : Forall2 sim args args' ->
  (forall i a, nth_error args i = Some a -> evaluated k i = true -> final a = true) ->
  forall i a, nth_error args' i = Some a -> evaluated k i = true -> final a = true.
Proof.
  intros H. generalize (@evaluated L k) as ev. clear k.
  induction H as [|a a' args args' Sa H IH]; intros ev A i b Hb V.
  - destruct i; discriminate.
  - destruct i as [|i]; cbn in Hb.
    + injection Hb as <-. rewrite <- (sim_final _ _ Sa). apply (A 0); auto.
    + apply (IH (fun i => ev (S i))) with (i := i); auto.
      intros j x Hx. apply (A (S j)). exact Hx.
Qed.

Lemma step_same e m d t t' o : text_step L R c ds bt cpp17 e m d t o -> sim t t' ->
  exists o', step L R c bm cpp17 e m d t' o' /\ same_outcome o o'.
Proof.
  intros H. revert t'. induction H as [e m d k args F A|e m d k pre a post o V T P Q H IH]; intros t' S.
  - pose proof (sim_final _ _ S) as F'. rewrite F in F'.
    inversion S as [| |k' as1 as2 K HS E1 E2|f g two result p1 p2 id as1 as2 Rd HS E1 E2]; subst.
    + eexists; split.
      * apply step_head; [symmetry; exact F'|]. eapply finals_same; eassumption.
      * replace (text_head L R c ds bt e m d k args) with (head L R c bt e m d k args).
        -- apply head_same; assumption.
        -- destruct k; try reflexivity. exfalso; eapply K; reflexivity.
    + eexists; split.
      * apply step_head; [symmetry; exact F'|]. eapply finals_same; [eassumption|].
        intros i a Ha _. apply (A i a Ha). reflexivity.
      * cbn [text_head head called mf_name]. rewrite (reads_resolved _ _ _ _ _ _ _ _ Rd).
        pose proof (call_same f g two result p1 p2 id args as2 d Rd HS) as C.
        destruct (call_text L R c g id args d) as [[r1 t1]|],
          (call_mutator L R c f id as2 d) as [[r2 t2]|]; try contradiction; [|exact I].
        destruct C as [-> C]. apply same_next. exact C.
  - inversion S as [| |k' as1 as2 K HS E1 E2|f g two result p1 p2 id as1 as2 Rd HS E1 E2]; subst;
      apply Forall2_app_inv_l in HS; destruct HS as [pre' [as' [Hp [HS ->]]]];
      inversion HS as [|a1 a' post1 post' Sa Ho]; subst;
      destruct (IH a' Sa) as [o' [St So]].
    + eexists; split.
      * apply step_operand.
        -- rewrite <- (sims_length _ _ Hp). exact V.
        -- rewrite <- (its_turn_same k pre pre' post post'); auto.
        -- rewrite <- (sims_active _ _ Hp). exact P.
        -- rewrite <- (sims_active _ _ Ho). exact Q.
        -- exact St.
      * apply put_same; [exact So|]. intros x y Sx. constructor; [assumption|].
        apply Forall2_app; auto.
    + eexists; split.
      * apply step_operand.
        -- reflexivity.
        -- cbn. destruct cpp17; reflexivity.
        -- rewrite <- (sims_active _ _ Hp). exact P.
        -- rewrite <- (sims_active _ _ Ho). exact Q.
        -- exact St.
      * apply put_same; [exact So|]. intros x y Sx. eapply sim_call; [exact Rd|].
        apply Forall2_app; auto.
Qed.

Lemma steps_same e x y t' : text_steps L R c ds bt cpp17 e x y -> sim (snd x) t' ->
  exists u', steps L R c bm cpp17 e (fst x, t') (fst y, u') /\ sim (snd y) u'.
Proof.
  intros H. revert t'. induction H as [[[m d] t]|m d t x y St H IH]; intros t' S.
  - exists t'. split; [constructor|assumption].
  - cbn [snd] in S. destruct (step_same _ _ _ _ _ _ St S) as [o' [St' So]].
    destruct x as [[m1 d1] t1], o' as [[[m2 d2] t2]|]; try contradiction.
    destruct So as [<- [<- S1]]. destruct (IH t2 S1) as [u' [H' Su]].
    exists u'. split; [|assumption]. cbn [fst]. eapply steps_more; [exact St'|exact H'].
Qed.

Lemma diverges_same e : forall m d t t', text_diverges L R c ds bt cpp17 e m d t -> sim t t' ->
  diverges L R c bm cpp17 e m d t'.
Proof.
  cofix IH. intros m d t t' H S. destruct H as [m d t m1 d1 t1 St H].
  destruct (step_same _ _ _ _ _ _ St S) as [o' [St' So]].
  destruct o' as [[[m2 d2] t2]|]; [|contradiction]. destruct So as [<- [<- S1]].
  econstructor; [exact St'|]. eapply IH; eassumption.
Qed.

(** * Calls of functions *)

Definition calling (t : tm) : Prop :=
  match t with
  | RV _ | RL _ => True
  | N (KCall _) args => forallb is_result args = true
  | N (KInCall _) [_] => True
  | _ => False
  end.

Lemma result_no_step e m d t o : text_step L R c ds bt cpp17 e m d t o -> is_result t = false.
Proof. destruct 1; reflexivity. Qed.

Lemma calling_step e m d t m' d' t' : text_step L R c ds bt cpp17 e m d t (Some (m', d', t')) ->
  calling t -> calling t'.
Proof.
  intros H C. remember (Some (m', d', t')) as o eqn:E.
  destruct H as [k args F A|k pre a post o V T P Q H].
  - destruct k; cbn [calling] in C; try contradiction.
    + cbn [text_head head] in E. rewrite C in E.
      destruct (bt f) as [s|].
      * destruct (enter L f (results args) m) as [[e1 m1]|]; [|discriminate].
        injection E as _ _ <-. exact I.
      * destruct (library L f (results args) m) as [[v m1]|]; [|discriminate].
        injection E as _ _ <-. exact I.
    + destruct args as [|x [|y args]]; try contradiction.
      pose proof (A 0 x eq_refl eq_refl) as Fx. cbn [text_head head] in E.
      destruct x as [v|l|k xs]; try discriminate. destruct k; try discriminate;
        destruct xs as [|r [|r' xs]]; try discriminate;
        injection E as _ _ <-; try exact I.
      cbn in Fx. destruct r; try discriminate; exact I.
  - destruct k; cbn [calling] in C; try contradiction.
    + rewrite forallb_app in C. cbn in C. apply result_no_step in H. rewrite H in C.
      rewrite andb_false_r in C. discriminate.
    + destruct o as [[[m1 d1] t1]|]; [|discriminate]. injection E as _ _ <-.
      destruct pre as [|x [|y pre]]; try destruct post; try contradiction; exact I.
Qed.

Lemma calling_steps e x y : text_steps L R c ds bt cpp17 e x y -> calling (snd x) -> calling (snd y).
Proof.
  induction 1 as [x|m d t [[m1 d1] t1] y St H IH]; [auto|]. intros C. apply IH.
  eapply calling_step; eassumption.
Qed.

Lemma calling_final t : calling t -> final t = true -> is_result t = true.
Proof.
  destruct t as [v|l|k args]; try reflexivity.
  destruct k; cbn; try contradiction; discriminate.
Qed.

Lemma called_calling g args : calling (SimSpec.call L g args).
Proof. cbn. induction args as [|[v|l] args IH]; auto. Qed.
Lemma called_sim g args : sim (SimSpec.call L g args) (SimSpec.call L g args).
Proof.
  constructor; [discriminate|]. induction args as [|[v|l] args IH]; constructor; auto; constructor.
Qed.

Lemma text_behaves g args d bs s :
  behaves_like L c cpp17 R d bm (SimSpec.call L g args) bs s ->
  text_behaves_like L c cpp17 ds R d bt (SimSpec.call L g args) bs s.
Proof.
  intros [H1 H2 H3 H4]. split.
  - intros e m m' d' r St F.
    destruct (steps_same _ _ _ _ St (called_sim g args)) as [u [St' S]].
    apply H1. exists d'. cbn [fst snd] in *.
    assert (r = u) as <-.
    { apply sim_result; [assumption|]. apply calling_final; [|assumption].
      exact (calling_steps _ _ _ St (called_calling g args)). }
    split; assumption.
  - intros e m m' d' t' St U.
    destruct (steps_same _ _ _ _ St (called_sim g args)) as [u [St' S]].
    destruct (step_same _ _ _ _ _ _ U S) as [o' [U' So]].
    destruct o' as [[[? ?] ?]|]; [contradiction|].
    apply H2. exists m', d', u. split; assumption.
  - intros e m m' d' t' St.
    destruct (steps_same _ _ _ _ St (called_sim g args)) as [u [St' S]].
    apply H3. exists d', u. assumption.
  - intros e m D. apply H4. eapply diverges_same; [exact D|]. apply called_sim.
Qed.
End Sim.
