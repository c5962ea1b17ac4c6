(* As long as no enabled mutant is recorded, the coverage build goes along with the mutated
   program. *)
From Coq Require Import String List ZArith Bool Lia.
From Verif Require Import Base Clang Gen GenExpr GenBinary GenUnary GenStmt Mutation GenSpec
  Lang Cst SimSpec SimRel SimProof.
Import ListNotations.

Section Cover.
Variable L : lang.
Variable c : ctx.
Variable R : runtime.      (* of the mutated program *)
Variable R' : runtime.     (* of the coverage build *)
Variable E : nat -> bool.
Variable num : nat.
Variable cnt : nat -> nat. (* number of mutants at the site with this first id *)
Variable Inv : rt_state R -> Prop.
Variable Inv' : rt_state R' -> Prop.
Variable Rec : nat -> rt_state R' -> Prop.
Variable file : nat -> nat.
Hypothesis W : working R E {| lim_queried := num; lim_recorded := 0; lim_file := file |} Inv.
Definition site (id : nat) : Prop := 0 < cnt id /\ id + cnt id <= num.
Hypothesis W' : forall d id, Inv' d -> site id ->
  exists d', rt_record R' id (cnt id) d = Some d' /\ Inv' d' /\
             forall k, k < cnt id -> Rec (id + k) d'.
(* whether mutants of && and || in C are enabled *)
Variable Late : Prop.
Variable bt bs : string -> option (tm L).
Variable cpp17 : bool.

Notation tm := (tm L).
Notation step_t := (step L R c bt cpp17).
Notation step_s := (step L R' c bs cpp17).

(* The same function in both builds *)
Record twin (id : nat) (f f' : mfun) : Prop := {
  twin_params : mf_params f = mf_params f';
  twin_result : mf_result f = mf_result f';
  twin_access : mf_access f = mf_access f';
  twin_orig : mf_orig f = mf_orig f';
  twin_lines : forall k r, In (k, r) (mf_lines f) -> k < cnt id;
  twin_no_track : mf_track f = None;
  twin_no_lines : mf_lines f' = [];
  twin_track : mf_track f' = Some (cnt id);
  twin_site : site id
}.
(* A function for an operand of && or || in C, which the coverage build does not have *)
Record helper (id : nat) (f : mfun) (T : ty) : Prop := {
  helper_unit : unit_fun c f T;
  helper_orig : mf_orig f = RArg1;
  helper_no_track : mf_track f = None;
  helper_lines : forall k r, In (k, r) (mf_lines f) -> k < cnt id /\ id + k < num /\ (E (id + k) = true -> Late)
}.

Definition plain (k : kind L) : bool :=
  match k with KM _ _ | KLambda _ | KRemovable _ | KRecord _ _ => false | _ => true end.
Definition lam_ok (k : kind L) : bool := match k with KAt _ | KLv => true | _ => false end.

(* The flag says whether lambdas are included. *)
(* js: the sites of && and || in C that the term is an operand of, in evaluation *)
Inductive cov (js : list nat) : bool -> tm -> tm -> Prop :=
| cov_val b v : cov js b (RV v) (RV v)
| cov_loc b l : cov js b (RL l) (RL l)
| cov_node b k ts ss : plain k = true -> Forall2 (cov js (lam_ok k)) ts ss ->
    cov js b (N k ts) (N k ss)
| cov_lambda T t s : cov js false t s -> cov js true (N (KLambda T) [t]) (N (KLambda T) [s])
| cov_fun b f f' id ts ss : twin id f f' -> Forall2 (cov js true) ts ss ->
    cov js b (N (KM f id) ts) (N (KM f' id) ss)
| cov_outer b f f' id t s : twin id f f' -> cov (id :: js) false t s ->
    cov js b (N (KM f id) [t]) (N (KM f' id) [s])
| cov_stmt b id t s : site id -> cnt id = 1 -> cov js false t s ->
    cov js b (N (KRemovable id) [t]) (N (KRecord id 1) [s])
| cov_helper b T f id t s : helper id f T -> In id js -> cov js false t s ->
    cov js b (N (KAt T) [N (KM f id) [N (KAt T) [t]]]) (N (KAt T) [s])
| cov_passed b T f id v : helper id f T -> In id js ->
    cov js b (N (KAt T) [N (KM f id) [RV (conv L T v)]]) (N (KAt T) [RV v])
| cov_called b T v : cov js b (N (KAt T) [N (KAt T) [RV (conv L T v)]]) (N (KAt T) [RV v])
| cov_back b T v : cov js b (N (KAt T) [RV (conv L T v)]) (N (KAt T) [RV v]).

Lemma cov_any js t s : cov js false t s -> forall b, cov js b t s.
Proof.
  intros H b. remember false as b0. destruct H; try discriminate.
  - apply cov_val.
  - apply cov_loc.
  - apply cov_node; auto.
  - apply cov_fun; auto.
  - apply cov_outer; auto.
  - apply cov_stmt; auto.
  - apply cov_helper; auto.
  - apply cov_passed; auto.
  - apply cov_called.
  - apply cov_back.
Qed.

Lemma cov_result js b t s : cov js b t s -> is_result t = is_result s.
Proof. destruct 1; reflexivity. Qed.

Lemma cov_final js b t s : cov js b t s -> final t = final s.
Proof.
  destruct 1 as [b v|b l|b k ts ss P F|T t s H|b f f' id ts ss Tw F|b f f' id t s Tw H|b id t s Si Q H
    |b T f id t s He Ij H|b T f id v He Ij|b T v|b T v]; try reflexivity.
  destruct k; try reflexivity; try discriminate P; destruct F as [|t s ts ss Ht F]; try reflexivity.
  cbn. destruct F; [eapply cov_result; eauto|reflexivity].
Qed.

Lemma cov_final_same js t s : cov js false t s -> final t = true -> s = t.
Proof.
  intros H. remember false as b. destruct H as [b v|b l|b k ts ss P F|T t s H|b f f' id ts ss Tw F|b f f' id t s Tw H|b id t s Si Q H
    |b T f id t s He Ij H|b T f id v He Ij|b T v|b T v]; try reflexivity; try discriminate.
  destruct k; try discriminate; try discriminate P; destruct F as [|t s ts ss Ht F]; try discriminate;
    try reflexivity.
  cbn. destruct F; [|discriminate]. intro Rt.
  inversion Ht; subst; try discriminate; reflexivity.
Qed.

Lemma cov_final_any js t s : cov js false t s -> final t = true -> forall js' b, cov js' b t t.
Proof.
  intros H. remember false as b. destruct H as [b v|b l|b k ts ss P F|T t s H|b f f' id ts ss Tw F|b f f' id t s Tw H|b id t s Si Q H
    |b T f id t s He Ij H|b T f id v He Ij|b T v|b T v]; try discriminate.
  - intros; constructor.
  - intros; constructor.
  - destruct k; try discriminate; try discriminate P; destruct F as [|t s ts ss Ht F]; try discriminate;
      intros Z js' b'; (apply cov_node; [reflexivity|]); auto.
    cbn in Z. destruct F; [|discriminate]. constructor; auto.
    inversion Ht; subst; try discriminate; constructor.
Qed.

Lemma cov_active t : forall js b s, cov js b t s -> active t = active s.
Proof.
  assert (A : forall n t, weight t < n -> forall js b s, cov js b t s -> active t = active s).
  { induction n as [|n IH]; intros u Wt js b s H; [lia|].
    assert (Fw : forall b' ts ss, weights ts < n -> Forall2 (cov js b') ts ss ->
                 existsb active ts = existsb active ss).
    { intros b' ts ss Q F. revert Q. induction F as [|x y xs ys Hx F IHF]; intro Q; [reflexivity|].
      rewrite weights_cons in Q. pose proof (weight_pos L x). cbn [existsb]. f_equal.
      - apply (IH x) with (js := js) (b := b'); auto. lia.
      - apply IHF. lia. }
    destruct H as [b v|b l|b k ts ss P F|T t0 s H|b f f' id ts ss Tw F|b f f' id t0 s Tw H|b id t0 s Si Q H
      |b T f id t0 s He Ij H|b T f id v He Ij|b T v|b T v]; try reflexivity; cbn [active].
    - rewrite weight_n in Wt.
      destruct k; try reflexivity; (eapply Fw; [|exact F]; lia).
    - cbn in Wt. cbn [existsb]. f_equal. apply (IH t0) with (js := js) (b := false); auto. lia.
    - rewrite weight_n in Wt. apply (Fw true); auto. lia.
    - cbn in Wt. cbn [existsb]. f_equal. apply (IH t0) with (js := id :: js) (b := false); auto. lia.
    - cbn in Wt. cbn [existsb]. f_equal. apply (IH t0) with (js := js) (b := false); auto. lia.
    - cbn in Wt. cbn [existsb active]. rewrite !orb_false_r.
      apply (IH t0) with (js := js) (b := false); auto. lia. }
  intros js b s. apply (A (S (weight t))). lia.
Qed.

Lemma cov_active_list js b ts ss : Forall2 (cov js b) ts ss -> existsb active ts = existsb active ss.
Proof.
  induction 1 as [|t s ts ss H F IH]; [reflexivity|]. cbn [existsb]. f_equal; auto.
  eapply cov_active; eauto.
Qed.
Lemma cov_final_list js b ts ss : Forall2 (cov js b) ts ss -> forallb final ts = forallb final ss.
Proof.
  induction 1 as [|t s ts ss H F IH]; [reflexivity|]. cbn [forallb]. f_equal; auto.
  eapply cov_final; eauto.
Qed.

(** * Constructs of the language *)

Hypothesis B : forall js f,
  match bt f, bs f with
  | Some t, Some s => cov js false t s
  | None, None => True
  | _, _ => False
  end.

Lemma cov_results js ts ss : Forall2 (cov js false) ts ss ->
  Forall (fun t => final t = true) ts -> ss = ts.
Proof.
  induction 1 as [|t s ts ss Hr F IH]; intro Fin; auto. inversion Fin; subst.
  f_equal; auto. eapply cov_final_same; eauto.
Qed.
Lemma cov_skip js b : cov js b skip skip.
Proof. apply cov_node; auto. Qed.
Lemma cov_sequence js ts ss : Forall2 (cov js false) ts ss -> cov js false (sequence ts) (sequence ss).
Proof.
  induction 1; cbn; [apply cov_skip|]. apply cov_node; auto.
Qed.
Lemma cov_from_label js p labels ts ss : Forall2 (cov js false) ts ss ->
  match from_label L p labels ts, from_label L p labels ss with
  | Some ts, Some ss => Forall2 (cov js false) ts ss
  | None, None => True
  | _, _ => False
  end.
Proof.
  intro F. revert labels. induction F as [|t s ts ss Hr F IH]; intros [|l labels]; cbn; auto.
  destruct (has_label p l); [constructor; auto|]. apply IH.
Qed.
Lemma cov_switch_body js labels v ts ss : Forall2 (cov js false) ts ss ->
  Forall2 (cov js false) (switch_body L labels v ts) (switch_body L labels v ss).
Proof.
  intro F. unfold switch_body.
  set (p := fun x => match x with Some z => label_matches L z v | None => false end).
  set (q := fun x : option Z => match x with Some _ => false | None => true end).
  pose proof (cov_from_label js p labels ts ss F) as H1.
  pose proof (cov_from_label js q labels ts ss F) as H2.
  destruct (from_label L p labels ts), (from_label L p labels ss); try tauto.
  destruct (from_label L q labels ts), (from_label L q labels ss); try tauto. constructor.
Qed.

Definition same_outcome (js : list nat) (d : rt_state R) (d0 : rt_state R') (x : outcome L R) (y : outcome L R')
  : Prop :=
  match x, y with
  | None, None => True
  | Some (m, d', t), Some (m', d0', s) => m = m' /\ d' = d /\ d0' = d0 /\ cov js false t s
  | _, _ => False
  end.

Lemma cov_all_final js k ts ss :
  (forall i, evaluated (L:=L) k i = true) ->
  (forall i a, nth_error ts i = Some a -> evaluated k i = true -> final a = true) ->
  Forall2 (cov js false) ts ss -> ss = ts.
Proof.
  intros Ev Fin F. eapply cov_results; eauto. apply Forall_forall. intros t I.
  apply In_nth_error in I as [i I]. eauto.
Qed.
Lemma cov_first_final js k t ts s :
  evaluated (L:=L) k 0 = true ->
  (forall i a, nth_error (t :: ts) i = Some a -> evaluated k i = true -> final a = true) ->
  cov js false t s -> s = t.
Proof. intros Ev Fin Hr. eapply cov_final_same; eauto. apply (Fin 0); auto. Qed.

Ltac all_same :=
  match goal with
  | F : Forall2 (cov ?js false) ?ts ?ss, Fin : forall i a, _ -> evaluated ?k i = true -> _ |- _ =>
      let Q := fresh in
      assert (Q : ss = ts) by (apply (cov_all_final js k); auto); subst ss
  end.
Ltac first_same :=
  match goal with
  | H : cov ?js false ?t ?s, Fin : forall i a, nth_error (?t :: _) i = Some a -> evaluated ?k i = true -> _ |- _ =>
      let Q := fresh in
      assert (Q : s = t) by (exact (cov_first_final js k t _ s eq_refl Fin H)); subst s
  end.
Ltac crunch :=
  repeat match goal with
         | |- context [match ?x with _ => _ end] => destruct x eqn:?
         end; cbn; auto; repeat split; auto; try constructor; auto.

Lemma cov_head js e m d d0 k ts ss :
  plain k = true -> Forall2 (cov js (lam_ok k)) ts ss ->
  (forall i a, nth_error ts i = Some a -> evaluated k i = true -> final a = true) ->
  same_outcome js d d0 (head L R c bt e m d k ts) (head L R' c bs e m d0 k ss).
Proof.
  intros Rk F Fin.
  destruct k; try discriminate Rk; cbn [head]; cbn [lam_ok] in F.
  - (* KVar *) inversion F; subst; crunch.
  - all_same. crunch.
  - all_same. crunch.
  - all_same. crunch.
  - all_same. crunch.
  - (* KAt *)
    inversion F as [|x y xs ys H F']; subst; [exact I|].
    inversion F' as [|x1 y1 xs1 ys1 H1 F1]; subst.
    + inversion H; subst; cbn; auto. repeat split; auto. constructor.
    + destruct x, y; exact I.
  - (* KLv *)
    inversion F as [|x y xs ys H F']; subst; [exact I|].
    inversion F' as [|x1 y1 xs1 ys1 H1 F1]; subst.
    + inversion H; subst; cbn; auto. repeat split; auto. constructor.
    + destruct x, y; exact I.
  - all_same. crunch.
  - all_same. crunch.
  - all_same. crunch.
  - (* KLogic *)
    inversion F as [|t s ts' ss' Hr F']; subst; [exact I|]. first_same.
    destruct t; try exact I. inversion F' as [|t1 s1 ts1 ss1 Hr1 F1]; subst; [exact I|].
    inversion F1; subst; [|exact I]. crunch; auto.
  - all_same. crunch.
  - all_same. crunch.
  - (* KCond *)
    inversion F as [|t s ts' ss' Hr F']; subst; [exact I|]. first_same.
    destruct t; try exact I. inversion F' as [|t1 s1 ts1 ss1 Hr1 F1]; subst; [exact I|].
    inversion F1 as [|t2 s2 ts2 ss2 Hr2 F2]; subst; [exact I|].
    inversion F2; subst; [|exact I]. cbn. destruct (truth L v); auto.
  - (* KComma *)
    inversion F as [|t s ts' ss' Hr F']; subst; [exact I|]. first_same.
    inversion F' as [|t1 s1 ts1 ss1 Hr1 F1]; subst; [exact I|].
    inversion F1; subst; [|exact I]. destruct (is_result t); cbn; auto.
  - (* KFirst *)
    all_same. destruct ts as [|a ts]; [exact I|]. destruct (forallb is_result (a :: ts)); [|exact I].
    inversion F; subst. cbn. repeat split; auto.
  - (* KCall *)
    all_same. destruct (forallb is_result ts); [|exact I].
    pose proof (B js f) as Bf. destruct (bt f), (bs f); try tauto.
    + destruct (enter L f (results ts) m) as [[e' m']|]; cbn; auto. repeat split; auto.
      apply cov_node; auto.
    + destruct (library L f (results ts) m) as [[v m']|]; cbn; auto. repeat split; auto.
      constructor.
  - (* KInCall *)
    all_same. destruct ts as [|t [|]]; try exact I.
    + destruct t as [v|l|[] []]; cbn; auto; repeat split; auto; try constructor.
      destruct l; cbn; auto. repeat split; auto.
      inversion F as [|? ? ? ? Hr]; subst. clear F. inversion Hr; subst.
      match goal with H : Forall2 _ [_] [_] |- _ => inversion H; subst; auto end.
    + destruct t as [v|l0|[] [|? []]]; exact I.
  - (* KSkip *) inversion F; exact I.
  - (* KExpr *) all_same. destruct ts as [|t [|]]; try exact I.
    + destruct (is_result t); cbn; auto using cov_skip.
  - (* KSeq *)
    inversion F as [|t s ts' ss' Hr F']; subst; [exact I|]. first_same.
    inversion F' as [|t1 s1 ts1 ss1 Hr1 F1]; subst; [destruct t as [| |[] []]; exact I|].
    inversion F1; subst; destruct t as [| |[] []]; try exact I; cbn; auto 10.
  - (* KIf *)
    inversion F as [|t s ts' ss' Hr F']; subst; [exact I|]. first_same.
    destruct t; try exact I. inversion F' as [|t1 s1 ts1 ss1 Hr1 F1]; subst; [exact I|].
    inversion F1 as [|t2 s2 ts2 ss2 Hr2 F2]; subst; [exact I|].
    inversion F2; subst; [|exact I]. cbn. destruct (truth L v); auto.
  - (* KWhile *)
    inversion F as [|t s ts' ss' Hr F']; subst; [exact I|].
    inversion F' as [|t1 s1 ts1 ss1 Hr1 F1]; subst; [exact I|].
    inversion F1; subst; [|exact I]. cbn. repeat split; auto.
    apply cov_node; auto. repeat constructor; auto.
  - (* KDo *)
    inversion F as [|t s ts' ss' Hr F']; subst; [exact I|].
    inversion F' as [|t1 s1 ts1 ss1 Hr1 F1]; subst; [exact I|].
    inversion F1; subst; [|exact I]. cbn. repeat split; auto.
    repeat constructor; auto.
  - (* KFor *)
    inversion F as [|t s ts' ss' Hr F']; subst; [exact I|].
    inversion F' as [|t1 s1 ts1 ss1 Hr1 F1]; subst; [exact I|].
    inversion F1 as [|t2 s2 ts2 ss2 Hr2 F2]; subst; [exact I|].
    inversion F2; subst; [|exact I]. cbn. repeat split; auto.
    repeat constructor; auto.
  - (* KLoop *)
    inversion F as [|t s ts' ss' Hr F']; subst; [exact I|]. first_same.
    inversion F' as [|t1 s1 ts1 ss1 Hr1 F1]; subst; [destruct t as [| |[] []]; exact I|].
    inversion F1; subst; destruct t as [| |[] []]; try exact I; cbn; auto 10 using cov_skip.
  - (* KSwitch *)
    inversion F as [|t s ts' ss' Hr F']; subst; [exact I|]. first_same.
    destruct t; try exact I. cbn. repeat split; auto. apply cov_node; auto.
    constructor; auto. apply cov_sequence, cov_switch_body. exact F'.
  - (* KSwitched *)
    all_same. destruct ts as [|t [|]]; try exact I.
    + inversion F; subst. destruct t as [v|l|[] []]; cbn; auto 10 using cov_skip.
    + destruct t as [v|l0|[] []]; exact I.
  - inversion F; exact I.
  - inversion F; exact I.
  - inversion F; exact I.
  - inversion F; exact I.
Qed.

(** * Generated functions *)

Lemma cov_wrong js b : cov js b (N KWrong []) (N KWrong []).
Proof. apply cov_node; auto. Qed.
Definition cov_op (js : list nat) (x y : operand L) : Prop := fst x = fst y /\ cov js false (snd x) (snd y).
Lemma cov_rvalue js x y : cov_op js x y -> cov js false (rvalue x) (rvalue y).
Proof.
  destruct x as [lx tx], y as [ly ty]. intros [Q H]. cbn in *. subst ly.
  destruct lx; cbn; auto. apply cov_node; auto.
Qed.
Lemma cov_lvalue js x y : cov_op js x y -> cov js false (lvalue x) (lvalue y).
Proof.
  destruct x as [lx tx], y as [ly ty]. intros [Q H]. cbn in *. subst ly.
  destruct lx; cbn; auto. apply cov_wrong.
Qed.
Lemma cov_unary_expression js o x y : cov_op js x y ->
  cov_op js (unary_expression L c o x) (unary_expression L c o y).
Proof.
  intro H. unfold unary_expression. destruct (is_incdec o); split; cbn; auto; apply cov_node; auto.
  - constructor; auto. apply cov_lvalue. exact H.
  - constructor; auto. apply cov_rvalue. exact H.
Qed.
Lemma cov_expression js r x1 x2 y1 y2 : cov_op js x1 y1 -> cov_op js x2 y2 ->
  cov_op js (expression L c r x1 x2) (expression L c r y1 y2).
Proof.
  intros H1 H2. pose proof (cov_rvalue _ _ _ H1). pose proof (cov_rvalue _ _ _ H2).
  pose proof (cov_lvalue _ _ _ H1).
  destruct r as [| |o|o|o|o|l]; cbn [expression]; auto using cov_unary_expression.
  - destruct (is_incdec o); split; cbn; auto using cov_wrong. apply cov_node; auto.
  - destruct (is_logical o); [|destruct (is_assign o); [|destruct (bop_eqb o Comma)]];
      split; cbn; auto using cov_wrong; apply cov_node; auto.
  - split; cbn; auto. constructor.
Qed.
Lemma cov_returned js res x y : cov_op js x y ->
  cov js false (returned L c res x) (returned L c res y).
Proof.
  intro H. unfold returned. destruct (declared c res) as [[[| |] T|]|]; auto using cov_wrong.
  - apply cov_node; auto. constructor; auto. apply cov_any, cov_rvalue. exact H.
  - apply cov_lvalue. exact H.
Qed.
Lemma cov_no_operand js : cov_op js (false, N KWrong []) (false, N KWrong []).
Proof. split; auto. apply cov_wrong. Qed.
Lemma cov_accessed js p a t s : cov js true t s -> cov_op js (accessed L c p a t) (accessed L c p a s).
Proof.
  intro H. unfold accessed.
  destruct (declared c p) as [[[| |] T|[| |] T]|]; destruct a; try apply cov_no_operand;
    (remember true as b eqn:Qb in H; destruct H as [b v|b l|b k ts ss P F|T' t s H|b f f' id ts ss Tw F|b f f' id t s Tw H|b id t s Si Q H
    |b T' f id t s He Ij H|b T' f id v He Ij|b T' v|b T' v]; try apply cov_no_operand;
     try (destruct k; try discriminate P; apply cov_no_operand));
    split; cbn; auto; try constructor; auto; try constructor; auto; constructor.
Qed.
Lemma cov_argument js ts ss i : Forall2 (cov js true) ts ss -> cov js true (argument ts i) (argument ss i).
Proof.
  intro F. revert i. induction F as [|t s ts ss H F IH]; intros [|i]; unfold argument; cbn;
    auto using cov_wrong. apply IH.
Qed.
Lemma cov_body js id f f' ts ss r : twin id f f' -> Forall2 (cov js true) ts ss ->
  cov js false (mutator_body L c f ts r) (mutator_body L c f' ss r).
Proof.
  intros Tw F. unfold mutator_body, parameter. rewrite (twin_params _ _ _ Tw), (twin_result _ _ _ Tw),
    (twin_access _ _ _ Tw).
  apply cov_returned, cov_expression; apply cov_accessed, cov_argument, F.
Qed.

Lemma tests_answer lines id d : Inv d -> (forall k r, In (k, r) lines -> id + k < num) ->
  exists d' x, first_test R lines id d = Some (d', x) /\ Inv d' /\
    match x with
    | None => True
    | Some r => exists k, In (k, r) lines /\ E (id + k) = true
    end.
Proof.
  revert d. induction lines as [|[k r] lines IH]; intros d Id Le.
  - exists d, None. auto.
  - cbn. destruct (working_query _ _ _ _ W d (id + k) Id (Le k r (or_introl eq_refl))) as (d' & -> & Id').
    destruct (E (id + k)) eqn:Q.
    + exists d', (Some r). split; auto. split; auto. exists k. cbn. auto.
    + destruct (IH d' Id' (fun k' r' H => Le k' r' (or_intror H))) as (d2 & x & Q2 & I2 & X).
      exists d2, x. split; auto. split; auto. destruct x; auto. destruct X as (k' & I' & T).
      exists k'. cbn. auto.
Qed.
Lemma tested_answer f id d : Inv d -> (forall k r, In (k, r) (mf_lines f) -> id + k < num) ->
  exists d' x, tested R f id d = Some (d', x) /\ Inv d' /\
    match x with
    | None => True
    | Some r => exists k, In (k, r) (mf_lines f) /\ E (id + k) = true
    end.
Proof.
  intros Id Le. unfold tested. destruct (mf_fast f && negb (rt_flag R id d)).
  - exists d, None. auto.
  - apply tests_answer; auto.
Qed.

(** * Steps *)

Definition matched (js : list nat) (b : bool) (x : outcome L R) (y : outcome L R') : Prop :=
  match x, y with
  | None, None => True
  | Some (m1, d1, t1), Some (m2, d2, s1) => m1 = m2 /\ Inv d1 /\ Inv' d2 /\ cov js b t1 s1
  | _, _ => False
  end.

(* A call that records mutant i is waiting for its arguments. *)
Inductive pending (i : nat) : tm -> Prop :=
| pending_here f id ts : mf_lines f = [] -> mf_track f = Some (cnt id) -> site id ->
    id <= i < id + cnt id -> pending i (N (KM f id) ts)
| pending_in k pre a post : evaluated k (length pre) = true -> pending i a ->
    pending i (N k (pre ++ a :: post)).
Definition owed (js : list nat) (i : nat) : Prop := exists j, In j js /\ j <= i < j + cnt j.

(* The coverage build makes the same step; or it waits; or it records an enabled mutant; or it
   cannot finish without doing so. *)
Definition simulated (js : list nat) (b : bool) e m (d0 : rt_state R') (s : tm) (w : nat)
  (x : outcome L R) : Prop :=
  (exists y, step_s e m d0 s y /\ matched js b x y) \/
  (exists d' t', x = Some (m, d', t') /\ Inv d' /\ cov js b t' s /\ weight t' < w) \/
  (exists m' d0' s' i, step_s e m d0 s (Some (m', d0', s')) /\ E i = true /\ Rec i d0') \/
  (exists i, E i = true /\ Late /\ (owed js i \/ pending i s)).

Lemma lift_simulated js js' b b' e e' m d0 s w w' x F G :
  simulated js b e' m d0 s w x -> Inv' d0 ->
  (forall y, step_s e' m d0 s y -> step_s e m d0 (G s) (put L R' y G)) ->
  (forall t s, cov js b t s -> cov js' b' (F t) (G s)) ->
  (forall t, weight t < w -> weight (F t) < w') ->
  (forall i, pending i s -> pending i (G s)) ->
  (forall i, owed js i -> owed js' i \/ pending i (G s)) ->
  simulated js' b' e m d0 (G s) w' (put L R x F).
Proof.
  intros Si I0 St Co We Pe Ow.
  destruct Si as [(y & Sy & M)|[(d' & t' & -> & Id & Ct & Wt)|[(m' & d0' & s' & i & Sy & Ei & Re)|(i & Ei & La & O)]]].
  - left. exists (put L R' y G). split; auto.
    destruct x as [[[m1 d1] t1]|], y as [[[m2 d2] s1]|]; cbn in *; auto.
    destruct M as (Q & I1 & I2 & Ct). auto.
  - right. left. exists d', (F t'). cbn. auto.
  - right. right. left. exists m', d0', (G s'), i. split; auto. apply (St _ Sy).
  - right. right. right. exists i. split; auto. split; auto. destruct O as [O|O]; auto.
Qed.

Lemma step_cases {Rt} bodies e m d k args x :
  step L Rt c bodies cpp17 e m d (N k args) x ->
  (final (N k args) = false /\
   (forall i a, nth_error args i = Some a -> evaluated k i = true -> final a = true) /\
   x = head L Rt c bodies e m d k args) \/
  (exists pre a post o, args = pre ++ a :: post /\ evaluated k (length pre) = true /\
     its_turn cpp17 k pre post = true /\ existsb active pre = false /\
     existsb active post = false /\ step L Rt c bodies cpp17 (child_env k e) m d a o /\
     x = put L Rt o (fun a => N k (pre ++ a :: post))).
Proof.
  intro S. remember (N k args) as t eqn:Q. destruct S as [k' args' Fi Ev|k' pre a post o Ev Tu A1 A2 S].
  - injection Q as -> ->. left. auto.
  - injection Q as -> <-. right. exists pre, a, post, o. auto 10.
Qed.

Lemma cov_split js b pre a post ss : Forall2 (cov js b) (pre ++ a :: post) ss ->
  exists pre' a' post', ss = pre' ++ a' :: post' /\ Forall2 (cov js b) pre pre' /\ cov js b a a' /\
                        Forall2 (cov js b) post post'.
Proof.
  intro F. apply Forall2_app_inv_l in F as (pre' & l & F1 & F2 & ->).
  inversion F2; subst. eexists _, _, _. eauto.
Qed.

Lemma cov_turn js k b pre pre' post post' : Forall2 (cov js b) pre pre' -> Forall2 (cov js b) post post' ->
  its_turn (L:=L) cpp17 k pre post = its_turn cpp17 k pre' post'.
Proof.
  intros F1 F2. unfold its_turn. destruct cpp17; auto. apply cov_final_list in F1, F2.
  destruct k; auto; try (rewrite F2; reflexivity). destruct o; auto; rewrite F1; reflexivity.
Qed.

Lemma cov_fins js b k ts ss : Forall2 (cov js b) ts ss ->
  (forall i a, nth_error ts i = Some a -> evaluated k i = true -> final a = true) ->
  (forall i a, nth_error ss i = Some a -> evaluated (L:=L) k i = true -> final a = true).
Proof.
  intros F Fin i a Ne Ev.
  assert (X : exists t, nth_error ts i = Some t /\ cov js b t a).
  { clear Fin Ev. revert i Ne. induction F as [|t s ts ss H F IH]; intros [|i] Ne; cbn in *; try discriminate.
    - injection Ne as <-. eauto.
    - eauto. }
  destruct X as (t & Nt & Ct). rewrite <- (cov_final _ _ _ _ Ct). eauto.
Qed.

Lemma cov_length js b ts ss : Forall2 (cov js b) ts ss -> length ts = length ss.
Proof. induction 1; cbn; auto. Qed.

(* Operands of nodes *)
Lemma operand_case n js js' b b' e m d0 k k' ts ss pre a post x :
  (forall t, weight t < n -> forall js b s e m d d0 x,
     step_t e m d t x -> Inv d -> Inv' d0 -> cov js b t s -> simulated js b e m d0 s (weight t) x) ->
  weight (N k ts) <= n ->
  ts = pre ++ a :: post -> Forall2 (cov js b) ts ss ->
  (forall i, evaluated k i = evaluated k' i) ->
  (forall pre post, its_turn (L:=L) cpp17 k pre post = its_turn cpp17 k' pre post) ->
  child_env k e = child_env k' e ->
  (forall ts ss, length ts = length (pre ++ a :: post) -> Forall2 (cov js b) ts ss ->
     cov js' b' (N k ts) (N k' ss)) ->
  (forall i, owed js i -> owed js' i \/ pending i (N k' ss)) ->
  evaluated k (length pre) = true -> its_turn cpp17 k pre post = true ->
  existsb active pre = false -> existsb active post = false ->
  forall d, Inv d -> Inv' d0 -> step_t (child_env k e) m d a x ->
  simulated js' b' e m d0 (N k' ss) (weight (N k ts)) (put L R x (fun a => N k (pre ++ a :: post))).
Proof.
  intros IH We Q F Qe Qt Qc Co Ow Ev Tu A1 A2 d Id I0 St. subst ts.
  destruct (cov_split _ _ _ _ _ _ F) as (pre' & a' & post' & -> & F1 & Ca & F2).
  assert (Wa : weight a < n).
  { rewrite weight_n, weights_app, weights_cons in We. destruct k; lia. }
  eapply (lift_simulated js js' b b' e (child_env k e) m d0 a' (weight a) _ x
            (fun a => N k (pre ++ a :: post)) (fun a => N k' (pre' ++ a :: post'))); auto.
  - apply (IH a Wa) with (d := d); auto.
  - intros y Sy. apply step_operand.
    + rewrite <- Qe, <- (cov_length _ _ _ _ F1). exact Ev.
    + rewrite <- Qt, <- (cov_turn js k b pre pre' post post' F1 F2). exact Tu.
    + rewrite <- (cov_active_list _ _ _ _ F1). exact A1.
    + rewrite <- (cov_active_list _ _ _ _ F2). exact A2.
    + rewrite <- Qc. exact Sy.
  - intros t s H. apply Co; [rewrite !app_length; reflexivity|]. apply Forall2_app; auto.
  - intros t H. rewrite !weight_n, !weights_app, !weights_cons. lia.
  - intros i H. apply pending_in; auto. rewrite <- Qe, <- (cov_length _ _ _ _ F1). exact Ev.
Qed.

Lemma tested_twin id f' d0 : mf_lines f' = [] -> tested R' f' id d0 = Some (d0, None).
Proof. intro Q. unfold tested. rewrite Q. destruct (_ && _); reflexivity. Qed.

Lemma helper_body f T id r v : helper id f T -> r = RArg1 ->
  mutator_body L c f [RV v] r = N (KAt T) [RV v].
Proof.
  intros H ->. destruct (helper_unit _ _ _ H) as (p & Qp & D & Dr & Ac).
  unfold mutator_body, parameter, returned. rewrite Dr, Qp, Ac. cbn [nth_error expression argument nth]. unfold accessed. rewrite D. reflexivity.
Qed.

Lemma rv_step {Rt} bodies e m d v x : ~ step L Rt c bodies cpp17 e m d (RV v) x.
Proof. intro H. inversion H. Qed.

Lemma single {A} (pre post : list A) a t : [t] = pre ++ a :: post -> pre = [] /\ a = t /\ post = [].
Proof.
  destruct pre as [|x [|y pre]]; cbn; intro Q; try discriminate. injection Q as <- <-. auto.
Qed.


Lemma call_case js b id f f' ts ss e m d d0 :
  Inv d -> Inv' d0 -> twin id f f' -> Forall2 (cov js true) ts ss ->
  (forall i a, nth_error ss i = Some a -> evaluated (KM f' id : kind L) i = true -> final a = true) ->
  simulated js b e m d0 (N (KM f' id) ss) (weight (N (KM f id) ts))
    (head L R c bt e m d (KM f id) ts).
Proof.
  intros Id I0 Tw F Fin. cbn [head]. unfold call_mutator.
  destruct (tested_answer f id d Id) as (d1 & r & -> & I1 & Hr).
  { intros k r I. pose proof (twin_lines _ _ _ Tw k r I). pose proof (twin_site _ _ _ Tw) as [_ Z]. lia. }
  destruct (W' d0 id I0 (twin_site _ _ _ Tw)) as (d2 & Re & I2 & Rr).
  assert (Sc : step_s e m d0 (N (KM f' id) ss)
                 (Some (m, d2, mutator_body L c f' ss (mf_orig f')))).
  { replace (Some (m, d2, mutator_body L c f' ss (mf_orig f')))
      with (head L R' c bs e m d0 (KM f' id) ss).
    - apply step_head; [reflexivity|]. exact Fin.
    - cbn [head]. unfold call_mutator. rewrite (tested_twin _ _ _ (twin_no_lines _ _ _ Tw)).
      unfold recorded_call. rewrite (twin_track _ _ _ Tw), Re. reflexivity. }
  destruct r as [r|].
  - destruct Hr as (k & Ik & Ek). right. right. left.
    exists m, d2, (mutator_body L c f' ss (mf_orig f')), (id + k).
    split; [exact Sc|]. split; auto. apply Rr. eapply twin_lines; eauto.
  - left. eexists. split; [exact Sc|]. unfold recorded_call. rewrite (twin_no_track _ _ _ Tw).
    cbn. repeat split; auto. rewrite <- (twin_orig _ _ _ Tw). apply cov_any.
    eapply cov_body; eauto.
Qed.

Theorem cover_step : forall t js b s e m d d0 x,
  step_t e m d t x -> Inv d -> Inv' d0 -> cov js b t s -> simulated js b e m d0 s (weight t) x.
Proof.
  assert (A : forall n t, weight t < n -> forall js b s e m d d0 x,
    step_t e m d t x -> Inv d -> Inv' d0 -> cov js b t s -> simulated js b e m d0 s (weight t) x).
  2:{ intros t. apply (A (S (weight t))). lia. }
  induction n as [|n IH]; [intros; lia|].
  intros t We js b s e m d d0 x St Id I0 Co.
  destruct Co as [b v|b l|b k ts ss P F|T t s H|b f f' id ts ss Tw F|b f f' id t s Tw H
    |b id t s Si Q H|b T f id t s He Ij H|b T f id v He Ij|b T v|b T v].
  - inversion St.
  - inversion St.
  - (* nodes *)
    apply step_cases in St as [(Fi & Fin & ->)|(pre & a & post & o & Qts & Ev & Tu & A1 & A2 & St & ->)].
    + left. exists (head L R' c bs e m d0 k ss). split.
      * apply step_head.
        -- rewrite <- Fi. symmetry. apply (cov_final js false). apply cov_node; auto.
        -- eapply cov_fins; eauto.
      * pose proof (cov_head js e m d d0 k ts ss P F Fin) as Hh. unfold same_outcome in Hh. unfold matched.
        destruct (head L R c bt e m d k ts) as [[[m1 d1] t1]|], (head L R' c bs e m d0 k ss) as [[[m2 d2] s1]|]; auto.
        destruct Hh as (-> & -> & -> & Ct). auto using cov_any.
    + eapply operand_case; eauto; try lia. intros; apply cov_node; auto.
  - (* lambda *)
    apply step_cases in St as [(Fi & Fin & ->)|(pre & a & post & o & Qts & Ev & _)]; discriminate.
  - (* calls *)
    apply step_cases in St as [(Fi & Fin & ->)|(pre & a & post & o & Qts & Ev & Tu & A1 & A2 & St & ->)].
    + apply call_case; auto. eapply (cov_fins js true (KM f id) ts ss); eauto.
    + eapply (operand_case n js js true b e m d0 (KM f id) (KM f' id)); eauto; try lia.
      intros; apply cov_fun; auto.
  - (* the call around && or || in C *)
    apply step_cases in St as [(Fi & Fin & ->)|(pre & a & post & o & Qts & Ev & Tu & A1 & A2 & St & ->)].
    + pose proof (Fin 0 _ eq_refl eq_refl) as Ft. pose proof (cov_final_same _ _ _ H Ft). subst s.
      apply call_case; auto. constructor; auto. eapply cov_final_any; eauto.
    + eapply (operand_case n (id :: js) js false b e m d0 (KM f id) (KM f' id)); eauto; try lia.
      * intros ts ss Le Fs. rewrite <- Qts in Le. destruct Fs as [|t1 s1 ts ss H1 [|]]; try discriminate.
        apply cov_outer; auto.
      * intros i (j & [<-|Ij] & Hj).
        -- right. apply pending_here; auto; apply Tw.
        -- left. exists j. auto.
  - (* statements *)
    apply step_cases in St as [(Fi & Fin & ->)|(pre & a & post & o & Qts & Ev & _)]; [|discriminate].
    destruct (W' d0 id I0 Si) as (d2 & Re & I2 & Rr).
    assert (Sc : step_s e m d0 (N (KRecord id 1) [s]) (Some (m, d2, s))).
    { replace (Some (m, d2, s)) with (head L R' c bs e m d0 (KRecord id 1) [s]).
      - apply step_head; [reflexivity|]. intros i a _ Z. discriminate.
      - cbn [head]. rewrite <- Q, Re. reflexivity. }
    cbn [head]. destruct Si as [Si1 Si2].
    destruct (working_query _ _ _ _ W d id Id) as (d1 & -> & I1); [cbn; lia|].
    destruct (E id) eqn:Ei.
    + right. right. left. exists m, d2, s, id. split; auto. split; auto.
      replace id with (id + 0) by lia. apply Rr. lia.
    + left. eexists. split; [exact Sc|]. cbn. auto using cov_any.
  - (* an operand of && or || *)
    apply step_cases in St as [(Fi & Fin & ->)|(pre & a & post & o & Qts & Ev & Tu & A1 & A2 & St & ->)].
    { specialize (Fin 0 _ eq_refl eq_refl). discriminate. }
    apply single in Qts as (-> & -> & ->). cbn [app child_env] in St |- *.
    apply step_cases in St as [(Fi & Fin & ->)|(pre & a & post & o1 & Qts & Ev1 & Tu1 & B1 & B2 & St & ->)].
    { specialize (Fin 0 _ eq_refl eq_refl). discriminate. }
    apply single in Qts as (-> & -> & ->). cbn [app child_env] in St |- *.
    apply step_cases in St as [(Fi & Fin & ->)|(pre & a & post & o2 & Qts & Ev2 & Tu2 & C1 & C2 & St & ->)].
    + (* conversion *)
      pose proof (Fin 0 _ eq_refl eq_refl) as Ft. pose proof (cov_final_same _ _ _ H Ft). subst s.
      destruct t as [v|l|k args].
      * right. left. cbn. eexists _, _. split; [reflexivity|]. split; auto. split; [|cbn; lia].
        apply cov_passed; auto.
      * left. exists None. split; [|exact I].
        change None with (head L R' c bs e m d0 (KAt T) [RL l]). apply step_head; auto.
      * left. exists None. split; [|exact I].
        change None with (head L R' c bs e m d0 (KAt T) [N k args]). apply step_head; auto.
    + apply single in Qts as (-> & -> & ->). cbn [app child_env] in St |- *.
      assert (Wt : weight t < n) by (cbn in We; lia).
      pose proof (IH t Wt js false s e m d d0 o2 St Id I0 H) as Si.
      assert (Z : put L R (put L R (put L R o2 (fun a => N (KAt T) [a])) (fun a => N (KM f id) [a]))
                    (fun a => N (KAt T) [a]) =
                  put L R o2 (fun a => N (KAt T) [N (KM f id) [N (KAt T) [a]]])).
      { destruct o2 as [[[m2 d2] t2]|]; reflexivity. }
      rewrite Z.
      apply (lift_simulated js js false b e e m d0 s (weight t) _ o2
               (fun a => N (KAt T) [N (KM f id) [N (KAt T) [a]]]) (fun a => N (KAt T) [a])); auto.
      * intros y Sy. apply (step_operand L R' c bs cpp17 e m d0 (KAt T) [] s [] y); auto.
      * intros t1 s1 H1. apply cov_helper; auto.
      * intros t1 H1. cbn. lia.
      * intros i H1. apply (pending_in i (KAt T) [] s []); auto.
  - (* the helper is called *)
    apply step_cases in St as [(Fi & Fin & ->)|(pre & a & post & o & Qts & Ev & Tu & A1 & A2 & St & ->)].
    { specialize (Fin 0 _ eq_refl eq_refl). discriminate. }
    apply single in Qts as (-> & -> & ->). cbn [app child_env] in St |- *.
    apply step_cases in St as [(Fi & Fin & ->)|(pre & a & post & o1 & Qts & Ev1 & Tu1 & B1 & B2 & St & ->)].
    + cbn [head]. unfold call_mutator.
      destruct (tested_answer f id d Id) as (d1 & r & -> & I1 & Hr).
      { intros k r I. apply (helper_lines _ _ _ He k r I). }
      destruct r as [r|].
      { destruct Hr as (k & Ik & Ek). destruct (helper_lines _ _ _ He k r Ik) as (H1 & _ & H2).
        right. right. right. exists (id + k). split; auto. split; auto. left. exists id. split; auto. lia. }
      unfold recorded_call. rewrite (helper_no_track _ _ _ He).
      rewrite (helper_body f T id _ _ He (helper_orig _ _ _ He)). cbn.
      right. left. eexists _, _. split; [reflexivity|]. split; auto. split; [|cbn; lia].
      apply cov_called.
    + apply single in Qts as (-> & -> & ->). destruct (rv_step _ _ _ _ _ _ St).
  - (* the result is converted *)
    apply step_cases in St as [(Fi & Fin & ->)|(pre & a & post & o & Qts & Ev & Tu & A1 & A2 & St & ->)].
    { specialize (Fin 0 _ eq_refl eq_refl). discriminate. }
    apply single in Qts as (-> & -> & ->). cbn [app child_env] in St |- *.
    apply step_cases in St as [(Fi & Fin & ->)|(pre & a & post & o1 & Qts & Ev1 & Tu1 & B1 & B2 & St & ->)].
    + cbn. right. left. eexists _, _. split; [reflexivity|]. split; auto. split; [|cbn; lia].
      rewrite (conv_idempotent L). apply cov_back.
    + apply single in Qts as (-> & -> & ->). destruct (rv_step _ _ _ _ _ _ St).
  - apply step_cases in St as [(Fi & Fin & ->)|(pre & a & post & o & Qts & Ev & Tu & A1 & A2 & St & ->)].
    + left. exists (head L R' c bs e m d0 (KAt T) [RV v]). split.
      * apply step_head; auto. intros [|[|]] a Ne _; cbn in Ne; try discriminate.
        injection Ne as <-. reflexivity.
      * cbn. repeat split; auto. rewrite (conv_idempotent L). apply cov_val.
    + apply single in Qts as (-> & -> & ->). destruct (rv_step _ _ _ _ _ _ St).
Qed.

(** * The coverage build by itself *)

Definition in_order (k : kind L) : Prop :=
  match k with
  | KM f id => mf_lines f = [] /\ mf_track f = Some (cnt id) /\ site id
  | KRecord id n => n = cnt id /\ site id
  | KRemovable _ => False
  | _ => True
  end.
Inductive tidy : tm -> Prop :=
| tidy_val v : tidy (RV v)
| tidy_loc l : tidy (RL l)
| tidy_node k ts : in_order k -> Forall tidy ts -> tidy (N k ts).

Lemma cov_tidy js b t s : cov js b t s -> tidy s.
Proof.
  assert (A : forall n t, weight t < n -> forall js b s, cov js b t s -> tidy s).
  { clear. induction n as [|n IH]; intros t Wt js b s H; [lia|].
    assert (Fw : forall js b ts ss, weights ts < n -> Forall2 (cov js b) ts ss -> Forall tidy ss).
    { intros js' b' ts ss Q F. revert Q. induction F as [|x y xs ys Hx F IHF]; intro Q; auto.
      rewrite weights_cons in Q. pose proof (weight_pos L x). constructor.
      - apply (IH x) with (js := js') (b := b'); auto. lia.
      - apply IHF. lia. }
    destruct H as [b v|b l|b k ts ss P F|T t0 s H|b f f' id ts ss Tw F|b f f' id t0 s Tw H
      |b id t0 s Si Q H|b T f id t0 s He Ij H|b T f id v He Ij|b T v|b T v];
      try (repeat constructor; fail).
    - apply tidy_node; [destruct k; try discriminate P; exact I|].
      apply (Fw js (lam_ok k) ts); auto. rewrite weight_n in Wt. destruct k; lia.
    - apply tidy_node; [exact I|]. cbn in Wt. constructor; auto. apply (IH t0) with (js := js) (b := false); auto. lia.
    - apply tidy_node; [repeat split; apply Tw|]. apply (Fw js true ts); auto. rewrite weight_n in Wt. lia.
    - apply tidy_node; [repeat split; apply Tw|]. cbn in Wt. constructor; auto.
      apply (IH t0) with (js := id :: js) (b := false); auto. lia.
    - apply tidy_node; [split; auto|]. cbn in Wt. constructor; auto. apply (IH t0) with (js := js) (b := false); auto. lia.
    - apply tidy_node; [exact I|]. cbn in Wt. constructor; auto. apply (IH t0) with (js := js) (b := false); auto. lia. }
  apply (A (S (weight t))). lia.
Qed.

Lemma tidy_args k ts : tidy (N k ts) -> in_order k /\ Forall tidy ts.
Proof. intro H. inversion H; auto. Qed.
Ltac untidy :=
  repeat match goal with
         | H : tidy (N _ _) |- _ => apply tidy_args in H as [? ?]
         | H : Forall _ (_ :: _) |- _ => inversion H; clear H; subst
         end.
Lemma tidy_skip : tidy skip.
Proof. apply tidy_node; [exact I|constructor]. Qed.
Lemma tidy_wrong : tidy (N KWrong []).
Proof. apply tidy_node; [exact I|constructor]. Qed.
Lemma tidy_sequence ts : Forall tidy ts -> tidy (sequence ts).
Proof. induction 1; cbn; [apply tidy_skip|]. apply tidy_node; [exact I|]. auto. Qed.
Lemma tidy_from_label p : forall ts labels ts', Forall tidy ts ->
  from_label L p labels ts = Some ts' -> Forall tidy ts'.
Proof.
  induction ts as [|t ts IH]; intros [|l labels] ts' F Q; cbn in Q; try discriminate.
  destruct (has_label p l).
  - injection Q as <-. exact F.
  - inversion F; subst. eapply IH; eauto.
Qed.
Lemma tidy_switch labels v ts : Forall tidy ts -> Forall tidy (switch_body L labels v ts).
Proof.
  intro F. unfold switch_body.
  destruct (from_label L _ labels ts) eqn:Q; [eapply tidy_from_label; eauto|].
  destruct (from_label L _ labels ts) eqn:Q2 in |- *; [eapply tidy_from_label; eauto|constructor].
Qed.

Definition tidy_op (x : operand L) : Prop := tidy (snd x).
Lemma tidy_rvalue x : tidy_op x -> tidy (rvalue x).
Proof. destruct x as [[|] t]; intro H; cbn; auto. apply tidy_node; [exact I|auto]. Qed.
Lemma tidy_lvalue x : tidy_op x -> tidy (lvalue x).
Proof. destruct x as [[|] t]; intro H; cbn; auto using tidy_wrong. Qed.
Lemma tidy_unary o x : tidy_op x -> tidy_op (unary_expression L c o x).
Proof.
  intro H. unfold unary_expression, tidy_op. destruct (is_incdec o); cbn; (apply tidy_node; [exact I|]);
    constructor; auto using tidy_lvalue, tidy_rvalue.
Qed.
Lemma tidy_expression r x y : tidy_op x -> tidy_op y -> tidy_op (expression L c r x y).
Proof.
  intros H1 H2. pose proof (tidy_rvalue _ H1). pose proof (tidy_rvalue _ H2).
  pose proof (tidy_lvalue _ H1).
  destruct r as [| |o|o|o|o|l]; cbn [expression]; auto using tidy_unary; unfold tidy_op.
  - destruct (is_incdec o); cbn; auto using tidy_wrong. apply tidy_node; [exact I|auto].
  - destruct (is_logical o); [|destruct (is_assign o); [|destruct (bop_eqb o Comma)]];
      cbn; auto using tidy_wrong; (apply tidy_node; [exact I|auto]).
  - constructor.
Qed.
Lemma tidy_accessed p a t : tidy t -> tidy_op (accessed L c p a t).
Proof.
  intro H. unfold accessed, tidy_op.
  destruct (declared c p) as [[[| |] T|[| |] T]|]; destruct a; try apply tidy_wrong;
    destruct t as [v|l|k ts]; try apply tidy_wrong; cbn; auto;
    try (apply tidy_node; [exact I|auto]; fail);
    destruct k; try apply tidy_wrong; destruct ts as [|x [|]]; try apply tidy_wrong; untidy; auto.
Qed.
Lemma tidy_argument ts i : Forall tidy ts -> tidy (argument ts i).
Proof.
  intro F. revert i. induction F as [|t ts H F IH]; intros [|i]; unfold argument; cbn;
    auto using tidy_wrong. apply IH.
Qed.
Lemma tidy_body f ts r : Forall tidy ts -> tidy (mutator_body L c f ts r).
Proof.
  intro F. unfold mutator_body, returned.
  pose proof (tidy_expression r _ _
    (tidy_accessed (parameter f 0) (fst (mf_access f)) _ (tidy_argument ts 0 F))
    (tidy_accessed (parameter f 1) (snd (mf_access f)) _ (tidy_argument ts 1 F))) as H.
  destruct (declared c (mf_result f)) as [[[| |] T|]|]; auto using tidy_wrong, tidy_lvalue.
  apply tidy_node; [exact I|]. constructor; auto using tidy_rvalue.
Qed.

Lemma tidy_call f id ts d d' t : in_order (KM f id) -> Forall tidy ts -> Inv' d ->
  call_mutator L R' c f id ts d = Some (d', t) ->
  tidy t /\ Inv' d' /\ forall i, id <= i < id + cnt id -> Rec i d'.
Proof.
  intros (Li & Tr & Si) F I0. unfold call_mutator. rewrite (tested_twin _ _ _ Li).
  unfold recorded_call. rewrite Tr. destruct (W' d id I0 Si) as (d2 & -> & I2 & Rr).
  intro Q. injection Q as <- <-. split; [apply tidy_body; auto|]. split; auto.
  intros i Hi. replace i with (id + (i - id)) by lia. apply Rr. lia.
Qed.


Ltac tidy_crunch :=
  let Z := fresh in
  repeat match goal with
         | |- context [match ?x with _ => _ end] => destruct x eqn:?; try discriminate
         end;
  intro Z; try discriminate Z; injection Z as <- <- <-; split; auto; untidy;
  repeat (first [assumption | apply tidy_skip | constructor; auto]).

Lemma tidy_head e m d k ts m' d' t : in_order k -> Forall tidy ts -> Inv' d ->
  head L R' c bs e m d k ts = Some (m', d', t) -> tidy t /\ Inv' d'.
Proof.
  intros Ok F I0. unfold head. cbv zeta. destruct k.
  - destruct ts; [|discriminate]. tidy_crunch.
  - destruct ts as [|x [|]]; try discriminate; destruct x; try discriminate; tidy_crunch.
  - destruct ts as [|x [|]]; try discriminate; destruct x; try discriminate; tidy_crunch.
  - destruct ts as [|x [|]]; try discriminate; destruct x; try discriminate; tidy_crunch.
  - destruct ts as [|x [|]]; try discriminate; destruct x; try discriminate; tidy_crunch.
  - destruct ts as [|x [|]]; try discriminate; destruct x; try discriminate; tidy_crunch.
  - destruct ts as [|x [|]]; try discriminate; destruct x; try discriminate; tidy_crunch.
  - destruct ts as [|x [|]]; try discriminate; destruct x; try discriminate; tidy_crunch.
  - destruct ts as [|x [|]]; try discriminate; destruct x; try discriminate; tidy_crunch.
  - destruct ts as [|x [|y [|]]]; try discriminate; destruct x; try discriminate;
      destruct y; try discriminate; tidy_crunch.
  - (* KLogic *)
    destruct ts as [|x [|y [|]]]; try discriminate; destruct x; try discriminate.
    destruct (Bool.eqb _ _); intro Z; injection Z as <- <- <-; untidy; split; auto.
    + apply tidy_node; [exact I|auto].
    + constructor.
  - destruct ts as [|x [|]]; try discriminate; destruct x; try discriminate; tidy_crunch.
  - destruct ts as [|x [|y [|]]]; try discriminate; destruct x; try discriminate;
      destruct y; try discriminate; tidy_crunch.
  - (* KCond *)
    destruct ts as [|x [|y [|z [|]]]]; try discriminate; destruct x; try discriminate.
    intro Z; injection Z as <- <- <-; untidy; split; auto. destruct (truth L v); auto.
  - (* KComma *)
    destruct ts as [|x [|y [|]]]; try discriminate. destruct (is_result x); [|discriminate].
    intro Z; injection Z as <- <- <-; untidy; split; auto.
  - (* KFirst *)
    destruct ts as [|x ts]; [discriminate|]. destruct (forallb is_result (x :: ts)); [|discriminate].
    intro Z; injection Z as <- <- <-; untidy; split; auto.
  - (* KCall *)
    destruct (forallb is_result ts); [|discriminate].
    pose proof (B [] f) as Bf. destruct (bt f), (bs f); try tauto.
    + destruct (enter L f (results ts) m) as [[e' m1]|]; [|discriminate].
      intro Z; injection Z as <- <- <-; split; auto. apply tidy_node; [exact I|].
      constructor; auto. eapply cov_tidy; eauto.
    + destruct (library L f (results ts) m) as [[v m1]|]; [|discriminate].
      intro Z; injection Z as <- <- <-; split; auto. constructor.
  - (* KInCall *)
    destruct ts as [|x [|]]; try discriminate; destruct x as [|?|k [|y [|]]]; try discriminate;
      destruct k; try discriminate; intro Z; injection Z as <- <- <-; untidy; split; auto; constructor.
  - destruct ts; discriminate.
  - (* KExpr *)
    destruct ts as [|x [|]]; try discriminate. destruct (is_result x); [|discriminate].
    intro Z; injection Z as <- <- <-. auto using tidy_skip.
  - (* KSeq *)
    destruct ts as [|x [|y [|]]]; try discriminate; destruct x as [|?|k ts]; try discriminate;
      destruct k; try discriminate; destruct ts; try discriminate;
      intro Z; injection Z as <- <- <-; inversion F; subst; split; auto; untidy; auto.
  - (* KIf *)
    destruct ts as [|x [|y [|z [|]]]]; try discriminate; destruct x; try discriminate.
    intro Z; injection Z as <- <- <-; untidy; split; auto. destruct (truth L v); auto.
  - (* KWhile *)
    destruct ts as [|x [|y [|]]]; try discriminate.
    intro Z; injection Z as <- <- <-; untidy; split; auto.
    repeat (first [assumption | apply tidy_skip | exact I | constructor]).
  - destruct ts as [|x [|y [|]]]; try discriminate.
    intro Z; injection Z as <- <- <-; untidy; split; auto.
    repeat (first [assumption | apply tidy_skip | exact I | constructor]).
  - destruct ts as [|x [|y [|z [|]]]]; try discriminate.
    intro Z; injection Z as <- <- <-; untidy; split; auto.
    repeat (first [assumption | apply tidy_skip | exact I | constructor]).
  - (* KLoop *)
    destruct ts as [|x [|y [|]]]; try discriminate; destruct x as [|?|k ts]; try discriminate;
      destruct k; try discriminate; destruct ts; try discriminate;
      intro Z; injection Z as <- <- <-; inversion F; subst; split; auto using tidy_skip; untidy; auto.
  - (* KSwitch *)
    destruct ts as [|x ts]; try discriminate; destruct x; try discriminate.
    intro Z; injection Z as <- <- <-; untidy; split; auto. apply tidy_node; [exact I|].
    constructor; auto. apply tidy_sequence, tidy_switch. assumption.
  - (* KSwitched *)
    destruct ts as [|x [|]]; try discriminate; destruct x as [|?|k ts]; try discriminate;
      destruct k; try discriminate; destruct ts; try discriminate;
      intro Z; injection Z as <- <- <-; inversion F; subst; split; auto using tidy_skip.
  - destruct ts; discriminate.
  - destruct ts; discriminate.
  - destruct ts; discriminate.
  - (* KM *)
    destruct (call_mutator L R' c f id ts d) as [[d1 t1]|] eqn:Q; [|destruct ts; discriminate].
    replace (match ts with _ => Some (m, d1, t1) end) with (Some (m, d1, t1)) by (destruct ts; auto).
    intro Z; injection Z as <- <- <-. destruct (tidy_call _ _ _ _ _ _ Ok F I0 Q) as (H1 & H2 & _). auto.
  - destruct ts; discriminate.
  - destruct Ok.
  - (* KRecord *)
    destruct Ok as [-> Si]. destruct ts as [|x [|]]; try discriminate.
    destruct (W' d id I0 Si) as (d2 & -> & I2 & _). intro Z; injection Z as <- <- <-. untidy. auto.
  - destruct ts; discriminate.
Qed.

Lemma tidy_step s : forall e m d m' d' s', tidy s -> Inv' d ->
  step_s e m d s (Some (m', d', s')) -> tidy s' /\ Inv' d'.
Proof.
  assert (A : forall n s, weight s < n -> forall e m d m' d' s', tidy s -> Inv' d ->
    step_s e m d s (Some (m', d', s')) -> tidy s' /\ Inv' d').
  2:{ apply (A (S (weight s))). lia. }
  clear s. induction n as [|n IH]; intros s We e m d m' d' s' Ti I0 St; [lia|].
  destruct s as [v|l|k ts]; [destruct (rv_step _ _ _ _ _ _ St)|inversion St|].
  apply tidy_args in Ti as [Ok F].
  apply step_cases in St as [(_ & _ & Q)|(pre & a & post & o & -> & _ & _ & _ & _ & St & Q)].
  - symmetry in Q. eapply tidy_head; eauto.
  - destruct o as [[[m1 d1] a1]|]; [|discriminate]. injection Q as -> -> ->.
    apply Forall_app in F as [F1 F2]. inversion F2; subst.
    assert (Wa : weight a < n).
    { rewrite weight_n, weights_app, weights_cons in We. destruct k; lia. }
    destruct (IH a Wa (child_env k e) m d m1 d1 a1) as [T1 I1]; auto. split; auto.
    apply tidy_node; auto. apply Forall_app. auto.
Qed.

Lemma pending_not_final i s : pending i s -> final s = false.
Proof.
  induction 1 as [f id ts Li Tr Si Hi|k pre a post Ev Pe IH]; [reflexivity|].
  destruct k; try reflexivity; try discriminate Ev.
  destruct pre as [|x [|]]; cbn; auto.
  - destruct post; auto. destruct Pe; reflexivity.
Qed.
Lemma app_split {A} : forall (pre pre' : list A) a a' post post',
  pre ++ a :: post = pre' ++ a' :: post' ->
  (pre = pre' /\ a = a' /\ post = post') \/
  (forall x, exists p q, length p = length pre /\ pre' ++ x :: post' = p ++ a :: q).
Proof.
  induction pre as [|y pre IH]; intros [|y' pre'] a a' post post' Q; cbn in Q; injection Q as Q1 Q2.
  - left. auto.
  - subst y'. right. intro x. exists [], (pre' ++ x :: post'). auto.
  - subst y. right. intro x. exists (x :: pre), post. cbn. subst post'. auto.
  - subst y'. destruct (IH _ _ _ _ _ Q2) as [(-> & -> & ->)|H].
    + left. auto.
    + right. intro x. destruct (H x) as (p & q & Le & Qx). exists (y :: p), q. cbn. rewrite Le, Qx. auto.
Qed.
Lemma pending_step i s : pending i s -> forall e m d m' d' s', tidy s -> Inv' d ->
  step_s e m d s (Some (m', d', s')) -> pending i s' \/ Rec i d'.
Proof.
  induction 1 as [f id ts Li Tr Si Hi|k pre a post Ev Pe IH]; intros e m d m' d' s' Ti I0 St;
    apply tidy_args in Ti as [Ok F].
  - apply step_cases in St as [(_ & _ & Q)|(pre & a & post & o & -> & _ & _ & _ & _ & St & Q)].
    + right. cbn [head] in Q.
      assert (Q' : match call_mutator L R' c f id ts d with Some (d, t) => Some (m, d, t) | None => None end
                   = Some (m', d', s')) by (destruct ts; auto).
      destruct (call_mutator L R' c f id ts d) as [[d1 t1]|] eqn:Qc; [|discriminate].
      injection Q' as <- <- <-. destruct (tidy_call _ _ _ _ _ _ Ok F I0 Qc) as (_ & _ & H). auto.
    + left. destruct o as [[[m1 d1] a1]|]; [|discriminate]. injection Q as -> -> ->.
      apply pending_here; auto.
  - apply step_cases in St as [(_ & Fin & Q)|(pre' & a' & post' & o & Qs & Ev' & _ & _ & _ & St & Q)].
    + pose proof (pending_not_final _ _ Pe) as Nf. rewrite (Fin (length pre) a) in Nf; [discriminate| |auto].
      rewrite nth_error_app2, Nat.sub_diag; auto.
    + destruct o as [[[m1 d1] a1]|]; [|discriminate]. injection Q as -> -> ->.
      destruct (app_split _ _ _ _ _ _ Qs) as [(<- & <- & <-)|H].
      * apply Forall_app in F as [F1 F2]. inversion F2; subst.
        destruct (IH _ _ _ _ _ _ H1 I0 St) as [P1|R1]; auto. left. apply pending_in; auto.
      * destruct (H a1) as (p & q & Le & ->). left. apply pending_in; auto. rewrite Le. exact Ev.
Qed.

(** * Executions *)

(* No execution of the coverage build records an enabled mutant; if mutants of && or || in C
   are enabled, it can finish wherever it has got to. *)
Definition ends e m (d0 : rt_state R') (s : tm) : Prop :=
  forall m' d' s', steps L R' c bs cpp17 e (m, d0, s) (m', d', s') ->
  exists m2 r, finishes L R' c bs cpp17 e m' d' s' m2 r.
Definition silent e m (d0 : rt_state R') (s : tm) : Prop :=
  forall m' d' s', steps L R' c bs cpp17 e (m, d0, s) (m', d', s') ->
  forall i, E i = true -> ~ Rec i d'.
Definition quiet e m d0 s : Prop := silent e m d0 s /\ (Late -> ends e m d0 s).
Lemma quiet_step e m d0 s m' d0' s' :
  quiet e m d0 s -> step_s e m d0 s (Some (m', d0', s')) -> quiet e m' d0' s'.
Proof.
  intros [Q1 Q2] St. split.
  - intros m2 d2 s2 Ss. apply (Q1 m2 d2 s2). econstructor; eauto.
  - intros La m2 d2 s2 Ss. apply (Q2 La m2 d2 s2). econstructor; eauto.
Qed.

Lemma pending_steps i e x y : E i = true -> steps L R' c bs cpp17 e x y ->
  forall m d s m' d' s', x = (m, d, s) -> y = (m', d', s') ->
  tidy s -> Inv' d -> silent e m d s -> pending i s -> pending i s'.
Proof.
  intro Ei. induction 1 as [x|m d s [[m1 d1] s1] y St Ss IH]; intros m0 d0 s0 m2 d2 s2 Qx Qy Ti I0 Si Pe.
  - subst x. injection Qy as <- <- <-. exact Pe.
  - injection Qx as <- <- <-. destruct (tidy_step _ _ _ _ _ _ _ Ti I0 St) as [T1 I1].
    destruct (pending_step _ _ Pe _ _ _ _ _ _ Ti I0 St) as [P1|R1].
    + apply (IH m1 d1 s1 m2 d2 s2); auto. intros m3 d3 s3 S3. apply (Si m3 d3 s3). econstructor; eauto.
    + destruct (Si m1 d1 s1) with (i := i); auto. econstructor; eauto. constructor.
Qed.
Lemma pending_blocks i e m d s : E i = true -> tidy s -> Inv' d -> silent e m d s ->
  ends e m d s -> ~ pending i s.
Proof.
  intros Ei Ti I0 Si En Pe. destruct (En m d s) as (m2 & r & d2 & Ss & Fi); [constructor|].
  pose proof (pending_steps i e _ _ Ei Ss m d s m2 d2 r eq_refl eq_refl Ti I0 Si Pe) as P2.
  rewrite (pending_not_final _ _ P2) in Fi. discriminate.
Qed.

Lemma cover_quiet t s e m d d0 x :
  step_t e m d t x -> Inv d -> Inv' d0 -> cov [] false t s -> quiet e m d0 s ->
  (exists y, step_s e m d0 s y /\ matched [] false x y) \/
  (exists d' t', x = Some (m, d', t') /\ Inv d' /\ cov [] false t' s /\ weight t' < weight t).
Proof.
  intros St Id I0 Co [Qu En].
  destruct (cover_step t [] false s e m d d0 x St Id I0 Co)
    as [H|[H|[(m' & d0' & s' & i & Sy & Ei & Re)|(i & Ei & La & [(j & [] & _)|Pe])]]]; auto.
  - destruct (Qu m' d0' s') with (i := i); auto. econstructor; eauto. constructor.
  - destruct (pending_blocks i e m d0 s); auto. eapply cov_tidy; eauto.
Qed.

Lemma cover_steps e x y : steps L R c bt cpp17 e x y ->
  forall m d t m' d' t' s d0, x = (m, d, t) -> y = (m', d', t') ->
  Inv d -> Inv' d0 -> cov [] false t s -> quiet e m d0 s ->
  exists d0' s', steps L R' c bs cpp17 e (m, d0, s) (m', d0', s') /\ cov [] false t' s' /\
    Inv d' /\ Inv' d0' /\ quiet e m' d0' s'.
Proof.
  induction 1 as [x|m d t [[m1 d1] t1] y St Ss IH]; intros m0 d' t' m2 d2 t2 s d0 Qx Qy Id I0 Co Qu.
  - subst x. injection Qy as <- <- <-. exists d0, s. split; [constructor|auto].
  - injection Qx as <- <- <-.
    destruct (cover_quiet t s e m d d0 _ St Id I0 Co Qu) as [([[[m3 d3] s3]|] & Sy & M)|(d3 & t3 & Q & I3 & C3 & _)].
    + destruct M as (-> & I1 & I3 & C3).
      destruct (IH _ _ _ _ _ _ s3 d3 eq_refl Qy I1 I3 C3 (quiet_step _ _ _ _ _ _ _ Qu Sy))
        as (d0' & s' & S2 & Rest).
      exists d0', s'. split; auto. econstructor; eauto.
    + destruct M.
    + injection Q as -> -> ->. exact (IH _ _ _ _ _ _ s d0 eq_refl Qy I3 I0 C3 Qu).
Qed.

Lemma cover_finishes e m d d0 t s m' r :
  Inv d -> Inv' d0 -> cov [] false t s -> quiet e m d0 s ->
  finishes L R c bt cpp17 e m d t m' r -> finishes L R' c bs cpp17 e m d0 s m' r.
Proof.
  intros Id I0 Co Qu (d' & St & F).
  destruct (cover_steps e _ _ St _ _ _ _ _ _ s d0 eq_refl eq_refl Id I0 Co Qu)
    as (d0' & s' & Ss & C' & _).
  rewrite (cov_final_same _ _ _ C' F) in Ss. exists d0'. auto.
Qed.
Lemma cover_undefined e m d d0 t s :
  Inv d -> Inv' d0 -> cov [] false t s -> quiet e m d0 s ->
  undefined L R c bt cpp17 e m d t -> undefined L R' c bs cpp17 e m d0 s.
Proof.
  intros Id I0 Co Qu (m' & d' & t' & St & Su).
  destruct (cover_steps e _ _ St _ _ _ _ _ _ s d0 eq_refl eq_refl Id I0 Co Qu)
    as (d0' & s' & Ss & C' & Id' & I0' & Qu').
  exists m', d0', s'. split; auto.
  destruct (cover_quiet t' s' e m' d' d0' _ Su Id' I0' C' Qu') as [([[[m3 d3] s3]|] & Sy & M)|(d3 & t3 & Q & _)].
  - destruct M.
  - exact Sy.
  - discriminate.
Qed.
Lemma cover_reaches e m d d0 t s m' :
  Inv d -> Inv' d0 -> cov [] false t s -> quiet e m d0 s ->
  reaches L R c bt cpp17 e m d t m' -> reaches L R' c bs cpp17 e m d0 s m'.
Proof.
  intros Id I0 Co Qu (d' & t' & St).
  destruct (cover_steps e _ _ St _ _ _ _ _ _ s d0 eq_refl eq_refl Id I0 Co Qu)
    as (d0' & s' & Ss & _).
  exists d0', s'. auto.
Qed.
Lemma cover_diverges e m d d0 t s :
  Inv d -> Inv' d0 -> cov [] false t s -> quiet e m d0 s ->
  diverges L R c bt cpp17 e m d t -> diverges L R' c bs cpp17 e m d0 s.
Proof.
  assert (Next : forall n m d d0 t s, weight t < n -> cov [] false t s -> Inv d -> Inv' d0 ->
    quiet e m d0 s -> diverges L R c bt cpp17 e m d t ->
    exists m' d' d0' t' s', step_s e m d0 s (Some (m', d0', s')) /\ cov [] false t' s' /\ Inv d' /\
      Inv' d0' /\ quiet e m' d0' s' /\ diverges L R c bt cpp17 e m' d' t').
  { induction n as [|n IH]; intros m1 d1 d2 t1 s1 Wt Co Id I0 Qu Dv; [lia|].
    inversion Dv as [m3 d3 t3 m' d' t' St Dv']; subst.
    destruct (cover_quiet t1 s1 e m1 d1 d2 _ St Id I0 Co Qu) as [([[[m3 d3] s3]|] & Sy & M)|(d3 & t3 & Q & I3 & C3 & Wt1)].
    - destruct M as (-> & I1 & I3 & C3). exists m3, d', d3, t', s3.
      pose proof (quiet_step _ _ _ _ _ _ _ Qu Sy). auto 10.
    - destruct M.
    - injection Q as -> -> ->. apply (IH m1 d3 d2 t3 s1); auto. lia. }
  revert m d d0 t s. cofix CIH. intros m d d0 t s Id I0 Co Qu Dv.
  destruct (Next (S (weight t)) m d d0 t s (le_n _) Co Id I0 Qu Dv)
    as (m' & d' & d0' & t' & s' & St & Co' & Id' & I0' & Qu' & Dv').
  econstructor; [exact St|]. exact (CIH m' d' d0' t' s' Id' I0' Co' Qu' Dv').
Qed.
End Cover.
