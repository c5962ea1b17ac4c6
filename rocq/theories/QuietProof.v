From Coq Require Import String List ZArith Bool Lia.
From Verif Require Import Base Clang Gen GenExpr GenBinary GenUnary GenStmt Mutation GenSpec
  Lang Cst SimSpec SimRel SimProgress QuietSpec.
Import ListNotations.

Section Quiet.
Variable L : lang.
Variable R : runtime.
Variable c : ctx.
Variable cpp17 : bool.
Hypothesis Reads : reads_are_quiet L.
Notation tm := (tm L).

(* Terms without effects *)
Definition pure_kind (k : kind L) : bool :=
  quiet_kind L k || match k with KFirst | KWrong => true | _ => false end.
Fixpoint pure (t : tm) : bool :=
  match t with RV _ | RL _ => true | N k args => pure_kind k && forallb pure args end.
Fixpoint size (t : tm) : nat :=
  match t with RV _ | RL _ => 1 | N _ args => 2 + (list_sum (map size args)) end.

Lemma pure_inactive t : pure t = true -> active t = false.
Proof.
  induction t as [v|l|k args IH] using tm_induction; intro P; auto.
  cbn in P. apply andb_true_iff in P as [K P].
  assert (A : existsb active args = false).
  { clear K. induction IH as [|a args Ha F IHF]; auto. cbn in *. apply andb_true_iff in P as [P1 P2].
    rewrite Ha, IHF; auto. }
  destruct k; try discriminate K; exact A.
Qed.

Definition good_outcome (m : mem L) (d : rt_state R) (t : tm) (o : outcome L R) : Prop :=
  match o with
  | None => True
  | Some (m', d', t') => m' = m /\ d' = d /\ pure t' = true /\ size t' < size t
  end.

Lemma size_middle k pre a post :
  size (N k (pre ++ a :: post)) = 2 + list_sum (map size pre) + size a + list_sum (map size post).
Proof. cbn [size]. rewrite map_app, list_sum_app. cbn [map]. unfold list_sum at 2. cbn [fold_right]. fold (list_sum (map size post)). lia. Qed.

Lemma pure_final t : pure t = true -> final t = true -> is_result t = true.
Proof.
  destruct t as [v|l|k args]; auto. cbn. intros P F. apply andb_true_iff in P as [K _].
  destruct k; try discriminate K; discriminate F.
Qed.

Section Bodies.
Variable bodies : string -> option tm.
Hypothesis Inactive : forall g s, bodies g = Some s -> active s = false.
Notation stp := (step L R c bodies cpp17).
Notation stps := (steps L R c bodies cpp17).

Lemma pure_head e m d k args : pure (N k args) = true ->
  good_outcome m d (N k args) (head L R c bodies e m d k args).
Proof.
  cbn [pure]. intro P. apply andb_true_iff in P as [K P].
  destruct k; try discriminate K; clear K;
    (destruct args as [|a args]; [|destruct args as [|b args]; [|destruct args as [|a3 args]; [|destruct args]]]);
    cbn [forallb] in P; repeat (apply andb_true_iff in P as [? P]);
    try (destruct a); cbn -[conv boolean truth]; try exact I.
  all: try (repeat match goal with
    | |- good_outcome _ _ _ (match ?x with _ => _ end) => destruct x eqn:?
    | |- good_outcome _ _ _ (if ?x then _ else _) => destruct x eqn:?
    end; cbn; try exact I; repeat split; cbn in *; auto; try lia; fail).
  all: try (destruct b; cbn; try exact I).
  all: repeat match goal with
    | |- good_outcome _ _ _ (match ?x with _ => _ end) => destruct x eqn:?
    | |- good_outcome _ _ _ (if ?x then _ else _) => destruct x eqn:?
    end; cbn [good_outcome]; try exact I.
  all: repeat match goal with H : load L _ _ = Some _ |- _ => apply Reads in H end; subst.
  all: try (repeat split; cbn; auto; try lia; fail).
  all: try (repeat match goal with H : _ && _ = true |- _ => apply andb_true_iff in H as [? ?] end;
    repeat split; cbn in *; rewrite ?andb_true_r; auto; try lia; try (rewrite ?andb_true_iff; auto); fail).
  all: match goal with |- context [truth L ?v] => destruct (truth L v) end; repeat split; cbn in *; auto; try lia.
Qed.

Lemma pure_step e m d t o : stp e m d t o -> pure t = true -> good_outcome m d t o.
Proof.
  induction 1 as [e m d k args F Ev|e m d k pre a post o Ev Tu A B St IH]; intro P.
  - apply pure_head. exact P.
  - cbn in P. apply andb_true_iff in P as [K P]. rewrite forallb_app in P. cbn in P.
    apply andb_true_iff in P as [P1 P2]. apply andb_true_iff in P2 as [P2 P3].
    specialize (IH P2).
    destruct o as [[[m' d'] a']|]; [|exact I]. unfold good_outcome in *. cbn [put].
    destruct IH as (-> & -> & Pa & S1). repeat split; auto.
    + cbn. rewrite K. cbn. rewrite forallb_app. cbn. rewrite P1, Pa. exact P3.
    + rewrite !size_middle. lia.
Qed.

(* A term without effects is evaluated to a result, or runs into undefined behaviour. *)
Lemma pure_runs e m d : forall n t, size t < n -> pure t = true ->
  exists t', stps e (m, d, t) (m, d, t') /\ pure t' = true /\
    (is_result t' = true \/ stp e m d t' None).
Proof.
  induction n as [|n IH]; intros t S P; [lia|].
  destruct (inactive_progress L c R bodies Inactive cpp17 t (pure_inactive t P)) as [F|St].
  - exists t. split; [apply steps_refl|]. split; [exact P|]. left. apply pure_final; auto.
  - destruct (St e m d) as [o So]. pose proof (pure_step _ _ _ _ _ So P) as G.
    destruct o as [[[m' d'] t']|].
    + destruct G as (-> & -> & P' & S').
      destruct (IH t') as (t'' & H & P'' & D); [lia|exact P'|].
      exists t''. repeat split; auto. econstructor; eauto.
    + exists t. split; [apply steps_refl|]. split; [exact P|]. right. exact So.
Qed.

Lemma steps_trans e x y z : stps e x y -> stps e y z -> stps e x z.
Proof. induction 1; auto. intro. econstructor; eauto. Qed.
Lemma steps_one e m d t x : stp e m d t (Some x) -> stps e (m, d, t) x.
Proof. intro. econstructor; eauto. apply steps_refl. Qed.

(* Steps of an operand *)
Lemma operand_steps k pre post e : evaluated k (length pre) = true ->
  its_turn cpp17 k pre post = true -> existsb active pre = false -> existsb active post = false ->
  forall x y, stps (child_env k e) x y ->
  stps e (fst x, N k (pre ++ snd x :: post)) (fst y, N k (pre ++ snd y :: post)).
Proof.
  intros Ev Tu A B x y. induction 1 as [x|m d t x y St S IH]; [apply steps_refl|].
  cbn in *. destruct x as [[m' d'] t']. cbn in *. econstructor; [|exact IH].
  exact (step_operand L R c bodies cpp17 e m d k pre t post (Some (m', d', t')) Ev Tu A B St).
Qed.

Lemma quiet_statement_runs e m d a : pure a = true ->
  stps e (m, d, N KExpr [a]) (m, d, skip) \/
  exists t', stps e (m, d, N KExpr [a]) (m, d, t') /\ stp e m d t' None.
Proof.
  intro P. destruct (pure_runs e m d (S (size a)) a) as (a' & S & P' & D); auto.
  pose proof (operand_steps KExpr [] [] e eq_refl ltac:(unfold its_turn; destruct cpp17; reflexivity) eq_refl eq_refl
    _ _ S) as T. cbn in T.
  destruct D as [Re|U].
  - left. eapply steps_trans; [exact T|]. apply steps_one.
    replace (Some (m, d, skip)) with (head L R c bodies e m d KExpr [a'])
      by (cbn; rewrite Re; reflexivity).
    apply step_head; [destruct a'; try discriminate Re; reflexivity|].
    intros [|i] b Q _; cbn in Q; [|destruct i; discriminate Q]. injection Q as <-.
    destruct a'; try discriminate Re; reflexivity.
  - right. exists (N KExpr [a']). split; [exact T|].
    apply (step_operand L R c bodies cpp17 e m d KExpr [] a' [] None); auto.
    unfold its_turn. destruct cpp17; reflexivity.
Qed.
End Bodies.

(** * Programs with and without the statements *)

Definition part (k : kind L) (i : nat) : bool :=
  component L k i || match k with KLoop => true | KSwitched => Nat.eqb i 0 | _ => false end.
(* here: at the place of a statement *)
Definition inside (here : bool) (k : kind L) (i : nat) : bool :=
  match k with KInCall _ => Nat.eqb i 0 | _ => here && part k i end.
Definition plain (k : kind L) (n : nat) : bool :=
  match k with
  | KM _ _ | KLambda _ | KRemovable _ | KRecord _ _ => false
  | KInCall _ | KSwitched => Nat.eqb n 1
  | _ => true
  end.

Inductive er : bool -> tm -> tm -> Prop :=
| er_val h v : er h (RV v) (RV v)
| er_loc h l : er h (RL l) (RL l)
| er_node h k args args0 : plain k (length args) = true -> ers h k 0 args args0 -> er h (N k args) (N k args0)
| er_erase a : pure a = true -> er true (N KExpr [a]) skip
with ers : bool -> kind L -> nat -> list tm -> list tm -> Prop :=
| ers_nil h k i : ers h k i [] []
| ers_cons h k i a a0 l l0 : er (inside h k i) a a0 -> ers h k (S i) l l0 ->
    ers h k i (a :: l) (a0 :: l0).
Scheme er_ind2 := Induction for er Sort Prop with ers_ind2 := Induction for ers Sort Prop.
Combined Scheme er_both from er_ind2, ers_ind2.

Lemma er_weaken : forall t h t0, er h t t0 -> er true t t0.
Proof.
  induction t as [v|l|k args IH] using tm_induction; intros h t0 H.
  - inversion H; constructor.
  - inversion H; constructor.
  - assert (G : forall i args0, ers h k i args args0 -> ers true k i args args0).
    { clear H. induction IH as [|a args Ha F IHF]; intros i args0 X; inversion X; subst; constructor; auto.
      match goal with Y : er _ a _ |- _ => rename Y into Er end.
      unfold inside in *. destruct k; eauto; cbn in *; destruct h; cbn in *; eauto;
        match goal with |- er ?b _ _ => destruct b eqn:Q end; eauto. }
    inversion H; subst; constructor; auto.
Qed.

Lemma er_up h t t0 : er false t t0 -> er h t t0.
Proof. destruct h; auto. apply er_weaken. Qed.

Lemma er_final h t t0 : er h t t0 -> final t = true -> t0 = t.
Proof.
  intros H F. inversion H as [| |h' k args args0 P X|a P]; subst; auto.
  - destruct k; try discriminate P; try discriminate F; inversion X as [|? ? ? a a0 l l0 E Y]; subst;
      try discriminate F; auto.
    cbn in F. destruct l as [|]; [|destruct a; discriminate F]. inversion Y; subst.
    destruct a; try discriminate F; inversion E; subst; reflexivity.
  - discriminate F.
Qed.
Lemma er_final_back h t t0 : er h t t0 -> final t0 = true ->
  t = t0 \/ h = true /\ t0 = skip /\ exists a, t = N KExpr [a] /\ pure a = true.
Proof.
  intros H F. inversion H as [| |h' k args args0 P X|a P]; subst; auto.
  - left. destruct k; try discriminate P; try discriminate F; inversion X as [|? ? ? a a0 l l0 E Y]; subst;
      try discriminate F; auto.
    cbn in F. destruct l0 as [|]; [|destruct a0; discriminate F]. inversion Y; subst.
    destruct a0; try discriminate F; inversion E; subst; reflexivity.
  - right. eauto.
Qed.
Lemma er_final_false t t0 : er false t t0 -> final t = final t0.
Proof.
  intro H. destruct (final t) eqn:F.
  - rewrite (er_final _ _ _ H F). auto.
  - destruct (final t0) eqn:F0; auto.
    destruct (er_final_back _ _ _ H F0) as [->|(D & _)]; congruence.
Qed.

Lemma er_active : forall h t t0, er h t t0 -> active t = active t0.
Proof.
  apply (er_ind2 (fun h t t0 _ => active t = active t0)
    (fun h k i l l0 _ => existsb active l = existsb active l0)); try reflexivity.
  - intros h k args args0 P X IH. destruct k; auto; exact IH.
  - intros a P. cbn. rewrite (pure_inactive a P). reflexivity.
  - intros. cbn. congruence.
Qed.
Lemma ers_active h k i l l0 : ers h k i l l0 -> existsb active l = existsb active l0.
Proof. induction 1; cbn; auto. rewrite (er_active _ _ _ H). congruence. Qed.

Lemma ers_length h k i l l0 : ers h k i l l0 -> length l = length l0.
Proof. induction 1; cbn; congruence. Qed.
Lemma ers_nth h k i l l0 : ers h k i l l0 -> forall j a, nth_error l j = Some a ->
  exists a0, nth_error l0 j = Some a0 /\ er (inside h k (i + j)) a a0.
Proof.
  induction 1 as [|h k i a a0 l l0 E X IH]; intros j b Q; [destruct j; discriminate Q|].
  destruct j as [|j]; cbn in Q.
  - injection Q as <-. exists a0. rewrite Nat.add_0_r. split; auto.
  - destruct (IH j b Q) as (b0 & Q0 & E0). exists b0. split; [exact Q0|].
    replace (i + S j) with (S i + j) by lia. exact E0.
Qed.
Lemma ers_nth_back h k i l l0 : ers h k i l l0 -> forall j a0, nth_error l0 j = Some a0 ->
  exists a, nth_error l j = Some a /\ er (inside h k (i + j)) a a0.
Proof.
  induction 1 as [|h k i a a0 l l0 E X IH]; intros j b Q; [destruct j; discriminate Q|].
  destruct j as [|j]; cbn in Q.
  - injection Q as <-. exists a. rewrite Nat.add_0_r. split; auto.
  - destruct (IH j b Q) as (b0 & Q0 & E0). exists b0. split; [exact Q0|].
    replace (i + S j) with (S i + j) by lia. exact E0.
Qed.
Lemma ers_split h k pre : forall i a post l0, ers h k i (pre ++ a :: post) l0 ->
  exists pre0 a0 post0, l0 = pre0 ++ a0 :: post0 /\ ers h k i pre pre0 /\
    er (inside h k (i + length pre)) a a0 /\ ers h k (i + S (length pre)) post post0.
Proof.
  induction pre as [|b pre IH]; intros i a post l0 X; inversion X as [|? ? ? x x0 y y0 E Y]; subst.
  - exists [], x0, y0. cbn. rewrite Nat.add_0_r, Nat.add_1_r. repeat split; auto. constructor.
  - destruct (IH _ _ _ _ Y) as (pre0 & a0 & post0 & -> & X1 & E1 & X2).
    exists (x0 :: pre0), a0, post0. cbn [length].
    replace (i + S (length pre)) with (S i + length pre) by lia.
    replace (i + S (S (length pre))) with (S i + S (length pre)) by lia.
    repeat split; auto. constructor; auto.
Qed.
Lemma ers_split_back h k pre0 : forall i a0 post0 l, ers h k i l (pre0 ++ a0 :: post0) ->
  exists pre a post, l = pre ++ a :: post /\ ers h k i pre pre0 /\
    er (inside h k (i + length pre)) a a0 /\ ers h k (i + S (length pre)) post post0.
Proof.
  induction pre0 as [|b pre0 IH]; intros i a0 post0 l X; inversion X as [|? ? ? x x0 y y0 E Y]; subst.
  - exists [], x, y. cbn. rewrite Nat.add_0_r, Nat.add_1_r. repeat split; auto. constructor.
  - destruct (IH _ _ _ _ Y) as (pre & a & post & -> & X1 & E1 & X2).
    exists (x :: pre), a, post. cbn [length].
    replace (i + S (length pre)) with (S i + length pre) by lia.
    replace (i + S (S (length pre))) with (S i + S (length pre)) by lia.
    repeat split; auto. constructor; auto.
Qed.
Lemma ers_app h k pre pre0 : forall i, ers h k i pre pre0 -> forall a a0 post post0,
  er (inside h k (i + length pre)) a a0 -> ers h k (i + S (length pre)) post post0 ->
  ers h k i (pre ++ a :: post) (pre0 ++ a0 :: post0).
Proof.
  intros i X. induction X as [h k i|h k i b b0 l l0 E X IH]; intros a a0 post post0 Ea Xp; cbn in *.
  - rewrite Nat.add_0_r in Ea. rewrite Nat.add_1_r in Xp. constructor; auto.
  - constructor; auto. apply IH.
    + rewrite Nat.add_succ_r in Ea. exact Ea.
    + rewrite Nat.add_succ_r in Xp. exact Xp.
Qed.

Section Programs.
Variables bodies bodies0 : string -> option tm.
Hypothesis Inactive : forall g s, bodies g = Some s -> active s = false.
Hypothesis Inactive0 : forall g s, bodies0 g = Some s -> active s = false.
Hypothesis Related : forall f, match bodies f, bodies0 f with
  | Some s, Some s0 => er true s s0
  | None, None => True
  | _, _ => False
  end.
Notation stp := (step L R c bodies cpp17).
Notation stps := (steps L R c bodies cpp17).
Notation stp0 := (step L R c bodies0 cpp17).
Notation stps0 := (steps L R c bodies0 cpp17).

Definition rel (h : bool) (o o0 : outcome L R) : Prop :=
  match o, o0 with
  | None, None => True
  | Some (m, d, t), Some (m0, d0, t0) => m = m0 /\ d = d0 /\ er h t t0
  | _, _ => False
  end.

Lemma er_skip h : er h skip skip.
Proof. constructor; [reflexivity|constructor]. Qed.
Lemma er_sequence h k : (forall i, 1 <= i -> inside h k i = h) -> forall i l l0, ers h k (S i) l l0 ->
  er h (sequence l) (sequence l0).
Proof.
  intros Hk i l l0 X. remember (S i) as j eqn:Qj. revert i Qj.
  induction X as [h k j|h k j a a0 l l0 E X IH]; intros i Qj; [apply er_skip|].
  subst j. cbn. constructor; [reflexivity|]. constructor; [|constructor; [|constructor]]; cbn.
  - rewrite andb_true_r. rewrite (Hk (S i)) in E by lia. exact E.
  - rewrite andb_true_r. apply (IH Hk (S i)). reflexivity.
Qed.
Lemma er_from_label h p labels : forall i l l0, ers h (KSwitch []) (S i) l l0 ->
  match from_label L p labels l, from_label L p labels l0 with
  | Some x, Some x0 => exists i, ers h (KSwitch []) (S i) x x0
  | None, None => True
  | _, _ => False
  end.
Proof.
  induction labels as [|ls labels IH]; intros i l l0 X; inversion X as [|? ? ? a a0 y y0 E Y]; subst;
    cbn; auto. destruct (has_label p ls); [exists i; constructor; auto|]. apply (IH (S i)). exact Y.
Qed.
Lemma ers_switch h labels labels' i l l0 : ers h (KSwitch labels) i l l0 -> ers h (KSwitch labels') i l l0.
Proof.
  intro X. remember (KSwitch labels) as k eqn:Qk. induction X; subst; constructor; auto.
Qed.

Lemma er_head e m d h k args args0 : plain k (length args) = true -> ers h k 0 args args0 ->
  (forall i a, nth_error args i = Some a -> evaluated k i = true -> final a = true) ->
  rel h (head L R c bodies e m d k args) (head L R c bodies0 e m d k args0).
Proof.
  intros P X F.
  assert (Same : forall i a a0, nth_error args i = Some a -> nth_error args0 i = Some a0 ->
    evaluated k i = true -> a0 = a).
  { intros i a a0 Q Q0 Ev. destruct (ers_nth _ _ _ _ _ X i a Q) as (b & Qb & E).
    assert (a0 = b) by congruence. subst b. eapply er_final; eauto. }
  clear F.
  assert (All : (forall i, evaluated k i = true) -> args0 = args).
  { intro Ev. pose proof (ers_length _ _ _ _ _ X) as Len. clear X P.
    revert args0 Same Len. induction args as [|a l IH]; intros [|a0 l0] Same Len; try discriminate Len; auto.
    rewrite (Same 0 a a0 eq_refl eq_refl (Ev 0)). f_equal. apply IH.
    - intros i b b0 Q Q0 _. apply (Same (S i) b b0 Q Q0 (Ev (S i))).
    - cbn in Len. lia. }
  assert (Zero : forall l l0, args = l -> args0 = l0 -> forall a y b y0, l = a :: y -> l0 = b :: y0 ->
    evaluated k 0 = true -> b = a).
  { intros l l0 -> -> a y b y0 -> -> Ev. apply (Same 0 a b eq_refl eq_refl Ev). }
  destruct k; try discriminate P.
  all: try (pose proof (All (fun i => eq_refl)); subst args0; clear Zero All Same;
    cbn [head];
    repeat match goal with
    | |- rel _ (match ?x with _ => _ end) _ => destruct x eqn:?
    | |- rel _ (let (_, _) := ?x in _) _ => destruct x eqn:?
    end; try exact I; cbn [rel]; repeat split; auto; try apply er_skip; try (constructor; fail); fail).
  Ltac shape X := let E := fresh "E" in let Y := fresh "Y" in
    inversion X as [|? ? ? ? ? ? ? E Y]; clear X; subst; cbn [inside component part orb] in E;
    rewrite ?andb_true_r, ?andb_false_r in E.
  Ltac finish := cbn [rel]; try exact I; try (repeat split; auto; fail).
  - (* KVar *) inversion X; subst; cbn [head]; [destruct (lookup L e x); finish; repeat split; constructor|exact I].
  - (* KIncDec *) pose proof (All (fun i => eq_refl)). subst args0. cbn [head].
    destruct args as [|[] [|]]; try exact I. destruct (load L l m) as [[]|]; try exact I.
    destruct (incdec L o v); try exact I. destruct (store L l v0 m0) as [[]|]; try exact I.
    cbn. repeat split. destruct o; try destruct (cpp c); constructor.
  - (* KLogic *) inversion X as [|? ? ? a a0 l l0 E Y]; subst; [exact I|].
    pose proof (Same 0 a a0 eq_refl eq_refl eq_refl). subst a0.
    inversion Y as [|? ? ? b b0 y y0 E2 Y2]; subst; [destruct a; exact I|].
    inversion Y2; subst; [|destruct a; exact I]. cbn [head].
    destruct a; try exact I. destruct (Bool.eqb _ _); cbn; repeat split; try constructor; auto.
    constructor; [|constructor]. cbn in *. rewrite andb_false_r in *. exact E2.
  - (* KAssign *) pose proof (All (fun i => eq_refl)). subst args0. cbn [head].
    destruct args as [|[] [|[] [|]]]; try exact I. destruct (assigned _ _ _ _ _) as [[]|]; try exact I.
    destruct (store L l v0 m0) as [[]|]; try exact I.
    cbn. repeat split. destruct (cpp c); constructor.
  - (* KCond *) inversion X as [|? ? ? a a0 l l0 E Y]; subst; [exact I|].
    pose proof (Same 0 a a0 eq_refl eq_refl eq_refl). subst a0.
    inversion Y as [|? ? ? b b0 y y0 E2 Y2]; subst; [destruct a; exact I|].
    inversion Y2 as [|? ? ? b3 b30 y3 y30 E3 Y3]; subst; [destruct a; exact I|].
    inversion Y3; subst; [|destruct a; exact I]. cbn [head].
    destruct a; try exact I. cbn in *. rewrite andb_false_r in *. repeat split.
    destruct (truth L v); apply er_up; assumption.
  - (* KComma *) inversion X as [|? ? ? a a0 l l0 E Y]; subst; [exact I|].
    pose proof (Same 0 a a0 eq_refl eq_refl eq_refl). subst a0.
    inversion Y as [|? ? ? b b0 y y0 E2 Y2]; subst; [destruct a; exact I|].
    inversion Y2; subst; [|destruct a; exact I]. cbn [head].
    destruct (is_result a); try exact I. cbn in *. rewrite andb_false_r in *. repeat split.
    apply er_up; assumption.
  - (* KFirst *) pose proof (All (fun i => eq_refl)). subst args0. cbn [head].
    destruct args as [|a l]; [exact I|]. destruct (forallb is_result (a :: l)) eqn:Re; try exact I.
    cbn. repeat split. cbn in Re. apply andb_true_iff in Re as [Re _]. destruct a; try discriminate Re; constructor.
  - (* KCall *) pose proof (All (fun i => eq_refl)). subst args0. cbn [head].
    destruct (forallb is_result args) eqn:Re; try exact I. specialize (Related f).
    destruct (bodies f) as [s|], (bodies0 f) as [s0|]; try contradiction.
    + destruct (enter L f (results args) m) as [[]|]; try exact I. cbn. repeat split.
      constructor; [reflexivity|]. constructor; [exact Related|constructor].
    + destruct (library L f (results args) m) as [[]|]; try exact I. cbn. repeat split. constructor.
  - (* KInCall *) pose proof (All (fun i => eq_refl)). subst args0. cbn [head].
    destruct args as [|[| |k args] [|]]; try exact I; try (destruct k; exact I).
    + inversion X as [|? ? ? a a0 l l0 E Y]; subst. inversion E as [| |? ? ? ? Pk Xk|? Pa]; subst.
      destruct k; try exact I; try (destruct args; [cbn; repeat split; constructor|exact I]).
      destruct args as [|r [|]]; try exact I; cbn; repeat split; try constructor.
      inversion Xk; subst. apply er_up. cbn in *. assumption.
    + destruct k; try exact I. destruct args as [|? [|]]; exact I. destruct args as [|? [|]]; exact I.
  - (* KSkip *) exact I.
  - (* KSeq *) inversion X as [|? ? ? a a0 l l0 E Y]; subst; [exact I|].
    pose proof (Same 0 a a0 eq_refl eq_refl eq_refl). subst a0.
    inversion Y as [|? ? ? b b0 y y0 E2 Y2]; subst; [destruct a as [| |k' [|]]; try exact I; destruct k'; exact I|].
    cbn in E, E2. rewrite andb_true_r in E, E2.
    inversion Y2; subst; [|destruct a as [| |k' [|]]; try exact I; destruct k'; exact I].
    destruct a as [| |k' args']; try exact I. inversion E as [| |? ? ? ? Pk Xk|? Pa]; subst.
    + destruct k'; try exact I; cbn; repeat split; try (constructor; auto; fail).
      destruct args'; [|exact I]. cbn. repeat split. exact E2.
  - (* KIf *) inversion X as [|? ? ? a a0 l l0 E Y]; subst; [exact I|].
    pose proof (Same 0 a a0 eq_refl eq_refl eq_refl). subst a0.
    inversion Y as [|? ? ? b b0 y y0 E2 Y2]; subst; [destruct a; exact I|].
    inversion Y2 as [|? ? ? b3 b30 y3 y30 E3 Y3]; subst; [destruct a; exact I|].
    inversion Y3; subst; [|destruct a; exact I]. cbn [head].
    destruct a; try exact I. cbn in *. rewrite andb_true_r in *. repeat split.
    destruct (truth L v); assumption.
  - (* KWhile *) inversion X as [|? ? ? a a0 l l0 E Y]; subst; [exact I|].
    inversion Y as [|? ? ? b b0 y y0 E2 Y2]; subst; [exact I|].
    inversion Y2; subst; [|exact I]. cbn in E, E2. rewrite andb_false_r in E. rewrite andb_true_r in E2.
    cbn. repeat split. constructor; [reflexivity|].
    constructor; [cbn; rewrite andb_false_r; exact E|].
    constructor; [|constructor; [apply er_skip|constructor]]. cbn. rewrite andb_true_r.
    constructor; [reflexivity|]. constructor; [cbn; rewrite andb_true_r; exact E2|].
    constructor; [|constructor]. cbn. rewrite andb_true_r.
    constructor; [reflexivity|]. constructor; [cbn; rewrite andb_false_r; exact E|].
    constructor; [cbn; rewrite andb_true_r; exact E2|constructor].
  - (* KDo *) inversion X as [|? ? ? a a0 l l0 E Y]; subst; [exact I|].
    inversion Y as [|? ? ? b b0 y y0 E2 Y2]; subst; [exact I|].
    inversion Y2; subst; [|exact I]. cbn in E, E2. rewrite andb_true_r in E. rewrite andb_false_r in E2.
    cbn. repeat split. constructor; [reflexivity|].
    constructor; [cbn; rewrite andb_true_r; exact E|].
    constructor; [|constructor]. cbn. rewrite andb_true_r.
    constructor; [reflexivity|]. constructor; [cbn; rewrite andb_false_r; exact E2|].
    constructor; [|constructor; [apply er_skip|constructor]]. cbn. rewrite andb_true_r.
    constructor; [reflexivity|]. constructor; [cbn; rewrite andb_true_r; exact E|].
    constructor; [cbn; rewrite andb_false_r; exact E2|constructor].
  - (* KFor *) inversion X as [|? ? ? a a0 l l0 E Y]; subst; [exact I|].
    inversion Y as [|? ? ? b b0 y y0 E2 Y2]; subst; [exact I|].
    inversion Y2 as [|? ? ? b3 b30 y3 y30 E3 Y3]; subst; [exact I|].
    inversion Y3; subst; [|exact I]. cbn in E, E2, E3. rewrite andb_false_r in E, E2. rewrite andb_true_r in E3.
    cbn. repeat split. constructor; [reflexivity|].
    constructor; [cbn; rewrite andb_false_r; exact E|].
    constructor; [|constructor; [apply er_skip|constructor]]. cbn. rewrite andb_true_r.
    constructor; [reflexivity|]. constructor; [cbn; rewrite andb_true_r; exact E3|].
    constructor; [|constructor]. cbn. rewrite andb_true_r.
    constructor; [reflexivity|]. constructor; [apply er_up; exact E2|].
    constructor; [|constructor]. cbn. rewrite andb_true_r.
    constructor; [reflexivity|]. constructor; [cbn; rewrite andb_false_r; exact E|].
    constructor; [cbn; rewrite andb_false_r; exact E2|].
    constructor; [cbn; rewrite andb_true_r; exact E3|constructor].
  - (* KLoop *) inversion X as [|? ? ? a a0 l l0 E Y]; subst; [exact I|].
    pose proof (Same 0 a a0 eq_refl eq_refl eq_refl). subst a0.
    inversion Y as [|? ? ? b b0 y y0 E2 Y2]; subst; [destruct a as [| |k' [|]]; try exact I; destruct k'; exact I|].
    cbn in E, E2. rewrite andb_true_r in E, E2.
    inversion Y2; subst; [|destruct a as [| |k' [|]]; try exact I; destruct k'; exact I].
    destruct a as [| |k' args']; try exact I. inversion E as [| |? ? ? ? Pk Xk|? Pa]; subst.
    + destruct k'; try exact I; cbn; repeat split; try (constructor; auto; fail); auto; try apply er_skip.
      destruct args'; [|exact I]. cbn. repeat split. exact E2.
  - (* KSwitch *) inversion X as [|? ? ? a a0 l l0 E Y]; subst; [exact I|].
    pose proof (Same 0 a a0 eq_refl eq_refl eq_refl). subst a0.
    destruct a; try exact I. cbn [head rel]. repeat split. constructor; [reflexivity|].
    constructor; [|constructor]. cbn. rewrite andb_true_r.
    apply (ers_switch _ _ []) in Y.
    assert (Sq : forall i x x0, ers h (KSwitch []) (S i) x x0 -> er h (sequence x) (sequence x0)).
    { intros i x x0. apply (er_sequence h (KSwitch [])). intros [|j] Lj; [lia|]. cbn. apply andb_true_r. }
    unfold switch_body.
    pose proof (er_from_label h (fun x => match x with Some z => label_matches L z v | None => false end)
      labels 0 l l0 Y) as G1.
    destruct (from_label L _ labels l), (from_label L _ labels l0); try contradiction;
      [destruct G1 as [i G1]; apply (Sq i); exact G1|].
    pose proof (er_from_label h (fun x => match x with None => true | _ => false end) labels 0 l l0 Y) as G2.
    destruct (from_label L _ labels l), (from_label L _ labels l0); try contradiction;
      [destruct G2 as [i G2]; apply (Sq i); exact G2|]. apply er_skip.
  - (* KSwitched *) pose proof (All (fun i => eq_refl)). subst args0. cbn [head].
    destruct args as [|[| |k args] [|]]; try exact I; try (destruct k; exact I).
    + inversion X as [|? ? ? a a0 l l0 E Y]; subst. cbn in E. rewrite andb_true_r in E.
      inversion E as [| |? ? ? ? Pk Xk|? Pa]; subst.
      destruct k; try exact I; cbn; repeat split; try apply er_skip; try (constructor; auto; fail).
      destruct args; cbn; repeat split. apply er_skip.
    + destruct k; try exact I. destruct args; exact I.
  - (* KBreak *) exact I.
  - (* KContinue *) exact I.
  - (* KWrong *) exact I.
Qed.

(* From the program to the one without the statements *)
Lemma same_final h k i l l0 : ers h k i l l0 -> forallb final l = true -> l0 = l.
Proof.
  induction 1 as [|h k i a a0 l l0 E X IH]; cbn; auto. intro F. apply andb_true_iff in F as [F1 F2].
  rewrite IH by exact F2. rewrite (er_final _ _ _ E F1). reflexivity.
Qed.
Lemma turn_kept h k pre pre0 post post0 i j : ers h k i pre pre0 -> ers h k j post post0 ->
  its_turn cpp17 k pre post = true -> its_turn cpp17 k pre0 post0 = true.
Proof.
  unfold its_turn. destruct cpp17; auto. intros X Y. destruct k; auto.
  - destruct o; auto; intro F; rewrite (same_final _ _ _ _ _ X F); exact F.
  - intro F. rewrite (same_final _ _ _ _ _ Y F). exact F.
Qed.

Lemma forward_step e m d t o : stp e m d t o -> forall h t0, er h t t0 ->
  o = None \/
  (exists t', o = Some (m, d, t') /\ er h t' t0 /\ size t' < size t) \/
  exists o0, stp0 e m d t0 o0 /\ rel h o o0.
Proof.
  induction 1 as [e m d k args F Ev|e m d k pre a post o Ev Tu A B St IH]; intros h t0 E.
  - inversion E as [| |? ? ? args0 P X|a P]; subst.
    + right. right. eexists. split; [|apply er_head; eauto].
      apply step_head.
      * destruct (final (N k args0)) eqn:F0; auto.
        destruct (er_final_back _ _ _ E F0) as [Q|(_ & Q & a & Qa & _)]; [congruence|].
        injection Q as -> ->. discriminate Qa.
      * intros i a0 Q0 Ev0. destruct (ers_nth_back _ _ _ _ _ X i a0 Q0) as (a & Qa & Ea).
        pose proof (Ev i a Qa Ev0) as Fa. rewrite (er_final _ _ _ Ea Fa). exact Fa.
    + right. left. specialize (Ev 0 a eq_refl eq_refl). pose proof (pure_final a P Ev) as Re.
      exists skip. cbn. rewrite Re. repeat split; [apply er_skip|].
      destruct a; try discriminate Re; cbn; lia.
  - remember (pre ++ a :: post) as l eqn:Ql in E.
    inversion E as [| |? ? ? args0 P X|b P]; subst.
    + destruct (ers_split _ _ _ _ _ _ _ X) as (pre0 & a0 & post0 & -> & X1 & Ea & X2). cbn [plus] in *.
      pose proof (ers_active _ _ _ _ _ X1) as A1. pose proof (ers_active _ _ _ _ _ X2) as A2.
      destruct (IH _ _ Ea) as [->|[(a' & -> & Ea' & Sa)|(o0 & S0 & Re)]].
      * left. reflexivity.
      * right. left. eexists. split; [reflexivity|]. split.
        -- constructor; [|apply ers_app; auto]. rewrite app_length in *. exact P.
        -- rewrite !size_middle. lia.
      * right. right. exists (put L R o0 (fun a0 => N k (pre0 ++ a0 :: post0))). split.
        -- apply step_operand; auto; try congruence.
           ++ rewrite <- (ers_length _ _ _ _ _ X1). exact Ev.
           ++ eapply turn_kept; eauto.
        -- destruct o as [[[m' d'] a']|], o0 as [[[m0 d0] a0']|]; cbn in Re |- *; auto.
           destruct Re as (-> & -> & Ea'). repeat split. constructor; [|apply ers_app; auto].
           rewrite app_length in *. exact P.
    + match goal with H : [b] = _ |- _ => rename H into Ql | H : _ = [b] |- _ => symmetry in H; rename H into Ql end.
      destruct pre as [|? pre]; [|destruct pre; discriminate Ql].
      injection Ql as -> <-. cbn in *.
      pose proof (pure_step bodies Inactive _ _ _ _ _ St P) as G.
      destruct o as [[[m' d'] a']|]; [|left; reflexivity]. right. left.
      destruct G as (-> & -> & Pa & Sa). exists (N KExpr [a']). repeat split; [constructor; auto|cbn; lia].
Qed.

(* ... and back.  The statements can be executed when the other program goes on. *)
Lemma tidy_first k a l : tidy L cpp17 (N k (a :: l)) -> inside true k 0 = true -> evaluated k 0 = true ->
  plain k (length (a :: l)) = true -> active a = false -> existsb active l = false.
Proof.
  intros T In Ev P Aa. remember (N k (a :: l)) as t eqn:Qt. destruct T as [t A|k' pre b post Eb Tb A B Tt].
  - subst t. apply inactive_args in A. cbn in A. rewrite Aa in A. exact A.
  - injection Qt as -> Q. destruct pre as [|x pre]; cbn in Q; injection Q as -> <-; auto.
    destruct k; try discriminate In; try discriminate Eb; cbn in P; rewrite app_length in P; cbn in P;
      apply Nat.eqb_eq in P; lia.
Qed.

Lemma turn_back h k pre pre0 post post0 i j : ers h k i pre pre0 -> ers h k j post post0 ->
  its_turn cpp17 k pre0 post0 = true -> its_turn cpp17 k pre post = true.
Proof.
  assert (G : forall l l0 i, (forall i, inside h k i = false) -> ers h k i l l0 ->
    forallb final l0 = true -> forallb final l = true).
  { intros l l0 i' In X. induction X as [|h k i' a a0 l l0 E X IH]; auto. cbn. rewrite (In i') in E.
    rewrite (er_final_false _ _ E). intro F. apply andb_true_iff in F as [F1 F2]. rewrite F1. apply IH; auto. }
  unfold its_turn. destruct cpp17; auto. intros X Y. destruct k; auto.
  - destruct o; auto; apply (G pre pre0 i); auto; intro; apply andb_false_r.
  - apply (G post post0 j); auto. intro. apply andb_false_r.
Qed.

Lemma plain_same k (l l' : list tm) : length l = length l' -> plain k (length l) = plain k (length l').
Proof. intros ->. reflexivity. Qed.

Lemma backward_step e m d t0 o0 : stp0 e m d t0 o0 -> forall h t, er h t t0 -> tidy L cpp17 t ->
  exists t1, stps e (m, d, t) (m, d, t1) /\
    (stp e m d t1 None \/ exists o, stp e m d t1 o /\ rel h o o0).
Proof.
  induction 1 as [e m d k args0 F0 Ev0|e m d k pre0 a0 post0 o0 Ev0 Tu0 A0 B0 St IH]; intros h t E T.
  - remember (N k args0) as t0 eqn:Qt. destruct E as [| |h k' args args0' P X|a P]; try discriminate Qt.
    2: { injection Qt as <- <-. discriminate F0. }
    injection Qt as -> ->.
    assert (Fi : forall l, ers h k 0 l args0 -> length l = length args ->
      (forall i a, nth_error l i = Some a -> evaluated k i = true -> final a = true) ->
      stp e m d (N k l) (head L R c bodies e m d k l) /\
      rel h (head L R c bodies e m d k l) (head L R c bodies0 e m d k args0)).
    { intros l Xl Ln Fl. rewrite <- Ln in P. split; [|apply er_head; auto]. apply step_head; auto.
      destruct (final (N k l)) eqn:Fk; auto.
      assert (El : er h (N k l) (N k args0)) by (constructor; auto).
      rewrite (er_final _ _ _ El Fk) in F0. congruence. }
    assert (Other : forall i a, nth_error args (S i) = Some a -> evaluated k (S i) = true -> final a = true).
    { intros i a Q Ev. destruct (ers_nth _ _ _ _ _ X (S i) a Q) as (a0 & Q0 & Ea).
      pose proof (Ev0 _ _ Q0 Ev) as Fa. destruct (er_final_back _ _ _ Ea Fa) as [->|(In & _)]; auto.
      exfalso. destruct k; try discriminate Ev; try discriminate P; cbn in In; rewrite ?andb_false_r in In;
        try discriminate In. }
    destruct args as [|a l].
    + exists (N k []). split; [apply steps_refl|]. right. eexists. apply Fi; auto.
      intros i a Q. destruct i; discriminate Q.
    + destruct (evaluated k 0 && negb (final a)) eqn:D.
      * apply andb_true_iff in D as [Ev Na]. apply negb_true_iff in Na.
        inversion X as [|? ? ? b b0 y y0 Ea Y]; subst.
        pose proof (Ev0 0 b0 eq_refl Ev) as Fb.
        destruct (er_final_back _ _ _ Ea Fb) as [->|(In & -> & p & -> & Pp)]; [congruence|].
        assert (In1 : inside true k 0 = true).
        { destruct k; cbn in *; auto; apply andb_true_iff in In; tauto. }
        assert (Al : existsb active l = false).
        { eapply tidy_first; eauto. cbn. rewrite (pure_inactive p Pp). reflexivity. }
        assert (Tu : its_turn cpp17 k [] l = true).
        { unfold its_turn. destruct cpp17; auto. destruct k; auto; discriminate In1. }
        destruct (quiet_statement_runs bodies Inactive (child_env k e) m d p Pp) as [Ru|(t' & Ru & U)].
        -- exists (N k (skip :: l)). split.
           ++ apply (operand_steps bodies k [] l e Ev Tu eq_refl Al _ _ Ru).
           ++ right. eexists. apply Fi.
              ** constructor; auto. apply er_skip.
              ** reflexivity.
              ** intros [|i] b Q Evb; cbn in Q; [injection Q as <-; reflexivity|]. apply (Other i b Q Evb).
        -- exists (N k (t' :: l)). split.
           ++ apply (operand_steps bodies k [] l e Ev Tu eq_refl Al _ _ Ru).
           ++ left. apply (step_operand L R c bodies cpp17 e m d k [] t' l None Ev Tu eq_refl Al U).
      * exists (N k (a :: l)). split; [apply steps_refl|]. right. eexists. apply Fi; auto.
        intros [|i] b Q Evb; [|apply (Other i b Q Evb)]. cbn in Q. injection Q as <-. rewrite Evb in D.
        cbn in D. apply negb_false_iff in D. exact D.
  - remember (N k (pre0 ++ a0 :: post0)) as t0 eqn:Qt. destruct E as [| |h k' args args0' P X|a P]; try discriminate Qt.
    2: { injection Qt as <- Q. destruct pre0; discriminate Q. }
    injection Qt as -> ->.
    destruct (ers_split_back _ _ _ _ _ _ _ X) as (pre & a & post & -> & X1 & Ea & X2). cbn [plus] in *.
    pose proof (ers_active _ _ _ _ _ X1) as A1. pose proof (ers_active _ _ _ _ _ X2) as A2.
    rewrite A0 in A1. rewrite B0 in A2.
    pose proof (turn_back _ _ _ _ _ _ _ _ X1 X2 Tu0) as Tu.
    assert (Ev : evaluated k (length pre) = true) by (rewrite (ers_length _ _ _ _ _ X1); exact Ev0).
    assert (Ta : tidy L cpp17 a).
    { apply tidy_args in T. apply Forall_app in T as [_ T]. inversion T; auto. }
    destruct (IH _ _ Ea Ta) as (a1 & Ru & D).
    exists (N k (pre ++ a1 :: post)). split.
    + apply (operand_steps bodies k pre post e Ev Tu A1 A2 _ _ Ru).
    + destruct D as [U|(o & So & Re)].
      * left. apply (step_operand L R c bodies cpp17 e m d k pre a1 post None Ev Tu A1 A2 U).
      * right. eexists. split; [apply (step_operand L R c bodies cpp17 e m d k pre a1 post o Ev Tu A1 A2 So)|].
        destruct o as [[[m' d'] a']|], o0 as [[[m0 d0] a0']|]; cbn in Re |- *; auto.
        destruct Re as (-> & -> & Ea'). repeat split. constructor; [|apply ers_app; auto].
        rewrite app_length in *. exact P.
Qed.

Lemma forward e x y : stps e x y -> forall h t0, er h (snd x) t0 ->
  exists t0', stps0 e (fst x, t0) (fst y, t0') /\ er h (snd y) t0'.
Proof.
  induction 1 as [x|m d t x y St S IH]; intros h t0 E.
  - exists t0. split; auto. apply steps_refl.
  - destruct (forward_step _ _ _ _ _ St h t0 E) as [D|[(t' & Q & E' & _)|(o0 & S0 & Re)]].
    + discriminate D.
    + injection Q as ->. apply (IH h t0 E').
    + destruct x as [[m1 d1] t1]. destruct o0 as [[[m0 d0] t0']|]; [|destruct Re].
      destruct Re as (-> & -> & E'). destruct (IH h t0' E') as (t0'' & S0' & E'').
      exists t0''. split; auto. econstructor; eauto.
Qed.

Lemma tidy_stps e x y : stps e x y -> tidy L cpp17 (snd x) -> tidy L cpp17 (snd y).
Proof. exact (tidy_steps L c R bodies Inactive cpp17 e x y). Qed.

Lemma backward e x y : stps0 e x y -> forall h t, er h t (snd x) -> tidy L cpp17 t ->
  undefined L R c bodies cpp17 e (fst (fst x)) (snd (fst x)) t \/
  exists t', stps e (fst x, t) (fst y, t') /\ er h t' (snd y) /\ tidy L cpp17 t'.
Proof.
  induction 1 as [x|m d t0 x y St S IH]; intros h t E T.
  - right. exists t. split; auto. apply steps_refl.
  - destruct (backward_step _ _ _ _ _ St h t E T) as (t1 & S1 & [U|(o & So & Re)]); cbn in *.
    + left. exists m, d, t1. auto.
    + destruct o as [[[m2 d2] t2]|]; [|destruct Re]. destruct x as [[m' d'] t0'].
      destruct Re as (-> & -> & E').
      assert (S2 : stps e (m, d, t) (m', d', t2)) by (eapply steps_trans; [exact S1|apply steps_one; exact So]).
      assert (T2 : tidy L cpp17 t2) by (apply (tidy_stps e _ _ S2); exact T).
      destruct (IH h t2 E' T2) as [(m3 & d3 & t3 & S3 & U)|(t' & S' & E'' & T'')]; cbn in *.
      * left. exists m3, d3, t3. split; auto. eapply steps_trans; eauto.
      * right. exists t'. split; auto. eapply steps_trans; eauto.
Qed.

Lemma forward_diverges_step e : forall n m d t h t0, size t < n -> er h t t0 ->
  diverges L R c bodies cpp17 e m d t ->
  exists m' d' t' t0', stp0 e m d t0 (Some (m', d', t0')) /\ er h t' t0' /\
    diverges L R c bodies cpp17 e m' d' t'.
Proof.
  induction n as [|n IH]; intros m d t h t0 Ln E D; [lia|].
  destruct D as [m d t m' d' t' St D].
  destruct (forward_step _ _ _ _ _ St h t0 E) as [Q|[(t1 & Q & E' & Ls)|(o0 & S0 & Re)]].
  - discriminate Q.
  - injection Q as -> -> ->. apply (IH m d t1 h t0); auto. lia.
  - destruct o0 as [[[m0 d0] t0']|]; [|destruct Re]. destruct Re as (-> & -> & E').
    exists m0, d0, t', t0'. auto.
Qed.
Lemma forward_diverges e : forall m d t h t0, er h t t0 -> diverges L R c bodies cpp17 e m d t ->
  diverges L R c bodies0 cpp17 e m d t0.
Proof.
  cofix CH. intros m d t h t0 E D.
  destruct (forward_diverges_step e (S (size t)) m d t h t0 (Nat.lt_succ_diag_r _) E D) as (m' & d' & t' & t0' & S0 & E' & D').
  apply diverges_step with m' d' t0'; [exact S0|]. apply (CH m' d' t' h t0' E' D').
Qed.

Definition on_the_way (e : env L) (x : mem L * rt_state R * tm) : Prop :=
  exists m d h t1 m' d' t2 t0, stps e x (m, d, t1) /\ stp e m d t1 (Some (m', d', t2)) /\
    er h t2 t0 /\ tidy L cpp17 t2 /\ diverges L R c bodies0 cpp17 e m' d' t0 /\
    ~ undefined L R c bodies cpp17 e m' d' t2.
Lemma undefined_later e x m d t : stps e (m, d, t) x ->
  undefined L R c bodies cpp17 e (fst (fst x)) (snd (fst x)) (snd x) ->
  undefined L R c bodies cpp17 e m d t.
Proof.
  intros S (m' & d' & t' & S' & U). exists m', d', t'. split; auto. eapply steps_trans; eauto.
  destruct x as [[? ?] ?]. exact S'.
Qed.
Lemma start_diverging e m d h t t0 : er h t t0 -> tidy L cpp17 t ->
  diverges L R c bodies0 cpp17 e m d t0 -> ~ undefined L R c bodies cpp17 e m d t ->
  on_the_way e (m, d, t).
Proof.
  intros E T D U. destruct D as [m d t0 m' d' t0' St D].
  destruct (backward_step _ _ _ _ _ St h t E T) as (t1 & S1 & [U1|(o & So & Re)]).
  - destruct U. exists m, d, t1. auto.
  - destruct o as [[[m2 d2] t2]|]; [|destruct Re]. destruct Re as (-> & -> & E').
    assert (S2 : stps e (m, d, t) (m', d', t2)) by (eapply steps_trans; [exact S1|apply steps_one; exact So]).
    exists m, d, h, t1, m', d', t2, t0'. repeat split; auto.
    + apply (tidy_stps e _ _ S2). exact T.
    + intro U2. apply U. apply (undefined_later e (m', d', t2) m d t S2 U2).
Qed.
Lemma on_the_way_diverges e : forall m d t, on_the_way e (m, d, t) -> diverges L R c bodies cpp17 e m d t.
Proof.
  cofix CH. intros m d t (m1 & d1 & h & t1 & m2 & d2 & t2 & t0 & S & St & E & T & D & U).
  remember (m, d, t) as x eqn:Qx. remember (m1, d1, t1) as y eqn:Qy.
  destruct S as [x|m0 d0 t0' x' y' St' S'].
  - rewrite Qx in Qy. injection Qy as -> -> ->.
    apply diverges_step with m2 d2 t2; [exact St|]. apply CH. eapply start_diverging; eauto.
  - injection Qx as -> -> ->. destruct x' as [[m3 d3] t3].
    apply diverges_step with m3 d3 t3; [exact St'|]. apply CH.
    subst y'. exists m1, d1, h, t1, m2, d2, t2, t0. auto 10.
Qed.
Lemma backward_diverges e m d h t t0 : er h t t0 -> tidy L cpp17 t ->
  diverges L R c bodies0 cpp17 e m d t0 -> ~ undefined L R c bodies cpp17 e m d t ->
  diverges L R c bodies cpp17 e m d t.
Proof. intros E T D U. apply on_the_way_diverges. eapply start_diverging; eauto. Qed.
End Programs.
End Quiet.
