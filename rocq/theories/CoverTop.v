(* The functions of the two builds correspond, and the tracking file has the ids of the sites
   that are reached. *)
From Coq Require Import String List NArith ZArith Bool Lia.
From Verif Require Import Base Clang Gen GenExpr GenBinary GenUnary GenStmt Mutation GenSpec
  Rewriter PreludeText Prelude PreludeSpec PreludeProof PreludeProof2 Tracking Lang Cst Runtime
  SimSpec SimRel SimProof SimMutate SimTop MutantSpec CoverSpec CoverProof.
Import ListNotations.

Lemma number_below {A} (l : list A) : forall n k x, In (k, x) (number_from n l) -> k < n + List.length l.
Proof.
  induction l as [|y l IH]; cbn; intros n k x; [tauto|].
  intros [Q|I]; [injection Q; lia|]. apply IH in I. lia.
Qed.

Lemma mutate_next L c o t : forall id, snd (mutate L c o t id) = id + mutants_in L c (optimise o) t.
Proof.
  induction t as [s v|k ps last IH|e sub IH|b l w1 w2 r IHl IHr|u w sub IH|s sub IH]
    using cst_induction; intro id; cbn [mutants_in].
  - cbn. lia.
  - rewrite mutate_node. cbn [snd]. revert id.
    induction IH as [|[s p] ps Hp F IHF]; intro id; cbn; auto.
    specialize (Hp id). cbn in Hp. destruct (mutate L c o p id) as [p' i1]. cbn in Hp. subst i1.
    specialize (IHF (id + mutants_in L c (optimise o) p)).
    destruct (mutate_all L c o ps _). cbn in *. lia.
  - cbn [Cst.mutate]. specialize (IH id). destruct (mutate L c o sub id). cbn in *. lia.
  - cbn [Cst.mutate]. specialize (IHl id). destruct (mutate L c o l id) as [l' i1]. cbn in IHl. subst i1.
    specialize (IHr (id + mutants_in L c (optimise o) l)). destruct (mutate L c o r _). cbn in *. lia.
  - cbn [Cst.mutate]. specialize (IH id). destruct (mutate L c o sub id). cbn in *. lia.
  - cbn [Cst.mutate]. specialize (IH id). destruct (mutate L c o sub id). cbn in *. lia.
Qed.

Section Trees.
Variable L : lang.
Variable c : ctx.
Variables oM oC : options.
Hypothesis TM : track oM = false.
Hypothesis TC : track oC = true.
Hypothesis OO : optimise oM = optimise oC.
Variable E : nat -> bool.
Variable num : nat.
Variable cnt : nat -> nat.
Variable Late : Prop.
Notation opt := (optimise oC).
Notation tm := (tm L).
Notation den := (den L c).
Notation cov := (cov L c E num cnt Late).
Notation twin := (twin num cnt).
Notation site := (site num cnt).

Lemma twin_expr e id : cnt id = List.length (expr_mutants c opt e) -> site id ->
  twin id (expr_function c oM e) (expr_function c oC e).
Proof.
  intros Q S. split; unfold expr_function;
    cbn [mf_params mf_result mf_access mf_orig mf_lines mf_track]; rewrite ?TM, ?TC; auto; try congruence.
  cbn [negb when]. intros k r I. apply number_below in I. rewrite map_length, OO in I. lia.
Qed.
Lemma twin_binary b id : cnt id = List.length (binary_mutants opt b) -> site id ->
  twin id (binary_function c oM b) (binary_function c oC b).
Proof.
  intros Q S. split; unfold binary_function;
    cbn [mf_params mf_result mf_access mf_orig mf_lines mf_track]; rewrite ?TM, ?TC; auto; try congruence.
  cbn [negb when]. intros k r I. apply number_below in I. rewrite map_length, OO in I. lia.
Qed.
Lemma twin_unary u id : cnt id = List.length (unary_mutants opt u) -> site id ->
  twin id (unary_function c oM u) (unary_function c oC u).
Proof.
  intros Q S. split; unfold unary_function;
    cbn [mf_params mf_result mf_access mf_orig mf_lines mf_track]; rewrite ?TM, ?TC; auto; try congruence.
  cbn [negb when]. intros k r I. apply number_below in I. rewrite map_length, OO in I. lia.
Qed.
Lemma twin_outer b id : cnt id = 3 -> site id ->
  twin id (c_logical_outer_function c oM b) (c_logical_outer_function c oC b).
Proof.
  intros Q S. split; cbn; auto; rewrite ?TM, ?TC; cbn; auto; try congruence.
  intros k r [I|[]]. injection I. lia.
Qed.

Lemma cov_pass js p a a' : cov js true a a' -> cov js true (pass L c p a) (pass L c p a').
Proof.
  intro H. unfold pass.
  destruct (declared c p) as [[[| |] T|P T]|]; auto using cov_wrong.
  - apply cov_node; auto.
  - apply cov_node; auto.
  - destruct H as [b v|b l|b k ts ss Pl F|T' t s H|b f f' id ts ss Tw F|b f f' id t s Tw H|b id t s Si Q H
      |b T' f id t s He Ij H|b T' f id v He Ij|b T' v|b T' v]; auto using cov_wrong.
    + destruct k; try discriminate Pl; apply cov_wrong.
    + destruct (String.eqb p (wrap_function true T')); auto using cov_wrong.
      apply cov_lambda. destruct P; apply cov_node; auto; constructor; auto; apply cov_any; auto.
Qed.
Lemma cov_pass_all js params : forall ts ss, Forall2 (cov js true) ts ss ->
  Forall2 (cov js true) (pass_all L c params ts) (pass_all L c params ss).
Proof.
  induction params as [|[p x] params IH]; intros ts ss F; destruct F as [|t s ts ss H F]; cbn; auto.
  - constructor; auto using cov_wrong.
  - constructor; auto using cov_wrong.
  - constructor; auto using cov_pass.
Qed.

Lemma cov_call1 js id f f' t s :
  twin id f f' -> cov js true t s ->
  cov js false (N (KM f id) (pass_all L c (mf_params f) [t]))
    (N (KM f' id) (pass_all L c (mf_params f') [s])).
Proof.
  intros Tw H. apply cov_fun; auto. rewrite <- (twin_params _ _ _ _ _ Tw). apply cov_pass_all. auto.
Qed.

Lemma cov_expr js e id sub sub' : cnt id = List.length (expr_mutants c opt e) -> site id ->
  cov js false (den sub) (den sub') ->
  cov js false (den (mutated_expr L c oM e id sub)) (den (mutated_expr L c oC e id sub')).
Proof.
  intros Q S H. pose proof (twin_expr e id Q S) as Tw. unfold mutated_expr, call1.
  assert (H' : cov js true (den sub) (den sub')) by (apply cov_any; exact H).
  destruct (e_init_list_cast e) as [T|]; destruct (cpp c && e_side_effects e);
    [| destruct (negb (cpp c) && e_lvalue e) | | destruct (negb (cpp c) && e_lvalue e)];
    cbn [Cst.den map snd fst]; try (apply cov_node; [reflexivity|]; constructor; [|constructor]; apply cov_any);
    (apply cov_call1; [exact Tw|]); auto; try (apply cov_lambda; exact H);
    apply cov_node; auto.
Qed.

Lemma cov_unary js u w id sub sub' : cnt id = List.length (unary_mutants opt u) -> site id ->
  cov js false (den sub) (den sub') ->
  cov js false (den (mutated_unary L c oM u id w sub)) (den (mutated_unary L c oC u id w sub')).
Proof.
  intros Q S H. pose proof (twin_unary u id Q S) as Tw. unfold mutated_unary, call1.
  assert (H' : cov js true (den sub) (den sub')) by (apply cov_any; exact H).
  destruct (unary_delayed c u); [|destruct (negb (cpp c) && is_incdec (u_op u))];
    cbn [Cst.den map snd fst]; (apply cov_call1; [exact Tw|]); auto; try (apply cov_lambda; exact H);
    apply cov_node; auto.
Qed.

Lemma cov_binary js b w1 w2 id l l' r r' : cnt id = List.length (binary_mutants opt b) -> site id ->
  cov js false (den l) (den l') -> cov js false (den r) (den r') ->
  cov js false (den (mutated_binary L c oM b id l w1 w2 r)) (den (mutated_binary L c oC b id l' w1 w2 r')).
Proof.
  intros Q S Hl Hr. pose proof (twin_binary b id Q S) as Tw. unfold mutated_binary, lambda.
  cbn [Cst.den map snd fst]. apply cov_fun; auto. rewrite <- (twin_params _ _ _ _ _ Tw).
  apply cov_pass_all. constructor; [|constructor; auto].
  - destruct (lhs_delayed c b); [|destruct (negb (cpp c) && is_assign (b_op b))]; cbn [Cst.den map snd].
    + apply cov_lambda; auto.
    + apply cov_node; auto.
    + apply cov_any; auto.
  - destruct (rhs_delayed c b); cbn [Cst.den map snd].
    + apply cov_lambda; auto.
    + apply cov_any; auto.
Qed.

Lemma cov_c_logical js b w1 w2 id l l' r r' : c_logical c b = true -> cnt id = 3 -> site id ->
  (forall i, id <= i < id + 3 -> E i = true -> Late) ->
  cov (id :: js) false (den l) (den l') -> cov (id :: js) false (den r) (den r') ->
  cov js false (den (mutated_c_logical L c oM b id l w1 w2 r)) (den (mutated_c_logical L c oC b id l' w1 w2 r')).
Proof.
  intros Cl Q S Off Hl Hr. pose proof (twin_outer b id Q S) as Tw. unfold mutated_c_logical, call1.
  assert (Lo : is_logical (b_op b) = true).
  { unfold c_logical in Cl. apply andb_true_iff in Cl as [_ Cl]. exact Cl. }
  assert (As : is_assign (b_op b) = false) by (destruct (b_op b); auto; discriminate).
  cbn [Cst.den map snd fst].
  assert (Pa : forall o t, pass_all L c (mf_params (c_logical_outer_function c o b)) [t] =
                           [N (KAt (b_ty b)) [t]]).
  { intros o t. cbn. unfold pass. rewrite declared_value. reflexivity. }
  rewrite !Pa. apply cov_outer; [exact Tw|]. apply cov_node; auto. constructor; auto. apply cov_any.
  unfold binary_term, binary_site, binary_operands. rewrite As. cbn [andb expression fst snd].
  rewrite Lo. unfold rvalue, value_of_type. cbn [fst snd].
  rewrite TM, TC. cbn [Cst.den map snd].
  unfold c_logical_lhs_function, c_logical_rhs_function, c_logical_fun.
  cbn [mf_params pass_all]. unfold pass. rewrite !declared_value.
  destruct S as [S1 S2]. rewrite Q in S2.
  apply cov_node; auto. constructor; auto. apply cov_node; auto. constructor; [|constructor; auto].
  - apply cov_helper; [|left; reflexivity|auto]. split; auto.
    + apply unit_fun_c.
    + cbn. intros k x [I|[I|[]]]; injection I as <- <-; (split; [lia|split; [lia|apply Off; lia]]).
  - apply cov_helper; [|left; reflexivity|auto]. split; auto.
    + apply unit_fun_c.
    + cbn. intros k x [I|[I|[]]]; injection I as <- <-; (split; [lia|split; [lia|apply Off; lia]]).
Qed.

Definition known (x : nat * nat) : Prop := cnt (fst x) = snd x /\ site (fst x).

Lemma source_plain (k : kind L) : source_kind L k = true -> plain L k = true.
Proof. destruct k; auto; discriminate. Qed.

Lemma mutate_cov t : forall id js,
  SimSpec.well_formed L c t = true -> Forall known (sites_in L c opt t id) ->
  (forall i, In i (logical_in L c opt t id) -> E i = true -> Late) ->
  cov js false (den (fst (mutate L c oM t id))) (den (fst (mutate L c oC t id))).
Proof.
  induction t as [s v|k ps last IH|e sub IH|b l w1 w2 r IHl IHr|u w sub IH|s sub IH]
    using cst_induction; intros id js Wf Kn Off; cbn [SimSpec.well_formed sites_in logical_in] in *.
  - constructor.
  - apply andb_true_iff in Wf as [Sk Wf]. rewrite !mutate_node. cbn [fst].
    assert (Args : Forall2 (cov js false)
      (map (fun p => den (snd p)) (fst (mutate_all L c oM ps id)))
      (map (fun p => den (snd p)) (fst (mutate_all L c oC ps id)))).
    { clear Sk. revert id Kn Off. induction IH as [|[s p] ps Hp F IHF]; intros id Kn Off; cbn; auto.
      cbn in Wf. apply andb_true_iff in Wf as [W1 W2].
      apply Forall_app in Kn as [K1 K2].
      pose proof (Hp id js W1 K1 (fun i I => Off i (in_or_app _ _ _ (or_introl I)))) as Cp.
      pose proof (mutate_next L c oM p id) as N1. pose proof (mutate_next L c oC p id) as N2.
      cbn [snd] in Cp. destruct (mutate L c oM p id) as [p1 i1], (mutate L c oC p id) as [p2 i2].
      cbn in N1, N2, Cp. rewrite OO in N1. subst i1 i2.
      specialize (IHF W2 (id + mutants_in L c opt p) K2
                    (fun i I => Off i (in_or_app _ _ _ (or_intror I)))).
      destruct (mutate_all L c oM ps (id + mutants_in L c opt p)),
        (mutate_all L c oC ps (id + mutants_in L c opt p)).
      cbn in *. constructor; auto. }
    assert (Args' : Forall2 (cov js (lam_ok L k))
      (map (fun p => den (snd p)) (fst (mutate_all L c oM ps id)))
      (map (fun p => den (snd p)) (fst (mutate_all L c oC ps id)))).
    { revert Args. generalize (map (fun p => den (snd p)) (fst (mutate_all L c oM ps id))) as l1.
      generalize (map (fun p => den (snd p)) (fst (mutate_all L c oC ps id))) as l2.
      intros l2 l1 F. induction F; constructor; auto. apply cov_any. auto. }
    pose proof (source_plain k Sk) as Pk.
    cbn [Cst.den]. destruct k; try discriminate Sk; apply cov_node; auto.
  - apply andb_true_iff in Wf as [_ Wf]. apply Forall_app in Kn as [K1 K2].
    inversion K2 as [|? ? [Q S] _]; subst. cbn in Q, S.
    specialize (IH id js Wf K1 Off). cbn [Cst.mutate].
    pose proof (mutate_next L c oM sub id) as N1. pose proof (mutate_next L c oC sub id) as N2.
    destruct (mutate L c oM sub id) as [p1 i1], (mutate L c oC sub id) as [p2 i2].
    cbn [fst snd] in *. rewrite OO in N1. subst i1 i2. apply cov_expr; auto.
  - apply andb_true_iff in Wf as [Wf Wr]. apply andb_true_iff in Wf as [_ Wl].
    apply Forall_app in Kn as [K1 Kn]. apply Forall_app in Kn as [K2 K3].
    inversion K3 as [|? ? [Q S] _]; subst. cbn [fst snd] in Q, S.
    pose proof (fun js => IHl id js Wl K1 (fun i I => Off i (in_or_app _ _ _ (or_introl I)))) as Cl.
    pose proof (fun js => IHr _ js Wr K2 (fun i I => Off i (in_or_app _ _ _ (or_intror (in_or_app _ _ _ (or_introl I)))))) as Cr.
    clear IHl IHr. cbn [Cst.mutate].
    pose proof (mutate_next L c oM l id) as N1. pose proof (mutate_next L c oC l id) as N2.
    destruct (mutate L c oM l id) as [l1 i1], (mutate L c oC l id) as [l2 i2].
    cbn [fst snd] in *. rewrite OO in N1. subst i1 i2.
    pose proof (mutate_next L c oM r (id + mutants_in L c opt l)) as N1.
    pose proof (mutate_next L c oC r (id + mutants_in L c opt l)) as N2.
    destruct (mutate L c oM r (id + mutants_in L c opt l)) as [r1 i1],
      (mutate L c oC r (id + mutants_in L c opt l)) as [r2 i2].
    cbn [fst snd] in *. rewrite OO in N1. subst i1 i2.
    unfold binary_actions in Q. destruct (c_logical c b) eqn:Lo.
    + apply cov_c_logical; auto. intros i Hi. apply Off.
      apply in_or_app. right. apply in_or_app. right. apply in_seq. unfold binary_actions. rewrite Lo.
      exact Hi.
    + apply cov_binary; auto. rewrite map_length in Q. exact Q.
  - apply andb_true_iff in Wf as [_ Wf]. apply Forall_app in Kn as [K1 K2].
    inversion K2 as [|? ? [Q S] _]; subst. cbn in Q, S.
    specialize (IH id js Wf K1 Off). cbn [Cst.mutate].
    pose proof (mutate_next L c oM sub id) as N1. pose proof (mutate_next L c oC sub id) as N2.
    destruct (mutate L c oM sub id) as [p1 i1], (mutate L c oC sub id) as [p2 i2].
    cbn [fst snd] in *. rewrite OO in N1. subst i1 i2. apply cov_unary; auto.
  - apply Forall_app in Kn as [K1 K2].
    inversion K2 as [|? ? [Q S] _]; subst. cbn in Q, S.
    specialize (IH id js Wf K1 Off). cbn [Cst.mutate].
    pose proof (mutate_next L c oM sub id) as N1. pose proof (mutate_next L c oC sub id) as N2.
    destruct (mutate L c oM sub id) as [p1 i1], (mutate L c oC sub id) as [p2 i2].
    cbn [fst snd] in *. rewrite OO in N1. subst i1 i2.
    unfold mutated_stmt. rewrite TM, TC. cbn [Cst.den map snd]. apply cov_stmt; auto.
Qed.
End Trees.

(** * Sites *)

(* Sites that do not overlap, in increasing order *)
Inductive ordered : nat -> nat -> list (nat * nat) -> Prop :=
| ordered_nil lo hi : lo <= hi -> ordered lo hi []
| ordered_cons lo hi i n l : lo <= i -> 0 < n -> ordered (i + n) hi l -> ordered lo hi ((i, n) :: l).
Lemma ordered_le lo hi l : ordered lo hi l -> lo <= hi.
Proof. induction 1; lia. Qed.
Lemma ordered_app lo mid hi l l' : ordered lo mid l -> ordered mid hi l' -> ordered lo hi (l ++ l').
Proof.
  induction 1 as [lo mid Le|lo mid i n l Le Po O IH]; intro O'; cbn.
  - inversion O'; subst; constructor; auto; lia.
  - constructor; auto.
Qed.
Lemma ordered_in lo hi l : ordered lo hi l -> forall i n, In (i, n) l -> lo <= i /\ 0 < n /\ i + n <= hi.
Proof.
  induction 1 as [lo mid Le|lo mid i n l Le Po O IH]; intros i' n' I; [destruct I|].
  destruct I as [Q|I].
  - injection Q as <- <-. apply ordered_le in O. lia.
  - destruct (IH _ _ I). lia.
Qed.
Definition count_of (l : list (nat * nat)) (i : nat) : nat :=
  match find (fun x => Nat.eqb (fst x) i) l with Some x => snd x | None => 0 end.
Lemma ordered_count lo hi l : ordered lo hi l -> forall i n, In (i, n) l -> count_of l i = n.
Proof.
  unfold count_of. induction 1 as [lo mid Le|lo mid i n l Le Po O IH]; intros i' n' I; [destruct I|].
  cbn. destruct I as [Q|I].
  - injection Q as <- <-. rewrite Nat.eqb_refl. reflexivity.
  - destruct (ordered_in _ _ _ O _ _ I) as [Lo _].
    destruct (Nat.eqb i i') eqn:Q; [apply Nat.eqb_eq in Q; lia|]. auto.
Qed.

Section Sites.
Variable L : lang.
Variable c : ctx.
Variable opt : bool.

Lemma sites_ordered t : forall id, productive L c opt t = true ->
  ordered id (id + mutants_in L c opt t) (sites_in L c opt t id).
Proof.
  induction t as [s v|k ps last IH|e sub IH|b l w1 w2 r IHl IHr|u w sub IH|s sub IH]
    using cst_induction; intros id Pr; cbn [productive sites_in mutants_in] in *.
  - constructor. lia.
  - revert id. induction IH as [|[s p] ps Hp F IHF]; intro id; cbn [fold_right snd].
    + constructor. lia.
    + cbn [forallb snd] in Pr. apply andb_true_iff in Pr as [P1 P2].
      eapply ordered_app; [apply Hp; exact P1|]. cbn [snd]. rewrite Nat.add_assoc. apply IHF. exact P2.
  - apply andb_true_iff in Pr as [P1 P2]. eapply ordered_app; [apply IH; exact P2|].
    apply negb_true_iff, Nat.eqb_neq in P1. constructor; [lia|lia|]. constructor. lia.
  - apply andb_true_iff in Pr as [P1 P3]. apply andb_true_iff in P1 as [P1 P2].
    apply negb_true_iff, Nat.eqb_neq in P1.
    eapply ordered_app; [apply IHl; exact P2|]. eapply ordered_app; [apply IHr; exact P3|].
    constructor; [lia|lia|]. constructor. lia.
  - apply andb_true_iff in Pr as [P1 P2]. eapply ordered_app; [apply IH; exact P2|].
    apply negb_true_iff, Nat.eqb_neq in P1. constructor; [lia|lia|]. constructor. lia.
  - eapply ordered_app; [apply IH; exact Pr|]. constructor; [lia|lia|]. constructor. lia.
Qed.
Lemma sites_of_ordered p : forall id, forallb (fun x => productive L c opt (snd x)) p = true ->
  ordered id (id + mutants_of L c opt p) (sites_of L c opt p id).
Proof.
  induction p as [|[f t] p IH]; intros id Pr; cbn [sites_of mutants_of fold_right snd].
  - constructor. lia.
  - cbn [forallb snd] in Pr. apply andb_true_iff in Pr as [P1 P2].
    eapply ordered_app; [apply sites_ordered; exact P1|]. rewrite Nat.add_assoc. apply IH. exact P2.
Qed.
End Sites.

(** * The tracking file *)

Lemma nth_update {A} (g : A -> A) (l : list A) : forall n i,
  nth_error (update_nth n g l) i =
  if Nat.eqb n i then option_map g (nth_error l i) else nth_error l i.
Proof.
  induction l as [|x l IH]; intros [|n] [|i]; cbn; auto; try (destruct (Nat.eqb n i); reflexivity).
Qed.
Lemma length_update {A} (g : A -> A) (l : list A) : forall n, List.length (update_nth n g l) = List.length l.
Proof. induction l as [|x l IH]; intros [|n]; cbn; auto. Qed.

Section Recording.
Variable f num : nat.
Variable cpp : bool.
Variable cnt : nat -> nat.
Definition has (j : nat) (d : tracked) : Prop := In (f + j) (t_lines d).
Definition kept (d : tracked) : Prop :=
  List.length (t_recorded d) = num /\
  forall i, nth_error (t_recorded d) i = Some true -> forall k, k < cnt i -> has (i + k) d.
Lemma kept_start : kept (track_start num).
Proof.
  split; cbn; [apply repeat_length|]. intros i Q. apply nth_error_In, repeat_spec in Q. discriminate.
Qed.
Lemma kept_record d id : kept d -> site num cnt id ->
  exists d', rt_record (recording f cpp true true) id (cnt id) d = Some d' /\ kept d' /\
             forall k, k < cnt id -> has (id + k) d'.
Proof.
  intros [Le Re] [Po Hi]. cbn [recording rt_record andb negb].
  destruct (nth_error (t_recorded d) id) as [[|]|] eqn:Ne.
  - exists d. split; auto. split; [split; auto|]. auto.
  - eexists. split; [reflexivity|].
    assert (New : forall k, k < cnt id -> In (f + (id + k))
      (t_lines d ++ map (fun i => f + id + i) (seq 0 (cnt id)))).
    { intros k Hk. apply in_or_app. right. apply in_map_iff. exists k. split; [lia|]. apply in_seq. lia. }
    split; [|exact New]. split; cbn [t_recorded t_lines].
    + rewrite length_update. exact Le.
    + intros i Q k Hk. rewrite nth_update in Q. unfold has. cbn [t_lines].
      destruct (Nat.eqb id i) eqn:Qi.
      * apply Nat.eqb_eq in Qi. subst i. apply New. exact Hk.
      * apply in_or_app. left. apply Re; auto.
  - apply nth_error_None in Ne. lia.
Qed.
End Recording.

Lemma program_next L c o p : forall id,
  snd (mutate_program L c o p id) = id + mutants_of L c (optimise o) p.
Proof.
  induction p as [|[f t] p IH]; intro id; cbn [Cst.mutate_program mutants_of fold_right snd].
  - cbn. lia.
  - pose proof (mutate_next L c o t id) as Q. destruct (mutate L c o t id) as [t' i]. cbn in Q. subst i.
    specialize (IH (id + mutants_in L c (optimise o) t)).
    destruct (mutate_program L c o p _) as [p' j]. cbn [fst snd] in *. unfold mutants_of in IH. lia.
Qed.

Section Top.
Variable L : lang.
Variable c : ctx.
Variable cpp17 : bool.
Variables oM oC : options.
Hypothesis TM : track oM = false.
Hypothesis TC : track oC = true.
Hypothesis OO : optimise oM = optimise oC.
Notation opt := (optimise oC).

Lemma program_cov E num cnt (Late : Prop) p : forall id,
  well_formed_program L c p = true -> Forall (known num cnt) (sites_of L c opt p id) ->
  (forall i, In i (logical_of L c opt p id) -> E i = true -> Late) ->
  forall js g, match body_of L c (fst (mutate_program L c oM p id)) g,
                  body_of L c (fst (mutate_program L c oC p id)) g with
            | Some t, Some s => cov L c E num cnt Late js false t s
            | None, None => True
            | _, _ => False
            end.
Proof.
  induction p as [|[f t] p IH]; intros id Wf Kn Off js g; [exact I|].
  cbn [sites_of logical_of] in *. apply andb_true_iff in Wf as [W1 W2]. apply Forall_app in Kn as [K1 K2].
  pose proof (mutate_cov L c oM oC TM TC OO E num cnt Late t id js W1 K1
                (fun i I => Off i (in_or_app _ _ _ (or_introl I)))) as Ct.
  specialize (IH _ W2 K2 (fun i I => Off i (in_or_app _ _ _ (or_intror I))) js).
  cbn [Cst.mutate_program].
  pose proof (mutate_next L c oM t id) as N1. pose proof (mutate_next L c oC t id) as N2.
  destruct (mutate L c oM t id) as [p1 i1], (mutate L c oC t id) as [p2 i2].
  cbn [fst snd] in *. rewrite OO in N1. subst i1 i2.
  destruct (mutate_program L c oM p (id + mutants_in L c opt t)),
    (mutate_program L c oC p (id + mutants_in L c opt t)).
  cbn [fst body_of] in *. destruct (String.eqb g f); [exact Ct|]. apply IH.
Qed.

Lemma cover_lemma (Late : Prop) f v zs p g args e m :
  variable_lists v zs -> Forall (int_safe f) zs ->
  well_formed_program L c p = true -> productive_program L c oC p = true ->
  (forall i, In i (logical_of L c opt p 0) -> In (Z.of_nat (f + i)) zs -> Late) ->
  (Late -> always_finishes L c cpp17 oC f p e m g args) ->
  unrecorded L c cpp17 oC f p e m g args zs ->
  let n := snd (mutate_program L c oM p 0) in
  no_more L c cpp17 (selecting f n (cpp c) v) (recording f (cpp c) true true) e m
    (initial_tls n) (body_of L c (fst (mutate_program L c oM p 0))) (call L g args)
    (track_start n) (body_of L c (fst (mutate_program L c oC p 0))) (call L g args).
Proof.
  intros V S Wf Pr Off En Un n.
  assert (Qn : n = snd (mutate_program L c oC p 0)).
  { unfold n. rewrite !program_next, OO. reflexivity. }
  pose proof (sites_of_ordered L c opt p 0 Pr) as Or.
  set (cnt := count_of (sites_of L c opt p 0)).
  assert (Kn : Forall (known n cnt) (sites_of L c opt p 0)).
  { apply Forall_forall. intros [i k] I. pose proof (ordered_count _ _ _ Or _ _ I) as Q.
    destruct (ordered_in _ _ _ Or _ _ I) as (_ & Po & Hi).
    rewrite Qn, program_next. unfold known, site. cbn [fst snd]. fold cnt in Q. rewrite Q. lia. }
  set (E := listed f zs).
  assert (Lo : forall i, In i (logical_of L c opt p 0) -> E i = true -> Late).
  { intros i I Li. apply listed_in in Li. apply (Off i I Li). }
  pose proof (program_cov E n cnt Late p 0 Wf Kn Lo) as B.
  assert (W : working (selecting f n (cpp c) v) E (one_file n 0) (selecting_inv f n zs)) by (apply selecting_works; auto).
  pose proof (kept_record f n (cpp c) cnt) as W'.
  assert (C0 : cov L c E n cnt Late [] false (call L g args) (call L g args)).
  { apply cov_node; auto. clear. induction args as [|[x|x] args IH]; cbn; constructor; auto; constructor. }
  assert (Q0 : quiet L c (recording f (cpp c) true true) E (has f) Late
     (body_of L c (fst (mutate_program L c oC p 0))) cpp17 e m (track_start n) (call L g args)).
  { unfold unrecorded, covered_run in Un. unfold always_finishes, covered_run in En. rewrite <- Qn in Un, En.
    split; [|exact En]. intros m' d' s' St i Ei Re.
    apply (Un m' d' s' St (f + i) Re). apply listed_in. exact Ei. }
  assert (I1 : selecting_inv f n zs (initial_tls n)) by (left; reflexivity).
  pose proof (kept_start f n cnt) as I2.
  split.
  - intros m' r H. eapply cover_finishes; eauto.
  - intro H. eapply cover_undefined; eauto.
  - intros m' H. eapply cover_reaches; eauto.
  - intro H. eapply cover_diverges; eauto.
Qed.

Lemma cover_original (Late : Prop) f v zs p g args e m :
  variable_lists v zs -> Forall (int_safe f) zs ->
  well_formed_program L c p = true -> productive_program L c oC p = true ->
  (cpp17 = true -> sequenced_program L c p = true) ->
  (forall i, In i (logical_of L c opt p 0) -> In (Z.of_nat (f + i)) zs -> Late) ->
  (Late -> always_finishes L c cpp17 oC f p e m g args) ->
  unrecorded L c cpp17 oC f p e m g args zs ->
  let n := snd (mutate_program L c oM p 0) in
  no_more L c cpp17 (selecting f n (cpp c) v) no_runtime e m
    (initial_tls n) (body_of L c (fst (mutate_program L c oM p 0))) (call L g args)
    tt (body_of L c p) (call L g args).
Proof.
  intros V S Wf Pr Sq Off En Un n.
  destruct (cover_lemma Late f v zs p g args e m V S Wf Pr Off En Un) as [A1 A2 A3 A4]. fold n in A1, A2, A3, A4.
  assert (Qn : n = snd (mutate_program L c oC p 0)).
  { unfold n. rewrite !program_next, OO. reflexivity. }
  assert (Co : cpp c || negb true || true = true) by (destruct (cpp c); reflexivity).
  destruct (coverage_lemma L c oC cpp17 f true true p g args TC Co Wf Pr Sq) as [B1 B2 B3 B4].
  rewrite <- Qn in B1, B2, B3, B4.
  split; auto.
Qed.
End Top.
