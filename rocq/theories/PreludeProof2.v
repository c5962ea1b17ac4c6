(* Threads (C09) and mutants of other files (C14). *)
From Coq Require Import String Ascii List Arith NArith ZArith Bool Lia ZifyBool ZifyNat.
From Verif Require Import Base PreludeText Rewriter RewriterProof Prelude PreludeSpec PreludeProof.
Import ListNotations.

Section File.
Variables initial num : nat.

(* What is known about a thread: it has not queried yet and is fresh, or it answers
   according to the list that it read first. *)
Definition thread_state (s : tls) (zs : option (list Z)) : Prop :=
  match zs with
  | None => s = initial_tls num
  | Some zs => answers num s (memb initial zs) /\ some_enabled s = in_file initial num zs
  end.

(* An out of range query does not change an initialised state. *)
Lemma query_keeps cpp v s P i :
  answers num s P -> fst (query initial num cpp v i s) = s.
Proof. intros [I _]. unfold query. rewrite I. destruct (get_bit _ _); reflexivity. Qed.

Lemma query_first_state cpp v zs i :
  variable_lists v zs -> Forall (int_safe initial) zs ->
  thread_state (fst (query initial num cpp v i (initial_tls num))) (Some zs).
Proof.
  intros V S.
  destruct (init_spec initial num cpp v zs _ _ V S (holds_initial num)) as (ws & E & H).
  unfold query. cbn [initialized initial_tls bitset]. rewrite E. cbn [bitset].
  assert (H' : holds num ws (memb initial zs)).
  { eapply holds_ext; [|exact H]. intros; apply orb_false_r. }
  destruct (get_bit i ws); (split; [split; [reflexivity|exact H']|reflexivity]).
Qed.

Lemma execute_app cpp p l l' :
  execute cpp initial num p (l ++ l') = execute cpp initial num (execute cpp initial num p l) l'.
Proof. revert p. induction l; intros; simpl; auto. Qed.

(* No query of thread t *)
Fixpoint silent (t : nat) (l : list action) : bool :=
  match l with
  | [] => true
  | Query t' _ :: l => negb (Nat.eqb t' t) && silent t l
  | SetEnv _ :: l => silent t l
  end.

Lemma execute_silent cpp p l t :
  silent t l = true -> threads (execute cpp initial num p l) t = threads p t.
Proof.
  revert p. induction l as [|[t' i|v] l IH]; intros p H; [reflexivity| |].
  - cbn [silent] in H. apply andb_true_iff in H as [N H]. cbn [execute]. rewrite IH by exact H.
    unfold process_step. destruct (query _ _ _ _ _ _) as [s r]. cbn [fst threads].
    unfold set_thread. destruct (Nat.eqb_spec t t'); [subst|reflexivity].
    rewrite Nat.eqb_refl in N. discriminate.
  - cbn [execute]. rewrite IH by exact H. reflexivity.
Qed.

Lemma first_env_silent cpp p l t v :
  silent t l = true -> env p = v ->
  first_env t v l = env (execute cpp initial num p l).
Proof.
  revert p v. induction l as [|[t' i|v'] l IH]; intros p v H E; [symmetry; exact E| |].
  - cbn [silent] in H. apply andb_true_iff in H as [N H]. cbn [execute first_env].
    destruct (Nat.eqb t' t); [discriminate|]. apply IH; [exact H|].
    unfold process_step. destruct (query _ _ _ _ _ _). exact E.
  - cbn [execute first_env]. apply IH; [exact H|reflexivity].
Qed.

Lemma execute_answers cpp p l t P b :
  answers num (threads p t) P -> some_enabled (threads p t) = b ->
  answers num (threads (execute cpp initial num p l) t) P /\
  some_enabled (threads (execute cpp initial num p l) t) = b.
Proof.
  revert p. induction l as [|[t' i|v] l IH]; intros p A B; [auto| |].
  - cbn [execute]. apply IH; unfold process_step;
      destruct (query _ _ _ _ _ _) as [s r] eqn:Q; cbn [fst threads]; unfold set_thread;
      destruct (Nat.eqb_spec t t'); subst; auto.
    + pose proof (query_keeps cpp (env p) _ P i A) as K. rewrite Q in K. cbn in K. subst.
      exact A.
    + pose proof (query_keeps cpp (env p) _ P i A) as K. rewrite Q in K. cbn in K. subst.
      reflexivity.
  - cbn [execute]. apply IH; assumption.
Qed.

(* Before thread t's first query it is fresh; afterwards it answers by the list read then. *)
Lemma thread_invariant cpp v l t zs :
  variable_lists (first_env t v l) zs -> Forall (int_safe initial) zs ->
  thread_state (threads (execute cpp initial num (start num v) l) t)
               (if silent t l then None else Some zs).
Proof.
  intros V S.
  assert (G : forall p, env p = v -> threads p t = initial_tls num ->
            thread_state (threads (execute cpp initial num p l) t)
               (if silent t l then None else Some zs)).
  { clear - V S. revert v V. induction l as [|[t' i|v'] l IH]; intros v V p E F.
    - exact F.
    - cbn [silent first_env execute] in *. destruct (Nat.eqb_spec t' t) as [->|N].
      + cbn [negb andb]. unfold process_step.
        pose proof (query_first_state cpp v zs i V S) as Q. rewrite <- E, <- F in Q.
        destruct (query initial num cpp (env p) i (threads p t)) as [s r]. cbn [fst] in *.
        destruct Q as [A B].
        apply execute_answers; cbn [threads]; unfold set_thread; rewrite Nat.eqb_refl; assumption.
      + cbn [negb andb]. apply (IH v V); unfold process_step;
          destruct (query _ _ _ _ _ _); cbn [fst env threads]; [exact E|].
        unfold set_thread. destruct (Nat.eqb_spec t t'); [congruence|exact F].
    - cbn [silent first_env execute] in *. apply (IH v' V); [reflexivity|exact F]. }
  apply G; reflexivity.
Qed.

Lemma first_env_app t v l i :
  first_env t v (l ++ [Query t i]) = first_env t v l \/ silent t l = true.
Proof.
  revert v. induction l as [|[t' i'|v'] l IH]; intros v; cbn [app first_env silent].
  - right; reflexivity.
  - destruct (Nat.eqb t' t); [left; reflexivity|]. apply IH.
  - apply IH.
Qed.

Lemma first_env_snoc t v l i : first_env t v (l ++ [Query t i]) = first_env t v l.
Proof.
  revert v. induction l as [|[t' i'|v'] l IH]; intros v; cbn [app first_env].
  - rewrite Nat.eqb_refl. reflexivity.
  - destruct (Nat.eqb t' t); [reflexivity|]. apply IH.
  - apply IH.
Qed.

Lemma C09_lemma cpp v l t i zs :
  variable_lists (first_env t v (l ++ [Query t i])) zs -> Forall (int_safe initial) zs ->
  i < num ->
  exists b, snd (process_step cpp initial num (execute cpp initial num (start num v) l)
                   (Query t i)) = Some (Ok b) /\
            (b = true <-> In (Z.of_nat (initial + i)) zs).
Proof.
  rewrite first_env_snoc. intros V S Hi.
  pose proof (thread_invariant cpp v l t zs V S) as T.
  exists (memb initial zs i). split; [|apply memb_spec].
  unfold process_step. destruct (silent t l) eqn:Q.
  - cbn in T. rewrite T.
    rewrite <- (first_env_silent cpp (start num v) l t v Q eq_refl).
    destruct (query_first initial num cpp _ zs i V S Hi) as (s & E & _). rewrite E. reflexivity.
  - destruct T as [A _].
    rewrite (query_initialized initial num cpp _ _ _ i A Hi). reflexivity.
Qed.

Lemma first_env_ok v l t :
  well_formed initial v -> Forall (env_ok initial) l -> well_formed initial (first_env t v l).
Proof.
  intros W F. revert v W. induction F as [|[t' i|v'] l H F IH]; intros v W; cbn [first_env]; auto.
  destruct (Nat.eqb t' t); auto.
Qed.

Lemma in_file_spec zs : in_file initial num zs = true <->
  exists i, i < num /\ memb initial zs i = true.
Proof.
  unfold in_file, memb. rewrite existsb_exists. split.
  - intros (z & I & E). exists (Z.to_nat (z - Z.of_nat initial)). split; [lia|].
    apply existsb_exists. exists z. split; [exact I|lia].
  - intros (i & Hi & E). apply existsb_exists in E as (z & I & E). exists z. split; [exact I|lia].
Qed.

Lemma C09_flag_lemma cpp v l t :
  well_formed initial v -> Forall (env_ok initial) l ->
  let p := execute cpp initial num (start num v) l in
  some_enabled (threads p t) = false ->
  forall i, i < num -> snd (process_step cpp initial num p (Query t i)) = Some (Ok false).
Proof.
  intros W F p Fl i Hi.
  destruct (first_env_ok v l t W F) as (zs & V & S).
  pose proof (thread_invariant cpp v l t zs V S) as T. fold p in T.
  destruct (silent t l).
  - cbn in T. rewrite T in Fl. discriminate.
  - destruct T as [A B]. rewrite B in Fl.
    unfold process_step. rewrite (query_initialized initial num cpp _ _ _ i A Hi). cbn.
    destruct (memb initial zs i) eqn:M; [|reflexivity].
    rewrite (proj2 (in_file_spec zs)) in Fl; [discriminate|eauto].
Qed.

Lemma C09_flag_exact_lemma cpp v zs l t i :
  variable_lists (first_env t v (l ++ [Query t i])) zs -> Forall (int_safe initial) zs ->
  let p := execute cpp initial num (start num v) (l ++ [Query t i]) in
  some_enabled (threads p t) = true <->
  exists j, j < num /\ In (Z.of_nat (initial + j)) zs.
Proof.
  intros V S p.
  pose proof (thread_invariant cpp v (l ++ [Query t i]) t zs V S) as T. fold p in T.
  assert (Q : silent t (l ++ [Query t i]) = false).
  { clear. induction l as [|[t' i'|v'] l IH]; cbn [app silent].
    - rewrite Nat.eqb_refl. reflexivity.
    - rewrite IH. apply andb_false_r.
    - exact IH. }
  rewrite Q in T. destruct T as [_ B]. rewrite B, in_file_spec.
  split; intros (j & Hj & M); exists j; (split; [exact Hj|]); apply memb_spec; exact M.
Qed.

(** * C14 *)

Definition outside (z : Z) : Prop :=
  (z < Z.of_nat initial \/ Z.of_nat initial + Z.of_nat num <= z)%Z.

Lemma enable_outside z ws some :
  int_safe initial z -> outside z -> enable initial num z ws some = Ok (ws, some).
Proof.
  intros S O. unfold enable. rewrite (proj2 (int_safe_fits initial z S)). cbn [negb].
  unfold outside in O.
  destruct ((0 <=? z - Z.of_nat initial) && (z - Z.of_nat initial <? Z.of_nat num))%Z eqn:R;
    [lia|reflexivity].
Qed.

Lemma cpp_loop_outside items zs ws some :
  Forall2 item items zs -> Forall (int_safe initial) (concat zs) ->
  Forall outside (concat zs) ->
  cpp_loop initial num items ws some = (ws, Ok some).
Proof.
  intros F. induction F as [|t z items zs I F IH]; intros S O; [reflexivity|].
  destruct I as [|t z D].
  - apply IH; assumption.
  - cbn [concat app] in *. apply Forall_cons_iff in S as [S1 S2], O as [O1 O2].
    cbn [cpp_loop]. pose proof (denotes_nonempty t z D) as NE.
    destruct t as [|c t]; [discriminate|].
    rewrite (stoi_denotes initial _ z D) by assumption.
    rewrite enable_outside by assumption. auto.
Qed.

Lemma init_outside cpp v zs :
  variable_lists v zs -> Forall (int_safe initial) zs -> Forall outside zs ->
  init initial num cpp v (bitset (initial_tls num)) = (bitset (initial_tls num), Ok false).
Proof.
  intros V S O. destruct V as [|items zs F]; [reflexivity|].
  assert (NC : Forall no_comma items).
  { clear S O. induction F; constructor; eauto using no_comma_item. }
  cbn [init]. destruct cpp.
  - destruct items as [|t items]; [reflexivity|].
    rewrite cpp_tokens_concat; [|exact NC|discriminate|lia].
    eapply cpp_loop_outside; eassumption.
  - rewrite c_tokens_concat by (exact NC || lia).
    cbn [bitset initial_tls].
    rewrite (c_loop_cpp_loop initial num items zs _ _ false F S (holds_initial num)).
    eapply cpp_loop_outside; eassumption.
Qed.

Lemma C14_lemma cpp v zs i :
  variable_lists v zs -> Forall (int_safe initial) zs -> Forall outside zs ->
  query initial num cpp v i (initial_tls num) = query initial num cpp None i (initial_tls num).
Proof.
  intros V S O. unfold query. cbn [initialized initial_tls].
  rewrite (init_outside cpp v zs V S O). reflexivity.
Qed.

Lemma C14_answers_lemma cpp v zs l t i :
  variable_lists (first_env t v (l ++ [Query t i])) zs -> Forall (int_safe initial) zs ->
  Forall outside zs -> i < num ->
  let p := execute cpp initial num (start num v) l in
  snd (process_step cpp initial num p (Query t i)) = Some (Ok false) /\
  some_enabled (threads (fst (process_step cpp initial num p (Query t i))) t) = false.
Proof.
  intros V S O Hi p.
  assert (N : ~ exists j, j < num /\ In (Z.of_nat (initial + j)) zs).
  { intros (j & Hj & M). rewrite Forall_forall in O. specialize (O _ M). unfold outside in O. lia. }
  split.
  - destruct (C09_lemma cpp v l t i zs V S Hi) as (b & E & B). fold p in E. rewrite E.
    destruct b; [|reflexivity]. exfalso. apply N. exists i. split; [exact Hi|]. apply B. reflexivity.
  - pose proof (C09_flag_exact_lemma cpp v zs l t i V S) as B. cbn zeta in B.
    rewrite execute_app in B. fold p in B. cbn [execute] in B.
    destruct (some_enabled _); [|reflexivity]. exfalso. apply N, B. reflexivity.
Qed.
End File.
