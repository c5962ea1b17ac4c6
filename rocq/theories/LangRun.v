(* All executions of a term, by computation.  Used for concrete programs. *)
From Coq Require Import String List ZArith Bool Lia.
From Verif Require Import Base Clang Gen Lang SimRel.
Import ListNotations.

Section Run.
Variable L : lang.
Variable R : runtime.
Variable c : ctx.
Variable bodies : string -> option (tm L).
Variable cpp17 : bool.
Notation tm := (tm L).
Notation stp := (step L R c bodies cpp17).
Notation outcome := (outcome L R).

Fixpoint ready (k : kind L) (i : nat) (args : list tm) : bool :=
  match args with
  | [] => true
  | a :: args => (negb (evaluated k i) || final a) && ready k (S i) args
  end.

Fixpoint succs (e : env L) (m : mem L) (d : rt_state R) (t : tm) {struct t} : list outcome :=
  match t with
  | RV _ | RL _ => []
  | N k args =>
      (if negb (final t) && ready k 0 args then [head L R c bodies e m d k args] else []) ++
      (fix go (pre : list tm) (args : list tm) : list outcome :=
         match args with
         | [] => []
         | a :: post =>
             (if evaluated k (length pre) && its_turn cpp17 k pre post
                 && negb (existsb active pre) && negb (existsb active post)
              then map (fun x => put L R x (fun a => N k (pre ++ a :: post)))
                     (succs (child_env k e) m d a)
              else []) ++ go (pre ++ [a]) post
         end) [] args
  end.

Lemma ready_spec k args : forall i,
  ready k i args = true <->
  (forall j a, nth_error args j = Some a -> evaluated k (i + j) = true -> final a = true).
Proof.
  induction args as [|a args IH]; intro i; cbn.
  - split; auto. intros _ [|j] a H; discriminate.
  - rewrite andb_true_iff, IH. split.
    + intros [Ha Hr] [|j] b Q Ev.
      * injection Q as <-. rewrite Nat.add_0_r in Ev. rewrite Ev in Ha. exact Ha.
      * apply (Hr j b Q). replace (S i + j) with (i + S j) by lia. exact Ev.
    + intro H. split.
      * destruct (evaluated k i) eqn:Ev; auto. cbn. apply (H 0); auto. rewrite Nat.add_0_r. exact Ev.
      * intros j b Q Ev. apply (H (S j) b Q). replace (i + S j) with (S i + j) by lia. exact Ev.
Qed.

Definition operand_succs (e : env L) m d k :=
  fix go (pre : list tm) (args : list tm) : list outcome :=
         match args with
         | [] => []
         | a :: post =>
             (if evaluated k (length pre) && its_turn cpp17 k pre post
                 && negb (existsb active pre) && negb (existsb active post)
              then map (fun x => put L R x (fun a => N k (pre ++ a :: post)))
                     (succs (child_env k e) m d a)
              else []) ++ go (pre ++ [a]) post
         end.
Lemma operand_succs_complete e m d k a x post : forall args pre0 pre1,
  args = pre1 ++ a :: post ->
  evaluated k (length (pre0 ++ pre1)) = true -> its_turn cpp17 k (pre0 ++ pre1) post = true ->
  existsb active (pre0 ++ pre1) = false -> existsb active post = false ->
  In x (succs (child_env k e) m d a) ->
  In (put L R x (fun a => N k ((pre0 ++ pre1) ++ a :: post))) (operand_succs e m d k pre0 args).
Proof.
  induction args as [|b args IH]; intros pre0 pre1 Q Ev T A1 A2 I.
  - destruct pre1; discriminate.
  - cbn. apply in_or_app. destruct pre1 as [|b' pre1].
    + injection Q as -> ->. left. rewrite app_nil_r in *. rewrite Ev, T, A1, A2. cbn.
      apply (in_map (fun x => put L R x (fun a => N k (pre0 ++ a :: post)))). exact I.
    + injection Q as -> ->. right.
      assert (Q : pre0 ++ b' :: pre1 = (pre0 ++ [b']) ++ pre1) by (rewrite <- app_assoc; reflexivity).
      rewrite Q in *. apply IH; auto.
Qed.
Lemma succs_complete e m d t x : stp e m d t x -> In x (succs e m d t).
Proof.
  induction 1 as [e m d k args F Ev|e m d k pre a post x Ev T A1 A2 S IH]; cbn [succs].
  - apply in_or_app. left. rewrite F. cbn [negb andb].
    assert (ready k 0 args = true) as -> by (apply ready_spec; auto). left. reflexivity.
  - apply in_or_app. right. apply (operand_succs_complete e m d k a x post _ [] pre); auto.
Qed.

Lemma succs_sound t : forall e m d x, In x (succs e m d t) -> stp e m d t x.
Proof.
  induction t as [v|l|k args IH] using tm_induction; intros e m d x; cbn [succs]; try (intros []; fail).
  intro I. apply in_app_or in I as [I|I].
  - destruct (negb (final (N k args)) && ready k 0 args) eqn:Q; [|destruct I].
    apply andb_true_iff in Q as [F Rd]. destruct I as [<-|[]]. apply step_head.
    + apply negb_true_iff. exact F.
    + intros i a Hn Ev. apply (proj1 (ready_spec k args 0) Rd i a Hn Ev).
  - change (In x (operand_succs e m d k [] args)) in I.
    enough (H : forall args pre, Forall (fun a => forall e m d x, In x (succs e m d a) -> stp e m d a x) args ->
      In x (operand_succs e m d k pre args) -> stp e m d (N k (pre ++ args)) x) by exact (H args [] IH I).
    clear. induction args as [|a post IHp]; intros pre F I; [destruct I|].
    inversion F as [|? ? Ha Fp]; subst. cbn in I. apply in_app_or in I as [I|I].
    + destruct (_ && _ && _ && _) eqn:Q; [|destruct I].
      rewrite !andb_true_iff, !negb_true_iff in Q. destruct Q as [[[Ev T] A1] A2].
      apply in_map_iff in I as (y & <- & I). apply step_operand; auto.
    + replace (pre ++ a :: post) with ((pre ++ [a]) ++ post) by (rewrite <- app_assoc; reflexivity).
      apply IHp; auto.
Qed.

(* The results of all executions, each of at most n steps; None: one is longer.  An element
   None is undefined behaviour. *)
Fixpoint results_of (n : nat) (e : env L) (m : mem L) (d : rt_state R) (t : tm)
  : option (list (option (mem L * tm))) :=
  if final t then Some [Some (m, t)]
  else match n with
  | 0 => None
  | S n =>
      fold_right (fun x acc =>
        match x, acc with
        | None, Some l => Some (None :: l)
        | Some (m, d, t), Some l =>
            match results_of n e m d t with Some l' => Some (l' ++ l) | None => None end
        | _, None => None
        end) (Some []) (succs e m d t)
  end.

Lemma fold_in {A B} (f : A -> option (list B)) (l : list A) r x :
  fold_right (fun x acc => match f x, acc with Some l', Some l => Some (l' ++ l) | _, _ => None end)
    (Some []) l = Some r ->
  In x l -> exists l', f x = Some l' /\ incl l' r.
Proof.
  revert r. induction l as [|a l IH]; intros r Q I; [destruct I|]. cbn in Q.
  destruct (f a) as [l1|] eqn:Fa; [|discriminate].
  destruct (fold_right _ _ l) as [l2|] eqn:Fl; [|discriminate]. injection Q as <-.
  destruct I as [<-|I].
  - exists l1. split; auto. apply incl_appl, incl_refl.
  - destruct (IH _ eq_refl I) as (l' & H1 & H2). exists l'. split; auto. apply incl_appr. exact H2.
Qed.

Definition one (n : nat) (e : env L) (x : outcome) : option (list (option (mem L * tm))) :=
  match x with
  | None => Some [None]
  | Some (m, d, t) => results_of n e m d t
  end.
Lemma results_of_step n e m d t : final t = false ->
  results_of (S n) e m d t =
  fold_right (fun x acc => match one n e x, acc with Some l', Some l => Some (l' ++ l) | _, _ => None end)
    (Some []) (succs e m d t).
Proof.
  intro F. cbn [results_of]. rewrite F. induction (succs e m d t) as [|[[[m1 d1] t1]|] l IH]; auto;
    cbn [fold_right one]; rewrite IH; clear IH;
    match goal with |- context [fold_right ?f ?x l] => destruct (fold_right f x l) end; auto.
  destruct (results_of n e m1 d1 t1); auto.
Qed.

Lemma final_no_step e m d t x : final t = true -> ~ stp e m d t x.
Proof.
  intros F St. destruct St as [k args Nf Ev|k pre a post x Ev T A1 A2 St].
  - congruence.
  - destruct k; try discriminate; try (destruct pre; discriminate).
    destruct pre as [|y [|]]; try discriminate. destruct post; try discriminate.
    cbn in F. destruct a; try discriminate; inversion St.
Qed.

Lemma results_of_steps n : forall e m d t r, results_of n e m d t = Some r ->
  forall m' d' t', steps L R c bodies cpp17 e (m, d, t) (m', d', t') ->
  exists n' r', results_of n' e m' d' t' = Some r' /\ incl r' r.
Proof.
  induction n as [|n IH]; intros e m d t r Q m' d' t' St.
  - destruct (final t) eqn:F; [|cbn in Q; rewrite F in Q; discriminate].
    inversion St as [|? ? ? x ? S1 S2]; subst.
    + exists 0, r. split; [exact Q|apply incl_refl].
    + destruct (final_no_step _ _ _ _ _ F S1).
  - inversion St as [|? ? ? [[m1 d1] t1] ? S1 S2]; subst.
    + exists (S n), r. split; [exact Q|apply incl_refl].
    + destruct (final t) eqn:F; [destruct (final_no_step _ _ _ _ _ F S1)|].
      rewrite results_of_step in Q by exact F.
      destruct (fold_in _ _ _ _ Q (succs_complete _ _ _ _ _ S1)) as (l & H1 & H2).
      destruct (IH _ _ _ _ _ H1 _ _ _ S2) as (n' & r' & H3 & H4).
      exists n', r'. split; auto. intros z Hz. auto.
Qed.

Lemma results_finishes n e m d t r m' s : results_of n e m d t = Some r ->
  finishes L R c bodies cpp17 e m d t m' s -> In (Some (m', s)) r.
Proof.
  intros Q (d' & St & F). destruct (results_of_steps _ _ _ _ _ _ Q _ _ _ St) as (n' & r' & H1 & H2).
  apply H2. destruct n'; cbn in H1; rewrite F in H1; injection H1 as <-; left; reflexivity.
Qed.
Lemma results_undefined n e m d t r : results_of n e m d t = Some r ->
  undefined L R c bodies cpp17 e m d t -> In None r.
Proof.
  intros Q (m' & d' & t' & St & S1). destruct (results_of_steps _ _ _ _ _ _ Q _ _ _ St) as (n' & r' & H1 & H2).
  apply H2. destruct (final t') eqn:F; [destruct (final_no_step _ _ _ _ _ F S1)|].
  destruct n' as [|n']; [cbn in H1; rewrite F in H1; discriminate|].
  rewrite results_of_step in H1 by exact F.
  destruct (fold_in _ _ _ _ H1 (succs_complete _ _ _ _ _ S1)) as (l & H3 & H4).
  injection H3 as <-. apply H4. left. reflexivity.
Qed.

(* One execution: always the first possible step. *)
Fixpoint first_run (n : nat) (e : env L) (m : mem L) (d : rt_state R) (t : tm)
  : option (option (mem L * tm)) :=
  if final t then Some (Some (m, t))
  else match n with
  | 0 => None
  | S n => match succs e m d t with
           | Some (m, d, t) :: _ => first_run n e m d t
           | None :: _ => Some None
           | [] => None
           end
  end.
Lemma first_run_finishes n : forall e m d t m' s, first_run n e m d t = Some (Some (m', s)) ->
  finishes L R c bodies cpp17 e m d t m' s.
Proof.
  induction n as [|n IH]; intros e m d t m' s; cbn [first_run]; destruct (final t) eqn:F.
  - intro Q. injection Q as <- <-. exists d. split; [constructor|exact F].
  - discriminate.
  - intro Q. injection Q as <- <-. exists d. split; [constructor|exact F].
  - destruct (succs e m d t) as [|[[[m1 d1] t1]|] l] eqn:Sc; try discriminate. intro Q.
    destruct (IH _ _ _ _ _ _ Q) as (d' & St & Fs). exists d'. split; auto.
    econstructor; eauto. apply succs_sound. rewrite Sc. left. reflexivity.
Qed.
Lemma first_run_undefined n : forall e m d t, first_run n e m d t = Some None ->
  undefined L R c bodies cpp17 e m d t.
Proof.
  induction n as [|n IH]; intros e m d t; cbn [first_run]; destruct (final t) eqn:F; try discriminate.
  destruct (succs e m d t) as [|[[[m1 d1] t1]|] l] eqn:Sc; try discriminate; intro Q.
  - destruct (IH _ _ _ _ Q) as (m' & d' & t' & St & Fs). exists m', d', t'. split; auto.
    econstructor; eauto. apply succs_sound. rewrite Sc. left. reflexivity.
  - exists m, d, t. split; [constructor|]. apply succs_sound. rewrite Sc. left. reflexivity.
Qed.
End Run.
