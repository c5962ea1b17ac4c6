(* The simulation of SimProof.v for programs with several threads. *)
From Coq Require Import String List NArith ZArith Bool Lia.
From Verif Require Import Base Clang Gen GenExpr GenBinary GenUnary GenStmt Mutation GenSpec
  Rewriter PreludeText Prelude PreludeSpec PreludeProof PreludeProof2 Tracking Lang Cst Runtime
  SimSpec SimRel SimProof SimMutate SimTop SimProgress Linked LinkedSpec LinkedProof Threads ThreadsSpec.
Import ListNotations.

Lemma Forall2_nth {A B} (P : A -> B -> Prop) l l' : Forall2 P l l' -> forall k a,
  nth_error l k = Some a -> exists b, nth_error l' k = Some b /\ P a b.
Proof.
  induction 1 as [|x y l l' H F IH]; intros [|k] a Q; try discriminate.
  - injection Q as <-. exists y. auto.
  - apply IH. exact Q.
Qed.
Lemma Forall2_size {A B} (P : A -> B -> Prop) l l' : Forall2 P l l' -> length l = length l'.
Proof. induction 1; cbn; auto. Qed.
Lemma Forall2_middle {A B} (P : A -> B -> Prop) pre a post l : Forall2 P (pre ++ a :: post) l ->
  exists pre' b post', l = pre' ++ b :: post' /\ length pre' = length pre /\
    Forall2 P pre pre' /\ P a b /\ Forall2 P post post'.
Proof.
  intro F. apply Forall2_app_inv_l in F as (pre' & l2 & F1 & F2 & ->).
  inversion F2 as [|? b ? post' H F3]; subst. exists pre', b, post'.
  split; [reflexivity|]. split; [symmetry; eapply Forall2_size; eauto|auto].
Qed.
Lemma nth_middle {A} (pre : list A) a post : nth_error (pre ++ a :: post) (length pre) = Some a.
Proof. rewrite nth_error_app2, Nat.sub_diag by lia. reflexivity. Qed.
Lemma nth_aside {A} (pre : list A) a b post k : k <> length pre ->
  nth_error (pre ++ a :: post) k = nth_error (pre ++ b :: post) k.
Proof.
  intro Ne. destruct (Nat.lt_ge_cases k (length pre)) as [Lt|Ge].
  - rewrite !nth_error_app1 by exact Lt. reflexivity.
  - rewrite !nth_error_app2 by exact Ge. destruct (k - length pre) as [|n] eqn:Q; [lia|reflexivity].
Qed.

Section General.
Variable L : lang.
Variable R : runtime.
Variable c : ctx.
Variable bodies : string -> option (tm L).
Variable cpp17 : bool.
Variable sys : system L.
Variable slot : nat -> nat.
Notation mv := (move L R c bodies cpp17 sys slot).
Notation mvs := (moves L R c bodies cpp17 sys slot).

Lemma moves_app x l y : mvs x l y -> forall l' z, mvs y l' z -> mvs x (l ++ l') z.
Proof. induction 1; intros l' w H'; cbn; auto. econstructor; eauto. Qed.

Lemma ended_stays_move x k y j : mv x k (Some y) -> has_ended L R j x -> has_ended L R j y.
Proof.
  intros M (a & Q & En). remember (Some y) as z eqn:Qz.
  destruct M as [m ds pre b post [[[m' d'] t']|] Nb St|m ds pre b post Nb F|m ds ts x m' St];
    try discriminate; injection Qz as <-; unfold has_ended; cbn [snd] in *.
  - destruct (Nat.eq_dec j (length pre)) as [->|Ne].
    + rewrite nth_middle in Q. injection Q as ->. congruence.
    + exists a. split; auto. rewrite <- Q. apply nth_aside. exact Ne.
  - destruct (Nat.eq_dec j (length pre)) as [->|Ne].
    + rewrite nth_middle in Q. injection Q as ->. congruence.
    + exists a. split; auto. rewrite <- Q. apply nth_aside. exact Ne.
  - exists a. split; auto. rewrite nth_error_app1; auto. apply nth_error_Some. congruence.
Qed.
Lemma ended_stays x l y j : mvs x l y -> has_ended L R j x -> has_ended L R j y.
Proof. induction 1; auto. eauto using ended_stays_move. Qed.

Hypothesis Bodies : forall g s, bodies g = Some s -> active s = false.
Lemma tidy_move x k y : mv x k (Some y) ->
  Forall (fun a => tidy L cpp17 (th_tm a)) (snd x) -> Forall (fun a => tidy L cpp17 (th_tm a)) (snd y).
Proof.
  intros M. remember (Some y) as z eqn:Qz.
  destruct M as [m ds pre b post [[[m' d'] t']|] Nb St|m ds pre b post Nb F|m ds ts x m' St];
    try discriminate; injection Qz as <-; cbn [snd]; intro Ti.
  - apply Forall_app in Ti as [T1 T2]. inversion T2 as [|? ? T3 T4]; subst.
    apply Forall_app. split; auto. constructor; auto. cbn. eapply tidy_step; eauto.
  - apply Forall_app in Ti as [T1 T2]. inversion T2 as [|? ? T3 T4]; subst.
    apply Forall_app. split; auto.
  - apply Forall_app. split; auto. constructor; auto. apply tidy_inactive. apply call_inactive.
Qed.
Lemma tidy_moves x l y : mvs x l y ->
  Forall (fun a => tidy L cpp17 (th_tm a)) (snd x) -> Forall (fun a => tidy L cpp17 (th_tm a)) (snd y).
Proof. induction 1; auto. eauto using tidy_move. Qed.
End General.

Lemma threads_stuck_lemma L R c bodies cpp17 slot d calls :
  (forall g s, bodies g = Some s -> active s = false) ->
  threads_never_stuck L c cpp17 R slot d bodies calls.
Proof.
  intros Bodies sys m l [[m' ds] ts] k Ms Lt. cbn in Lt.
  assert (Ti : Forall (fun a => tidy L cpp17 (th_tm a)) ts).
  { apply (tidy_moves L R c bodies cpp17 sys slot Bodies _ _ _ Ms). cbn. clear.
    induction calls as [|x calls IH]; cbn; constructor; auto. apply tidy_inactive, call_inactive. }
  destruct (nth_error ts k) as [a|] eqn:Q; [|apply nth_error_None in Q; unfold threads_of in Lt; cbn in Lt; lia].
  destruct (th_ended a) eqn:En; [left; exists a; auto|right].
  rewrite Forall_forall in Ti. specialize (Ti a (nth_error_In _ _ Q)).
  destruct (nth_error_split ts k Q) as (pre & post & -> & <-).
  destruct (tidy_progress L c R bodies Bodies cpp17 (th_tm a) Ti) as [F|P].
  - eexists. apply move_end; auto.
  - destruct (P (th_env a) m' (ds (slot (length pre)))) as [x St]. eexists. eapply move_step; eauto.
Qed.

(* A step of thread j that the other program does not make *)
Section Weight.
Variable L : lang.
Variable R : runtime.
Definition wt (x : state L R) (j : nat) : nat :=
  match nth_error (snd x) j with Some a => weight (th_tm a) | None => 0 end.
Definition total (x : state L R) : nat := list_sum (map (fun a => weight (th_tm a)) (snd x)).
Definition idle (x x' : state L R) (j : nat) : Prop :=
  wt x' j < wt x j /\ total x' < total x /\ forall i, i <> j -> wt x' i = wt x i.

End Weight.

(** * From moves to executions *)

Section Executions.
Variable L : lang.
Variable c : ctx.
Variable R : runtime.
Variable R' : runtime.
Variable bt bs : string -> option (tm L).
Variable cpp17 : bool.
Variable sys : system L.
Variable slot slot' : nat -> nat.
Notation mt := (move L R c bt cpp17 sys slot).
Notation ms := (move L R' c bs cpp17 sys slot').
Notation mts := (moves L R c bt cpp17 sys slot).
Notation mss := (moves L R' c bs cpp17 sys slot').
Notation wt := (wt L R).
Notation total := (total L R).
Variable related : state L R -> state L R' -> Prop.
Hypothesis Related_mem : forall x y, related x y -> fst (fst x) = fst (fst y).
Hypothesis Related_ended : forall x y, related x y ->
  Forall2 (fun a b => th_ended a = th_ended b) (snd x) (snd y).
Hypothesis move_simulated : forall x k z, mt x k z -> forall y, related x y ->
  match z with
  | None => ms y k None
  | Some x' => (exists y', ms y k (Some y') /\ related x' y') \/
               (related x' y /\ exists j, k = Some j /\ idle L R x x' j)
  end.

Lemma moves_simulated x l x' : mts x l x' -> forall y, related x y ->
  exists l' y', mss y l' y' /\ related x' y' /\
    (l' <> [] \/ total x' + length l <= total x).
Proof.
  induction 1 as [x|x k x1 l x' M Ms IH]; intros y Re.
  - exists [], y. split; [constructor|]. split; auto. right. cbn. lia.
  - destruct (move_simulated _ _ _ M y Re) as [(y1 & M1 & R1)|(R1 & j & -> & _ & T & _)].
    + destruct (IH y1 R1) as (l' & y' & M2 & R2 & _). exists (k :: l'), y'.
      split; [econstructor; eauto|]. split; auto. left. discriminate.
    + destruct (IH y R1) as (l' & y' & M2 & R2 & [Ne|Le]); exists l', y'; split; auto; split; auto.
      right. cbn [length]. lia.
Qed.

Lemma other_move x k y j : mt x k (Some y) -> k <> Some j -> j < threads_of L R x ->
  wt y j = wt x j.
Proof.
  intros M. remember (Some y) as z eqn:Qz.
  destruct M as [m ds pre b post [[[m' d'] t']|] Nb St|m ds pre b post Nb F|m ds ts x m' St];
    try discriminate; injection Qz as <-; unfold wt, threads_of; cbn [snd]; intros Ne Lt.
  - rewrite (nth_aside pre _ b post j) by congruence. reflexivity.
  - rewrite (nth_aside pre _ b post j) by congruence. reflexivity.
  - rewrite nth_error_app1 by exact Lt. reflexivity.
Qed.
Lemma more_threads x k y : mt x k (Some y) -> threads_of L R x <= threads_of L R y.
Proof.
  intros M. remember (Some y) as z eqn:Qz.
  destruct M as [m ds pre b post [[[m' d'] t']|] Nb St|m ds pre b post Nb F|m ds ts x m' St];
    try discriminate; injection Qz as <-; unfold threads_of; cbn [snd]; rewrite ?app_length; cbn; lia.
Qed.

Lemma moves_track k x l x' : mts x l x' -> k < threads_of L R x -> forall y, related x y ->
  exists l' y', mss y l' y' /\ related x' y' /\
    (In (Some k) l' \/ (wt x' k <= wt x k /\ (In (Some k) l -> wt x' k < wt x k))).
Proof.
  induction 1 as [x|x j x1 l x' M Ms IH]; intros Lt y Re.
  - exists [], y. split; [constructor|]. split; auto. right. split; [lia|intros []].
  - pose proof (more_threads _ _ _ M) as Mt.
    destruct (move_simulated _ _ _ M y Re) as [(y1 & M1 & R1)|(R1 & i & -> & Wi & _ & Wo)].
    + destruct (IH ltac:(lia) y1 R1) as (l' & y' & M2 & R2 & H). exists (j :: l'), y'.
      split; [econstructor; eauto|]. split; auto.
      destruct H as [I|[Le Ls]]; [left; right; exact I|].
      assert (D : j = Some k \/ j <> Some k).
      { destruct j as [j|]; [destruct (Nat.eq_dec j k)|]; [left|right|right]; congruence. }
      destruct D as [->|Ne]; [left; left; reflexivity|]. right.
      rewrite (other_move _ _ _ k M Ne Lt) in Le, Ls. split; auto.
      intros [Q|I]; [congruence|auto].
    + destruct (IH ltac:(lia) y R1) as (l' & y' & M2 & R2 & H). exists l', y'. split; auto. split; auto.
      destruct H as [I|[Le Ls]]; [left; exact I|right].
      destruct (Nat.eq_dec i k) as [->|Ne].
      * split; [|intros _]; lia.
      * rewrite (Wo k) in Le, Ls by congruence. split; auto. intros [Q|I]; [congruence|auto].
Qed.

Lemma related_ended x y k : related x y -> has_ended L R k x -> has_ended L R' k y.
Proof.
  intros Re (a & Q & En). destruct (Forall2_nth _ _ _ (Related_ended _ _ Re) _ _ Q) as (b & Qb & Eb).
  exists b. split; auto. congruence.
Qed.
Lemma related_threads x y : related x y -> threads_of L R x = threads_of L R' y.
Proof. intro Re. exact (Forall2_size _ _ _ (Related_ended _ _ Re)). Qed.

Notation fair_t := (goes_on_fairly L R c bt cpp17 sys slot).
Lemma fair_turn k : forall n x y, wt x k < n -> k < threads_of L R x -> related x y -> fair_t x ->
  exists x' l y', fair_t x' /\ related x' y' /\ mss y l y' /\
    (In (Some k) l \/ has_ended L R' k y').
Proof.
  induction n as [|n IH]; intros x y Wn Lt Re Fa; [lia|].
  destruct Fa as [l x1 (Ms & Nl & Turn) F1].
  destruct (moves_track k _ _ _ Ms Lt y Re) as (l' & y1 & M1 & R1 & [I|[Le Ls]]).
  - exists x1, l', y1. auto.
  - destruct (Turn k Lt) as [I|En].
    + assert (Lt1 : k < threads_of L R x1).
      { clear - Ms Lt. induction Ms as [|x j x1 l x' M Ms IH]; auto. apply IH.
        pose proof (more_threads _ _ _ M). lia. }
      destruct (IH x1 y1 ltac:(specialize (Ls I); lia) Lt1 R1 F1) as (x' & l2 & y' & F' & Re' & M2 & H).
      exists x', (l' ++ l2), y'. split; auto. split; auto. split; [eapply moves_app; eauto|].
      destruct H as [H|H]; [left; apply in_or_app; right; exact H|right; exact H].
    + exists x1, l', y1. split; auto. split; auto. split; auto. right. eapply related_ended; eauto.
Qed.
Lemma fair_some : forall n x y, total x < n -> related x y -> fair_t x ->
  exists x' l y', fair_t x' /\ related x' y' /\ mss y l y' /\ l <> [] /\
    threads_of L R x <= threads_of L R x'.
Proof.
  induction n as [|n IH]; intros x y Wn Re Fa; [lia|].
  destruct Fa as [l x1 (Ms & Nl & Turn) F1].
  assert (Mt : threads_of L R x <= threads_of L R x1).
  { clear - Ms. induction Ms as [|x j x1 l x' M Ms IH]; auto.
    pose proof (more_threads _ _ _ M). lia. }
  destruct (moves_simulated _ _ _ Ms y Re) as (l' & y1 & M1 & R1 & [Ne|Le]).
  - exists x1, l', y1. auto.
  - assert (0 < length l) by (destruct l; [congruence|cbn; lia]).
    destruct (IH x1 y1 ltac:(lia) R1 F1) as (x' & l2 & y' & F' & Re' & M2 & N2 & Mt2).
    exists x', (l' ++ l2), y'. split; auto. split; auto. split; [eapply moves_app; eauto|].
    split; [destruct l'; cbn; auto; discriminate|lia].
Qed.
Lemma fair_turns n : forall x y, n <= threads_of L R x -> related x y -> fair_t x ->
  exists x' l y', fair_t x' /\ related x' y' /\ mss y l y' /\
    forall k, k < n -> In (Some k) l \/ has_ended L R' k y'.
Proof.
  induction n as [|n IH]; intros x y Le Re Fa.
  - exists x, [], y. split; auto. split; auto. split; [constructor|]. intros; lia.
  - destruct (fair_turn n (S (wt x n)) x y (le_n _) ltac:(lia) Re Fa)
      as (x1 & l1 & y1 & F1 & R1 & M1 & H1).
    assert (Mt : threads_of L R' y <= threads_of L R' y1).
    { clear - M1. induction M1 as [|x k x1 l x' M Ms IH]; auto. etransitivity; [|exact IH].
      clear - M. remember (Some x1) as z eqn:Qz.
      destruct M as [m ds pre b post [[[m' d'] t']|] Nb St|m ds pre b post Nb F|m ds ts x m' St];
        try discriminate; injection Qz as <-; unfold threads_of; cbn [snd]; rewrite ?app_length; cbn; lia. }
    rewrite <- (related_threads _ _ Re), <- (related_threads _ _ R1) in Mt.
    destruct (IH x1 y1 ltac:(lia) R1 F1) as (x2 & l2 & y2 & F2 & R2 & M2 & H2).
    exists x2, (l1 ++ l2), y2. split; auto. split; auto. split; [eapply moves_app; eauto|].
    intros k Lt. destruct (Nat.eq_dec k n) as [->|Ne].
    + destruct H1 as [H1|H1]; [left; apply in_or_app; auto|right; eapply ended_stays; eauto].
    + destruct (H2 k ltac:(lia)) as [H|H]; [left; apply in_or_app; auto|auto].
Qed.
Lemma fair_round x y : related x y -> fair_t x ->
  exists x' l y', fair_t x' /\ related x' y' /\ round L R' c bs cpp17 sys slot' y l y'.
Proof.
  intros Re Fa.
  destruct (fair_some (S (total x)) x y (le_n _) Re Fa) as (x1 & l1 & y1 & F1 & R1 & M1 & N1 & Mt).
  destruct (fair_turns (threads_of L R x) x1 y1 Mt R1 F1) as (x2 & l2 & y2 & F2 & R2 & M2 & H2).
  exists x2, (l1 ++ l2), y2. split; auto. split; auto. split; [eapply moves_app; eauto|].
  split; [destruct l1; cbn; [congruence|discriminate]|].
  intros k Lt. rewrite <- (related_threads _ _ Re) in Lt.
  destruct (H2 k Lt) as [H|H]; [left; apply in_or_app; auto|auto].
Qed.

Lemma threads_fair x : forall y, related x y -> fair_t x ->
  goes_on_fairly L R' c bs cpp17 sys slot' y.
Proof.
  revert x. cofix CIH. intros x y Re Fa.
  destruct (fair_round x y Re Fa) as (x' & l & y' & F' & R1 & Ro).
  exact (goes_on_fairly_round L R' c bs cpp17 sys slot' y l y' Ro (CIH x' y' R1 F')).
Qed.
Lemma threads_diverge x : forall y, related x y -> goes_on L R c bt cpp17 sys slot x ->
  goes_on L R' c bs cpp17 sys slot' y.
Proof.
  assert (Next : forall n x y, total x < n -> related x y -> goes_on L R c bt cpp17 sys slot x ->
    exists k x' y', ms y k (Some y') /\ related x' y' /\ goes_on L R c bt cpp17 sys slot x').
  { induction n as [|n IH]; intros x0 y Wn Re Go; [lia|].
    destruct Go as [k x1 M Go].
    destruct (move_simulated _ _ _ M y Re) as [(y1 & M1 & R1)|(R1 & j & -> & _ & T & _)].
    - exists k, x1, y1. auto.
    - apply (IH x1 y); auto. lia. }
  revert x. cofix CIH. intros x y Re Go.
  destruct (Next (S (total x)) x y (le_n _) Re Go) as (k & x' & y' & M & R1 & Go').
  exact (goes_on_more L R' c bs cpp17 sys slot' y k y' M (CIH x' y' R1 Go')).
Qed.


Lemma executions_end x y m : related x y ->
  ends L R c bt cpp17 sys slot x m -> ends L R' c bs cpp17 sys slot' y m.
Proof.
  intros Re (l & ds & ts & M & En & St).
  destruct (moves_simulated _ _ _ M y Re) as (l' & [[m2 ds2] ts2] & M2 & R2 & _).
  pose proof (Related_mem _ _ R2) as Q. pose proof (Related_ended _ _ R2) as F. cbn in Q, F. subst m2.
  exists l', ds2, ts2. split; auto. split; auto. clear - F En.
  induction F as [|a b ts ts2 Q F IH]; auto. cbn in *.
  apply andb_true_iff in En as [E1 E2]. rewrite <- Q, E1. cbn. auto.
Qed.
Lemma executions_wrong x y : related x y ->
  goes_wrong L R c bt cpp17 sys slot x -> goes_wrong L R' c bs cpp17 sys slot' y.
Proof.
  intros Re (l & x' & k & M & Mn). destruct (moves_simulated _ _ _ M y Re) as (l' & y' & M2 & R2 & _).
  exists l', y', k. split; auto. exact (move_simulated _ _ _ Mn _ R2).
Qed.
Lemma executions_get_to x y m : related x y ->
  gets_to L R c bt cpp17 sys slot x m -> gets_to L R' c bs cpp17 sys slot' y m.
Proof.
  intros Re (l & ds & ts & M).
  destruct (moves_simulated _ _ _ M y Re) as (l' & [[m2 ds2] ts2] & M2 & R2 & _).
  pose proof (Related_mem _ _ R2) as Q. cbn in Q. subst m2. exists l', ds2, ts2. exact M2.
Qed.
End Executions.

Section Sim.
Variable L : lang.
Variable c : ctx.
Variable R : runtime.
Variable R' : runtime.
Variable E : nat -> bool.
Variable num : limits.
Variable Inv : rt_state R -> Prop.
Hypothesis W : working R E num Inv.
Variable bt bs : string -> option (tm L).
Variable cpp17 : bool.
Hypothesis B : forall g, match bt g, bs g with
                         | Some t, Some s => rel L c R' E num bs cpp17 Same t s
                         | None, None => True
                         | _, _ => False
                         end.
Variable sys : system L.
Variable slot : nat -> nat.
Notation wt := (wt L R).
Notation total := (total L R).
Notation idle := (idle L R).
Notation mt := (move L R c bt cpp17 sys slot).
Notation ms := (move L R' c bs cpp17 sys slot).
Notation rl := (rel L c R' E num bs cpp17).

Definition same_thread (a b : thread L) : Prop :=
  th_env a = th_env b /\ th_ended a = th_ended b /\ rl Same (th_tm a) (th_tm b).
Definition related (x : state L R) (y : state L R') : Prop :=
  fst (fst x) = fst (fst y) /\ (forall j, Inv (snd (fst x) j)) /\
  Forall2 same_thread (snd x) (snd y).

Lemma inv_with k d ds : (forall j, Inv (ds j)) -> Inv d -> forall j, Inv (with_state R slot k d ds j).
Proof. intros H I j. unfold with_state. destruct (Nat.eqb j (slot k)); auto. Qed.

Lemma move_simulated x k z : mt x k z -> forall y, related x y ->
  match z with
  | None => ms y k None
  | Some x' => (exists y', ms y k (Some y') /\ related x' y') \/
               (related x' y /\ exists j, k = Some j /\ idle x x' j)
  end.
Proof.
  intros M [[my dy] ss] (Qm & Iv & F).
  destruct M as [m ds pre a post x Na St|m ds pre a post Na Fi|m ds ts [[e g] args] m' St];
    cbn [fst snd] in *; subst my.
  - destruct (Forall2_middle _ _ _ _ _ F) as (pre' & b & post' & -> & Lp & F1 & (Q1 & Q2 & Hr) & F3).
    pose proof (simulation L c R R' E num Inv W bt bs cpp17 B _ _ _ _ _ St (Iv _) Same (th_tm b)
                  (dy (slot (length pre'))) Hr) as Si.
    rewrite <- Lp. rewrite Q1 in *. destruct x as [[[m' d'] t']|]; cbn [simulated] in Si.
    + destruct Si as [I1 [(s' & S1 & Hr1)|(-> & Hr1 & Wt)]].
      * left. eexists. split.
        -- refine (move_step L R' c bs cpp17 sys slot m dy pre' b post' _ _ S1). congruence.
        -- split; [reflexivity|]. split; [apply inv_with; auto|]. cbn [snd].
           apply Forall2_app; auto. constructor; auto. split; [exact eq_refl|]. split; auto.
      * right. split.
        -- split; [reflexivity|]. split; [apply inv_with; auto|]. cbn [snd].
           apply Forall2_app; auto. constructor; auto. split; [exact eq_refl|]. split; [cbn; congruence|auto].
        -- exists (length pre'). split; [reflexivity|]. rewrite Lp. unfold idle, wt, total. cbn [snd].
           rewrite !nth_middle. split; [exact Wt|]. split.
           ++ rewrite !map_app, !list_sum_app. cbn. lia.
           ++ intros i Ne. rewrite (nth_aside pre _ a post i Ne). reflexivity.
    + refine (move_step L R' c bs cpp17 sys slot m dy pre' b post' None _ Si). congruence.
  - destruct (Forall2_middle _ _ _ _ _ F) as (pre' & b & post' & -> & Lp & F1 & (Q1 & Q2 & Hr) & F3).
    pose proof (SimProof.final_same L c R' E num bs cpp17 _ _ Hr Fi) as Qs.
    left. rewrite <- Lp. rewrite <- Qs. eexists. split.
    + apply move_end; [congruence|rewrite Qs; exact Fi].
    + split; [reflexivity|]. split; [exact Iv|]. cbn [snd].
      apply Forall2_app; auto. constructor; auto. split; [exact Q1|]. split; [reflexivity|].
      rewrite <- Qs in Hr. exact Hr.
  - left. eexists. split; [apply move_start; exact St|].
    split; [reflexivity|]. split; [exact Iv|]. cbn [snd]. apply Forall2_app; auto.
    constructor; auto. split; [reflexivity|]. split; [reflexivity|]. apply call_rel.
Qed.

Lemma related_ends x y : related x y ->
  Forall2 (fun a b => th_ended a = th_ended b) (snd x) (snd y).
Proof. intros (_ & _ & F). induction F as [|a b l l' (_ & Q & _) F IH]; constructor; auto. Qed.
Lemma begin_related m d d' calls : Inv d -> related (begin L R m d calls) (begin L R' m d' calls).
Proof.
  intro I. split; [reflexivity|]. split; [intro; exact I|]. cbn [begin snd].
  induction calls as [|x calls IH]; cbn; constructor; auto.
  split; [reflexivity|]. split; [reflexivity|]. apply call_rel.
Qed.
End Sim.

(* Behaviour depends on what the functions are only. *)
Section Ext.
Variable L : lang.
Variable R : runtime.
Variable c : ctx.
Variable cpp17 : bool.
Variable sys : system L.
Variable slot : nat -> nat.
Variables b1 b2 : string -> option (tm L).
Hypothesis Q : forall g, b1 g = b2 g.
Lemma move_ext x k z : move L R c b1 cpp17 sys slot x k z -> move L R c b2 cpp17 sys slot x k z.
Proof. destruct 1; constructor; auto. eapply step_ext; eauto. Qed.
Lemma moves_ext x l y : moves L R c b1 cpp17 sys slot x l y -> moves L R c b2 cpp17 sys slot x l y.
Proof. induction 1; econstructor; eauto using move_ext. Qed.
Lemma goes_on_ext x : goes_on L R c b1 cpp17 sys slot x -> goes_on L R c b2 cpp17 sys slot x.
Proof.
  revert x. cofix CIH. intros x [k y M Go].
  exact (goes_on_more L R c b2 cpp17 sys slot x k y (move_ext _ _ _ M) (CIH y Go)).
Qed.
Lemma fairly_ext x : goes_on_fairly L R c b1 cpp17 sys slot x ->
  goes_on_fairly L R c b2 cpp17 sys slot x.
Proof.
  revert x. cofix CIH. intros x [l y (M & Nl & T) Go].
  exact (goes_on_fairly_round L R c b2 cpp17 sys slot x l y (conj (moves_ext _ _ _ M) (conj Nl T)) (CIH y Go)).
Qed.
End Ext.
Lemma threads_behave_ext L c cpp17 R slot d bt b1 b2 calls : (forall g, b1 g = b2 g) ->
  threads_behave L c cpp17 R slot d bt b1 calls -> threads_behave L c cpp17 R slot d bt b2 calls.
Proof.
  intros Q [B1 B2 B3 B4 B5]. split; intros.
  - destruct (B1 _ _ _ H) as (l & ds & ts & M & T). exists l, ds, ts. eauto using moves_ext.
  - destruct (B2 _ _ H) as (l & y & k & M & T). exists l, y, k. eauto using moves_ext, move_ext.
  - destruct (B3 _ _ _ H) as (l & ds & ts & M). exists l, ds, ts. eauto using moves_ext.
  - eapply goes_on_ext; eauto.
  - eapply fairly_ext; eauto.
Qed.

Lemma threads_lemma L c R E num Inv bt bs cpp17 slot d calls :
  working R E num Inv -> Inv d ->
  (forall g, match bt g, bs g with
             | Some t, Some s => rel L c no_runtime E num bs cpp17 Same t s
             | None, None => True
             | _, _ => False
             end) ->
  threads_behave L c cpp17 R slot d bt bs calls.
Proof.
  intros W I B.
  pose proof (fun m => begin_related L c R no_runtime E num Inv bs cpp17 m d tt calls I) as Re.
  pose proof (fun x y (H : related L c R no_runtime E num Inv bs cpp17 x y) => proj1 H) as Rm.
  pose proof (related_ends L c R no_runtime E num Inv bs cpp17) as Rn.
  pose proof (fun sys => move_simulated L c R no_runtime E num Inv W bt bs cpp17 B sys slot) as Mv.
  split; intros sys m; intros; specialize (Mv sys).
  - eapply executions_end with (related := related L c R no_runtime E num Inv bs cpp17); eauto; exact Mv.
  - eapply executions_wrong with (related := related L c R no_runtime E num Inv bs cpp17); eauto; exact Mv.
  - eapply executions_get_to with (related := related L c R no_runtime E num Inv bs cpp17); eauto; exact Mv.
  - eapply threads_diverge with (related := related L c R no_runtime E num Inv bs cpp17); eauto; exact Mv.
  - eapply threads_fair with (related := related L c R no_runtime E num Inv bs cpp17); eauto; exact Mv.
Qed.

(** * Linked programs *)

Section Files.
Variable L : lang.
Variable c : ctx.
Variable o : options.
Variable cpp17 : bool.

Lemma threads_files rest E R Inv d slot files calls :
  let bs := lookup_body L (fst (spec_program L c (optimise o) rest E (whole L files) 0)) in
  working R E (bounds o (fun id => fst (locate (counts L c o files) id)) (list_sum (counts L c o files))) Inv ->
  Inv d ->
  (track o = true -> forall i, E i = false) ->
  well_formed_files L c files -> (track o = true -> productive_files L c o files) ->
  (cpp17 = true -> sequenced_files L c files) ->
  (rest = false -> drops_program L c (optimise o) no_runtime bs cpp17 E (whole L files) 0) ->
  threads_behave L c cpp17 R slot d (linked_body L c o files 0) bs calls.
Proof.
  intros bs W I Tr Wf Pr Sq Dr. eapply threads_lemma; eauto.
  intro g. rewrite (linked_mutated L c o) by exact Wf.
  exact (files_bodies L c o cpp17 rest E (counts L c o files) no_runtime bs files [] eq_refl Tr Wf Pr Sq Dr g).
Qed.

Lemma threads_linked files v zs calls :
  track o = false -> enables_in L files v zs ->
  well_formed_files L c files -> (cpp17 = true -> sequenced_files L c files) ->
  linked_threads_behave L c cpp17 o v files calls (lookup_body L (made L c o zs files)).
Proof.
  intros T [V S] Wf Sq. rewrite <- (made_whole L c o zs files files [] eq_refl).
  eapply threads_files; eauto using linked_selecting_works; try congruence.
  intro k. left. reflexivity.
Qed.

Lemma threads_coverage files tracking can_open calls :
  track o = true -> cpp c || negb tracking || can_open = true ->
  well_formed_files L c files -> productive_files L c o files ->
  (cpp17 = true -> sequenced_files L c files) ->
  linked_threads_coverage L c cpp17 o tracking can_open files calls (body_of L c (whole L files)).
Proof.
  intros T Co Wf Pr Sq.
  pose proof (whole_well_formed L c files Wf) as Ww.
  assert (O : off (fun _ => false) 0
                (snd (spec_program L c (optimise o) false (fun _ => false) (whole L files) 0) - 0))
    by (intros i Hi; reflexivity).
  destruct (spec_none_program L c o _ _ 0 Ww O) as [Q Ro].
  eapply threads_behave_ext; [exact Q|].
  apply (threads_files false (fun _ => false) (linked_recording L c o files tracking can_open)
    (fun d => forall k, List.length (t_recorded (d k)) = count_in L c o files k)); auto.
  - pose proof (linked_works (counts L c o files)
      (fun k => recording (first_of L files k) (cpp c) tracking can_open)
      (fun _ _ => false) false
      (fun k (d : tracked) => List.length (t_recorded d) = count_in L c o files k)) as W.
    unfold bounds. rewrite T. apply W. clear W. intros k n Nk.
    assert (n = count_in L c o files k) as ->.
    { unfold count_in. symmetry. apply nth_error_nth. exact Nk. }
    apply recording_works. exact Co.
  - intro k. cbn. apply repeat_length.
  - intros _. apply removals_drops_program. exact Ro.
Qed.

Lemma threads_none files v zs calls :
  track o = false -> enables_in L files v zs ->
  well_formed_files L c files -> (cpp17 = true -> sequenced_files L c files) ->
  Forall (unlisted L c o zs) files ->
  linked_threads_behave L c cpp17 o v files calls (body_of L c (whole L files)).
Proof.
  intros T En Wf Sq No.
  eapply threads_behave_ext; [|apply threads_linked; eauto].
  intro g'. destruct files as [|s files]; [reflexivity|].
  inversion Wf; inversion No; subst.
  rewrite (only_file L c o zs s files []) by assumption. cbn [LinkedSpec.whole flat_map body_of].
  rewrite body_app, off_made by assumption. reflexivity.
Qed.

Lemma threads_linked_never_stuck files R slot d calls :
  well_formed_files L c files ->
  threads_never_stuck L c cpp17 R slot d (linked_body L c o files 0) calls.
Proof.
  intro Wf. apply threads_stuck_lemma.
  intros h s H. rewrite linked_mutated, mutated_whole in H by exact Wf.
  apply (mutated_inactive L c o (whole L files) 0 h s (whole_well_formed L c files Wf) H).
Qed.
End Files.
