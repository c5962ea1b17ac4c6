(* Threads and the coverage build: CoverProof.v thread by thread *)
From Coq Require Import String List ZArith Bool Lia.
From Verif Require Import Base Clang Gen GenExpr GenBinary GenUnary GenStmt Mutation GenSpec
  Tracking Lang Cst Runtime SimSpec SimRel SimProof SimTop MutantSpec CoverSpec CoverProof Linked LinkedSpec
  LinkedProof LinkedCoverSpec LinkedCoverProof Threads ThreadsSpec ThreadsProof ThreadsCoverSpec.
Import ListNotations.

Section Cover.
Variable L : lang.
Variable c : ctx.
Variable R : runtime.
Variable R' : runtime.
Variable E : nat -> bool.
Variable num : nat.
Variable cnt : nat -> nat.
Variable Inv : rt_state R -> Prop.
Variable Inv' : rt_state R' -> Prop.
Variable Rec : nat -> rt_state R' -> Prop.
Variable file : nat -> nat.
Hypothesis W : working R E {| lim_queried := num; lim_recorded := 0; lim_file := file |} Inv.
Hypothesis W' : forall d id, Inv' d -> site num cnt id ->
  exists d', rt_record R' id (cnt id) d = Some d' /\ Inv' d' /\
             forall k, k < cnt id -> Rec (id + k) d'.
Variable Late : Prop.
Variable bt bs : string -> option (tm L).
Variable cpp17 : bool.
Notation cov := (cov L c E num cnt Late).
Hypothesis B : forall js f,
  match bt f, bs f with
  | Some t, Some s => cov js false t s
  | None, None => True
  | _, _ => False
  end.
Variable sys : system L.
Variable slot slot' : nat -> nat.
Notation mt := (move L R c bt cpp17 sys slot).
Notation ms := (move L R' c bs cpp17 sys slot').
Notation mss := (moves L R' c bs cpp17 sys slot').
Notation tidy := (CoverProof.tidy L num cnt).
Notation pending := (CoverProof.pending L num cnt).

(** * The coverage build by itself *)

Definition orderly (y : state L R') : Prop :=
  (forall j, Inv' (snd (fst y) j)) /\ Forall (fun b => tidy (th_tm b)) (snd y).
Definition silent (y : state L R') : Prop :=
  forall l y', mss y l y' -> forall i j, E i = true -> ~ Rec i (snd (fst y') (slot' j)).
Definition can_end (y : state L R') : Prop :=
  forall l y', mss y l y' -> exists m, Threads.ends L R' c bs cpp17 sys slot' y' m.
Definition waits (i k : nat) (y : state L R') : Prop :=
  exists b, nth_error (snd y) k = Some b /\ th_ended b = false /\ pending i (th_tm b).

Lemma inv_with_any k d ds : (forall j, Inv (ds j)) -> Inv d ->
  forall j, Inv (with_state R slot k d ds j).
Proof. intros H I j. unfold with_state. destruct (Nat.eqb j (slot k)); auto. Qed.
Lemma inv_with' k d ds : (forall j, Inv' (ds j)) -> Inv' d ->
  forall j, Inv' (with_state R' slot' k d ds j).
Proof. intros H I j. unfold with_state. destruct (Nat.eqb j (slot' k)); auto. Qed.
Lemma silent_move y k y' : ms y k (Some y') -> silent y -> silent y'.
Proof. intros M S l z Ms. apply (S (k :: l) z). econstructor; eauto. Qed.
Lemma can_end_move y k y' : ms y k (Some y') -> can_end y -> can_end y'.
Proof. intros M S l z Ms. apply (S (k :: l) z). econstructor; eauto. Qed.

Lemma orderly_move y k z : ms y k z -> forall y', z = Some y' -> orderly y -> orderly y'.
Proof.
  destruct 1 as [m ds pre a post x Na St|m ds pre a post Na Fi|m ds ts [[e g] args] m' St];
    intros y' Q [Iv F]; cbn [fst snd] in *.
  - destruct x as [[[m' d'] t']|]; [|discriminate]. injection Q as <-.
    apply Forall_app in F as [F1 F2]. inversion F2 as [|? ? Ta F3]; subst.
    destruct (tidy_step L c R' E num cnt Inv' Rec W' Late bt bs cpp17 B _ _ _ _ _ _ _ Ta (Iv _) St) as [T1 I1].
    split; [apply inv_with'; auto|]. cbn [snd]. apply Forall_app. auto.
  - injection Q as <-. apply Forall_app in F as [F1 F2]. inversion F2 as [|? ? Ta F3]; subst.
    split; [exact Iv|]. cbn [snd]. apply Forall_app. auto.
  - injection Q as <-. split; [exact Iv|]. cbn [snd]. apply Forall_app. split; auto.
    constructor; auto. cbn. eapply cov_tidy. apply (call_cov L c E num cnt Late).
Qed.
Lemma waits_move i k y k' z : ms y k' z -> forall y', z = Some y' -> E i = true ->
  orderly y -> silent y -> waits i k y -> waits i k y'.
Proof.
  intro M. pose proof M as M0. destruct M as [m ds pre a post x Na St|m ds pre a post Na Fi|m ds ts [[e g] args] m' St];
    intros y' Q Ei [Iv F] Si (b & Nb & Eb & Pe); cbn [fst snd] in *.
  - destruct x as [[[m' d'] t']|]; [|discriminate].
    destruct (Nat.eq_dec k (length pre)) as [->|Ne].
    + rewrite nth_middle in Nb. injection Nb as <-.
      apply Forall_app in F as [F1 F2]. inversion F2 as [|? ? Ta F3]; subst.
      destruct (pending_step L c R' num cnt Inv' Rec W' bs cpp17 i _ Pe _ _ _ _ _ _ Ta (Iv _) St) as [P1|R1].
      * injection Q as <-. eexists. cbn [snd]. rewrite nth_middle. split; [reflexivity|]. auto.
      * exfalso. apply (Si [Some (length pre)] y') with (i := i) (j := length pre); auto.
        -- eapply moves_more; [rewrite <- Q; exact M0|constructor].
        -- injection Q as <-. cbn [fst snd]. unfold with_state. rewrite Nat.eqb_refl. exact R1.
    + injection Q as <-. exists b. cbn [snd]. rewrite <- (nth_aside pre a _ post k Ne). auto.
  - injection Q as <-. destruct (Nat.eq_dec k (length pre)) as [->|Ne].
    + rewrite nth_middle in Nb. injection Nb as <-.
      rewrite (pending_not_final _ _ _ _ _ Pe) in Fi. discriminate.
    + exists b. cbn [snd]. rewrite <- (nth_aside pre a _ post k Ne). auto.
  - injection Q as <-. exists b. cbn [snd]. rewrite nth_error_app1; auto.
    apply nth_error_Some. congruence.
Qed.
Lemma waits_moves i k y l y' : mss y l y' -> E i = true ->
  orderly y -> silent y -> waits i k y -> waits i k y'.
Proof.
  intros Ms Ei. induction Ms as [|x k' y l z M Ms IH]; intros O S Wa; auto.
  apply IH.
  - eapply orderly_move; eauto.
  - eapply silent_move; eauto.
  - eapply waits_move; eauto.
Qed.
Lemma waits_blocks i k y : E i = true -> orderly y -> silent y -> can_end y -> ~ waits i k y.
Proof.
  intros Ei O S Ce Wa. destruct (Ce [] y) as (m & l & ds & ts & Ms & En & _); [constructor|].
  destruct (waits_moves i k _ _ _ Ms Ei O S Wa) as (b & Nb & Eb & _). cbn [snd] in Nb.
  rewrite forallb_forall in En. rewrite (En b) in Eb; [discriminate|]. eapply nth_error_In; eauto.
Qed.

(** * Both builds *)

Definition same_cov (a b : thread L) : Prop :=
  th_env a = th_env b /\ th_ended a = th_ended b /\ cov [] false (th_tm a) (th_tm b).
Definition covered (x : state L R) (y : state L R') : Prop :=
  fst (fst x) = fst (fst y) /\ (forall j, Inv (snd (fst x) j)) /\ (forall j, Inv' (snd (fst y) j)) /\
  Forall2 same_cov (snd x) (snd y) /\ silent y /\ (Late -> can_end y).

Lemma covered_orderly x y : covered x y -> orderly y.
Proof.
  intros (_ & _ & I & F & _). split; [exact I|]. induction F as [|a b l l' (_ & _ & H) F IH]; constructor; auto.
  eapply cov_tidy; eauto.
Qed.
Lemma covered_quiet y k y' : ms y k (Some y') -> silent y /\ (Late -> can_end y) ->
  silent y' /\ (Late -> can_end y').
Proof. intros M [S C]. split; eauto using silent_move, can_end_move. Qed.

Lemma move_covered x k z : mt x k z -> forall y, covered x y ->
  match z with
  | None => ms y k None
  | Some x' => (exists y', ms y k (Some y') /\ covered x' y') \/
               (covered x' y /\ exists j, k = Some j /\ idle L R x x' j)
  end.
Proof.
  intros M [[my dy] ss] Co. pose proof (covered_orderly _ _ Co) as Or.
  destruct Co as (Qm & Iv & Iv' & F & Qu).
  destruct M as [m ds pre a post x Na St|m ds pre a post Na Fi|m ds ts [[e g] args] m' St];
    cbn [fst snd] in *; subst my.
  - destruct (Forall2_middle _ _ _ _ _ F) as (pre' & b & post' & -> & Lp & F1 & (Q1 & Q2 & Hc) & F3).
    pose proof (cover_step L c R R' E num cnt Inv Inv' Rec file W W' Late bt bs cpp17 B
                  _ [] false _ _ _ _ (dy (slot' (length pre'))) _ St (Iv _) (Iv' _) Hc) as Si.
    assert (Nb : th_ended b = false) by congruence.
    rewrite Q1 in Si. rewrite <- Lp.
    destruct Si as [(y & Sy & Ma)|[(d' & t' & -> & I1 & Ct & Wt)
      |[(m1 & d1 & s1 & i & Sy & Ei & Re)|(i & Ei & La & [(j & [] & _)|Pe])]]].
    + pose proof (move_step L R' c bs cpp17 sys slot' m dy pre' b post' y Nb Sy) as My.
      destruct x as [[[m1 d1] t1]|], y as [[[m2 d2] s2]|];
        [|destruct Ma|destruct Ma|exact My].
      left. destruct Ma as (-> & I1 & I2 & Ct). eexists. split; [exact My|].
      split; [reflexivity|]. split; [apply inv_with_any; auto|].
      split; [apply inv_with'; auto|]. split.
      * cbn [snd]. apply Forall2_app; auto. constructor; auto. split; [exact Q1|]. split; auto.
      * exact (covered_quiet _ _ _ My Qu).
    + right. split.
      * split; [reflexivity|]. split; [apply inv_with_any; auto|].
        split; [exact Iv'|]. split; [|exact Qu]. cbn [snd]. apply Forall2_app; auto. constructor; auto.
        split; [exact Q1|]. split; [cbn; congruence|auto].
      * exists (length pre'). split; [reflexivity|]. rewrite Lp. unfold idle, wt, total. cbn [snd].
        rewrite !nth_middle. split; [exact Wt|]. split.
        -- rewrite !map_app, !list_sum_app. cbn. lia.
        -- intros i Ne. rewrite (nth_aside pre _ a post i Ne). reflexivity.
    + exfalso. pose proof (move_step L R' c bs cpp17 sys slot' m dy pre' b post' _ Nb Sy) as My. cbn in My.
      destruct Qu as [S _]. eapply (S [_] _) with (i := i) (j := length pre'); auto.
      * econstructor; [exact My|constructor].
      * cbn [fst snd]. unfold with_state. rewrite Nat.eqb_refl. exact Re.
    + exfalso. destruct Qu as [S Ce].
      apply (waits_blocks i (length pre') (m, dy, pre' ++ b :: post') Ei Or S (Ce La)).
      exists b. cbn [snd]. rewrite nth_middle. auto.
  - destruct (Forall2_middle _ _ _ _ _ F) as (pre' & b & post' & -> & Lp & F1 & (Q1 & Q2 & Hc) & F3).
    pose proof (cov_final_same L c E num cnt Late _ _ _ Hc Fi) as Qs.
    assert (Nb : th_ended b = false) by congruence.
    left. rewrite <- Lp. rewrite <- Qs. eexists.
    assert (My : ms (m, dy, pre' ++ b :: post') (Some (length pre')) (Some (sys_end sys (length pre') (th_tm b) m, dy,
             pre' ++ {| th_env := th_env b; th_tm := th_tm b; th_ended := true |} :: post')))
      by (apply move_end; [exact Nb|rewrite Qs; exact Fi]).
    split; [exact My|].
    split; [reflexivity|]. split; [exact Iv|]. split; [exact Iv'|]. split.
    + cbn [snd]. apply Forall2_app; auto. constructor; auto. split; [exact Q1|]. split; [reflexivity|].
      rewrite <- Qs in Hc. exact Hc.
    + exact (covered_quiet _ _ _ My Qu).
  - left. eexists. pose proof (move_start L R' c bs cpp17 sys slot' m dy ss _ _ St) as My.
    split; [exact My|]. split; [reflexivity|]. split; [exact Iv|]. split; [exact Iv'|]. split.
    + cbn [snd]. apply Forall2_app; auto.
      constructor; auto. split; [reflexivity|]. split; [reflexivity|]. apply call_cov.
    + exact (covered_quiet _ _ _ My Qu).
Qed.
Lemma covered_ends x y : covered x y ->
  Forall2 (fun a b => th_ended a = th_ended b) (snd x) (snd y).
Proof. intros (_ & _ & _ & F & _). induction F as [|a b l l' (_ & Q & _) F IH]; constructor; auto. Qed.

Lemma threads_covered m d d' calls : Inv d -> Inv' d' ->
  silent (begin L R' m d' calls) -> (Late -> can_end (begin L R' m d' calls)) ->
  threads_no_more L c cpp17 sys R R' slot slot' m calls d bt d' bs.
Proof.
  intros I I' S Ce.
  assert (Co : covered (begin L R m d calls) (begin L R' m d' calls)).
  { split; [reflexivity|]. split; [intro; exact I|]. split; [intro; exact I'|]. split; [|auto].
    cbn [begin snd]. clear. induction calls as [|x calls IH]; cbn; constructor; auto.
    split; [reflexivity|]. split; [reflexivity|]. apply call_cov. }
  pose proof (fun x y (H : covered x y) => proj1 H) as Cm.
  split; intros.
  - eapply executions_end with (related := covered); eauto using covered_ends; exact move_covered.
  - eapply executions_wrong with (related := covered); eauto using covered_ends; exact move_covered.
  - eapply executions_get_to with (related := covered); eauto using covered_ends; exact move_covered.
  - eapply threads_diverge with (related := covered); eauto using covered_ends; exact move_covered.
  - eapply threads_fair with (related := covered); eauto using covered_ends; exact move_covered.
Qed.
End Cover.

Section Linked.
Variable L : lang.
Variable c : ctx.
Variable cpp17 : bool.
Variable sys : system L.
Variables oM oC : options.
Hypothesis TM : track oM = false.
Hypothesis TC : track oC = true.
Hypothesis OO : optimise oM = optimise oC.

Lemma threads_cover (Late : Prop) files v zs m calls :
  enables_in L files v zs -> well_formed_files L c files -> productive_files L c oC files ->
  (forall s i, In s files -> In i (logical_of L c (optimise oC) (snd s) 0) ->
     In (Z.of_nat (fst s + i)) zs -> Late) ->
  (Late -> threads_finish L c cpp17 sys oC files m calls) ->
  threads_unrecorded L c cpp17 sys oC files m calls zs ->
  threads_no_more L c cpp17 sys (linked_selecting L c oM files v)
    (linked_recording L c oC files true true) own shared m calls
    (linked_initial L c oM files v) (linked_body L c oM files 0)
    (linked_track L c oC files true true) (linked_body L c oC files 0).
Proof.
  intros En Wf Pr Off Fi Un.
  destruct (linked_covers L c oM oC TM TC OO Late files v zs En Wf Pr Off)
    as (E & n & cnt & Inv & Inv' & Rec & file & [W W' B I1 I2 Wr]).
  eapply (threads_covered L c _ _ E n cnt Inv Inv' Rec file W W' Late _ _ cpp17 B); auto.
  - intros l [[m' ds] ts] Ms i j Ei Re. destruct (Wr _ _ Ei Re) as (x & Hx & Ix).
    apply (Un m' ds ts) with (k := j) (x := x); auto. exists l. exact Ms.
  - intros La l y Ms. apply (Fi La). exists l. exact Ms.
Qed.

Lemma threads_cover_original (Late : Prop) files v zs m calls :
  enables_in L files v zs -> well_formed_files L c files -> productive_files L c oC files ->
  (cpp17 = true -> sequenced_files L c files) ->
  (forall s i, In s files -> In i (logical_of L c (optimise oC) (snd s) 0) ->
     In (Z.of_nat (fst s + i)) zs -> Late) ->
  (Late -> threads_finish L c cpp17 sys oC files m calls) ->
  threads_unrecorded L c cpp17 sys oC files m calls zs ->
  threads_no_more L c cpp17 sys (linked_selecting L c oM files v) no_runtime own shared m calls
    (linked_initial L c oM files v) (linked_body L c oM files 0)
    tt (body_of L c (whole L files)).
Proof.
  intros En Wf Pr Sq Off Fi Un.
  destruct (threads_cover Late files v zs m calls En Wf Pr Off Fi Un) as [A1 A2 A3 A4 A5].
  assert (Co : cpp c || negb true || true = true) by (destruct (cpp c); reflexivity).
  destruct (threads_coverage L c oC cpp17 files true true calls TC Co Wf Pr Sq) as [B1 B2 B3 B4 B5].
  split; auto.
Qed.
End Linked.
