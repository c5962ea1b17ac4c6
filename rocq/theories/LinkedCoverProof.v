(* The coverage builds of several files go along with the mutated program linked from them. *)
From Coq Require Import String List NArith ZArith Bool Lia.
From Verif Require Import Base Clang Gen GenExpr GenBinary GenUnary GenStmt Mutation GenSpec
  Rewriter PreludeText Prelude PreludeSpec PreludeProof PreludeProof2 Tracking Lang Cst Runtime
  SimSpec SimRel SimProof SimMutate SimTop MutantSpec CoverSpec CoverProof CoverTop
  Linked LinkedSpec LinkedProof LinkedCoverSpec.
Import ListNotations.

Lemma locate_at ns : forall k n i, nth_error ns k = Some n -> i < n ->
  locate ns (list_sum (firstn k ns) + i) = (k, i).
Proof.
  intros k n i Nk Lt. destruct (nth_error_split ns k Nk) as (l1 & l2 & -> & <-).
  rewrite firstn_app, Nat.sub_diag, firstn_all. cbn [firstn]. rewrite app_nil_r.
  apply locate_before. exact Lt.
Qed.

Section Cover.
Variable L : lang.
Variable c : ctx.
Variable cpp17 : bool.
Variables oM oC : options.
Hypothesis TM : track oM = false.
Hypothesis TC : track oC = true.
Hypothesis OO : optimise oM = optimise oC.
Notation opt := (optimise oC).
Notation whole := (whole L).

Lemma counts_same files : counts L c oM files = counts L c oC files.
Proof.
  unfold counts. apply map_ext. intros [f p]. unfold count. cbn [snd].
  rewrite !program_next, OO. reflexivity.
Qed.
Lemma count_of_file f p : count L c oC (f, p) = mutants_of L c opt p.
Proof. unfold count. cbn [snd]. rewrite program_next. reflexivity. Qed.

Lemma sites_app p q : forall id,
  sites_of L c opt (p ++ q) id =
  sites_of L c opt p id ++ sites_of L c opt q (id + mutants_of L c opt p).
Proof.
  induction p as [|[f t] p IH]; intro id; cbn [app sites_of mutants_of fold_right snd].
  - rewrite Nat.add_0_r. reflexivity.
  - rewrite IH, <- app_assoc. unfold mutants_of. rewrite Nat.add_assoc. reflexivity.
Qed.
Lemma logical_app p q : forall id,
  logical_of L c opt (p ++ q) id =
  logical_of L c opt p id ++ logical_of L c opt q (id + mutants_of L c opt p).
Proof.
  induction p as [|[f t] p IH]; intro id; cbn [app logical_of mutants_of fold_right snd].
  - rewrite Nat.add_0_r. reflexivity.
  - rewrite IH, <- app_assoc. unfold mutants_of. rewrite Nat.add_assoc. reflexivity.
Qed.

Lemma logical_in_moved a t : forall id,
  logical_in L c opt t (a + id) = map (Nat.add a) (logical_in L c opt t id).
Proof.
  induction t as [s v|k ps last IH|e sub IH|b l w1 w2 r IHl IHr|u w sub IH|s sub IH]
    using cst_induction; intro id; cbn [logical_in]; auto.
  - revert id. induction IH as [|[s p] ps Hp F IHF]; intro id; [reflexivity|].
    rewrite map_app. cbn [snd] in Hp. rewrite Hp, <- Nat.add_assoc, IHF. reflexivity.
  - rewrite !map_app, IHl, <- !Nat.add_assoc, IHr. do 2 f_equal.
    destruct (c_logical c b); [|reflexivity].
    generalize (id + (mutants_in L c opt l + mutants_in L c opt r)). intro j.
    generalize (List.length (binary_actions c opt b)). intro n. revert j.
    induction n as [|n IH]; intro j; cbn; [reflexivity|]. rewrite <- Nat.add_succ_r, IH. reflexivity.
Qed.
Lemma logical_moved a p : forall id,
  logical_of L c opt p (a + id) = map (Nat.add a) (logical_of L c opt p id).
Proof.
  induction p as [|[f t] p IH]; intro id; cbn [logical_of map]; auto.
  rewrite map_app, logical_in_moved, <- Nat.add_assoc, IH. reflexivity.
Qed.

(* The mutants of a site are in one file. *)
Lemma site_within files : forall before id n,
  productive_files L c oC files ->
  In (id, n) (sites_of L c opt (whole files) (list_sum before)) ->
  exists k i m, nth_error (before ++ counts L c oC files) k = Some m /\
    id = list_sum (firstn k (before ++ counts L c oC files)) + i /\ 0 < n /\ i + n <= m.
Proof.
  induction files as [|[f p] files IH]; intros before id n Pr H; [destruct H|].
  inversion Pr as [|? ? P1 P2]; subst. cbn [snd] in P1.
  cbn [LinkedSpec.whole flat_map snd] in H. rewrite sites_app in H. apply in_app_or in H as [H|H].
  - destruct (ordered_in _ _ _ (sites_of_ordered L c opt p (list_sum before) P1) _ _ H)
      as (Lo & Po & Hi).
    exists (List.length before), (id - list_sum before), (count L c oC (f, p)).
    split; [rewrite nth_error_app2, Nat.sub_diag by lia; reflexivity|].
    rewrite firstn_app, Nat.sub_diag, firstn_all. cbn [firstn]. rewrite app_nil_r.
    rewrite count_of_file. lia.
  - specialize (IH (before ++ [count L c oC (f, p)]) id n P2).
    rewrite <- app_assoc in IH. apply IH. rewrite list_sum_app. cbn [list_sum fold_right].
    rewrite count_of_file, Nat.add_0_r. exact H.
Qed.

(* The listed mutants of the files *)
Lemma enabled_logical zs files all : forall before,
  all = before ++ files ->
  forall j, In j (logical_of L c opt (whole files) (list_sum (counts L c oC before))) ->
  enabled L c oM zs all j = true ->
  exists s i, In s files /\ In i (logical_of L c opt (snd s) 0) /\ In (Z.of_nat (fst s + i)) zs.
Proof.
  induction files as [|[f p] files IH]; intros before Q j H En; [destruct H|].
  cbn [LinkedSpec.whole flat_map snd] in H. rewrite logical_app in H. apply in_app_or in H as [H|H].
  - rewrite <- (Nat.add_0_r (list_sum _)), logical_moved in H. apply in_map_iff in H as (i & <- & H).
    exists (f, p), i. split; [left; reflexivity|]. split; [exact H|]. cbn [fst].
    assert (Lt : i < count L c oC (f, p)).
    { rewrite count_of_file. clear - H. revert i H.
      assert (G : forall t id i, In i (logical_in L c opt t id) -> i < id + mutants_in L c opt t).
      { intro t.
        induction t as [s v|k ps last IH|e sub IH|b l w1 w2 r IHl IHr|u w sub IH|s sub IH]
          using cst_induction; intros id i; cbn [logical_in mutants_in].
        - intros [].
        - revert id. induction IH as [|[s t] ps Ht F IHF]; intro id; [intros []|].
          cbn [snd] in Ht. cbn [fold_right map snd list_sum]. intro H. apply in_app_or in H as [H|H].
          + apply Ht in H. lia.
          + apply IHF in H. lia.
        - intro H. apply IH in H. lia.
        - intro H. apply in_app_or in H as [H|H]; [apply IHl in H; lia|].
          apply in_app_or in H as [H|H]; [apply IHr in H; lia|].
          destruct (c_logical c b); [|destruct H]. apply in_seq in H. lia.
        - intro H. apply IH in H. lia.
        - intro H. apply IH in H. lia. }
      assert (G2 : forall p id i, In i (logical_of L c opt p id) -> i < id + mutants_of L c opt p).
      { clear - G. induction p as [|[f t] p IH]; intros id i; [intros []|].
        cbn [logical_of mutants_of fold_right snd]. intro H. apply in_app_or in H as [H|H].
        - apply G in H. lia.
        - apply IH in H. unfold mutants_of in H. lia. }
      intros i H. apply G2 in H. exact H. }
    apply listed_in. revert En. unfold enabled. rewrite counts_same, Q. unfold counts.
    rewrite map_app. cbn [map]. rewrite locate_before by exact Lt. cbn [fst snd].
    unfold first_of. rewrite map_app, app_nth2; rewrite !map_length; [|lia].
    rewrite Nat.sub_diag. auto.
  - destruct (IH (before ++ [(f, p)])) with (j := j) as (s & i & I1 & I2 & I3); auto.
    + rewrite <- app_assoc. exact Q.
    + unfold counts. rewrite map_app, list_sum_app. cbn [map list_sum fold_right].
      rewrite count_of_file, Nat.add_0_r. exact H.
    + exists s, i. split; [right; exact I1|auto].
Qed.

Lemma call_cov E n cnt (Late : Prop) g args :
  cov L c E n cnt Late [] false (call L g args) (call L g args).
Proof.
  apply cov_node; auto. induction args as [|[x|x] args IH]; cbn; constructor; auto; constructor.
Qed.

(* What CoverProof.v asks for *)
Record covers (Late : Prop) (files : list (source L)) (v : option string) (zs : list Z)
  (E : nat -> bool) (n : nat) (cnt : nat -> nat)
  (Inv : rt_state (linked_selecting L c oM files v) -> Prop)
  (Inv' : rt_state (linked_recording L c oC files true true) -> Prop)
  (Rec : nat -> rt_state (linked_recording L c oC files true true) -> Prop)
  (file : nat -> nat) : Prop := {
  covers_selecting : working (linked_selecting L c oM files v) E
    {| lim_queried := n; lim_recorded := 0; lim_file := file |} Inv;
  covers_recording : forall d id, Inv' d -> site n cnt id ->
    exists d', rt_record (linked_recording L c oC files true true) id (cnt id) d = Some d' /\
               Inv' d' /\ forall k, k < cnt id -> Rec (id + k) d';
  covers_bodies : forall js g,
    match linked_body L c oM files 0 g, linked_body L c oC files 0 g with
    | Some t, Some s => cov L c E n cnt Late js false t s
    | None, None => True
    | _, _ => False
    end;
  covers_initial : Inv (linked_initial L c oM files v);
  covers_track : Inv' (linked_track L c oC files true true);
  covers_written : forall i d, E i = true -> Rec i d ->
    exists x, written L c oC files d x /\ In (Z.of_nat x) zs
}.

Lemma linked_covers (Late : Prop) files v zs :
  enables_in L files v zs -> well_formed_files L c files -> productive_files L c oC files ->
  (forall s i, In s files -> In i (logical_of L c opt (snd s) 0) ->
     In (Z.of_nat (fst s + i)) zs -> Late) ->
  exists E n cnt Inv Inv' Rec file, covers Late files v zs E n cnt Inv Inv' Rec file.
Proof.
  intros [V S] Wf Pr Off.
  set (ns := counts L c oC files). set (n := list_sum ns).
  set (p := whole files).
  pose proof (whole_well_formed L c files Wf) as Ww. fold p in Ww.
  assert (Pw : productive_program L c oC p = true).
  { clear - Pr. unfold p, productive_files in *. induction Pr as [|s files P1 P IH]; [reflexivity|].
    cbn [LinkedSpec.whole flat_map]. unfold productive_program. rewrite forallb_app.
    apply andb_true_iff. split; assumption. }
  pose proof (sites_of_ordered L c opt p 0 Pw) as Or.
  set (cnt := count_of (sites_of L c opt p 0)).
  assert (Qn : n = mutants_of L c opt p).
  { unfold n, ns. rewrite (files_total L c oC), program_next. reflexivity. }
  assert (Kn : Forall (known n cnt) (sites_of L c opt p 0)).
  { apply Forall_forall. intros [i k] I. pose proof (ordered_count _ _ _ Or _ _ I) as Q.
    destruct (ordered_in _ _ _ Or _ _ I) as (_ & Po & Hi).
    unfold known, site. cbn [fst snd]. fold cnt in Q. rewrite Q, Qn. lia. }
  set (E := enabled L c oM zs files).
  assert (Lo : forall i, In i (logical_of L c opt p 0) -> E i = true -> Late).
  { intros j I Ej. destruct (enabled_logical zs files files [] eq_refl j I Ej) as (s & i & I1 & I2 & I3).
    eauto. }
  assert (B : forall js g, match linked_body L c oM files 0 g, linked_body L c oC files 0 g with
            | Some t, Some s => cov L c E n cnt Late js false t s
            | None, None => True
            | _, _ => False
            end).
  { intros js g'. rewrite (linked_mutated L c oM), (linked_mutated L c oC), !mutated_whole by exact Wf.
    exact (program_cov L c oM oC TM TC OO E n cnt Late p 0 Ww Kn Lo js g'). }
  pose proof (linked_selecting_works L c oM files v zs TM V S) as W.
  unfold bounds in W. rewrite TM, counts_same in W. fold ns n E in W.
  set (off := fun k => list_sum (firstn k ns)).
  set (Inv' := fun d : rt_state (linked_recording L c oC files true true) =>
    forall k, kept (first_of L files k) (count_in L c oC files k) (fun i => cnt (off k + i)) (d k)).
  set (Rec := fun j (d : rt_state (linked_recording L c oC files true true)) =>
    fst (locate ns j) < List.length files /\
    has (first_of L files (fst (locate ns j))) (snd (locate ns j)) (d (fst (locate ns j)))).
  assert (W' : forall d id, Inv' d -> site n cnt id ->
    exists d', rt_record (linked_recording L c oC files true true) id (cnt id) d = Some d' /\
               Inv' d' /\ forall k, k < cnt id -> Rec (id + k) d').
  { intros d id I [Po Hi].
    assert (Si : In (id, cnt id) (sites_of L c opt p (list_sum []))).
    { unfold cnt, count_of in *. destruct (find _ _) as [[i k]|] eqn:Fi; [|lia].
      apply find_some in Fi as [In1 Q]. apply Nat.eqb_eq in Q. cbn in Q. subst i. exact In1. }
    destruct (site_within files [] id (cnt id) Pr Si) as (k & i & q & Nk & Qi & _ & Le).
    cbn [app] in Nk, Qi. fold ns in Nk, Qi.
    assert (Lk : k < List.length files).
    { replace (List.length files) with (List.length ns) by apply map_length.
      apply nth_error_Some. congruence. }
    assert (Qq : count_in L c oC files k = q) by (apply nth_error_nth; exact Nk).
    assert (Lc : locate ns id = (k, i)).
    { rewrite Qi. eapply locate_at; eauto. lia. }
    cbn [linked_recording linked rt_record]. fold ns. rewrite Lc.
    destruct (kept_record (first_of L files k) (count_in L c oC files k) (cpp c)
                (fun i => cnt (off k + i)) (d k) i (I k)) as (x & Qx & Kx & Hx).
    { unfold site, off. rewrite <- Qi, Qq. lia. }
    unfold off in Qx. rewrite <- Qi in Qx. rewrite Qx.
    eexists. split; [reflexivity|]. split.
    - intro j. destruct (Nat.eq_dec j k) as [->|Ne].
      + rewrite set_same. exact Kx.
      + rewrite set_other by exact Ne. apply I.
    - intros j Hj. unfold Rec.
      assert (Lj : locate ns (id + j) = (k, i + j)).
      { rewrite Qi, <- Nat.add_assoc. eapply locate_at; eauto. lia. }
      rewrite Lj. cbn [fst snd]. rewrite set_same. split; [exact Lk|]. apply Hx.
      unfold off. rewrite <- Qi. exact Hj. }
  exists E, n, cnt, (fun d => forall k, selecting_inv (first_of L files k) (count_in L c oM files k) zs (d k)),
    Inv', Rec, (fun id => fst (locate ns id)).
  split; auto.
  - intro k. left. reflexivity.
  - intro k. apply kept_start.
  - intros j d Ej [Lk Re]. exists (first_of L files (fst (locate ns j)) + snd (locate ns j)). split.
    + exists (fst (locate ns j)). auto.
    + apply listed_in. unfold E, enabled in Ej. rewrite counts_same in Ej. exact Ej.
Qed.

Lemma linked_cover (Late : Prop) files v zs g args e m :
  enables_in L files v zs -> well_formed_files L c files -> productive_files L c oC files ->
  (forall s i, In s files -> In i (logical_of L c opt (snd s) 0) ->
     In (Z.of_nat (fst s + i)) zs -> Late) ->
  (Late -> linked_finishes L c cpp17 oC files e m g args) ->
  linked_unrecorded L c cpp17 oC files e m g args zs ->
  no_more L c cpp17 (linked_selecting L c oM files v) (linked_recording L c oC files true true) e m
    (linked_initial L c oM files v) (linked_body L c oM files 0) (call L g args)
    (linked_track L c oC files true true) (linked_body L c oC files 0) (call L g args).
Proof.
  intros En Wf Pr Off Fi Un.
  destruct (linked_covers Late files v zs En Wf Pr Off)
    as (E & n & cnt & Inv & Inv' & Rec & file & [W W' B I1 I2 Wr]).
  pose proof (call_cov E n cnt Late g args) as C0.
  assert (Q0 : quiet L c (linked_recording L c oC files true true) E Rec Late
     (linked_body L c oC files 0) cpp17 e m (linked_track L c oC files true true) (call L g args)).
  { split; [|exact Fi]. intros m' d' s' St j Ej Re.
    destruct (Wr j d' Ej Re) as (x & Hx & Ix). exact (Un m' d' s' St x Hx Ix). }
  split.
  - intros m' r H. eapply cover_finishes; eauto.
  - intro H. eapply cover_undefined; eauto.
  - intros m' H. eapply cover_reaches; eauto.
  - intro H. eapply cover_diverges; eauto.
Qed.

Lemma linked_cover_original (Late : Prop) files v zs g args e m :
  enables_in L files v zs -> well_formed_files L c files -> productive_files L c oC files ->
  (cpp17 = true -> sequenced_files L c files) ->
  (forall s i, In s files -> In i (logical_of L c opt (snd s) 0) ->
     In (Z.of_nat (fst s + i)) zs -> Late) ->
  (Late -> linked_finishes L c cpp17 oC files e m g args) ->
  linked_unrecorded L c cpp17 oC files e m g args zs ->
  no_more L c cpp17 (linked_selecting L c oM files v) no_runtime e m
    (linked_initial L c oM files v) (linked_body L c oM files 0) (call L g args)
    tt (body_of L c (whole files)) (call L g args).
Proof.
  intros En Wf Pr Sq Off Fi Un.
  destruct (linked_cover Late files v zs g args e m En Wf Pr Off Fi Un) as [A1 A2 A3 A4].
  assert (Co : cpp c || negb true || true = true) by (destruct (cpp c); reflexivity).
  destruct (linked_coverage_lemma L c oC cpp17 files true true g args TC Co Wf Pr Sq) as [B1 B2 B3 B4].
  split; auto.
Qed.
End Cover.
