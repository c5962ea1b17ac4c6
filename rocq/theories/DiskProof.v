(* Proofs for C83. *)
From Coq Require Import String List Arith Bool.
From Verif Require Import Base Clang Rewriter Run RunSpec RunProof RunProof2 Disk DiskSpec.
Import ListNotations.

Lemma found_name w d n : f_name (found w d n) = n.
Proof. unfold found. destruct (d (w_file w n)); reflexivity. Qed.

Lemma found_same w d d' n : reads_enough w -> reads_main w ->
  (forall i, In i (w_reads w d n) -> d i = d' i) -> found w d n = found w d' n.
Proof.
  intros RE RM A. unfold found.
  rewrite <- (A _ (RM d n)), (RE _ _ _ A). reflexivity.
Qed.

Lemma run_on_snoc w o bt d ns n :
  run_on w o bt d (ns ++ [n]) = process_name w o bt (run_on w o bt d ns) n.
Proof. unfold run_on. rewrite fold_left_app. reflexivity. Qed.

Lemma run_snoc o bt fs f : Run.run o bt (fs ++ [f]) = process_file o bt (Run.run o bt fs) f.
Proof. unfold Run.run, run_from. rewrite fold_left_app. reflexivity. Qed.

Lemma read_before_front w d ns n : read_before w d (ns ++ [n]) -> read_before w d ns.
Proof.
  intros H before k rest m E N I. apply (H before k (rest ++ [n])%list m); auto.
  rewrite E, <- app_assoc. reflexivity.
Qed.

(* The state after a list of names, against the run over what was there first *)
Lemma run_on_same w o bt d ns : reads_enough w -> reads_main w -> read_before w d ns ->
  ds_run (run_on w o bt d ns) = Run.run o bt (map (found w d) ns) /\
  left_behind w d (ds_disk (run_on w o bt d ns)) (rs_written (ds_run (run_on w o bt d ns))) /\
  (forall n t, In (n, t) (rs_written (ds_run (run_on w o bt d ns))) -> In n ns).
Proof.
  intros RE RM. induction ns as [|n ns IH] using rev_ind; intros RB.
  { repeat split; simpl; intros; try contradiction; reflexivity. }
  destruct (IH (read_before_front _ _ _ _ RB)) as (R & (L1 & L2) & S). clear IH.
  rewrite run_on_snoc, map_app. simpl map. rewrite run_snoc, <- R.
  assert (P : forall m, In m (rs_processed (ds_run (run_on w o bt d ns))) <-> In m ns).
  { intros m. rewrite R. unfold Run.run. rewrite run_from_processed. simpl.
    rewrite map_map. rewrite (map_ext _ (fun x => x)) by (intros; apply found_name).
    rewrite map_id. tauto. }
  remember (run_on w o bt d ns) as s eqn:Es. clear Es.
  unfold process_name. cbn [ds_run ds_disk].
  destruct (string_mem n (rs_processed (ds_run s))) eqn:M.
  - unfold process_file. rewrite !found_name, M.
    split; [reflexivity|]. split; [split; assumption|].
    intros k t I. apply in_or_app. left. eauto.
  - assert (N : ~ In n ns).
    { intros I. apply P in I. apply string_mem_in in I. congruence. }
    assert (F : found w (ds_disk s) n = found w d n).
    { symmetry. apply found_same; auto. intros i I. symmetry. apply L2.
      intros m t W E. subst i. apply (RB ns n [] m eq_refl N (S _ _ W)); auto. }
    rewrite F. split; [reflexivity|].
    unfold process_file. rewrite found_name, M.
    destruct (f_unit (found w d n)) as [u|]; cbn [rs_written].
    2: { split; [split; assumption|]. intros k t I. apply in_or_app. left. eauto. }
    destruct (h_output _) as [t|].
    2: { split; [split; assumption|]. intros k t I. apply in_or_app. left. eauto. }
    split; [split|].
    + intros k t' I. unfold overwrite. apply in_app_or in I. destruct I as [I|[I|[]]].
      * destruct (Nat.eqb (w_file w k) (w_file w n)) eqn:E; [|eauto].
        apply Nat.eqb_eq in E. exfalso.
        apply (RB ns n [] k eq_refl N (S _ _ I)).
        rewrite E. apply RM.
      * injection I as <- <-. rewrite Nat.eqb_refl. reflexivity.
    + intros i H. unfold overwrite.
      destruct (Nat.eqb i (w_file w n)) eqn:E.
      * apply Nat.eqb_eq in E. exfalso. apply (H n t); [|auto].
        apply in_or_app. right. left. reflexivity.
      * apply L2. intros k t' I. apply (H k t'). apply in_or_app. left. exact I.
    + intros k t' I. apply in_or_app. apply in_app_or in I. destruct I as [I|[I|[]]]; eauto.
      injection I as <- _. right. left. reflexivity.
Qed.

(* C83 *)
Lemma run_on_original w o bt d ns : reads_enough w -> reads_main w -> read_before w d ns ->
  ds_run (run_on w o bt d ns) = Run.run o bt (map (found w d) ns) /\
  left_behind w d (ds_disk (run_on w o bt d ns))
    (rs_written (Run.run o bt (map (found w d) ns))).
Proof.
  intros RE RM RB. destruct (run_on_same w o bt d ns RE RM RB) as (R & L & _).
  rewrite <- R. auto.
Qed.

(* Files denoted by no given name are left alone, whatever is read *)
Lemma run_on_others w o bt d ns i :
  (forall n, In n ns -> w_file w n <> i) -> ds_disk (run_on w o bt d ns) i = d i.
Proof.
  induction ns as [|n ns IH] using rev_ind; intros H; [reflexivity|].
  rewrite run_on_snoc. unfold process_name. cbn [ds_disk].
  assert (E : ds_disk (run_on w o bt d ns) i = d i).
  { apply IH. intros m I. apply H. apply in_or_app. left. exact I. }
  destruct (string_mem _ _); [exact E|].
  destruct (f_unit _); [|exact E]. destruct (h_output _); [|exact E].
  unfold overwrite. destruct (Nat.eqb i (w_file w n)) eqn:X; [|exact E].
  apply Nat.eqb_eq in X. exfalso. apply (H n); [|auto]. apply in_or_app. right. left. reflexivity.
Qed.

(* Nor does the run make new files. *)
Lemma run_on_none w o bt d ns i : d i = None -> ds_disk (run_on w o bt d ns) i = None.
Proof.
  intro N. induction ns as [|n ns IH] using rev_ind; [exact N|].
  rewrite run_on_snoc. unfold process_name, found. cbn [ds_disk].
  destruct (string_mem _ _); [exact IH|].
  destruct (ds_disk (run_on w o bt d ns) (w_file w n)) eqn:F; cbn [f_unit]; [|exact IH].
  destruct (w_clang _ _ _); [|exact IH]. destruct (h_output _); [|exact IH].
  unfold overwrite. destruct (Nat.eqb_spec i (w_file w n)) as [->|X]; [congruence|exact IH].
Qed.

Lemma first_in (n : string) l : In n l -> exists l1 l2, l = (l1 ++ n :: l2)%list /\ ~ In n l1.
Proof.
  induction l as [|a l IH]; intros I; [destruct I|].
  destruct (string_dec a n) as [->|X]; [exists [], l; auto|].
  destruct I as [->|I]; [now destruct X|]. destruct (IH I) as (l1 & l2 & -> & N).
  exists (a :: l1), l2. split; [reflexivity|]. intros [E|J]; auto.
Qed.

Lemma written_at w (l : list (string * string)) i :
  (exists n t, In (n, t) l /\ w_file w n = i) \/ (forall n t, In (n, t) l -> w_file w n <> i).
Proof.
  induction l as [|[n t] l [(m & s & I & E)|IH]]; [right; intros n t []|left; exists m, s; split; [right|]; auto|].
  destruct (Nat.eq_dec (w_file w n) i) as [E|E].
  - left. exists n, t. split; [left|]; auto.
  - right. intros m s [I|I]; [injection I as <- <-; exact E|exact (IH m s I)].
Qed.

(* The run stopped after some of the files *)
Lemma run_on_stopped w o bt d ns ms : reads_enough w -> reads_main w -> read_before w d (ns ++ ms) ->
  (forall n, In n ns ->
     ds_disk (run_on w o bt d ns) (w_file w n) = ds_disk (run_on w o bt d (ns ++ ms)) (w_file w n)) /\
  (forall i, (forall n, In n ns -> w_file w n <> i) -> ds_disk (run_on w o bt d ns) i = d i).
Proof.
  intros RE RM RB. split; [|intros; now apply run_on_others].
  intros n I.
  assert (RB1 : read_before w d ns).
  { intros before k rest m E N J. apply (RB before k (rest ++ ms)%list m); auto.
    rewrite E, <- app_assoc. reflexivity. }
  destruct (run_on_original w o bt d ns RE RM RB1) as (R1 & (A1 & B1)).
  destruct (run_on_same w o bt d (ns ++ ms) RE RM RB) as (R2 & (A2 & B2) & S2).
  rewrite R2 in *. clear R1 R2. rewrite map_app in *.
  destruct (written_prefix o bt (map (found w d) ns) (map (found w d) ms)) as (W & E & F).
  rewrite E in *. clear E.
  destruct (written_at w (rs_written (Run.run o bt (map (found w d) ns))) (w_file w n))
    as [(m & t & J & X)|X].
  - rewrite <- X, (A1 m t J). symmetry. apply A2, in_or_app. left. exact J.
  - rewrite (B1 _ X). symmetry. apply B2. intros m t J Y. apply in_app_or in J.
    destruct J as [J|J]; [exact (X m t J Y)|].
    assert (K : In m (ns ++ ms)) by (apply (S2 m t), in_or_app; right; exact J).
    assert (N : ~ In m ns).
    { intro K'. apply (F m t J). rewrite map_map. apply in_map_iff. exists m. split; [apply found_name|exact K']. }
    apply in_app_or in K. destruct K as [K|K]; [contradiction|].
    destruct (first_in m ms K) as (l1 & l2 & -> & N').
    apply (RB (ns ++ l1)%list m l2 n).
    + rewrite <- app_assoc. reflexivity.
    + intro Z. apply in_app_or in Z. tauto.
    + apply in_or_app. left. exact I.
    + rewrite <- Y. apply RM.
Qed.
