(* Proofs for C87. *)
From Coq Require Import String List Arith ZArith Bool Lia.
From Verif Require Import Base Clang Gen Mutation TreeSpec GenSpec Rewriter Run RunSpec RunProof RunProof2 Disk DiskSpec
  DiskProof SourceRange QuerySpec InfoJson InfoScript InfoSpec InfoProof InfoFile.
Import ListNotations.

Lemma counting_run w o bt d ns : fst (run_counting w o bt d ns) = run_on w o bt d ns.
Proof.
  induction ns as [|n ns IH] using rev_ind; [reflexivity|].
  rewrite run_on_snoc, <- IH. unfold run_counting. rewrite fold_left_app. reflexivity.
Qed.

Lemma counting_snoc w o bt d ns n : run_counting w o bt d (ns ++ [n]) =
  process_counting w o bt (run_counting w o bt d ns) n.
Proof. unfold run_counting. rewrite fold_left_app. reflexivity. Qed.

Lemma counting_errors w o bt d ns : reads_enough w -> reads_main w -> read_before w d ns ->
  snd (run_counting w o bt d ns) = false <-> forall n, In n ns -> f_unit (found w d n) <> None.
Proof.
  intros RE RM. induction ns as [|n ns IH] using rev_ind; intros RB.
  { split; [intros _ n []|reflexivity]. }
  pose proof (read_before_front _ _ _ _ RB) as RB'. specialize (IH RB').
  rewrite counting_snoc. unfold process_counting. cbn [snd]. rewrite counting_run.
  destruct (run_on_same w o bt d ns RE RM RB') as (R & (_ & L2) & S).
  assert (P : forall m, In m (rs_processed (ds_run (run_on w o bt d ns))) <-> In m ns).
  { intros m. rewrite R. unfold Run.run. rewrite run_from_processed. simpl.
    rewrite map_map. rewrite (map_ext _ (fun x => x)) by (intros; apply found_name).
    rewrite map_id. tauto. }
  rewrite orb_false_iff, IH.
  destruct (string_mem n (rs_processed (ds_run (run_on w o bt d ns)))) eqn:M; cbn [negb andb].
  - apply string_mem_in, P in M. split.
    + intros [A _] m I. apply in_app_or in I. destruct I as [I|[<-|[]]]; auto.
    + intro A. split; [|reflexivity]. intros m I. apply A, in_or_app. auto.
  - assert (N : ~ In n ns).
    { intros I. apply P in I. apply string_mem_in in I. congruence. }
    assert (F : found w (ds_disk (run_on w o bt d ns)) n = found w d n).
    { symmetry. apply found_same; auto. intros i I. symmetry. apply L2.
      intros m t W E. subst i. apply (RB ns n [] m eq_refl N (S _ _ W)); auto. }
    rewrite F. split.
    + intros [A B] m I. apply in_app_or in I. destruct I as [I|[<-|[]]]; auto.
      intro E. rewrite E in B. discriminate.
    + intro A. split; [intros m I; apply A, in_or_app; auto|].
      assert (I : In n (ns ++ [n])) by (apply in_or_app; right; left; reflexivity).
      specialize (A n I).
      destruct (f_unit (found w d n)); [reflexivity|now destruct A].
Qed.

Lemma code_errors w o bt d ns : reads_enough w -> reads_main w -> read_before w d ns ->
  (if snd (run_counting w o bt d ns) then 1 else 0) = 0 <->
  forall n, In n ns -> f_unit (found w d n) <> None.
Proof.
  intros RE RM RB. rewrite <- (counting_errors w o bt d ns RE RM RB).
  destruct (snd _); split; intro; congruence.
Qed.

Lemma info_written_lemma w json o path d ns text :
  reads_enough w -> reads_main w -> read_before w d ns ->
  (forall n, In n ns -> w_file w n <> w_file w path) ->
  let r := Run.run o true (map (found w d) ns) in
  json (rs_info r) = Some text ->
  exists code d', main_on w json true o (Some path) d ns = (code, d') /\
    (code = 0 <-> forall n, In n ns -> f_unit (found w d n) <> None) /\
    d' (w_file w path) = Some text /\
    (forall n t, In (n, t) (rs_written r) -> d' (w_file w n) = Some t) /\
    (forall i, i <> w_file w path -> (forall n t, In (n, t) (rs_written r) -> w_file w n <> i) ->
       d' i = d i).
Proof.
  intros RE RM RB A r J. destruct (run_on_same w o true d ns RE RM RB) as (R & (L1 & L2) & S).
  fold r in R. rewrite R in *.
  eexists _, _. split.
  { unfold main_on, write_info. rewrite counting_run, R, J. reflexivity. }
  split; [apply code_errors; assumption|]. unfold overwrite.
  split; [now rewrite Nat.eqb_refl|]. split.
  - intros n t I. pose proof (A n (S n t I)) as X. apply Nat.eqb_neq in X. rewrite X. eauto.
  - intros i X Y. apply Nat.eqb_neq in X. rewrite X. auto.
Qed.

Lemma info_error_lemma w json opened o path d ns :
  json (rs_info (ds_run (run_on w o true d ns))) = None ->
  main_on w json opened o (Some path) d ns = (1, ds_disk (run_on w o true d ns)).
Proof. intro J. unfold main_on, write_info. rewrite counting_run, J. reflexivity. Qed.

Lemma no_info_lemma w json opened o d ns :
  reads_enough w -> reads_main w -> read_before w d ns ->
  exists code d', main_on w json opened o None d ns = (code, d') /\
    (code = 0 <-> forall n, In n ns -> f_unit (found w d n) <> None) /\
    left_behind w d d' (rs_written (Run.run o false (map (found w d) ns))).
Proof.
  intros RE RM RB. destruct (run_on_original w o false d ns RE RM RB) as (R & L).
  eexists _, _. split; [reflexivity|]. split; [apply code_errors; assumption|].
  cbn iota. rewrite counting_run. exact L.
Qed.

Local Open Scope string_scope.
(* The script, on what is left behind *)
Lemma script_lemma w json o path d ns text :
  reads_enough w -> reads_main w -> read_before w d ns ->
  (forall n, In n ns -> w_file w n <> w_file w path) ->
  let r := Run.run o true (map (found w d) ns) in
  json (rs_info r) = Some text -> json_file_text (json_info (rs_info r)) text ->
  let opens p := snd (main_on w json true o (Some path) d ns) (w_file w p) in
  (forall prefixes show, query_script opens path prefixes true show =
     Exits 0 (string_of_Z (Z.of_nat (rs_id r) - 1) ++ nl)) /\
  (forall mutated original id, ~ (0 <= id < Z.of_nat (rs_id r))%Z ->
     query_script opens path (Some (mutated, original)) false (Some id) =
     Exits 1 ("Unknown mutant id: " ++ string_of_Z id ++ nl)) /\
  (forall mutated original id, id < rs_id r ->
     exists n ps p g k f u m,
       In (n, ps) (rs_info r) /\ In p ps /\ In g (p_groups p) /\
       nth_error (group_ids g) k = Some id /\
       In f (RunSpec.distinct [] (map (found w d) ns)) /\ Run.f_name f = n /\ f_unit f = Some u /\
       In m (post (ui_tree u)) /\ describes_group (ui_ctx u) (optimise o) m g /\
       forall file source,
         n = mutated ++ "/" ++ file -> d (w_file w (original ++ "/" ++ file)) = Some source ->
         (forall n, In n (path :: ns) -> w_file w n <> w_file w (original ++ "/" ++ file)) ->
         Forall (lines_there source) (places g) ->
         exists s, report file source g k = Some s /\
           query_script opens path (Some (mutated, original)) false (Some (Z.of_nat id)) =
           Exits 0 s).
Proof.
  intros RE RM RB A r J T opens.
  destruct (info_written_lemma w json o path d ns text RE RM RB A J) as (code & d' & E & _ & I & _ & Oth).
  fold r in Oth.
  assert (O : opens path = Some text) by (unfold opens; rewrite E; exact I).
  split; [|split].
  - intros. exact (largest_script o _ opens path text prefixes show O T).
  - intros. exact (unknown_script o _ opens path text mutated original id O T H).
  - intros mutated original id H.
    destruct (shown_script o _ opens path text mutated original id O T H)
      as (n & ps & p & g & k & f & u & m & H1 & H2 & H3 & H4 & H5 & H6 & H7 & H8 & H9 & H10).
    exists n, ps, p, g, k, f, u, m. repeat (split; [assumption|]).
    intros file source N D X L. apply (H10 file source N); [|exact L].
    unfold opens. rewrite E. cbn [snd]. rewrite Oth; [exact D| |].
    + intro Z. apply (X path); [left; reflexivity|congruence].
    + intros n' t W. apply X. right.
      destruct (run_on_same w o true d ns RE RM RB) as (R & _ & S).
      rewrite R in S. exact (S n' t W).
Qed.

Lemma coverage_run_lemma : forall w json o b path d ns text,
  reads_enough w -> reads_main w -> read_before w d ns ->
  (forall n, In n ns -> w_file w n <> w_file w path) ->
  let r := Run.run o true (map (found w d) ns) in
  json (rs_info r) = Some text ->
  exists code d1 d2,
    main_on w json true o (Some path) d ns = (code, d1) /\
    main_on w json true (with_track o b) (Some path) d ns = (code, d2) /\
    d1 (w_file w path) = Some text /\ d2 (w_file w path) = Some text /\
    forall i, (forall n, In n (map fst (rs_written r)) -> w_file w n <> i) -> d2 i = d1 i.
Proof.
  intros w json o b path d ns text A B C D r J.
  destruct (C03_run_lemma o (map (found w d) ns) b) as (I1 & I2 & I3). fold r in I1, I2, I3.
  destruct (info_written_lemma w json o path d ns text A B C D J) as (c1 & d1 & M1 & K1 & T1 & W1 & O1).
  assert (J2 : json (rs_info (Run.run (with_track o b) true (map (found w d) ns))) = Some text)
    by (rewrite I1; exact J).
  destruct (info_written_lemma w json (with_track o b) path d ns text A B C D J2)
    as (c2 & d2 & M2 & K2 & T2 & W2 & O2).
  assert (S1 : forall q c e, main_on w json true q (Some path) d ns = (c, e) -> c <= 1).
  { intros q c e M. unfold main_on, write_info in M. cbv zeta in M.
    destruct (json (rs_info (ds_run (fst (run_counting w q true d ns))))); inversion M;
      [destruct (snd (run_counting w q true d ns)); lia|lia]. }
  pose proof (S1 _ _ _ M1). pose proof (S1 _ _ _ M2).
  assert (c1 = c2).
  { destruct (Nat.eq_dec c1 0) as [E|E].
    - pose proof (proj2 K2 (proj1 K1 E)). lia.
    - destruct (Nat.eq_dec c2 0) as [E'|E']; [|lia].
      pose proof (proj2 K1 (proj1 K2 E')). lia. }
  subst c2. exists c1, d1, d2. do 4 (split; [assumption|]).
  intros i N. destruct (Nat.eq_dec i (w_file w path)) as [->|P]; [congruence|].
  rewrite O1, O2; auto.
  - intros n t Hn. apply N. rewrite <- I3. exact (in_map fst _ _ Hn).
  - intros n t Hn. apply N. exact (in_map fst _ _ Hn).
Qed.
