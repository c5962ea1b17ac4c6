(* Proofs about diagnostics. *)
From Coq Require Import String List Arith Bool Lia Sorted.
From Verif Require Import Base Clang Run RunSpec RunProof2 RewriterProof Diagnostics
  DiagnosticsSpec.
Import ListNotations.

Lemma erroneous_iff i : erroneous i <-> existsb is_error (in_diags i) = true.
Proof.
  rewrite existsb_exists. unfold erroneous. split; intros (l & H & E); exists l; split; auto.
  - destruct E; subst; reflexivity.
  - destruct l; simpl in E; auto; discriminate.
Qed.

Definition errors (ls : list level) : nat := List.length (filter is_error ls).

Lemma errors_pos ls : existsb is_error ls = Nat.ltb 0 (errors ls).
Proof.
  unfold errors. induction ls as [|l ls IH]; auto. simpl.
  destruct (is_error l); simpl; auto.
Qed.

Lemma handle_all main ls : forall st,
  let st' := fold_left (handle_diagnostic main) ls st in
  d_chained_errors st' = d_chained_errors st + errors ls /\
  d_printer_errors st' = d_printer_errors st + errors ls /\
  d_processing_failed st' = d_processing_failed st /\
  d_file_skipped st' = d_file_skipped st /\ d_run st' = d_run st /\
  (forall n, In n (d_failed st') <->
     In n (d_failed st) \/ (main = Some n /\ existsb is_error ls = true)) /\
  (StronglySorted slt (d_failed st) -> StronglySorted slt (d_failed st')).
Proof.
  induction ls as [|l ls IH]; intros st; simpl.
  - repeat split; auto; unfold errors; simpl; try lia; intuition discriminate.
  - destruct (IH (handle_diagnostic main st l)) as (A & B & C & D & E & F & G).
    rewrite A, B, C, D, E. clear A B C D E. unfold errors, handle_diagnostic in *. simpl.
    destruct (is_error l); simpl in *.
    + repeat split; auto; try lia.
      * intros H. apply F in H. destruct main as [n'|]; [|intuition discriminate].
        rewrite insert_sorted_in in H. destruct H as [[->|H]|[H _]]; auto.
      * intros [H|[-> _]]; apply F; left.
        -- destruct main; auto. apply insert_sorted_in. auto.
        -- apply insert_sorted_in. auto.
      * intros H. apply G. destruct main; auto. now apply insert_sorted_sorted.
    + repeat split; auto; intros H; apply F; auto; apply F in H; auto.
Qed.

(* A file was handed to the compiler. *)
Definition has_job (i : input) : bool := in_command i && negb (in_driver_stops i).

Lemma parsed_name i : f_name (parsed i) = f_name (in_file i).
Proof. unfold parsed. destruct (existsb _ _); reflexivity. Qed.

Lemma process_processed o bt st f :
  forall n, In n (rs_processed (process_file o bt st f)) <->
            n = f_name f \/ In n (rs_processed st).
Proof.
  intros n. unfold process_file. destruct (string_mem (f_name f) (rs_processed st)) eqn:M.
  - apply string_mem_in in M. split; auto. intros [->|]; auto.
  - destruct (f_unit f); simpl; intuition.
Qed.

Lemma process_repeat o bt st f :
  string_mem (f_name f) (rs_processed st) = true -> process_file o bt st f = st.
Proof. intros H. unfold process_file. now rewrite H. Qed.

Lemma attempted_ext is : forall seen seen',
  (forall n, In n seen <-> In n seen') -> attempted seen is = attempted seen' is.
Proof.
  induction is as [|i is IH]; intros seen seen' H; simpl; auto.
  destruct (in_command i && negb (in_driver_stops i)); [|auto].
  destruct (in_dec string_dec (f_name (in_file i)) seen) as [I|I];
  destruct (in_dec string_dec (f_name (in_file i)) seen') as [J|J];
  try (rewrite H in I; contradiction); auto.
  f_equal. apply IH. intros n. simpl. rewrite H. tauto.
Qed.

Lemma tool_invariant o bt fwd is : forall st,
  let st' := fold_left (tool_step o bt fwd) is st in
  let att := attempted (rs_processed (d_run st)) is in
  d_run st' = run_from o bt (d_run st) (map parsed (filter has_job is)) /\
  (forall n, In n (d_failed st') <->
     In n (d_failed st) \/ exists i, In i att /\ f_name (in_file i) = n /\ erroneous i) /\
  (d_processing_failed st' = true <->
     d_processing_failed st = true \/
     (exists i, In i is /\ in_command i = true /\ in_driver_stops i = true) \/
     (exists i, In i att /\ erroneous i)) /\
  (d_file_skipped st' = true <->
     d_file_skipped st = true \/ exists i, In i is /\ in_command i = false) /\
  (fwd = false -> d_printer_errors st <= d_printer_errors st' /\
     ((exists i, In i att /\ erroneous i) -> d_printer_errors st < d_printer_errors st') /\
     (Forall good_command is -> d_printer_errors st < d_printer_errors st' ->
      exists i, In i att /\ erroneous i)) /\
  (StronglySorted slt (d_failed st) -> StronglySorted slt (d_failed st')).
Proof.
  induction is as [|i is IH]; intros st.
  { cbn. repeat split; intros; auto; try (intuition; fail); try lia.
    all: try (destruct H as [?|(x & [] & _)]; auto; fail).
    - destruct H as [?|[(x & [] & _)|(x & [] & _)]]; auto.
    - destruct H0 as (x & [] & _). }
  cbn [fold_left]. cbn zeta.
  specialize (IH (tool_step o bt fwd st i)). cbn zeta in IH.
  destruct IH as (IR & IF & IP & IS & IE & IO).
  set (st' := fold_left (tool_step o bt fwd) is (tool_step o bt fwd st i)) in *.
  assert (HJ : has_job i = in_command i && negb (in_driver_stops i)) by reflexivity.
  unfold tool_step in IR, IF, IP, IS, IE, IO.
  cbn [attempted filter]. rewrite HJ.
  destruct (in_command i) eqn:Ec; cbn [negb andb] in *.
  2:{ cbn [d_run d_failed d_processing_failed d_file_skipped d_printer_errors skip] in *.
      split; [exact IR|]. split; [exact IF|]. split.
      { rewrite IP. split; intros [?|[(x & H & Q)|?]]; auto.
        - right. left. exists x. split; auto. now right.
        - destruct H as [<-|H]; [rewrite Ec in Q; destruct Q; discriminate|].
          right. left. eauto. }
      split.
      { rewrite IS. split; auto. intros _. right. exists i. split; auto. now left. }
      split; [|exact IO].
      intros F. destruct (IE F) as (E1 & E2 & E3). repeat split; auto.
      intros FG. inversion FG; subst; auto. }
  destruct (handle_all None (in_driver i) st) as (A1 & A2 & A3 & A4 & A5 & A6 & A7).
  set (s1 := fold_left (handle_diagnostic None) (in_driver i) st) in *.
  assert (A6' : forall n, In n (d_failed s1) <-> In n (d_failed st)).
  { intros n. rewrite A6. intuition discriminate. }
  destruct (in_driver_stops i) eqn:Ed; cbn [negb] in *.
  { cbn [d_run d_failed d_processing_failed d_file_skipped d_printer_errors fail_if] in *.
    rewrite A5 in *. split; [exact IR|]. split.
    { intros n. rewrite IF, A6'. tauto. }
    split.
    { rewrite IP, A3, orb_true_r. split; auto. intros _. right. left. exists i.
      split; auto. now left. }
    split.
    { rewrite IS, A4. split; intros [?|(x & H & Q)]; auto; right; exists x; split; auto.
      - now right.
      - destruct H as [<-|H]; auto. congruence. }
    split.
    { intros F. destruct (IE F) as (E1 & E2 & E3). repeat split; auto.
      - lia.
      - intros X. specialize (E2 X). lia.
      - intros FG. inversion FG as [|? ? (_ & G & _) _]; subst. congruence. }
    auto. }
  set (s2 := clear fwd s1) in *.
  assert (B : d_run s2 = d_run st /\ d_failed s2 = d_failed s1 /\
              d_processing_failed s2 = d_processing_failed st /\
              d_file_skipped s2 = d_file_skipped st /\ d_chained_errors s2 = 0 /\
              (fwd = false -> d_printer_errors s2 = d_printer_errors st + errors (in_driver i))).
  { unfold s2, clear. simpl. rewrite A5, A3, A4. repeat split; auto. intros ->. exact A2. }
  destruct B as (B1 & B2 & B3 & B4 & B5 & B6).
  rewrite B1 in *.
  assert (SK : forall P, (exists x, In x is /\ P x) -> exists x : input, In x (i :: is) /\ P x).
  { intros P (x & H & Q). exists x. split; auto. now right. }
  assert (GE : Forall good_command (i :: is) -> errors (in_driver i) = 0 /\ Forall good_command is).
  { intros FG. inversion FG as [|? ? (_ & _ & G) FG']; subst. split; auto.
    unfold errors. clear -G. induction (in_driver i) as [|l ls IHl]; auto. simpl.
    destruct (G l (or_introl eq_refl)). destruct l; simpl; try congruence;
    apply IHl; intros l' H'; apply G; now right. }
  destruct (string_mem (f_name (in_file i)) (rs_processed (d_run st))) eqn:M.
  { cbn [d_run d_failed d_processing_failed d_file_skipped d_printer_errors fail_if
         d_chained_errors] in *.
    rewrite B1, B2, B3, B4, B5 in *. cbn [Nat.eqb negb] in *. rewrite orb_false_r in *.
    assert (I : In (f_name (in_file i)) (rs_processed (d_run st))) by (now apply string_mem_in).
    destruct (in_dec string_dec (f_name (in_file i)) (rs_processed (d_run st)));
      [|contradiction].
    split.
    { rewrite IR. cbn [map]. unfold run_from. cbn [fold_left].
      rewrite (process_repeat o bt (d_run st) (parsed i)); auto. now rewrite parsed_name. }
    split; [intros n; rewrite IF, A6'; tauto|].
    split.
    { rewrite IP. split; intros [?|[(x & H & Q)|?]]; auto.
      - right. left. exists x. split; auto. now right.
      - destruct H as [<-|H]; [destruct Q; congruence|]. right. left. eauto. }
    split.
    { rewrite IS. split; intros [?|(x & H & Q)]; auto; right; exists x; split; auto.
      - now right.
      - destruct H as [<-|H]; auto. congruence. }
    split.
    { intros F. destruct (IE F) as (E1 & E2 & E3). rewrite B6 in * by auto.
      repeat split; auto.
      - lia.
      - intros X. specialize (E2 X). lia.
      - intros FG L. destruct (GE FG) as [G0 FG']. apply E3; auto. lia. }
    auto. }
  destruct (handle_all (Some (f_name (in_file i))) (in_diags i) s2)
    as (C1 & C2 & C3 & C4 & C5 & C6 & C7).
  set (s3 := fold_left (handle_diagnostic (Some (f_name (in_file i)))) (in_diags i) s2) in *.
  cbn [d_run d_failed d_processing_failed d_file_skipped d_printer_errors fail_if
       d_chained_errors with_run] in *.
  rewrite C1, C3, C4, B3, B4, B5 in *. cbn [Nat.add] in *.
  assert (I : ~ In (f_name (in_file i)) (rs_processed (d_run st))).
  { intros I. apply string_mem_in in I. congruence. }
  destruct (in_dec string_dec (f_name (in_file i)) (rs_processed (d_run st)));
    [contradiction|].
  assert (AE : attempted (rs_processed (process_file o bt (d_run st) (parsed i))) is
               = attempted (f_name (in_file i) :: rs_processed (d_run st)) is).
  { apply attempted_ext. intros n'. rewrite process_processed, parsed_name. simpl. intuition. }
  rewrite AE in *. clear AE.
  set (att := attempted (f_name (in_file i) :: rs_processed (d_run st)) is) in *.
  assert (EI : erroneous i <-> 0 < errors (in_diags i)).
  { rewrite erroneous_iff, errors_pos, Nat.ltb_lt. tauto. }
  split.
  { rewrite IR. cbn [map]. unfold run_from. reflexivity. }
  split.
  { intros m. rewrite IF, C6, B2, A6', <- erroneous_iff. split.
    - intros [[?|[H ?]]|(x & H & Q)]; auto.
      + right. exists i. injection H as H. split; [now left|auto].
      + right. exists x. split; [now right|auto].
    - intros [?|(x & [<-|H] & Q1 & Q2)]; auto.
      + left. right. split; auto. now f_equal.
      + right. eauto. }
  split.
  { rewrite IP. rewrite orb_true_iff, negb_true_iff, Nat.eqb_neq. split.
    - intros [[?|H]|[(x & H & Q)|(x & H & Q)]]; auto.
      + right. right. exists i. split; [now left|]. apply EI. lia.
      + right. left. exists x. split; auto. now right.
      + right. right. exists x. split; auto. now right.
    - intros [?|[(x & [<-|H] & Q)|(x & [<-|H] & Q)]]; auto.
      + destruct Q. congruence.
      + right. left. eauto.
      + apply EI in Q. left. right. lia.
      + right. right. eauto. }
  split.
  { rewrite IS. split; intros [?|(x & H & Q)]; auto; right; exists x; split; auto.
    - now right.
    - destruct H as [<-|H]; auto. congruence. }
  split.
  { intros F. destruct (IE F) as (E1 & E2 & E3). rewrite C2, B6 in * by auto.
    repeat split.
    - lia.
    - intros (x & [<-|H] & Q).
      + apply EI in Q. lia.
      + assert (X : exists i, In i att /\ erroneous i) by eauto. specialize (E2 X). lia.
    - intros FG L. destruct (GE FG) as [G0 FG'].
      destruct (Nat.eq_dec (errors (in_diags i)) 0) as [Z|Z].
      + destruct E3 as (x & H & Q); auto; [lia|]. exists x. split; auto. now right.
      + exists i. split; [now left|]. apply EI. lia. }
  intros H. apply IO, C7. rewrite B2. apply A7, H.
Qed.

Lemma slt_irrefl s : ~ slt s s.
Proof.
  unfold slt. intros H. assert (String.compare s s = Eq) as E; [|congruence].
  clear H. induction s as [|c s IH]; auto. simpl. now rewrite ascii_compare_refl.
Qed.

Lemma sorted_nodup l : StronglySorted slt l -> NoDup l.
Proof.
  induction 1 as [|a l S IH F]; constructor; auto. intros H.
  rewrite Forall_forall in F. exact (slt_irrefl a (F a H)).
Qed.

Lemma C38_lemma o bt is code reported info :
  main_run o bt false is = Finished code reported info ->
  NoDup reported /\
  forall n, In n reported <->
    exists i, In i (attempted [] is) /\ f_name (in_file i) = n /\ erroneous i.
Proof.
  unfold main_run, tool_run. intros H.
  destruct (tool_invariant o bt false is initial_dstate) as (IR & IF & IP & IS & IE & IO).
  cbn zeta in *. set (st := fold_left (tool_step o bt false) is initial_dstate) in *.
  cbn [d_run d_failed d_processing_failed d_file_skipped d_printer_errors initial_dstate
       rs_processed initial_rstate] in *.
  specialize (IO (SSorted_nil _)).
  destruct (Nat.eqb_spec (return_code st) 0) as [R|R].
  - destruct (Nat.eqb (d_printer_errors st) 0 && _) eqn:E; [|discriminate].
    injection H as <- <- <-. split; [constructor|]. intros n. split; [intros []|].
    intros (i & H & N & Er).
    apply andb_true_iff in E. destruct E as [_ E].
    destruct (d_failed st); [|discriminate]. apply (IF n). right. eauto.
  - destruct (Nat.ltb 0 (d_printer_errors st)); [|discriminate].
    injection H as <- <- <-. split; [now apply sorted_nodup|].
    intros n. rewrite IF. split; [intros [[]|H]; exact H|auto].
Qed.

Lemma attempted_good is : forall seen, Forall good_command is ->
  forall i, In i (attempted seen is) -> In i is.
Proof.
  induction is as [|i is IH]; intros seen F x H; simpl in *; auto.
  inversion F as [|? ? G F']; subst. destruct (in_command i && _); [|right; eapply IH; eauto].
  destruct (in_dec _ _ _); [right; eapply IH; eauto|].
  destruct H; [now left|right; eapply IH; eauto].
Qed.

Lemma filter_good is : Forall good_command is -> filter has_job is = is.
Proof.
  induction 1 as [|i is (A & B & _) _ IH]; auto. simpl. unfold has_job at 1.
  rewrite A, B. simpl. now rewrite IH.
Qed.

Lemma C43_lemma o bt is :
  Forall good_command is ->
  exists code reported,
    main_run o bt false is
    = Finished code reported
        (if bt then Some (rs_info (run o bt (map parsed is))) else None) /\
    (code = 0 <-> forall i, In i (attempted [] is) -> ~ erroneous i).
Proof.
  intros G. unfold main_run, tool_run.
  destruct (tool_invariant o bt false is initial_dstate) as (IR & IF & IP & IS & IE & IO).
  cbn zeta in *. set (st := fold_left (tool_step o bt false) is initial_dstate) in *.
  cbn [d_run d_failed d_processing_failed d_file_skipped d_printer_errors initial_dstate
       rs_processed initial_rstate] in *.
  rewrite (filter_good _ G) in IR. fold (run_from o bt) in IR.
  change (run_from o bt initial_rstate (map parsed is)) with (run o bt (map parsed is)) in IR.
  rewrite IR. destruct (IE eq_refl) as (_ & E2 & E3). specialize (E3 G).
  assert (SKIP : d_file_skipped st = false).
  { apply not_true_is_false. rewrite IS. intros [?|(i & H & Q)]; [discriminate|].
    rewrite Forall_forall in G. destruct (G i H) as [X _]. congruence. }
  assert (STOP : ~ exists i, In i is /\ in_command i = true /\ in_driver_stops i = true).
  { intros (i & H & _ & Q). rewrite Forall_forall in G. destruct (G i H) as (_ & X & _).
    congruence. }
  unfold return_code. rewrite SKIP.
  destruct (d_processing_failed st) eqn:P.
  - assert (X : exists i, In i (attempted [] is) /\ erroneous i).
    { destruct IP as [IP _]. destruct (IP eq_refl) as [?|[?|?]]; auto; [discriminate|tauto]. }
    specialize (E2 X). cbn [Nat.eqb]. destruct (Nat.ltb_spec 0 (d_printer_errors st)); [|lia].
    do 2 eexists. split; [reflexivity|]. split; [discriminate|].
    intros H'. destruct X as (i & Hi & Er). exfalso. eapply H'; eauto.
  - assert (X : ~ exists i, In i (attempted [] is) /\ erroneous i).
    { intros X. assert (F : false = true) by (apply IP; auto). discriminate. }
    cbn [Nat.eqb].
    assert (Z : d_printer_errors st = 0).
    { destruct (d_printer_errors st) eqn:Z; auto. exfalso. apply X, E3. lia. }
    rewrite Z. cbn [Nat.eqb andb].
    destruct (d_failed st) as [|n l] eqn:D.
    + do 2 eexists. split; [reflexivity|]. split; auto. intros _ i Hi Er. apply X. eauto.
    + exfalso. destruct (IF n) as [IFn _].
      destruct (IFn (or_introl eq_refl)) as [[]|(i & Hi & _ & Er)]. apply X. eauto.
Qed.
