(* Proofs about arbitrary values of the environment variable (C64). *)
From Coq Require Import String Ascii List Arith NArith ZArith Bool Lia ZifyBool ZifyNat.
From Verif Require Import Base PreludeText Rewriter RewriterProof Prelude PreludeSpec
  PreludeProof.
Import ListNotations.
Local Open Scope string_scope.

(** * Reading an item without a number *)

Lemma no_digit_leading s : no_digit_first s -> leading_number s = None.
Proof.
  intros H. destruct s as [|c s]; [reflexivity|]. unfold leading_number.
  now rewrite (no_digit_first_head c s H).
Qed.

Lemma strtol_no_number t : no_number t -> strtol t = None.
Proof.
  intros [w s rest W N C R|w rest W C R P]; unfold strtol; rewrite skip_spaces by assumption.
  - destruct s; [congruence| |]; cbn [sign_text String.append].
    + change (skip_space _) with (String "+" rest). cbn [signed_parse].
      now apply no_digit_leading.
    + change (skip_space _) with (String "-" rest). cbn [signed_parse].
      now rewrite no_digit_leading.
  - destruct rest as [|c rest]; [reflexivity|]. cbn [skip_space].
    replace (is_space c) with false.
    + rewrite signed_parse_plain.
      * now apply no_digit_leading.
      * apply Ascii.eqb_neq. intros ->. apply (P "-"%char); [tauto|reflexivity].
      * apply Ascii.eqb_neq. intros ->. apply (P "+"%char); [tauto|reflexivity].
    + symmetry. apply not_true_is_false. intros E.
      apply (P c); [left; now apply white_space|reflexivity].
Qed.

(** * Every item begins with a number or does not *)

Lemma comma_free_cons c s : comma_free (String c s) -> comma_free s.
Proof. unfold comma_free. cbn. tauto. Qed.

Lemma comma_free_tail a b : comma_free (a ++ b) -> comma_free b.
Proof. induction a as [|c a IH]; cbn; auto. intros H. apply IH. eapply comma_free_cons, H. Qed.

Lemma split_white t : exists w r, t = w ++ r /\ white_text w /\
  (forall c, white c -> String.get 0 r <> Some c).
Proof.
  induction t as [|c t (w & r & -> & W & R)].
  { exists "", "". repeat split; [constructor|discriminate]. }
  destruct (is_space c) eqn:E.
  - exists (String c w), r. repeat split; auto. constructor; auto. now apply white_space.
  - exists "", (String c (w ++ r)). repeat split; [constructor|].
    intros d D X. injection X as ->. apply white_space in D. congruence.
Qed.

Lemma split_digits t : exists ds r, t = digits_text ds ++ r /\
  Forall (fun d => d < 10) ds /\ no_digit_first r.
Proof.
  induction t as [|c t (ds & r & -> & D & R)].
  { exists [], "". repeat split; [constructor|]. intros d _. discriminate. }
  destruct (is_digit c) eqn:E.
  - destruct (digit_is c E) as (d & L & ->). exists (d :: ds), r. repeat split; auto.
  - exists [], (String c (digits_text ds ++ r)). repeat split; [constructor|].
    intros d L X. injection X as ->.
    destruct (digit_char_value d L) as (Y & _). congruence.
Qed.

Lemma item_total t : comma_free t -> (exists z, denotes t z) \/ no_number t.
Proof.
  intros C. destruct (split_white t) as (w & r & -> & W & R).
  pose proof (comma_free_tail _ _ C) as Cr.
  assert (K : forall s r', r = sign_text s ++ r' ->
    (s = NoSign -> forall c, white c \/ c = "+"%char \/ c = "-"%char -> String.get 0 r <> Some c) ->
    (exists z, denotes (w ++ r) z) \/ no_number (w ++ r)).
  { intros s r' -> H. destruct (split_digits r') as (ds & rest & -> & D & F).
    pose proof (comma_free_tail _ _ (comma_free_tail _ _ Cr)) as Cs.
    destruct ds as [|d ds].
    - right. cbn [digits_text String.append] in *. destruct s.
      + apply no_number_plain; auto.
      + apply no_number_sign; auto. discriminate.
      + apply no_number_sign; auto. discriminate.
    - left. eexists. apply denotes_intro; auto. discriminate. }
  destruct r as [|c r].
  { apply (K NoSign ""); auto. intros _ c _. discriminate. }
  destruct (Ascii.eqb_spec c "+") as [->|Np].
  { apply (K PlusSign r); auto. discriminate. }
  destruct (Ascii.eqb_spec c "-") as [->|Nm].
  { apply (K MinusSign r); auto. discriminate. }
  apply (K NoSign (String c r)); auto. intros _ d [D|[->| ->]].
  - now apply R.
  - cbn. congruence.
  - cbn. congruence.
Qed.

(* Any text is items separated by commas. *)
Lemma value_items v : exists items, items <> [] /\ v = String.concat "," items /\
  Forall comma_free items.
Proof.
  induction v as [|c v (items & N & -> & F)].
  { exists [""]. repeat split; [discriminate|]. constructor; [intros []|constructor]. }
  destruct items as [|t items]; [congruence|]. inversion F; subst.
  destruct (Ascii.eqb_spec c ",") as [->|D].
  - exists ("" :: t :: items). repeat split; [discriminate|].
    constructor; [intros []|constructor; auto].
  - exists (String c t :: items). repeat split; [discriminate| |].
    + destruct items; reflexivity.
    + constructor; auto. unfold comma_free in *. cbn. intuition congruence.
Qed.

Lemma meaning_total cpp f t : (Z.of_nat f <= 2 ^ 31)%Z -> comma_free t ->
  (exists zs, reads cpp f t zs) \/ (exists o, fails cpp f t o).
Proof.
  intros L C. destruct t as [|c t0] eqn:Et.
  { left. eexists. apply reads_empty. }
  rewrite <- Et in *. assert (Nt : t <> "") by congruence. clear Et.
  destruct (item_total t C) as [(z & D)|N].
  - destruct (Z_lt_dec z (- 2 ^ 31)) as [A|A];
      [|destruct (Z_lt_dec z (2 ^ 31)) as [B|B];
        [destruct (Z_lt_dec z (- 2 ^ 31 + Z.of_nat f)) as [E|E]|]].
    + right. destruct cpp; eexists;
        [eapply fails_range_cpp|eapply fails_range_c]; eauto; lia.
    + right. eexists. eapply fails_below; eauto. lia.
    + left. eexists. eapply reads_number; eauto. unfold int_safe. lia.
    + right. destruct cpp; eexists;
        [eapply fails_range_cpp|eapply fails_range_c]; eauto; lia.
  - destruct cpp; [right; eexists; now apply fails_no_number|].
    left. eexists. apply reads_zero; auto. unfold int_safe. lia.
Qed.

Lemma denotes_nonempty_not t z : denotes t z -> t <> "".
Proof. intros D ->. pose proof (denotes_nonempty _ _ D). discriminate. Qed.

(** * The initialisation *)

Section File.
Variables initial num : nat.
Variable cpp : bool.

(* What the loop does with an item *)
Definition loop (ts : list string) (ws : list N) (some : bool) : list N * outcome bool :=
  if cpp then cpp_loop initial num ts ws some
  else c_loop initial num (filter nonempty ts) ws some.

Lemma parse_number t z : denotes t z -> (- 2 ^ 31 <= z < 2 ^ 31)%Z ->
  stoi t = PInt z /\ atoi t = PInt z.
Proof.
  intros D F. unfold stoi, atoi. rewrite (strtol_denotes t z D).
  replace (fits_int z) with true; auto. unfold fits_int, int_min, int_max. lia.
Qed.

Lemma loop_value t z ts ws some : t <> "" ->
  (if cpp then stoi t else atoi t) = PInt z ->
  loop (t :: ts) ws some =
  match enable initial num z ws some with
  | Ok (ws', some') => loop ts ws' some'
  | Throws => (ws, Throws)
  | Undefined => (ws, Undefined)
  end.
Proof.
  intros N E. unfold loop. destruct t as [|c t]; [congruence|].
  destruct cpp; cbn [filter nonempty cpp_loop c_loop]; rewrite E;
    destruct (enable initial num z ws some) as [[]| |]; reflexivity.
Qed.

Lemma loop_empty ts ws some : loop ("" :: ts) ws some = loop ts ws some.
Proof. unfold loop. destruct cpp; reflexivity. Qed.

Lemma reads_step t z ts ws some P :
  reads cpp initial t z -> holds num ws P ->
  exists ws', loop (t :: ts) ws some = loop ts ws' (in_file initial num z || some) /\
    holds num ws' (fun i => memb initial z i || P i).
Proof.
  intros R H. destruct R as [|t z D S|t C N NN S].
  - exists ws. rewrite loop_empty. split; auto.
  - destruct (enable_spec initial num z ws P some S H) as (ws' & E & H').
    exists ws'. rewrite (loop_value t z), E; auto.
    + eapply denotes_nonempty_not; eauto.
    + destruct (parse_number t z D) as [A B]; [unfold int_safe in S; lia|].
      destruct cpp; auto.
  - destruct (enable_spec initial num 0%Z ws P some S H) as (ws' & E & H').
    exists ws'. rewrite (loop_value t 0%Z), E; auto. rewrite C.
    unfold atoi. now rewrite strtol_no_number.
Qed.

Lemma loop_reads items zs : Forall2 (reads cpp initial) items zs ->
  forall ts ws P some, holds num ws P ->
  exists ws', loop (items ++ ts) ws some
              = loop ts ws' (in_file initial num (concat zs) || some) /\
    holds num ws' (fun i => memb initial (concat zs) i || P i).
Proof.
  induction 1 as [|t z items zs R F IH]; intros ts ws P some H.
  - exists ws. split; auto.
  - cbn [app concat]. destruct (reads_step t z (items ++ ts) ws some P R H) as (ws1 & E & H1).
    rewrite E. destruct (IH ts ws1 _ (in_file initial num z || some) H1) as (ws2 & E2 & H2).
    exists ws2. rewrite E2. split.
    + f_equal. unfold in_file. rewrite existsb_app, orb_assoc. f_equal. apply orb_comm.
    + eapply holds_ext; [|exact H2]. intros i. rewrite memb_app, orb_assoc. f_equal.
      apply orb_comm.
Qed.

Lemma loop_fails t o ts ws some : fails cpp initial t o ->
  exists ws', loop (t :: ts) ws some = (ws', o).
Proof.
  intros F. exists ws. destruct F as [t C N NN|t z C D R|t z C D R|t z D R R'].
  - unfold loop. rewrite C. destruct t as [|c t]; [congruence|]. cbn [cpp_loop].
    unfold stoi. now rewrite strtol_no_number.
  - unfold loop. rewrite C. pose proof (denotes_nonempty_not _ _ D) as N.
    destruct t as [|c t]; [congruence|]. cbn [cpp_loop].
    unfold stoi. rewrite (strtol_denotes _ _ D). replace (fits_int z) with false; auto.
    unfold fits_int, int_min, int_max. lia.
  - unfold loop. rewrite C. pose proof (denotes_nonempty_not _ _ D) as N.
    destruct t as [|c t]; [congruence|]. cbn [filter nonempty c_loop].
    unfold atoi. rewrite (strtol_denotes _ _ D). replace (fits_int z) with false; auto.
    unfold fits_int, int_min, int_max. lia.
  - rewrite (loop_value t z).
    + unfold enable. replace (fits_int (z - Z.of_nat initial)) with false; auto.
      unfold fits_int, int_min, int_max. lia.
    + eapply denotes_nonempty_not; eauto.
    + destruct (parse_number t z D R) as [A B]. destruct cpp; auto.
Qed.

Lemma init_items items ws : Forall comma_free items -> items <> [] ->
  init initial num cpp (Some (String.concat "," items)) ws = loop items ws false.
Proof.
  intros F N. assert (NC : Forall no_comma items).
  { eapply Forall_impl; [|exact F]. intros t. apply comma_free_no_comma. }
  unfold init, loop. destruct cpp.
  - rewrite cpp_tokens_concat; auto.
  - rewrite c_tokens_concat; auto.
Qed.

Lemma no_number_comma_free t : no_number t -> comma_free t.
Proof.
  intros [w s rest W _ C _|w rest W C _ _]; apply comma_free_no_comma;
    apply comma_free_no_comma in C; apply no_comma_app; auto using no_comma_white.
  apply no_comma_app; auto. destruct s; simpl; auto.
Qed.

Lemma reads_comma_free t z : reads cpp initial t z -> comma_free t.
Proof.
  intros [|t' z' D _|t' _ _ N _].
  - intros [].
  - apply comma_free_no_comma. eapply no_comma_denotes; eauto.
  - now apply no_number_comma_free.
Qed.

Lemma fails_comma_free t o : fails cpp initial t o -> comma_free t.
Proof.
  intros [t' _ _ N|t' z _ D _|t' z _ D _|t' z D _ _];
    try (apply comma_free_no_comma; eapply no_comma_denotes; eassumption).
  now apply no_number_comma_free.
Qed.

Lemma reads_lemma items zs locals :
  Forall2 (reads cpp initial) items zs -> Forall (fun i => i < num) locals ->
  exists answers : list bool,
    queries initial num cpp (Some (String.concat "," items)) locals (initial_tls num)
    = map Ok answers /\
    Forall2 (fun i b => b = true <-> In (Z.of_nat (initial + i)) (concat zs)) locals answers.
Proof.
  intros R F. exists (map (memb initial (concat zs)) locals). split.
  2:{ clear. induction locals as [|i l IH]; constructor; [apply memb_spec|exact IH]. }
  assert (A : exists ws, init initial num cpp (Some (String.concat "," items))
                           (bitset (initial_tls num))
                         = (ws, Ok (in_file initial num (concat zs))) /\
                         holds num ws (memb initial (concat zs))).
  { destruct items as [|t items].
    - inversion R; subst. exists (bitset (initial_tls num)).
      split; [destruct cpp; reflexivity|apply holds_initial].
    - rewrite init_items; [|clear F; induction R; constructor; eauto using reads_comma_free
                          |discriminate].
      destruct (loop_reads _ _ R [] _ _ false (holds_initial num)) as (ws & E & H).
      rewrite app_nil_r in E. exists ws. cbn [bitset initial_tls]. rewrite E. split.
      + rewrite orb_false_r. unfold loop. destruct cpp; reflexivity.
      + eapply holds_ext; [|exact H]. intros i. apply orb_false_r. }
  destruct A as (ws & E & H). destruct F as [|i locals Hi F]; [reflexivity|].
  cbn [queries]. unfold query. cbn [initialized initial_tls].
  rewrite E. cbn [bitset]. rewrite (proj2 H i Hi). cbn [map].
  f_equal. rewrite map_map. apply queries_initialized; [|assumption].
  split; [reflexivity|exact H].
Qed.

Lemma fails_lemma before t after zs o i :
  Forall2 (reads cpp initial) before zs -> fails cpp initial t o -> Forall comma_free after ->
  snd (query initial num cpp (Some (String.concat "," (before ++ t :: after)%list)) i
         (initial_tls num)) = o.
Proof.
  intros R Ft A. unfold query. cbn [initialized initial_tls]. rewrite init_items.
  - destruct (loop_reads _ _ R (t :: after) _ _ false (holds_initial num)) as (ws & E & H).
    cbn [bitset initial_tls]. rewrite E.
    destruct (loop_fails t o after ws (in_file initial num (concat zs) || false) Ft)
      as (ws' & E').
    rewrite E'. destruct Ft; reflexivity.
  - apply Forall_app. split; [clear -R; induction R; constructor; eauto using reads_comma_free|].
    constructor; auto. eapply fails_comma_free; eauto.
  - destruct before; discriminate.
Qed.
End File.

(* Every value is of one of the two kinds. *)
Lemma value_total cpp f v : (Z.of_nat f <= 2 ^ 31)%Z ->
  (exists items zs, v = String.concat "," items /\ Forall2 (reads cpp f) items zs) \/
  (exists before t after zs o, v = String.concat "," (before ++ t :: after)%list /\
     Forall2 (reads cpp f) before zs /\ fails cpp f t o /\ Forall comma_free after).
Proof.
  intros L. destruct (value_items v) as (items & _ & -> & F).
  assert (K : (exists zs, Forall2 (reads cpp f) items zs) \/
    exists before t after zs o, items = (before ++ t :: after)%list /\
     Forall2 (reads cpp f) before zs /\ fails cpp f t o /\ Forall comma_free after).
  { induction F as [|t items Ct F IH].
    - left. exists []. constructor.
    - destruct (meaning_total cpp f t L Ct) as [(z & R)|(o & R)].
      + destruct IH as [(zs & Rs)|(before & t' & after & zs & o & -> & Rs & Rt & A)].
        * left. exists (z :: zs). constructor; auto.
        * right. exists (t :: before), t', after, (z :: zs), o. repeat split; auto.
      + right. exists [], t, items, [], o. repeat split; auto. }
  destruct K as [(zs & R)|(before & t & after & zs & o & -> & R)].
  - left. eauto.
  - right. exists before, t, after, zs, o. tauto.
Qed.

(* ... and what an item means is unique. *)
Lemma denotes_strtol_unique t z z' : denotes t z -> denotes t z' -> z = z'.
Proof. intros A B. apply strtol_denotes in A, B. congruence. Qed.

Lemma meaning_unique cpp f t :
  (forall zs zs', reads cpp f t zs -> reads cpp f t zs' -> zs = zs') /\
  (forall zs o, reads cpp f t zs -> fails cpp f t o -> False) /\
  (forall o o', fails cpp f t o -> fails cpp f t o' -> o = o').
Proof.
  assert (N : forall z, denotes "" z -> False).
  { intros z D. now apply denotes_nonempty in D. }
  assert (X : forall u z, denotes u z -> no_number u -> False).
  { intros u z D NN. apply strtol_denotes in D. apply strtol_no_number in NN. congruence. }
  split; [|split].
  - intros zs zs' A B. inversion A; subst; inversion B; subst; auto; try congruence;
      try (exfalso; eauto; fail).
    f_equal. eapply denotes_strtol_unique; eauto.
  - intros zs o A B. unfold int_safe in *. inversion A; subst; inversion B; subst; try congruence;
      try (exfalso; eauto; fail);
      match goal with D : denotes t ?z, D' : denotes t ?z' |- _ =>
        pose proof (denotes_strtol_unique _ _ _ D D'); subst; unfold int_safe in *; lia end.
  - intros o o' A B. inversion A; subst; inversion B; subst; try congruence;
      try (exfalso; eauto; fail);
      match goal with D : denotes t ?z, D' : denotes t ?z' |- _ =>
        pose proof (denotes_strtol_unique _ _ _ D D'); subst; lia end.
Qed.
