(* Proofs about paths. *)
From Coq Require Import String Ascii List Arith ZArith Bool Lia.
From Verif Require Import Base PathText PathSpec.
Import ListNotations.
Local Open Scope string_scope.

Lemma app_nil_s (s : string) : s ++ "" = s.
Proof. induction s as [|c s IH]; cbn; [reflexivity|now rewrite IH]. Qed.
Lemma app_assoc_s (a b c : string) : (a ++ b) ++ c = a ++ b ++ c.
Proof. induction a as [|x a IH]; cbn; [reflexivity|now rewrite IH]. Qed.
Lemma slash_or (c : ascii) : {c = slash} + {c <> slash}.
Proof. apply ascii_dec. Qed.
Lemma not_slash c : c <> slash -> Ascii.eqb c "/" = false.
Proof. intro H. now apply Ascii.eqb_neq. Qed.

Lemma split_some s : exists x l, split_slash s = x :: l.
Proof.
  induction s as [|c s (x & l & IH)]; cbn; [eauto|].
  destruct (Ascii.eqb c "/"); [eauto|]. rewrite IH. eauto.
Qed.
Lemma split_app s t :
  split_slash (s ++ String slash t) = (split_slash s ++ split_slash t)%list.
Proof.
  induction s as [|c s IH]; [reflexivity|]. cbn [append split_slash]. rewrite IH.
  destruct (Ascii.eqb c "/"); [reflexivity|].
  destruct (split_some s) as (x & l & ->). reflexivity.
Qed.
Lemma join_split s : join_slash (split_slash s) = s.
Proof.
  induction s as [|c s IH]; [reflexivity|]. cbn [split_slash].
  destruct (split_some s) as (x & l & E). rewrite E in *.
  destruct (slash_or c) as [->|N].
  - change (Ascii.eqb slash "/") with true. cbv iota.
    change (join_slash ("" :: x :: l)) with ("/" ++ join_slash (x :: l)). now rewrite IH.
  - rewrite (not_slash _ N). rewrite <- IH. destruct l; reflexivity.
Qed.
Lemma pieces_slash s : Forall (fun p => ~ starts_with_slash p) (split_slash s).
Proof.
  assert (N : ~ starts_with_slash "") by (intros (t & T); discriminate).
  induction s as [|c s IH]; [now constructor|]. cbn [split_slash].
  destruct (slash_or c) as [->|C].
  - change (Ascii.eqb slash "/") with true. now constructor.
  - rewrite (not_slash _ C). destruct (split_some s) as (x & l & E). rewrite E in *.
    inversion IH. subst. constructor; [|assumption]. intros (t & T). congruence.
Qed.
Lemma parts_app s t :
  path_parts (s ++ String slash t) = (path_parts s ++ path_parts t)%list.
Proof. unfold path_parts. now rewrite split_app, filter_app. Qed.

(* Roots *)
Lemma root_not_slash t : ~ starts_with_slash t -> path_root t = "".
Proof.
  intro N. destruct t as [|a t]; [reflexivity|].
  assert (H : Ascii.eqb a "/" = false).
  { apply not_slash. intros ->. apply N. now exists t. }
  destruct t as [|b [|c t]]; cbn; now rewrite H.
Qed.
Ltac two s := destruct s as [|?x s]; [|destruct s as [|?y s]; [|destruct s as [|?z s]]].
Ltac eqbs := repeat match goal with
  | |- context[Ascii.eqb "/"%char "/"%char] => change (Ascii.eqb "/"%char "/"%char) with true
  | |- context[Ascii.eqb "."%char "/"%char] => change (Ascii.eqb "."%char "/"%char) with false
  | |- context[Ascii.eqb ?a "/"%char] => destruct (Ascii.eqb a "/"%char) eqn:?E
  end.

Lemma key s t : same_path s t -> path_root s = path_root t /\ path_parts s = path_parts t.
Proof.
  induction 1 as [s|s t _ IH|s t u _ IH1 _ IH2|s a t N|t|t N|s t N|s|t M N|s a N].
  - tauto.
  - intuition congruence.
  - destruct IH1, IH2. split; congruence.
  - apply not_slash in N. split.
    + two s; cbn [append path_root]; rewrite ?N, ?andb_false_r; eqbs; try reflexivity;
        destruct t; reflexivity.
    + replace (s ++ String a "//" ++ t) with ((s ++ String a "") ++ String slash ("" ++ String slash t))
        by (now rewrite app_assoc_s).
      replace (s ++ String a "/" ++ t) with ((s ++ String a "") ++ String slash t)
        by (now rewrite app_assoc_s).
      now rewrite !parts_app.
  - split; [reflexivity|]. change ("////" ++ t) with ("" ++ String slash ("///" ++ t)).
    now rewrite parts_app.
  - split.
    + destruct t as [|c t]; [reflexivity|].
      assert (E : Ascii.eqb c "/" = false)
        by (apply not_slash; intros ->; apply N; now exists t).
      cbn. destruct t; rewrite E; reflexivity.
    + change ("///" ++ t) with ("" ++ String slash ("" ++ String slash ("/" ++ t))).
      now rewrite !parts_app.
  - split.
    + assert (E : forall c t', t = String c t' -> Ascii.eqb c "/" = false)
        by (intros c t' ->; apply not_slash; intros ->; apply N; now exists t').
      two s; cbn [append path_root]; try reflexivity;
        destruct t as [|c t]; cbn [append path_root];
        rewrite ?(E _ _ eq_refl); eqbs; try reflexivity; try (destruct t; reflexivity).
    + change (s ++ "/./" ++ t) with (s ++ String slash ("." ++ String slash t)).
      change (s ++ "/" ++ t) with (s ++ String slash t). now rewrite !parts_app.
  - split.
    + two s; cbn [append path_root]; try reflexivity; eqbs; reflexivity.
    + change (s ++ "/.") with (s ++ String slash "."). change (s ++ "/") with (s ++ String slash "").
      now rewrite !parts_app.
  - split.
    + rewrite (root_not_slash t N). destruct t; reflexivity.
    + change ("./" ++ t) with ("." ++ String slash t). now rewrite parts_app.
  - apply not_slash in N. split.
    + two s; cbn [append path_root]; rewrite ?N, ?andb_false_r; eqbs; reflexivity.
    + replace (s ++ String a "/") with ((s ++ String a "") ++ String slash "")
        by (now rewrite app_assoc_s).
      rewrite parts_app. apply app_nil_r.
Qed.
Lemma same_str s t : same_path s t -> path_str s = path_str t.
Proof. intro H. unfold path_str. now destruct (key _ _ H) as [-> ->]. Qed.

(* Neat names *)
Lemma is_part_true x : is_part x = true <-> x <> "" /\ x <> ".".
Proof.
  unfold is_part. rewrite andb_true_iff, !negb_true_iff, !String.eqb_neq. tauto.
Qed.
Lemma join_cons x l : l <> [] -> join_slash (x :: l) = x ++ "/" ++ join_slash l.
Proof. destruct l; [congruence|reflexivity]. Qed.
Lemma split_pieces s p l2 : forall l1, split_slash s = (l1 ++ p :: l2)%list ->
  exists a b, s = a ++ p ++ b /\
    (l1 = [] -> a = "") /\ (l1 <> [] -> exists a', a = a' ++ "/") /\
    (l2 = [] -> b = "") /\ (l2 <> [] -> exists b', b = "/" ++ b').
Proof.
  intros l1 E. rewrite <- (join_split s), E. clear E s.
  assert (T : exists b, join_slash (p :: l2) = p ++ b /\ (l2 = [] -> b = "") /\
            (l2 <> [] -> exists b', b = "/" ++ b')).
  { destruct l2 as [|q l2].
    - exists "". cbn. rewrite app_nil_s. repeat split; congruence.
    - eexists. split; [apply join_cons; congruence|].
      split; [congruence|]. intros _. eexists. reflexivity. }
  destruct T as (b & T & T1 & T2).
  induction l1 as [|x l1 IH].
  - exists "", b. cbn [app]. rewrite T. repeat split; auto; congruence.
  - destruct IH as (a & b' & E & A1 & A2 & B1 & B2).
    exists (x ++ "/" ++ a), b'. cbn [app]. rewrite join_cons by (destruct l1; discriminate).
    rewrite E. rewrite !app_assoc_s. split; [reflexivity|]. split; [congruence|].
    split; [|now split]. intros _.
    destruct l1 as [|y l1].
    + rewrite (A1 eq_refl). now exists x.
    + destruct A2 as (a' & ->); [congruence|]. exists (x ++ "/" ++ a').
      now rewrite !app_assoc_s.
Qed.

Lemma neat_dir d file : d <> "" -> d <> "/" -> neat (d ++ "/" ++ file) -> path_str d = d.
Proof.
  intros D0 D1 (N1 & N2 & N3). destruct (split_some d) as (x & l & E).
  assert (L : Forall (fun p => is_part p = true) l).
  { apply Forall_forall. intros p I. apply in_split in I. destruct I as (l1 & l2 & ->).
    destruct (split_pieces d p l2 (x :: l1) E) as (a & b & -> & _ & A & B1 & B2).
    destruct A as (a' & ->); [discriminate|].
    assert (B : exists b', b ++ "/" ++ file = "/" ++ b').
    { destruct l2 as [|q l2]; [rewrite (B1 eq_refl); exists file; reflexivity|].
      destruct (B2 ltac:(discriminate)) as (b' & ->). exists (b' ++ "/" ++ file). reflexivity. }
    destruct B as (b' & B). apply is_part_true. split; intros ->.
    - apply (N1 a' b'). rewrite !app_assoc_s. cbn [append] in *. now rewrite B.
    - apply (N2 a' b'). rewrite !app_assoc_s. cbn [append] in *. now rewrite B. }
  assert (X : x <> ".").
  { intros ->. destruct (split_pieces d "." l [] E) as (a & b & -> & A & _ & B1 & B2).
    rewrite (A eq_refl) in *. destruct l as [|q l].
    - rewrite (B1 eq_refl) in N3. now apply (N3 file).
    - destruct (B2 ltac:(discriminate)) as (b' & ->). apply (N3 (b' ++ "/" ++ file)). reflexivity. }
  assert (F : filter is_part l = l).
  { clear -L. induction L as [|p l H _ IH]; [reflexivity|]. cbn. now rewrite H, IH. }
  pose proof (pieces_slash d) as PS. rewrite E in PS.
  unfold path_str, path_parts. rewrite E. cbn [filter].
  destruct (String.eqb x "") eqn:Ex.
  - apply String.eqb_eq in Ex. subst x. cbn [is_part String.eqb negb andb]. rewrite F.
    pose proof (join_split d) as J. rewrite E in J.
    destruct l as [|q l]; [cbn in J; congruence|].
    rewrite join_cons in J by congruence. cbn [append] in J.
    inversion L as [|? ? Q _]. subst. apply is_part_true in Q. destruct Q as [Q _].
    assert (S : ~ starts_with_slash (join_slash (q :: l))).
    { intros (t & S). destruct q as [|c q]; [congruence|].
      inversion PS as [|? ? _ P']. inversion P' as [|? ? P'' _]. subst. apply P''. exists q.
      destruct l; cbn in S; congruence. }
    assert (R : path_root (String "/" (join_slash (q :: l))) = "/").
    { destruct (join_slash (q :: l)) as [|c j]; [reflexivity|].
      assert (C : Ascii.eqb c "/" = false)
        by (apply not_slash; intros ->; apply S; now exists j).
      cbn. destruct j; rewrite C; reflexivity. }
    cbn [append]. rewrite R. reflexivity.
  - assert (P : is_part x = true).
    { apply is_part_true. apply String.eqb_neq in Ex. now split. }
    rewrite P, F. rewrite <- E, join_split.
    rewrite root_not_slash.
    + cbn [append]. apply String.eqb_neq in D0. now rewrite D0.
    + intros (t & ->). cbn in E. injection E as <- _. apply is_part_true in P. tauto.
Qed.

Lemma neat_root file : neat ("/" ++ file) -> ~ starts_with_slash file.
Proof. intros (N & _) (t & ->). now apply (N "" t). Qed.

(* Every path is the same as its text *)
Definition tail (l : list string) : string :=
  concat_strings (map (fun p => "/" ++ p) (filter is_part l)).
Lemma tail_cases l : Forall (fun p => ~ starts_with_slash p) l ->
  tail l = "" \/ exists t, tail l = "/" ++ t /\ t <> "" /\ ~ starts_with_slash t.
Proof.
  unfold tail. induction 1 as [|p l P _ IH]; [now left|]. cbn [filter map].
  destruct (is_part p) eqn:Q; [|exact IH]. right. destruct p as [|c p]; [discriminate|].
  exists (String c p ++ concat_strings (map (fun p => "/" ++ p) (filter is_part l))).
  split; [reflexivity|]. split; [discriminate|]. intros (t & T). apply P. exists p. cbn in T.
  congruence.
Qed.
Lemma join_tail x l : is_part x = true ->
  join_slash (filter is_part (x :: l)) = x ++ tail l.
Proof.
  intro P. cbn [filter]. rewrite P. unfold tail. clear P. revert x.
  induction (filter is_part l) as [|y k IH]; intro x; [cbn; now rewrite app_nil_s|].
  rewrite join_cons by congruence. rewrite IH. reflexivity.
Qed.
Lemma join_skip x l : is_part x = false -> filter is_part l <> [] ->
  "/" ++ join_slash (filter is_part (x :: l)) = tail l.
Proof.
  intros P. cbn [filter]. rewrite P. unfold tail. 
  induction (filter is_part l) as [|y k IH]; [congruence|]. intros _.
  destruct k as [|z k]; [cbn; now rewrite app_nil_s|].
  rewrite join_cons by congruence. rewrite IH by congruence. reflexivity.
Qed.
Lemma tail_nil l : tail l = "" <-> filter is_part l = [].
Proof. unfold tail. destruct (filter is_part l); cbn; split; congruence. Qed.

Lemma last_char x : x <> "" -> exists y b, x = y ++ String b "".
Proof.
  induction x as [|c x IH]; [congruence|]. intros _. destruct x as [|d x].
  - now exists "", c.
  - destruct IH as (y & b & E); [congruence|]. exists (String c y), b. cbn. now rewrite <- E.
Qed.
Definition no_slash (x : string) : Prop := forall u v, x <> u ++ String slash v.
Lemma pieces_no_slash s : Forall no_slash (split_slash s).
Proof.
  induction s as [|c s IH]; cbn [split_slash].
  - constructor; [|constructor]. intros [|d u] v; discriminate.
  - destruct (slash_or c) as [->|C].
    + change (Ascii.eqb slash "/") with true. constructor; [|exact IH].
      intros [|d u] v; discriminate.
    + rewrite (not_slash _ C). destruct (split_some s) as (x & l & E). rewrite E in *.
      inversion IH as [|? ? H H']. subst. constructor; [|exact H'].
      intros [|d u] v; cbn; [congruence|]. intros [= -> T]. now apply (H u v).
Qed.
Lemma no_slash_start x : no_slash x -> ~ starts_with_slash x.
Proof. intros H (t & ->). now apply (H "" t). Qed.
Lemma starts_forall l : Forall no_slash l -> Forall (fun p => ~ starts_with_slash p) l.
Proof. intro H. eapply Forall_impl; [|exact H]. exact no_slash_start. Qed.

(* Behind a part *)
Lemma behind : forall l s a, Forall no_slash l -> l <> [] -> a <> slash ->
  same_path (s ++ String a "/" ++ join_slash l) (s ++ String a "" ++ tail l).
Proof.
  assert (Dot : forall s a t, a <> slash -> t = "" \/ (exists u, t = "/" ++ u /\ u <> "" /\ ~ starts_with_slash u) ->
    same_path (s ++ String a "/." ++ t) (s ++ String a "" ++ t)).
  { intros s a t A [->|(u & -> & _ & U)].
    - apply sp_trans with (s ++ String a "/").
      + replace (s ++ String a "/." ++ "") with ((s ++ String a "") ++ "/.")
          by (rewrite app_assoc_s; reflexivity).
        replace (s ++ String a "/") with ((s ++ String a "") ++ "/")
          by (rewrite app_assoc_s; reflexivity).
        apply sp_last_dot.
      + now apply sp_last_slash.
    - replace (s ++ String a "/." ++ "/" ++ u) with ((s ++ String a "") ++ "/./" ++ u)
        by (rewrite app_assoc_s; reflexivity).
      replace (s ++ String a "" ++ "/" ++ u) with ((s ++ String a "") ++ "/" ++ u)
        by (rewrite app_assoc_s; reflexivity).
      now apply sp_dot. }
  induction l as [|p l IH]; intros s a F N A; [congruence|]. clear N.
  inversion F as [|? ? P F']. subst.
  destruct (is_part p) eqn:Q.
  - assert (tail (p :: l) = "/" ++ p ++ tail l) as ->.
    { unfold tail. cbn [filter]. rewrite Q. cbn [map concat_strings]. reflexivity. }
    destruct l as [|q l].
    + unfold tail. cbn [filter map concat_strings join_slash]. rewrite app_nil_s. apply sp_refl.
    + rewrite join_cons by congruence.
      apply is_part_true in Q. destruct Q as [Q _]. destruct (last_char p Q) as (y & b & ->).
      replace (s ++ String a "/" ++ (y ++ String b "") ++ "/" ++ join_slash (q :: l))
        with ((s ++ String a "/" ++ y) ++ String b "/" ++ join_slash (q :: l))
        by (rewrite ?app_assoc_s; cbn [append]; rewrite ?app_assoc_s; reflexivity).
      replace (s ++ String a "" ++ "/" ++ (y ++ String b "") ++ tail (q :: l))
        with ((s ++ String a "/" ++ y) ++ String b "" ++ tail (q :: l))
        by (rewrite ?app_assoc_s; cbn [append]; rewrite ?app_assoc_s; reflexivity).
      apply IH; [assumption|congruence|]. intros ->. now apply (P y "").
  - assert (tail (p :: l) = tail l) as ->.
    { unfold tail. cbn [filter]. now rewrite Q. }
    assert (C : p = "" \/ p = ".").
    { destruct (String.eqb p "") eqn:E1; [left; now apply String.eqb_eq|].
      destruct (String.eqb p ".") eqn:E2; [right; now apply String.eqb_eq|].
      unfold is_part in Q. now rewrite E1, E2 in Q. }
    destruct C as [-> | ->].
    + destruct l as [|q l].
      * cbn. now apply sp_last_slash.
      * rewrite join_cons by congruence.
        apply sp_trans with (s ++ String a "/" ++ join_slash (q :: l)).
        -- now apply (sp_slashes s a (join_slash (q :: l))).
        -- apply IH; [assumption|congruence|assumption].
    + apply sp_trans with (s ++ String a "/." ++ tail l).
      * destruct l as [|q l]; [apply sp_refl|].
        rewrite join_cons by congruence.
        replace (s ++ String a "/" ++ "." ++ "/" ++ join_slash (q :: l))
          with ((s ++ String a "/") ++ String "." "/" ++ join_slash (q :: l))
          by (rewrite app_assoc_s; reflexivity).
        replace (s ++ String a "/." ++ tail (q :: l))
          with ((s ++ String a "/") ++ String "." "" ++ tail (q :: l))
          by (rewrite app_assoc_s; reflexivity).
        apply IH; [assumption|congruence|discriminate].
      * apply Dot; [assumption|]. apply tail_cases. now apply starts_forall.
Qed.

(* Behind a root *)
Lemma behind_root s t : ~ starts_with_slash t ->
  same_path (s ++ "/" ++ t) (s ++ "/" ++ join_slash (path_parts t)).
Proof.
  intro N. unfold path_parts. destruct (split_some t) as (x & l & E). rewrite E.
  pose proof (pieces_no_slash t) as F. rewrite E in F. inversion F as [|? ? X F']. subst.
  pose proof (join_split t) as J. rewrite E in J.
  assert (T : l <> [] -> x <> "").
  { intros L ->. apply N. rewrite <- J, join_cons by assumption. eexists. reflexivity. }
  assert (B : l <> [] -> same_path (s ++ "/" ++ t) (s ++ "/" ++ x ++ tail l)).
  { intro L. destruct (last_char x (T L)) as (y & b & ->).
    rewrite <- J, join_cons by assumption.
    replace (s ++ "/" ++ (y ++ String b "") ++ "/" ++ join_slash l)
      with ((s ++ "/" ++ y) ++ String b "/" ++ join_slash l)
      by (rewrite ?app_assoc_s; cbn [append]; rewrite ?app_assoc_s; reflexivity).
    replace (s ++ "/" ++ (y ++ String b "") ++ tail l)
      with ((s ++ "/" ++ y) ++ String b "" ++ tail l)
      by (rewrite ?app_assoc_s; cbn [append]; rewrite ?app_assoc_s; reflexivity).
    apply behind; [assumption|assumption|]. intros ->. now apply (X y ""). }
  destruct (is_part x) eqn:P.
  - rewrite join_tail by assumption. destruct l as [|q l]; [|apply B; congruence].
    cbn in J. subst x. unfold tail. cbn. rewrite app_nil_s. apply sp_refl.
  - assert (C : x = "" \/ x = ".").
    { destruct (String.eqb x "") eqn:E1; [left; now apply String.eqb_eq|].
      destruct (String.eqb x ".") eqn:E2; [right; now apply String.eqb_eq|].
      unfold is_part in P. now rewrite E1, E2 in P. }
    destruct C as [-> | ->].
    + destruct l; [|exfalso; now apply T]. cbn in J. subst t. apply sp_refl.
    + apply sp_trans with (s ++ "/" ++ "." ++ tail l).
      { destruct l as [|q l]; [|apply B; congruence]. cbn in J. subst t. apply sp_refl. }
      destruct (tail_cases l (starts_forall _ F')) as [Z|(u & Z & _ & U)].
      * rewrite Z. apply tail_nil in Z. cbn [filter]. change (is_part ".") with false.
        cbv iota. rewrite Z. apply sp_last_dot.
      * assert (D : filter is_part l <> []) by (intro D; apply tail_nil in D; rewrite D in Z; discriminate).
        rewrite <- (join_skip "." l eq_refl D) in Z. rewrite <- (join_skip "." l eq_refl D).
        change (filter is_part ("." :: l)) with (filter is_part l) in *. injection Z as Z. rewrite Z. now apply (sp_dot s u).
Qed.
Lemma behind_nothing t : t <> "" -> ~ starts_with_slash t ->
  same_path t (let u := join_slash (path_parts t) in if String.eqb u "" then "." else u).
Proof.
  intros NE N. unfold path_parts. destruct (split_some t) as (x & l & E). rewrite E.
  pose proof (pieces_no_slash t) as F. rewrite E in F. inversion F as [|? ? X F']. subst.
  pose proof (join_split t) as J. rewrite E in J.
  assert (T : x <> "").
  { intros ->. destruct l as [|q l]; [cbn in J; congruence|]. apply N.
    rewrite <- J, join_cons by congruence. eexists. reflexivity. }
  assert (B : same_path t (x ++ tail l)).
  { destruct l as [|q l].
    - cbn in J. subst x. unfold tail. cbn. rewrite app_nil_s. apply sp_refl.
    - destruct (last_char x T) as (y & b & ->).
      rewrite <- J, join_cons by congruence. rewrite !app_assoc_s.
      apply (behind (q :: l) y b); [assumption|congruence|]. intros ->. now apply (X y ""). }
  eapply sp_trans; [exact B|]. cbv zeta.
  destruct (is_part x) eqn:P.
  - rewrite join_tail by assumption. destruct x as [|c x]; [congruence|]. apply sp_refl.
  - assert (x = ".") as ->.
    { destruct (String.eqb x ".") eqn:E2; [now apply String.eqb_eq|].
      apply String.eqb_neq in E2.
      assert (is_part x = true) by now apply is_part_true. congruence. }
    destruct (tail_cases l (starts_forall _ F')) as [Z|(u & Z & U0 & U)].
    + rewrite Z. apply tail_nil in Z. cbn [filter]. change (is_part ".") with false.
      cbv iota. rewrite Z. apply sp_refl.
    + assert (D : filter is_part l <> []) by (intro D; apply tail_nil in D; rewrite D in Z; discriminate).
      rewrite <- (join_skip "." l eq_refl D) in Z. rewrite <- (join_skip "." l eq_refl D).
      change (filter is_part ("." :: l)) with (filter is_part l) in *. injection Z as Z. rewrite Z. apply String.eqb_neq in U0. rewrite U0.
      apply String.eqb_neq in U0. now apply (sp_first_dot u).
Qed.

Lemma str_rooted s t : ~ starts_with_slash t -> s = "" \/ s = "/" ->
  same_path (s ++ "/" ++ t) (path_str (s ++ "/" ++ t)).
Proof.
  intros N S.
  assert (R : path_root (s ++ "/" ++ t) = s ++ "/").
  { assert (E : forall c t', t = String c t' -> Ascii.eqb c "/" = false)
      by (intros c t' ->; apply not_slash; intros ->; apply N; now exists t').
    destruct S as [-> | ->]; destruct t as [|c t]; cbn; try reflexivity;
      rewrite (E _ _ eq_refl); destruct t; reflexivity. }
  assert (P : path_parts (s ++ "/" ++ t) = path_parts t).
  { change (s ++ "/" ++ t) with (s ++ String slash t). rewrite parts_app.
    destruct S as [-> | ->]; reflexivity. }
  unfold path_str. rewrite R, P. cbv zeta.
  assert (Z : String.eqb ((s ++ "/") ++ join_slash (path_parts t)) "" = false)
    by (destruct S as [-> | ->]; reflexivity).
  rewrite Z, app_assoc_s. now apply behind_root.
Qed.
Lemma slashes_or t : starts_with_slash t \/ ~ starts_with_slash t.
Proof.
  destruct t as [|c t]; [right; intros (u & U); discriminate|].
  destruct (slash_or c) as [->|C]; [left; now exists t|right]. intros (u & U). congruence.
Qed.
Lemma same_as_str s : s <> "" -> same_path s (path_str s).
Proof.
  intro NE. destruct (slashes_or s) as [(t & ->)|N].
  - assert (K : same_path (String slash t) (path_str (String slash t))); [|exact K].
    clear NE. destruct (slashes_or t) as [(u & ->)|N]; [|now apply (str_rooted "" t); [|left]].
    destruct (slashes_or u) as [(v & ->)|N]; [|now apply (str_rooted "/" u); [|right]].
    (* three or more *)
    induction v as [|c v IH].
    + apply sp_trans with "/"; [apply (sp_three ""); intros (w & W); discriminate|].
      apply sp_refl.
    + destruct (slash_or c) as [->|C].
      * pose proof (sp_many v : same_path (String slash (String slash (String slash (String slash v))))
                     (String slash (String slash (String slash v)))) as M.
        rewrite (same_str _ _ M). now apply sp_trans with (1 := M).
      * assert (N : ~ starts_with_slash (String c v)) by (intros (w & W); congruence).
        pose proof (sp_three _ N : same_path (String slash (String slash (String slash (String c v))))
                     (String slash (String c v))) as M.
        rewrite (same_str _ _ M). apply sp_trans with (1 := M).
        now apply (str_rooted "" (String c v)); [|left].
  - unfold path_str. rewrite (root_not_slash s N). now apply behind_nothing.
Qed.
