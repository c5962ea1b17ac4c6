(* Proofs for StmtEndSpec.v *)
From Coq Require Import String Ascii List Bool Arith Lia.
From Verif Require Import Base Clang Gen GenStmt Rewriter RewriterProof StmtEnd StmtEndSpec.
Import ListNotations.
Local Open Scope string_scope.

(* ---------- the reader ---------- *)

Lemma read_app s : forall m t,
  read m (s ++ t) = prepend (snd (read m s)) (read (fst (read m s)) t).
Proof.
  induction s as [|a s IH]; intros m t; cbn [append read fst snd].
  - unfold prepend. cbn. destruct (read m t); reflexivity.
  - rewrite IH. unfold prepend. cbn [fst snd]. now rewrite sapp_assoc.
Qed.

Lemma all_ascii (P : ascii -> Prop) (f : ascii -> bool) :
  (forall a, f a = true -> P a) ->
  forallb (fun n => f (ascii_of_nat n)) (seq 0 256) = true -> forall a, P a.
Proof.
  intros H F a. apply H. rewrite forallb_forall in F.
  rewrite <- (ascii_nat_embedding a). apply F. apply in_seq.
  pose proof (nat_ascii_bounded a). lia.
Qed.

Lemma white_blank a : white a = blank_char a.
Proof.
  revert a. apply (all_ascii _ (fun a => Bool.eqb (white a) (blank_char a))).
  - intros a. apply eqb_prop.
  - vm_compute. reflexivity.
Qed.
Lemma ends_newline a : ends_line a = Ascii.eqb a newline.
Proof.
  revert a. apply (all_ascii _ (fun a => Bool.eqb (ends_line a) (Ascii.eqb a newline))).
  - intros a. apply eqb_prop.
  - vm_compute. reflexivity.
Qed.

Lemma blank_code a : blank_char a = true -> in_code a = (Code, "").
Proof. intros B. unfold in_code. now rewrite white_blank, B. Qed.

Lemma length_ind (P : string -> Prop) :
  (forall s, (forall t, String.length t < String.length s -> P t) -> P s) -> forall s, P s.
Proof.
  intros H s. apply H. induction s as [|a s IH]; intros t L; cbn in L.
  - lia.
  - apply H. intros u U. apply IH. lia.
Qed.

(* ---------- white space ---------- *)

Lemma skip_blank_app s : fst (skip_blank s) ++ snd (skip_blank s) = s.
Proof.
  induction s as [s IH] using length_ind. destruct s as [|a s]; [reflexivity|].
  cbn [skip_blank]. destruct (blank_char a).
  - unfold cons_fst. cbn. f_equal. apply IH. cbn. lia.
  - destruct s as [|b s]; [reflexivity|].
    destruct (_ && _); [|reflexivity].
    unfold cons_fst. cbn. do 2 f_equal. apply IH. cbn. lia.
Qed.
Lemma skip_blank_read s : read Code (fst (skip_blank s)) = (Code, "").
Proof.
  induction s as [s IH] using length_ind. destruct s as [|a s]; [reflexivity|].
  cbn [skip_blank]. destruct (blank_char a) eqn:B.
  - unfold cons_fst. cbn [fst read one_char]. rewrite (blank_code a B).
    cbn [fst snd]. rewrite IH by (cbn; lia). reflexivity.
  - destruct s as [|b s]; [reflexivity|].
    destruct (Ascii.eqb a backslash && Ascii.eqb b newline) eqn:E; [|reflexivity].
    apply andb_true_iff in E as [Ea Eb].
    apply Ascii.eqb_eq in Ea. apply Ascii.eqb_eq in Eb. subst a b.
    unfold cons_fst. cbn [fst read one_char].
    change (in_code backslash) with (Splice, ""). cbn [fst snd one_char].
    change (ends_line newline) with true. cbn [fst snd].
    rewrite IH by (cbn; lia). reflexivity.
Qed.
(* What follows is not white space. *)
Definition solid (s : string) : Prop :=
  match s with
  | String a s' =>
      blank_char a = false /\
      (a = backslash -> match s' with String b _ => Ascii.eqb b newline = false | _ => True end)
  | EmptyString => True
  end.
Lemma skip_blank_solid s : solid (snd (skip_blank s)).
Proof.
  induction s as [s IH] using length_ind. destruct s as [|a s]; [exact I|].
  cbn [skip_blank]. destruct (blank_char a) eqn:B.
  - unfold cons_fst. cbn [snd]. apply IH. cbn. lia.
  - destruct s as [|b s].
    + cbn. now split.
    + destruct (Ascii.eqb a backslash && Ascii.eqb b newline) eqn:E.
      * unfold cons_fst. cbn [snd]. apply IH. cbn. lia.
      * cbn [snd solid]. split; [exact B|]. intros ->.
        now rewrite Ascii.eqb_refl in E.
Qed.

(* ---------- comments ---------- *)

(* After a text read up to this mode, what follows is read as code. *)
Definition resumes (m : mode) (s : string) : Prop :=
  m = Code \/ (m = Line /\ exists s', s = String newline s') \/
  ((m = Line \/ m = LineSplice) /\ s = "").
Lemma resumes_read m a s : resumes m (String a s) -> read m (String a s) = read Code (String a s).
Proof.
  intros [->|[[-> [s' E]]|[_ E]]]; [reflexivity| |discriminate].
  injection E as -> ->. reflexivity.
Qed.

Lemma line_comment_app s : forall b, fst (line_comment b s) ++ snd (line_comment b s) = s.
Proof.
  induction s as [|a s IH]; intros b; [reflexivity|].
  cbn [line_comment]. destruct (Ascii.eqb a newline).
  - destruct b; [|reflexivity]. unfold cons_fst. cbn. f_equal. apply IH.
  - unfold cons_fst. cbn. f_equal. apply IH.
Qed.

Definition line_mode (b : bool) : mode := if b then LineSplice else Line.
Lemma line_step b a :
  Ascii.eqb a newline = false ->
  one_char (line_mode b) a =
  (line_mode (Ascii.eqb a backslash || (b && horizontal a)), "").
Proof.
  revert a. apply (all_ascii (fun a => Ascii.eqb a newline = false ->
    one_char (line_mode b) a = (line_mode (Ascii.eqb a backslash || (b && horizontal a)), ""))
    (fun a => implb (negb (Ascii.eqb a newline))
    (match one_char (line_mode b) a, line_mode (Ascii.eqb a backslash || (b && horizontal a)) with
     | (Line, ""), Line | (LineSplice, ""), LineSplice => true | _, _ => false end))).
  - intros a H N. rewrite N in H. cbn [negb implb] in H.
    destruct (one_char (line_mode b) a) as [m o].
    destruct m; try discriminate H; destruct o; try discriminate H;
      destruct (line_mode _); try discriminate H; reflexivity.
  - destruct b; vm_compute; reflexivity.
Qed.
Lemma line_comment_read s : forall b,
  exists m, read (line_mode b) (fst (line_comment b s)) = (m, "") /\
            resumes m (snd (line_comment b s)) /\ m <> Code.
Proof.
  induction s as [|a s IH]; intros b.
  - exists (line_mode b). cbn. split; [reflexivity|]. split.
    + right. right. split; [destruct b; [right|left]; reflexivity|reflexivity].
    + destruct b; discriminate.
  - cbn [line_comment]. destruct (Ascii.eqb a newline) eqn:N.
    + apply Ascii.eqb_eq in N. subst a. destruct b.
      * destruct (IH false) as (m & R & Q & N). exists m. unfold cons_fst. cbn [fst snd read line_mode one_char].
        change (ends_line newline) with true. cbn [fst snd]. change Line with (line_mode false).
        rewrite R. now split.
      * exists Line. cbn [fst snd read line_mode]. split; [reflexivity|]. split; [|discriminate].
        right. left. split; [reflexivity|]. now exists s.
    + destruct (IH (Ascii.eqb a backslash || (b && horizontal a))) as (m & R & Q & M).
      exists m. unfold cons_fst. cbn [fst snd read].
      rewrite (line_step b a N). cbn [fst snd]. rewrite R. now split.
Qed.

Definition block_mode (b : bool) : mode := if b then BlockStar else Block.
Lemma block_step b a :
  b && Ascii.eqb a "/" = false -> one_char (block_mode b) a = (block_mode (Ascii.eqb a "*"), "").
Proof.
  revert a. apply (all_ascii (fun a => b && Ascii.eqb a "/" = false ->
    one_char (block_mode b) a = (block_mode (Ascii.eqb a "*"), ""))
    (fun a => implb (negb (b && Ascii.eqb a "/"))
    (match one_char (block_mode b) a, block_mode (Ascii.eqb a "*") with
     | (Block, ""), Block | (BlockStar, ""), BlockStar => true | _, _ => false end))).
  - intros a H N. rewrite N in H. cbn [negb implb] in H.
    destruct (one_char (block_mode b) a) as [m o].
    destruct m; try discriminate H; destruct o; try discriminate H;
      destruct (block_mode _); try discriminate H; reflexivity.
  - destruct b; vm_compute; reflexivity.
Qed.
Lemma block_comment_some s : forall b c r,
  block_comment b s = Some (c, r) -> c ++ r = s /\ read (block_mode b) c = (Code, "").
Proof.
  induction s as [|a s IH]; intros b c r E; [discriminate|].
  cbn [block_comment] in E. destruct (b && Ascii.eqb a "/") eqn:N.
  - injection E as <- <-. apply andb_true_iff in N as [-> N].
    apply Ascii.eqb_eq in N. subst a. now split.
  - destruct (block_comment (Ascii.eqb a "*") s) as [[c' r']|] eqn:F; [|discriminate].
    unfold cons_fst in E. cbn [fst snd] in E. injection E as <- <-.
    destruct (IH _ _ _ F) as [A R]. split; [cbn; now f_equal|].
    cbn [read]. rewrite (block_step b a N). cbn [fst snd]. now rewrite R.
Qed.
Lemma block_comment_none s : forall b,
  block_comment b s = None ->
  exists b', read (block_mode b) s = (block_mode b', "").
Proof.
  induction s as [|a s IH]; intros b E; [now exists b|].
  cbn [block_comment] in E. destruct (b && Ascii.eqb a "/") eqn:N; [discriminate|].
  destruct (block_comment (Ascii.eqb a "*") s) as [p|] eqn:F; [discriminate|].
  destruct (IH _ F) as [b' R]. exists b'.
  cbn [read]. rewrite (block_step b a N). cbn [fst snd]. now rewrite R.
Qed.

(* ---------- tokens ---------- *)

Lemma token_comment s t r :
  token_at s = (TComment, t, r) ->
  t ++ r = s /\ 2 <= String.length t /\
  exists m, read Code t = (m, "") /\ resumes m r.
Proof.
  destruct s as [|a [|b s]]; cbn [token_at]; [discriminate| |].
  - destruct (Ascii.eqb a ";"); [discriminate|]. destruct (Ascii.eqb a "#"); discriminate.
  - destruct (Ascii.eqb a "/" && Ascii.eqb b "/") eqn:E1.
    { apply andb_true_iff in E1 as [Ea Eb].
      apply Ascii.eqb_eq in Ea. apply Ascii.eqb_eq in Eb. subst a b.
      intros H.
      assert (t = String "/" (String "/" (fst (line_comment false s)))) by congruence.
      assert (r = snd (line_comment false s)) by congruence. subst t r. clear H.
      split; [cbn; rewrite line_comment_app; reflexivity|]. split; [cbn; lia|].
      destruct (line_comment_read s false) as (m & R & Q & _). exists m. split; [|exact Q].
      change (read Code (String "/" (String "/" (fst (line_comment false s)))))
        with (prepend "" (prepend "" (read (line_mode false) (fst (line_comment false s))))).
      now rewrite R. }
    destruct (Ascii.eqb a "/" && Ascii.eqb b "*") eqn:E2.
    { apply andb_true_iff in E2 as [Ea Eb].
      apply Ascii.eqb_eq in Ea. apply Ascii.eqb_eq in Eb. subst a b.
      destruct (block_comment false s) as [[c r']|] eqn:F; [|discriminate].
      intros H. assert (t = String "/" (String "*" c)) by congruence.
      assert (r = r') by congruence. subst t r. clear H.
      destruct (block_comment_some _ _ _ _ F) as [A R]. subst s.
      split; [reflexivity|]. split; [cbn; lia|].
      exists Code. split; [|now left].
      change (read Code (String "/" (String "*" c)))
        with (prepend "" (prepend "" (read (block_mode false) c))).
      now rewrite R. }
    destruct (Ascii.eqb a ";"); [discriminate|].
    destruct (_ || _); discriminate.
Qed.

Lemma token_semi s t r :
  token_at s = (TSemi, t, r) -> t = ";" /\ s = String ";" r.
Proof.
  destruct s as [|a [|b s]]; cbn [token_at]; [discriminate| |].
  - destruct (Ascii.eqb a ";") eqn:E.
    + apply Ascii.eqb_eq in E. subst a. intros H. split; congruence.
    + destruct (Ascii.eqb a "#"); discriminate.
  - destruct (_ && _); [discriminate|]. destruct (Ascii.eqb a "/" && Ascii.eqb b "*").
    { destruct (block_comment false s) as [[c r']|]; discriminate. }
    destruct (Ascii.eqb a ";") eqn:E.
    + apply Ascii.eqb_eq in E. subst a. intros H. split; congruence.
    + destruct (_ || _); discriminate.
Qed.

(* ---------- comments in a row ---------- *)

Lemma over_comments_read turns : forall s taken b rest,
  over_comments turns s = (taken, b, rest) ->
  s = taken ++ rest /\ (b = false -> taken = "") /\
  exists m, read Code taken = (m, "") /\ resumes m rest.
Proof.
  induction turns as [|turns IH]; intros s taken b rest E; cbn [over_comments] in E.
  - injection E as <- <- <-. split; [reflexivity|]. split; [reflexivity|].
    exists Code. split; [reflexivity|now left].
  - unfold next_token in E.
    destruct (token_at (snd (skip_blank s))) as [[k t] r] eqn:T.
    assert (D : k = TComment \/ k <> TComment) by (destruct k; [left|right|right|right]; congruence).
    destruct D as [->|D].
    2: { assert ((taken, b, rest) = ("", false, s)) as E' by (rewrite <- E; destruct k; congruence).
         injection E' as -> -> ->. split; [reflexivity|]. split; [reflexivity|].
         exists Code. split; [reflexivity|now left]. }
    destruct (over_comments turns r) as [[taken1 b1] rest1] eqn:O.
    assert (taken = fst (skip_blank s) ++ t ++ taken1) by congruence.
    assert (b = true) by congruence. assert (rest = rest1) by congruence. subst taken b rest.
    destruct (IH _ _ _ _ O) as (A & _ & m & R & Q).
    destruct (token_comment _ _ _ T) as (B & L & m1 & R1 & Q1).
    split; [|split; [discriminate|]].
    + rewrite !sapp_assoc, <- A, B. symmetry. apply skip_blank_app.
    + rewrite read_app, skip_blank_read. cbn [fst snd].
      rewrite read_app, R1. cbn [fst snd].
      destruct taken1 as [|a taken1].
      * cbn in A. subst r. exists m1. now split.
      * exists m. split; [|exact Q]. subst r.
        assert (resumes m1 (String a taken1)) as Q2.
        { destruct Q1 as [->|[[-> [s' E1]]|[_ E1]]]; [now left| |discriminate].
          right. left. split; [reflexivity|]. cbn in E1. injection E1 as -> _. now exists taken1. }
        rewrite (resumes_read _ _ _ Q2), R. reflexivity.
Qed.

Lemma over_comments_done turns : forall s taken b rest,
  String.length s <= turns ->
  over_comments turns s = (taken, b, rest) ->
  fst (fst (token_at (snd (skip_blank rest)))) <> TComment.
Proof.
  induction turns as [|turns IH]; intros s taken b rest L E; cbn [over_comments] in E.
  - injection E as <- <- <-. destruct s; [|cbn in L; lia]. cbn. discriminate.
  - unfold next_token in E.
    destruct (token_at (snd (skip_blank s))) as [[k t] r] eqn:T.
    assert (D : k = TComment \/ k <> TComment) by (destruct k; [left|right|right|right]; congruence).
    destruct D as [->|D].
    2: { assert ((taken, b, rest) = ("", false, s)) as E' by (rewrite <- E; destruct k; congruence).
         injection E' as -> -> ->. now rewrite T. }
    destruct (over_comments turns r) as [[taken1 b1] rest1] eqn:O.
    assert (rest = rest1) by congruence. subst rest.
    apply (IH r taken1 b1 rest1); [|exact O].
    destruct (token_comment _ _ _ T) as (B & L' & _).
    assert (String.length (snd (skip_blank s)) = String.length t + String.length r) as L1
      by (rewrite <- B; clear; induction t; cbn; congruence).
    assert (String.length s = String.length (fst (skip_blank s)) + String.length (snd (skip_blank s))) as L2.
    { rewrite <- (skip_blank_app s) at 1. generalize (fst (skip_blank s)) (snd (skip_blank s)). clear.
      intros u v. induction u; cbn; congruence. }
    lia.
Qed.

(* ---------- code ---------- *)

Lemma code_app_code s t : fst (read Code s) = Code -> code (s ++ t) = snd (read Code s) ++ code t.
Proof.
  intros E. unfold code. rewrite read_app, E. unfold prepend. cbn [fst snd]. apply sapp_assoc.
Qed.
Lemma code_resumes s t m :
  read Code s = (m, "") -> resumes m t -> code (s ++ t) = code t.
Proof.
  intros E Q. destruct t as [|a t].
  - rewrite sapp_nil_r. unfold code. rewrite E. cbn [fst snd].
    destruct Q as [->|[[-> _]|[[->| ->] _]]]; reflexivity.
  - unfold code. rewrite read_app, E. cbn [fst snd].
    rewrite (resumes_read _ _ _ Q). reflexivity.
Qed.
Lemma code_skip s : code (snd (skip_blank s)) = code s.
Proof.
  rewrite <- (skip_blank_app s) at 2. rewrite code_app_code; rewrite skip_blank_read; reflexivity.
Qed.

(* The first character of code *)
Lemma ordinary_code a :
  blank_char a = false -> a <> "/"%char -> a <> backslash ->
  exists m, in_code a = (m, String a "").
Proof.
  intros B S Q. unfold in_code. rewrite white_blank, B.
  destruct a as [[] [] [] [] [] [] [] []];
    try (eexists; reflexivity); exfalso; (now apply S) || (now apply Q).
Qed.
Lemma slash_code b :
  b <> "/"%char -> b <> "*"%char -> one_char Slash b = prepend "/" (in_code b).
Proof.
  intros S Q. destruct b as [[] [] [] [] [] [] [] []];
    try reflexivity; exfalso; (now apply S) || (now apply Q).
Qed.

Lemma first_code a s :
  solid (String a s) -> fst (fst (token_at (String a s))) <> TComment ->
  code (String a s) <> "" -> exists v, code (String a s) = String a v.
Proof.
  intros [B Q] N C.
  destruct (Ascii.eqb a "/") eqn:E1.
  { apply Ascii.eqb_eq in E1. subst a. destruct s as [|b s]; [now exists ""|].
    destruct (Ascii.eqb b "/") eqn:E2.
    { apply Ascii.eqb_eq in E2. subst b. now exfalso; apply N. }
    destruct (Ascii.eqb b "*") eqn:E3.
    { apply Ascii.eqb_eq in E3. subst b. exfalso. cbn [token_at] in N.
      change (Ascii.eqb "/" "/" && Ascii.eqb "*" "/") with false in N.
      change (Ascii.eqb "/" "/" && Ascii.eqb "*" "*") with true in N. cbn [fst] in N.
      destruct (block_comment false s) as [[c r]|] eqn:F; [now apply N|].
      destruct (block_comment_none _ _ F) as [b' R].
      apply C. unfold code.
      change (read Code (String "/" (String "*" s))) with (prepend "" (prepend "" (read (block_mode false) s))).
      rewrite R. now destruct b'. }
    apply Ascii.eqb_neq in E2. apply Ascii.eqb_neq in E3.
    unfold code. cbn [read one_char]. change (in_code "/") with (Slash, "").
    cbn [fst snd]. rewrite (slash_code b E2 E3).
    eexists. unfold prepend. cbn. reflexivity. }
  destruct (Ascii.eqb a backslash) eqn:E2.
  { apply Ascii.eqb_eq in E2. subst a. specialize (Q eq_refl). destruct s as [|b s]; [now exists ""|].
    unfold code. cbn [read one_char]. change (in_code backslash) with (Splice, "").
    cbn [fst snd one_char]. rewrite ends_newline, Q.
    eexists. unfold prepend. cbn. reflexivity. }
  apply Ascii.eqb_neq in E1. apply Ascii.eqb_neq in E2.
  destruct (ordinary_code a B E1 E2) as [m M].
  unfold code. cbn [read one_char]. rewrite M.
  eexists. unfold prepend. cbn. reflexivity.
Qed.

(* ---------- the whole ---------- *)

Lemma solid_token s : solid s -> code s <> "" -> fst (fst (token_at s)) <> TComment ->
  exists a s' v, s = String a s' /\ code s = String a v.
Proof.
  intros S C N. destruct s as [|a s]; [now exfalso; apply C|].
  destruct (first_code a s S N C) as [v V]. now exists a, s, v.
Qed.

Lemma hash_second s : code (String "#" (String "#" s)) = String "#" (String "#" (code s)).
Proof. unfold code. reflexivity. Qed.

Lemma token_hash s v :
  usual (code s) -> s <> "" -> code s = String "#" v -> (exists s', s = String "#" s') ->
  fst (fst (token_at s)) = THash.
Proof.
  intros U N E [s' ->]. destruct s' as [|b s']; [reflexivity|].
  destruct (Ascii.eqb b "#") eqn:B.
  - apply Ascii.eqb_eq in B. subst b. rewrite hash_second in U. destruct U.
  - cbn [token_at].
    change (Ascii.eqb "#" "/" && Ascii.eqb b "/") with false.
    change (Ascii.eqb "#" "/" && Ascii.eqb b "*") with false.
    change (Ascii.eqb "#" ";") with false. change (Ascii.eqb "#" "#") with true.
    rewrite B. reflexivity.
Qed.
Lemma token_not_hash s a s' :
  s = String a s' -> a <> "#"%char -> a <> "%"%char -> fst (fst (token_at s)) <> THash.
Proof.
  intros -> H P. apply Ascii.eqb_neq in H. apply Ascii.eqb_neq in P.
  destruct s' as [|b s']; cbn [token_at].
  - rewrite H. destruct (Ascii.eqb a ";"); discriminate.
  - rewrite H, P. cbn [andb orb].
    destruct (_ && _); [discriminate|]. destruct (_ && _).
    { destruct (block_comment false s') as [[c r]|]; discriminate. }
    destruct (Ascii.eqb a ";"); discriminate.
Qed.

Lemma closing_other a v : a <> ";"%char -> a <> "#"%char -> closing (String a v) = "}".
Proof.
  intros S H. destruct a as [[] [] [] [] [] [] [] []];
    try reflexivity; exfalso; (now apply S) || (now apply H).
Qed.
Lemma behind_other a v : a <> ";"%char -> behind_semicolon (String a v) = String a v.
Proof.
  intros S. destruct a as [[] [] [] [] [] [] [] []]; try reflexivity; exfalso; now apply S.
Qed.
Lemma usual_percent v : ~ usual (String "%" v).
Proof. intros []. Qed.

Lemma extend_code start finish after :
  code after <> "" -> usual (code after) ->
  let x := extend after in
  after = x_taken x ++ x_rest x /\
  code (x_taken x ++ stmt_close (site_at start finish after) ++ x_rest x) =
  closing (code after) ++ behind_semicolon (code after).
Proof.
  intros C U. cbv zeta. unfold site_at, stmt_close.
  cbn [s_ext_comment s_ext_semi s_next_hash]. unfold extend.
  destruct (over_comments (String.length after) after) as [[taken b] rest] eqn:O.
  destruct (over_comments_read _ _ _ _ _ O) as (A & T0 & m & R & Q).
  pose proof (over_comments_done _ _ _ _ _ (le_n _) O) as D.
  assert (CR : code after = code rest) by (rewrite A; now apply (code_resumes taken rest m)).
  rewrite <- (code_skip rest) in CR. rewrite CR in C, U |- *.
  destruct (solid_token _ (skip_blank_solid rest) C D) as (a & r & v & S & V).
  unfold next_token.
  destruct (token_at (snd (skip_blank rest))) as [[k t] r'] eqn:T. cbn [fst] in D.
  assert (K : k = TSemi \/ k <> TSemi) by (destruct k; [right|left|right|right]; congruence).
  destruct K as [->|K].
  - destruct (token_semi _ _ _ T) as [-> S'].
    assert (a = ";"%char) by congruence. assert (r = r') by congruence. subst a r'. clear T.
    cbn [x_taken x_rest x_comment x_semi x_hash]. rewrite andb_false_r. cbn [negb andb].
    cbn [append].
    assert (E : rest = fst (skip_blank rest) ++ String ";" r)
      by (rewrite <- S; symmetry; apply skip_blank_app).
    split.
    + rewrite A. rewrite !sapp_assoc. cbn [append]. now rewrite <- E.
    + rewrite S in *.
      assert (code (String ";" r) = String ";" (code r)) as V' by reflexivity.
      rewrite V'. cbn [closing behind_semicolon].
      rewrite !sapp_assoc. change (";" ++ String " " (String "}" r)) with (";" ++ " }" ++ r).
      rewrite <- (sapp_assoc (fst (skip_blank rest)) ";").
      assert (W : read Code (fst (skip_blank rest) ++ ";") = (Code, ";"))
        by (rewrite read_app, skip_blank_read; reflexivity).
      set (w := fst (skip_blank rest) ++ ";") in *.
      assert (Q' : resumes m (w ++ " }" ++ r)).
      { clear W. revert E w. generalize (fst (skip_blank rest)). intros w0 E w.
        destruct Q as [->|[[-> [s' E1]]|[_ E1]]]; [now left| |].
        - right. left. split; [reflexivity|]. rewrite E1 in E.
          unfold w. destruct w0 as [|x w']; [discriminate E|].
          cbn in E. injection E as <- _. eexists. reflexivity.
        - exfalso. rewrite E1 in E. destruct w0; discriminate E. }
      rewrite (code_resumes taken _ m R Q').
      rewrite code_app_code by (now rewrite W). rewrite W. cbn [snd].
      rewrite code_app_code by reflexivity. reflexivity.
  - assert (X : (match (fst (skip_blank rest), (k, t, r')) with
                 | (w, (TSemi, t, rest')) =>
                     {| x_taken := taken ++ w ++ t; x_comment := b; x_semi := true;
                        x_hash := is_hash rest'; x_rest := rest' |}
                 | _ => {| x_taken := taken; x_comment := b; x_semi := false;
                           x_hash := is_hash rest; x_rest := rest |}
                 end) = {| x_taken := taken; x_comment := b; x_semi := false;
                           x_hash := is_hash rest; x_rest := rest |})
      by (destruct k; congruence).
    rewrite X. clear X. cbn [x_taken x_rest x_comment x_semi x_hash negb andb].
    split; [exact A|]. rewrite andb_true_r.
    assert (NS : a <> ";"%char).
    { intros ->. apply K. rewrite S in T. destruct r as [|x r]; cbn in T; congruence. }
    (* up to the optional new line all is white space and comments *)
    assert (P : read Code (taken ++ (if b then nl else "")) = (Code, "")).
    { destruct b.
      - rewrite read_app, R. cbn [fst snd].
        destruct Q as [->|[[-> _]|[_ E1]]]; [reflexivity..|].
        exfalso. rewrite E1 in S. discriminate S.
      - rewrite (T0 eq_refl). reflexivity. }
    rewrite !sapp_assoc. rewrite <- (sapp_assoc taken).
    rewrite code_app_code by (now rewrite P). rewrite P. cbn [snd append].
    assert (CS : code rest = code (snd (skip_blank rest))) by (symmetry; apply code_skip).
    assert (HH : is_hash rest = match k with THash => true | _ => false end).
    { unfold is_hash, next_token. rewrite T. reflexivity. }
    rewrite HH. rewrite V in *. rewrite (behind_other a v NS).
    destruct (Ascii.eqb a "#") eqn:EH.
    + apply Ascii.eqb_eq in EH. subst a.
      assert (k = THash) as ->.
      { assert (fst (fst (token_at (snd (skip_blank rest)))) = THash) as F.
        { apply (token_hash _ v); [now rewrite V|rewrite S; discriminate|exact V|now exists r]. }
        rewrite T in F. exact F. }
      rewrite <- CS.
      transitivity (";}" ++ code rest); [reflexivity|]. rewrite CS. reflexivity.
    + apply Ascii.eqb_neq in EH.
      assert (NP : a <> "%"%char) by (intros ->; exact (usual_percent v U)).
      assert (k <> THash) as NH.
      { pose proof (token_not_hash _ a r S EH NP) as F. rewrite T in F. exact F. }
      rewrite (closing_other a v NS EH).
      replace (match k with THash => true | _ => false end) with false by (destruct k; congruence).
      cbn [append]. change (String " " (String "}" rest)) with (" }" ++ rest).
      rewrite code_app_code by reflexivity. rewrite CS. reflexivity.
Qed.

(* Two insertions *)
Lemma cells_app s t : exists l, cells_of (s ++ t) = (l ++ cells_of t)%list /\
  render l = s /\ List.length l = String.length s.
Proof.
  induction s as [|a s (l & E & R & L)].
  - exists []. now split.
  - exists (("", char_string a) :: l). cbn [append cells_of]. rewrite E. split; [reflexivity|].
    split; [|cbn; now rewrite L]. unfold render in *. cbn. rewrite R. reflexivity.
Qed.
Lemma update_app {A} f (l k : list A) n : update_nth (List.length l + n) f (l ++ k) = (l ++ update_nth n f k)%list.
Proof. induction l as [|x l IH]; cbn; [reflexivity|]. now rewrite IH. Qed.
Lemma update_app0 {A} f (l k : list A) : update_nth (List.length l) f (l ++ k) = (l ++ update_nth 0 f k)%list.
Proof. rewrite <- update_app. now rewrite Nat.add_0_r. Qed.
Lemma cells_head s : exists y l, cells_of s = ("", y) :: l.
Proof. destruct s; cbn; do 2 eexists; reflexivity. Qed.

Lemma insert_two a b c s t :
  rewrite (a ++ b ++ c) [InsertBefore (String.length a) s;
                         InsertAfterToken (String.length a + String.length b) t] =
  a ++ s ++ b ++ t ++ c.
Proof.
  unfold rewrite, apply_edits. cbn [fold_left apply_edit].
  destruct (cells_app a (b ++ c)) as (la & Ea & Ra & La).
  destruct (cells_app b c) as (lb & Eb & Rb & Lb).
  destruct (cells_head c) as (y & l & Ec).
  rewrite Ea, <- La. rewrite update_app0, update_app. rewrite render_app, Ra. f_equal.
  rewrite Eb, <- Lb.
  assert (Rc : render (("", y) :: l) = c) by (rewrite <- Ec; apply render_cells).
  destruct lb as [|[x1 x2] lb].
  - cbn in Rb. subst b. cbn [app update_nth List.length Nat.add append].
    rewrite Ec. cbn [update_nth fst snd]. unfold render in *. cbn [map concat_strings cell_text fst snd append] in *.
    rewrite <- Rc. unfold cell_text. cbn [fst snd append]. now rewrite sapp_nil_r, !sapp_assoc.
  - cbn [app update_nth List.length Nat.add fst snd].
    rewrite update_app0, Ec. cbn [update_nth fst snd append].
    change ((s ++ x1, x2) :: (lb ++ (t, y) :: l)%list) with ((((s ++ x1)%string, x2) :: lb) ++ (t, y) :: l)%list.
    rewrite render_app. unfold render in *. cbn [map concat_strings] in *.
    unfold cell_text at 1 in Rb. unfold cell_text at 1 3. cbn [fst snd] in *.
    unfold cell_text at 1 in Rc. cbn [fst snd append] in Rc.
    rewrite <- Rb, <- Rc. now rewrite !sapp_assoc.
Qed.

Lemma insert_one a c s : rewrite (a ++ c) [InsertBefore (String.length a) s] = a ++ s ++ c.
Proof.
  unfold rewrite, apply_edits. cbn [fold_left apply_edit].
  destruct (cells_app a c) as (la & Ea & Ra & La).
  destruct (cells_head c) as (y & l & Ec).
  rewrite Ea, <- La. rewrite update_app0.
  rewrite render_app, Ra. f_equal. rewrite Ec. cbn [update_nth fst snd].
  assert (Rc : render (("", y) :: l) = c) by (rewrite <- Ec; apply render_cells).
  unfold render in *. cbn [map concat_strings] in *. unfold cell_text at 1. unfold cell_text at 1 in Rc.
  cbn [fst snd append] in *. rewrite <- Rc. now rewrite sapp_nil_r, !sapp_assoc.
Qed.

Lemma string_length_app a b : String.length (a ++ b) = String.length a + String.length b.
Proof. induction a; cbn; congruence. Qed.

Lemma removal_text o before stmt after id :
  track o = false -> code after <> "" -> usual (code after) ->
  exists tail,
    rewrite (before ++ stmt ++ after)
            (stmt_edits o (site_at (String.length before)
                                   (String.length before + String.length stmt) after) id) =
    before ++ "if (!__dredd_enabled_mutation(" ++ string_of_nat id ++ ")) { " ++ stmt ++ tail /\
    code tail = closing (code after) ++ behind_semicolon (code after).
Proof.
  intros T C U.
  destruct (extend_code (String.length before) (String.length before + String.length stmt) after C U)
    as [A E].
  set (site := site_at _ _ after) in *.
  exists (x_taken (extend after) ++ stmt_close site ++ x_rest (extend after)). split; [|exact E].
  unfold stmt_edits, stmt_open. rewrite T. unfold site at 1 2. unfold site_at at 1 2. cbn [s_range r_begin r_end].
  replace (before ++ stmt ++ after)
    with (before ++ (stmt ++ x_taken (extend after)) ++ x_rest (extend after))
    by (rewrite A at 3; now rewrite sapp_assoc).
  rewrite <- Nat.add_assoc, <- string_length_app, insert_two. now rewrite !sapp_assoc.
Qed.

Lemma coverage_text o before stmt after id :
  track o = true ->
  rewrite (before ++ stmt ++ after)
          (stmt_edits o (site_at (String.length before)
                                 (String.length before + String.length stmt) after) id) =
  before ++ "__dredd_record_covered_mutants(" ++ string_of_nat id ++ ", 1); " ++ stmt ++ after.
Proof.
  intros T. unfold stmt_edits, stmt_open. rewrite T. unfold site_at. cbn [s_range r_begin].
  rewrite insert_one. now rewrite !sapp_assoc.
Qed.
