(* C72: reading a text and the edited text side by side. *)
From Coq Require Import String Ascii List Arith NArith ZArith Bool Lia.
From Verif Require Import Base Clang Gen GenExpr GenBinary GenUnary GenStmt Mutation MutTree TreeSpec
  Rewriter RewriterProof PreludeText Run RunSpec RunProof RunProof2 CText FunText NameSpec NameProof
  LineSpec LineProof LineTop HeaderSpec HeaderProof.
Import ListNotations.
Local Open Scope string_scope.

Definition out_of_directive (p : place_in_line) : Prop := p = LineStart \/ p = InOtherLine.

(* Texts that can be put into a line *)
Definition safe (s : string) : Prop :=
  (forall l, lines_from {| found := l; place := InOtherLine |} s = {| found := l; place := InOtherLine |}) /\
  (forall l, exists p, lines_from {| found := l; place := LineStart |} s = {| found := l; place := p |} /\
                       out_of_directive p).
Lemma safe_nil : safe "".
Proof. split; intros l; [reflexivity|]. exists LineStart. split; [reflexivity|now left]. Qed.
Lemma safe_app a b : safe a -> safe b -> safe (a ++ b).
Proof.
  intros [A1 A2] [B1 B2]. split; intros l; rewrite lines_app.
  - now rewrite A1.
  - destruct (A2 l) as (p & -> & [->| ->]).
    + apply B2.
    + exists InOtherLine. split; [apply B1|now right].
Qed.
Lemma safe_plain s : newlines s = 0 -> hashes s = 0 -> safe s.
Proof.
  induction s as [|c s IH]; intros N H; [apply safe_nil|].
  cbn [newlines hashes] in *.
  assert (S : safe s) by (apply IH; lia).
  destruct (Ascii.eqb c line_feed) eqn:E1; [lia|]. destruct (Ascii.eqb c hash) eqn:E2; [lia|].
  destruct S as [S1 S2]. unfold line_feed, hash in *.
  split; intros l; cbn [lines_from line_char place found]; rewrite E1; rewrite ?E2.
  - apply S1.
  - exists InOtherLine. split; [apply S1|now right].
Qed.
Lemma site_safe c o m first id e : In e (a_edits (apply_mutation c o m first id)) -> safe (inserted_text e).
Proof.
  intros H. pose proof (site_hashless c o m first id e H) as Z. revert H.
  destruct m as [x i|b i il ir|u i is|s i]; cbn [apply_mutation a_edits]; intros H.
  - apply safe_plain; [|exact Z]. eapply expr_flat; eassumption.
  - apply safe_plain; [|exact Z]. destruct (c_logical c b); [eapply logical_flat|eapply binary_flat]; eassumption.
  - apply safe_plain; [|exact Z]. eapply unary_flat; eassumption.
  - unfold stmt_edits, stmt_open, stmt_close in H.
    destruct (track o); cbn [In] in H; repeat (destruct H as [<-|H]; [cbn [inserted_text] in *|]); try contradiction.
    + apply safe_plain; [|exact Z]. now rewrite !newlines_app, newlines_number.
    + apply safe_plain; [|exact Z]. now rewrite !newlines_app, newlines_number.
    + destruct (s_ext_comment s), (s_ext_semi s), (s_next_hash s);
      (split; intros l; [reflexivity|eexists; split; [reflexivity|now right]]).
Qed.

Lemma effs_fst_safe l k : forall x, (forall e, In e l -> safe (inserted_text e)) -> safe (fst x) ->
  safe (fst (effs l k x)).
Proof.
  induction l as [|e l IH]; intros x H Hx; [exact Hx|]. cbn [effs fold_left].
  fold (effs l k (eff e k x)). apply IH; [intros; apply H; now right|].
  specialize (H e (or_introl eq_refl)). destruct e as [off s|off s|off len s]; cbn [eff inserted_text] in *.
  - destruct (Nat.eqb k off); [now apply safe_app|exact Hx].
  - destruct (Nat.eqb k off); [now apply safe_app|exact Hx].
  - destruct (Nat.eqb k off); [exact Hx|]. now destruct (_ && _).
Qed.
Lemma effs_snd_safe l k : forall x, (forall e, In e l -> safe (inserted_text e)) ->
  (exists e, In e l /\ covers e k = true) -> safe (snd (effs l k x)).
Proof.
  assert (G : forall l x, (forall e, In e l -> safe (inserted_text e)) -> safe (snd x) -> safe (snd (effs l k x))).
  { clear l. induction l as [|e l IH]; intros x H Hx; [exact Hx|]. cbn [effs fold_left].
    fold (effs l k (eff e k x)). apply IH; [intros; apply H; now right|].
    specialize (H e (or_introl eq_refl)). destruct e as [off s|off s|off len s]; cbn [eff inserted_text] in *.
    - now destruct (Nat.eqb k off).
    - now destruct (Nat.eqb k off).
    - destruct (Nat.eqb k off); [exact H|]. destruct (_ && _); [apply safe_nil|exact Hx]. }
  induction l as [|e l IH]; intros x H (e' & I & C); [contradiction|]. cbn [effs fold_left].
  fold (effs l k (eff e k x)). destruct I as [<-|I].
  - apply G; [intros; apply H; now right|]. specialize (H e (or_introl eq_refl)).
    destruct e as [off s|off s|off len s]; try discriminate C. cbn [eff inserted_text covers] in *.
    destruct (Nat.eqb k off); [exact H|]. cbn [orb] in C. rewrite C. apply safe_nil.
  - apply IH; [intros; apply H; now right|]. now exists e'.
Qed.

(** * Side by side *)

Section Reading.
Context (text : string) (es : list edit).
Definition start : directives := {| found := []; place := LineStart |}.
Definition original (k : nat) : directives := lines_from start (substring 0 k text).

Lemma original_0 : original 0 = start.
Proof. unfold original. now destruct text. Qed.
Lemma original_S k c : get k text = Some c -> original (S k) = line_char (original k) c.
Proof. intros G. unfold original. rewrite (substring_S text k c G), lines_app. reflexivity. Qed.

Lemma line_start_feed r c : place (line_char r c) = LineStart -> c = line_feed.
Proof.
  unfold line_char. destruct r as [l p]. cbn [place found].
  destruct (Ascii.eqb_spec c "010") as [E|N]; intros P; [exact E|].
  destruct p; [destruct (Ascii.eqb c "#")| |]; discriminate P.
Qed.
(* Where a line that begins with # began *)
Lemma original_directive k s : k <= String.length text -> place (original k) = InDirectiveLine s ->
  exists i, i < k /\ line_begins text i /\ get i text = Some hash /\
    forall j, i <= j < k -> get j text <> Some line_feed.
Proof.
  assert (B : forall k, k <= String.length text -> place (original k) = LineStart -> line_begins text k).
  { clear k s. intros [|k] L P; [now left|]. right. exists k. split; [reflexivity|].
    destruct (get_lt text k) as (c & G); [lia|]. rewrite (original_S k c G) in P. rewrite G. f_equal.
    now apply line_start_feed in P. }
  revert s. induction k as [|k IH]; intros s L P; [rewrite original_0 in P; discriminate P|].
  destruct (get_lt text k) as (c & G); [lia|]. rewrite (original_S k c G) in P. revert P. unfold line_char.
  destruct (place (original k)) as [|s0|] eqn:Q.
  - destruct (Ascii.eqb_spec c "010"); [congruence|]. destruct (Ascii.eqb_spec c "#") as [Ec|]; [|discriminate].
    intros P. subst c.
    exists k. split; [lia|]. split; [apply B; [lia|exact Q]|]. split; [exact G|].
    intros j Hj. replace j with k by lia. rewrite G. intros [=].
  - destruct (Ascii.eqb_spec c "010") as [|N]; [discriminate|]. intros P.
    destruct (IH s0 ltac:(lia) eq_refl) as (i & L1 & L2 & L3 & L4).
    exists i. split; [lia|]. split; [exact L2|]. split; [exact L3|]. intros j Hj.
    destruct (Nat.eq_dec j k) as [->|]; [rewrite G; intros [= ->]; now apply N|apply L4; lia].
  - destruct (Ascii.eqb c "010"); [discriminate|]. congruence.
Qed.
Lemma original_line_start k : k <= String.length text -> line_begins text k -> place (original k) = LineStart.
Proof.
  intros L [->|(j & -> & G)]; [now rewrite original_0|]. rewrite (original_S j _ G).
  unfold line_char, line_feed. destruct (place (original j)) eqn:P; cbn [Ascii.eqb Bool.eqb]; exact P || reflexivity.
Qed.

Context (extra d1 : list string).
Definition alike (k : nat) (r : directives) : Prop :=
  (exists l, found (original k) = (l ++ d1)%list /\ found r = (l ++ extra ++ d1)%list) /\
  match place (original k) with
  | InDirectiveLine s => place r = InDirectiveLine s
  | _ => out_of_directive (place r)
  end.
(* also good for reading # next *)
Definition alike_hash (k : nat) (r : directives) : Prop :=
  alike k r /\ (get k text = Some hash -> place r = place (original k)).

Context (Safe : forall e, In e es -> safe (inserted_text e)).
Context (Left : forall k s, k <= String.length text -> place (original k) = InDirectiveLine s ->
                  untouched_char es k /\ nothing_at es k).
Context (Begin : forall k, k <= String.length text -> line_begins text k -> get k text = Some hash ->
                  nothing_at es k).
Context (Feeds : forall k, get k text = Some line_feed -> untouched_char es k).
Context (Hash : forall k, get k text = Some hash -> untouched_char es k).
Context (Before : forall k, get (S k) text = Some hash -> untouched_char es k).

Lemma cell_fst_safe k : k <= String.length text -> safe (fst (cell_at text es k)).
Proof.
  intros L. rewrite cell_at_eq by assumption. apply effs_fst_safe; [exact Safe|].
  destruct (get k text); apply safe_nil.
Qed.

Lemma eta r : r = {| found := found r; place := place r |}.
Proof. now destruct r. Qed.

Lemma alike_fst k r : k <= String.length text -> alike_hash k r ->
  alike_hash k (lines_from r (fst (cell_at text es k))).
Proof.
  intros L [[(l & F1 & F2) P] H]. pose proof (cell_fst_safe k L) as [S1 S2].
  unfold alike_hash, alike.
  destruct (place (original k)) as [|s|] eqn:E.
  - destruct (get k text) as [c|] eqn:G.
    + destruct (Ascii.eqb_spec c hash) as [->|N].
      * assert (B : line_begins text k).
        { clear -E L. destruct k as [|k]; [now left|]. right. exists k. split; [reflexivity|].
          destruct (get_lt text k) as (c & G); [lia|]. rewrite (original_S k c G) in E. rewrite G. f_equal.
          now apply line_start_feed in E. }
        rewrite (nothing_cell text es k L (Begin k L B G)). cbn [lines_from].
        split; [|exact H]. split; [now exists l|exact P].
      * rewrite (eta r). destruct P as [->| ->].
        -- destruct (S2 (found r)) as (p & -> & Q). split; [|intros [= ->]; congruence].
           split; [now exists l|exact Q].
        -- rewrite S1. split; [|intros [= ->]; congruence]. split; [now exists l|now right].
    + rewrite (eta r). destruct P as [->| ->].
      * destruct (S2 (found r)) as (p & -> & Q). split; [|discriminate]. split; [now exists l|exact Q].
      * rewrite S1. split; [|discriminate]. split; [now exists l|now right].
  - destruct (Left k s L E) as [_ N]. rewrite (nothing_cell text es k L N). cbn [lines_from].
    split; [|exact H]. split; [now exists l|exact P].
  - rewrite (eta r). destruct P as [P|P].
    + rewrite P. destruct (S2 (found r)) as (p & -> & Q). split; [split; [now exists l|exact Q]|].
      intros G. rewrite (H G) in P. discriminate P.
    + rewrite P, S1. split; [split; [now exists l|now right]|]. reflexivity.
Qed.

Lemma alike_snd k r : k < String.length text -> alike_hash k r ->
  alike_hash (S k) (lines_from r (snd (cell_at text es k))).
Proof.
  intros L [[(l & F1 & F2) P] H]. destruct (get_lt text k L) as (c & G).
  unfold alike_hash, alike. rewrite (original_S k c G).
  assert (D : untouched_char es k \/ exists e, In e es /\ covers e k = true).
  { clear. unfold untouched_char. induction es as [|e l IH]; [left; intros e []|].
    destruct (covers e k) eqn:C; [right; exists e; split; [now left|exact C]|].
    destruct IH as [IH|(e' & I & C')].
    - left. intros e' [<-|I]; [exact C|now apply IH].
    - right. exists e'. split; [now right|exact C']. }
  destruct D as [U|C].
  - assert (R : forall r, lines_from r (snd (cell_at text es k)) = line_char r c).
    { intros x. rewrite (kept_cell text es k c G L U). reflexivity. }
    rewrite R. unfold line_char.
    destruct (place (original k)) as [|s|] eqn:E.
    + destruct (Ascii.eqb_spec c "010") as [->|N1].
      * destruct P as [P|P]; rewrite P; cbn [Ascii.eqb Bool.eqb place found]; rewrite ?E, ?P.
        -- split; [split; [now exists l|now left]|reflexivity].
        -- split; [split; [now exists l|now left]|reflexivity].
      * destruct (Ascii.eqb_spec c "#") as [->|N2].
        -- rewrite (H G). cbn [place found]. split; [split; [now exists l|reflexivity]|reflexivity].
        -- destruct P as [P|P]; rewrite P; cbn [place found]; rewrite ?E, ?P.
           ++ split; [split; [now exists l|now right]|reflexivity].
           ++ split; [split; [now exists l|now right]|reflexivity].
    + rewrite P. destruct (Ascii.eqb c "010"); cbn [place found].
      * split; [split; [exists (s :: l)%list; cbn [app]; now rewrite F1, F2|now left]|reflexivity].
      * split; [split; [now exists l|reflexivity]|reflexivity].
    + destruct (Ascii.eqb_spec c "010") as [->|N1].
      * destruct P as [P|P]; rewrite P; cbn [Ascii.eqb Bool.eqb place found]; rewrite ?E, ?P.
        -- split; [split; [now exists l|now left]|reflexivity].
        -- split; [split; [now exists l|now left]|reflexivity].
      * rewrite E. destruct (Ascii.eqb_spec c "#") as [->|N2].
        -- rewrite (H G). split; [split; [now exists l|rewrite (H G); now right]|intros _; exact (H G)].
        -- destruct P as [P|P]; rewrite P; cbn [place found]; rewrite ?E, ?P.
           ++ split; [split; [now exists l|now right]|reflexivity].
           ++ split; [split; [now exists l|now right]|reflexivity].
  - (* replaced: neither # nor the end of a line *)
    assert (NU : ~ untouched_char es k).
    { intros U. destruct C as (e & I & C). rewrite (U e I) in C. discriminate C. }
    assert (N1 : Ascii.eqb c "010" = false).
    { destruct (Ascii.eqb_spec c "010") as [->|]; [|reflexivity]. exfalso. apply NU, Feeds, G. }
    assert (N2 : Ascii.eqb c "#" = false).
    { destruct (Ascii.eqb_spec c "#") as [->|]; [|reflexivity]. exfalso. apply NU, Hash, G. }
    assert (N3 : get (S k) text <> Some hash) by (intros X; apply NU, Before, X).
    assert (S : safe (snd (cell_at text es k))).
    { rewrite cell_at_eq by lia. apply effs_snd_safe; [exact Safe|exact C]. }
    destruct S as [S1 S2].
    unfold line_char. rewrite N1, N2.
    destruct (place (original k)) as [|s|] eqn:E; [| |rewrite E].
    + split; [|intros X; congruence]. cbn [place found]. rewrite (eta r). destruct P as [->| ->].
      * destruct (S2 (found r)) as (p & -> & Q). split; [now exists l|exact Q].
      * rewrite S1. split; [now exists l|now right].
    + exfalso. apply NU. apply (Left k s); [lia|exact E].
    + split; [|intros X; congruence]. rewrite (eta r). destruct P as [->| ->].
      * destruct (S2 (found r)) as (p & -> & Q). split; [now exists l|exact Q].
      * rewrite S1. split; [now exists l|now right].
Qed.

Lemma alike_cells n : forall m r, m + n <= String.length text -> alike_hash m r ->
  alike_hash (m + n) (lines_from r (render (firstn n (skipn m (cs text es))))).
Proof.
  induction n as [|n IH]; intros m r L A.
  - cbn. now rewrite Nat.add_0_r.
  - assert (Sk : skipn m (cs text es) = (cell_at text es m :: skipn (S m) (cs text es))%list).
    { unfold cell_at. assert (Lm : m < List.length (cs text es)) by (rewrite cs_length; lia).
      clear -Lm. revert Lm. generalize (cs text es). induction m as [|m IH]; intros [|x q] Lm; cbn in *; try lia; [reflexivity|].
      rewrite IH by lia. reflexivity. }
    rewrite Sk. cbn [firstn]. change (cell_at text es m :: firstn n (skipn (S m) (cs text es)))%list
      with ([cell_at text es m] ++ firstn n (skipn (S m) (cs text es)))%list.
    rewrite render_app, lines_app. rewrite <- Nat.add_succ_comm. apply IH; [lia|].
    unfold render. cbn [map concat_strings]. rewrite sapp_nil_r. unfold cell_text. rewrite lines_app.
    apply alike_snd; [lia|]. apply alike_fst; [lia|exact A].
Qed.

(* to the end of the text *)
Lemma alike_end m r : m <= String.length text -> alike_hash m r ->
  exists l, found (lines_from start text) = (l ++ d1)%list /\
    found (lines_from r (render (skipn m (cs text es)))) = (l ++ extra ++ d1)%list.
Proof.
  intros L A.
  assert (Sp : skipn m (cs text es) = (firstn (String.length text - m) (skipn m (cs text es)) ++
                 [cell_at text es (String.length text)])%list).
  { assert (Len : List.length (skipn m (cs text es)) = S (String.length text - m))
      by (rewrite skipn_length, cs_length; lia).
    rewrite <- (firstn_skipn (String.length text - m) (skipn m (cs text es))) at 1. f_equal.
    unfold cell_at. replace (nth (String.length text) (cs text es) ("", ""))
      with (nth (String.length text - m) (skipn m (cs text es)) ("", "")).
    - revert Len. generalize (skipn m (cs text es)) (String.length text - m). clear.
      induction l as [|x l IH]; intros [|n] H; cbn in *; try lia.
      + destruct l; [reflexivity|cbn in H; lia].
      + apply IH. lia.
    - assert (X : forall (l : list cell) m n, nth n (skipn m l) ("", "") = nth (m + n) l ("", "")).
      { clear. induction l as [|x l IH]; intros [|m] n; cbn; try reflexivity; [now destruct n|apply IH]. }
      rewrite X. f_equal. lia. }
  rewrite Sp, render_app, lines_app.
  pose proof (alike_cells (String.length text - m) m r ltac:(lia) A) as Q.
  replace (m + (String.length text - m)) with (String.length text) in Q by lia.
  set (q := lines_from r (render (firstn (String.length text - m) (skipn m (cs text es))))) in *.
  unfold render at 1. cbn [map concat_strings]. rewrite sapp_nil_r. unfold cell_text. rewrite lines_app.
  apply alike_fst in Q; [|lia]. set (q' := lines_from q _) in *.
  assert (W : original (String.length text) = lines_from start text).
  { unfold original. f_equal. clear. induction text as [|x s IH]; [reflexivity|]. cbn. now rewrite IH. }
  destruct Q as [[(l & F1 & F2) P] _]. rewrite W in F1. exists l. split; [exact F1|]. rewrite <- F2.
  rewrite cell_at_eq by lia. rewrite get_end.
  assert (D : untouched_char es (String.length text) \/ exists e, In e es /\ covers e (String.length text) = true).
  { clear. unfold untouched_char. induction es as [|e l IH]; [left; intros e []|].
    destruct (covers e (String.length text)) eqn:C; [right; exists e; split; [now left|exact C]|].
    destruct IH as [IH|(e' & I & C')].
    - left. intros e' [<-|I]; [exact C|now apply IH].
    - right. exists e'. split; [now right|exact C']. }
  destruct D as [U|C].
  - now rewrite effs_snd by exact U.
  - pose proof (effs_snd_safe es (String.length text) ("", "") Safe C) as [S1 S2].
    destruct (place (original (String.length text))) as [|s|] eqn:E.
    + rewrite (eta q'). destruct P as [->| ->]; [destruct (S2 (found q')) as (p & -> & _); reflexivity|now rewrite S1].
    + exfalso. destruct C as (e & I & C). destruct (Left _ s (le_n _) E) as [U _]. rewrite (U e I) in C. discriminate C.
    + rewrite (eta q'). destruct P as [->| ->]; [destruct (S2 (found q')) as (p & -> & _); reflexivity|now rewrite S1].
Qed.
End Reading.

Lemma found_shift s : forall l p, lines_from {| found := l; place := p |} s =
  {| found := (found (lines_from {| found := []; place := p |} s) ++ l)%list;
     place := place (lines_from {| found := []; place := p |} s) |}.
Proof.
  induction s as [|c s IH]; intros l p; [reflexivity|]. cbn [lines_from]. unfold line_char. cbn [place found].
  destruct p as [|d|].
  - destruct (Ascii.eqb c "010"); [apply IH|]. destruct (Ascii.eqb c "#"); apply IH.
  - destruct (Ascii.eqb c "010"); [|apply IH]. rewrite (IH (d :: l)%list), (IH [d]). cbn [found place].
    now rewrite <- app_assoc.
  - destruct (Ascii.eqb c "010"); apply IH.
Qed.
Lemma ends_line_start s r : ends_line s -> place (lines_from r s) = LineStart.
Proof.
  intros (s' & ->). rewrite lines_app. destruct (lines_from r s') as [l []]; reflexivity.
Qed.
Lemma hashless_lines s : hashes s = 0 -> forall l p, out_of_directive p ->
  found (lines_from {| found := l; place := p |} s) = l.
Proof.
  induction s as [|c s IH]; intros H l p P; [reflexivity|]. cbn [hashes] in H.
  destruct (Ascii.eqb c hash) eqn:E; [lia|]. unfold hash in E.
  cbn [lines_from]. unfold line_char. cbn [place found].
  destruct P as [->| ->]; [rewrite E|]; destruct (Ascii.eqb c "010"); apply IH; try lia; (now left) || now right.
Qed.
