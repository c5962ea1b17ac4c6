(* Proofs about source ranges and the text extracted from them. *)
From Coq Require Import String Ascii List NArith Bool Arith Lia.
From Verif Require Import Base Clang SourceRange QueryText SourceRangeSpec.
Import ListNotations.
Local Open Scope list_scope.

(* Strings *)
Lemma substring_all s : substring 0 (String.length s) s = s.
Proof. induction s; simpl; congruence. Qed.

Lemma substring_app_skip p s n :
  substring (String.length p) n (p ++ s)%string = substring 0 n s.
Proof. induction p; simpl; auto. Qed.

Lemma substring_app_take p s :
  substring 0 (String.length p) (p ++ s)%string = p.
Proof. induction p; simpl; [destruct s; reflexivity|]. now rewrite IHp. Qed.

Lemma length_app (a b : string) :
  String.length (a ++ b)%string = String.length a + String.length b.
Proof. induction a; simpl; auto. Qed.

Lemma app_assoc_s (a b c : string) : ((a ++ b) ++ c = a ++ b ++ c)%string.
Proof. induction a; simpl; congruence. Qed.

Lemma app_nil_s (a : string) : (a ++ "" = a)%string.
Proof. induction a; simpl; congruence. Qed.

(* Every string splits at every offset. *)
Lemma split_at s n : n <= String.length s ->
  exists p q, s = (p ++ q)%string /\ String.length p = n.
Proof.
  revert n. induction s as [|c s IH]; intros n H; simpl in H.
  - exists ""%string, ""%string. split; simpl; auto; lia.
  - destruct n as [|n].
    + exists ""%string, (String c s). auto.
    + destruct (IH n) as (p & q & E & L); [lia|].
      exists (String c p), q. split; simpl; congruence.
Qed.

Lemma range_split text r : in_file text r ->
  exists p m t s, text = (p ++ m ++ t ++ s)%string /\
    String.length p = tr_begin r /\ String.length (p ++ m) = tr_last r /\
    String.length t = tr_last_length r /\ text_of text r = (m ++ t)%string /\
    substring (tr_last r) (tr_last_length r) text = t.
Proof.
  intros (H1 & H2 & H3). unfold tr_end in H3.
  destruct (split_at text (tr_begin r)) as (p & q & -> & Lp); [lia|].
  rewrite length_app in H3.
  destruct (split_at q (tr_last r - tr_begin r)) as (m & q' & -> & Lm); [lia|].
  rewrite length_app in H3.
  destruct (split_at q' (tr_last_length r)) as (t & s & -> & Lt); [lia|].
  exists p, m, t, s. repeat split; auto.
  - rewrite length_app. lia.
  - unfold text_of, tr_end. rewrite <- Lp at 1. rewrite substring_app_skip.
    rewrite <- app_assoc_s.
    replace (tr_last r + tr_last_length r - tr_begin r) with (String.length (m ++ t)).
    + apply substring_app_take.
    + rewrite length_app. lia.
  - rewrite <- (app_assoc_s p m).
    replace (tr_last r) with (String.length (p ++ m)) by (rewrite length_app; lia).
    rewrite substring_app_skip, <- Lt. apply substring_app_take.
Qed.

(* Snippets *)
Lemma snippet_short text r : in_file text r -> String.length (text_of text r) <= 36 ->
  snippet_of text r = text_of text r.
Proof.
  intros H L. destruct (range_split text r H) as (p & m & t & s & E & Lp & Lm & Lt & T & _).
  unfold snippet_of. rewrite T in *.
  assert (R : range_length r = String.length (m ++ t)).
  { unfold range_length. rewrite length_app in *. lia. }
  rewrite R. change min_snipped_length with 36.
  destruct (Nat.leb_spec (String.length (m ++ t)) 36); [|lia].
  rewrite E, <- Lp, substring_app_skip, <- app_assoc_s. apply substring_app_take.
Qed.

Lemma snippet_long text r : in_file text r -> 36 < String.length (text_of text r) ->
  String.length (snippet_of text r) = 36 /\
  exists first mid last, text_of text r = (first ++ mid ++ last)%string /\
    String.length first = 10 /\ String.length last = 10 /\
    snippet_of text r = (first ++ " ... [snip] ... " ++ last)%string.
Proof.
  intros H L. destruct (range_split text r H) as (p & m & t & s & E & Lp & Lm & Lt & T & _).
  unfold snippet_of. rewrite T in *.
  assert (R : range_length r = String.length (m ++ t)).
  { unfold range_length. rewrite length_app in *. lia. }
  rewrite R. change min_snipped_length with 36.
  destruct (Nat.leb_spec (String.length (m ++ t)) 36); [lia|].
  rewrite <- (app_assoc_s m t s) in E. remember (m ++ t)%string as x.
  destruct (split_at x 10) as (f & y & Ex & Lf); [lia|].
  rewrite Ex in *. clear x Ex Heqx. rewrite length_app in L, H0, R.
  destruct (split_at y (String.length y - 10)) as (mid & last & Ey & Lmid); [lia|].
  assert (Ll : String.length last = 10).
  { subst y. rewrite length_app in *. lia. }
  unfold snippet_length_each_side.
  assert (S1 : substring (tr_begin r) 10 text = f).
  { rewrite E, <- Lp, substring_app_skip, app_assoc_s, <- Lf. apply substring_app_take. }
  assert (S2 : substring (tr_begin r + (String.length f + String.length y) - 10) 10 text
               = last).
  { rewrite E. rewrite Ey, !app_assoc_s, <- !(app_assoc_s p), <- app_assoc_s.
    replace (tr_begin r + (String.length f + String.length (mid ++ last)) - 10)
      with (String.length ((p ++ f) ++ mid)) by (rewrite !length_app; lia).
    rewrite substring_app_skip. rewrite <- Ll. apply substring_app_take. }
  rewrite (length_app f y), S1, S2. split.
  - rewrite !length_app, Lf, Ll. reflexivity.
  - exists f, mid, last. subst y. auto.
Qed.

(* Lines of lists of characters *)
Fixpoint count_lf (t : list pchar) : nat :=
  match t with
  | [] => 0
  | c :: t => (if String.eqb c p_lf then 1 else 0) + count_lf t
  end.
Definition step_line (q : list pchar) (c : pchar) : list pchar :=
  if String.eqb c p_lf then [] else q ++ [c].
Definition last_line_from (q t : list pchar) : list pchar := fold_left step_line t q.
Fixpoint first_line (t : list pchar) : list pchar :=
  match t with
  | [] => []
  | c :: t => if String.eqb c p_lf then [c] else c :: first_line t
  end.

Lemma lines_cons t : lines t = [] /\ t = [] \/
  exists ls, lines t = first_line t :: ls.
Proof.
  induction t as [|c t IH]; simpl; auto.
  right. destruct (String.eqb c p_lf); [eauto|].
  destruct IH as [(E & ->)|(ls & E)]; rewrite E; simpl; eauto.
Qed.

Lemma nth_line_0 t : nth_line (lines t) 0 = first_line t.
Proof.
  unfold nth_line. destruct (lines_cons t) as [(E & ->)|(ls & E)]; rewrite E; auto.
Qed.

(* The text before a split point is the lines before it and the part of its line. *)
Lemma lines_split : forall p q r,
  count_lf q = 0 ->
  let L := lines (q ++ p ++ r) in
  concat (firstn (count_lf p) L) ++ last_line_from q p = q ++ p /\
  nth_line L (count_lf p) = last_line_from q p ++ first_line r.
Proof.
  induction p as [|c p IH]; intros q r Hq; simpl.
  - unfold last_line_from. simpl. split; [now rewrite app_nil_r|].
    rewrite nth_line_0. clear -Hq. induction q as [|c q IH]; simpl in *; auto.
    destruct (String.eqb c p_lf); [lia|]. rewrite IH; auto.
  - unfold last_line_from in *. simpl. unfold step_line at 2 4.
    destruct (String.eqb c p_lf) eqn:E.
    + simpl. destruct (IH [] r eq_refl) as [A B]. simpl in A, B.
      assert (Lq : lines (q ++ c :: p ++ r) = (q ++ [c]) :: lines (p ++ r)).
      { clear -Hq E. induction q as [|d q IH]; simpl in *; [now rewrite E|].
        destruct (String.eqb d p_lf); [simpl in Hq; lia|]. now rewrite IH. }
      rewrite Lq. simpl. split.
      * rewrite <- !app_assoc, A. reflexivity.
      * exact B.
    + simpl. destruct (IH (q ++ [c]) r) as [A B].
      { clear -Hq E. induction q as [|d q IH]; simpl in *; [now rewrite E|].
        destruct (String.eqb d p_lf); simpl in *; [lia|auto]. }
      rewrite <- !app_assoc in A, B. simpl in A, B.
      rewrite A, <- app_assoc. auto.
Qed.

Lemma skipn_nth (L : list (list pchar)) : forall n, n < List.length L ->
  skipn n L = nth_line L n :: skipn (S n) L.
Proof.
  unfold nth_line. induction L as [|l L IH]; intros n H; simpl in H; [lia|].
  destruct n; auto. cbn [skipn nth]. rewrite IH by lia. reflexivity.
Qed.

Lemma firstn_map_nth (L : list (list pchar)) : forall k n, n + k <= List.length L ->
  map (nth_line L) (seq n k) = firstn k (skipn n L).
Proof.
  induction k as [|k IH]; intros n H; auto.
  cbn [seq map]. rewrite IH by lia. rewrite (skipn_nth L n) by lia. reflexivity.
Qed.

Lemma last_line_from_app q a b :
  last_line_from q (a ++ b) = last_line_from (last_line_from q a) b.
Proof. apply fold_left_app. Qed.

Lemma last_line_no_lf q b : count_lf b = 0 -> last_line_from q b = q ++ b.
Proof.
  unfold last_line_from. revert q. induction b as [|c b IH]; intros q H; simpl in *.
  - now rewrite app_nil_r.
  - unfold step_line at 2. destruct (String.eqb c p_lf); [simpl in H; lia|].
    rewrite IH by auto. rewrite <- app_assoc. reflexivity.
Qed.

Lemma count_lf_app a b : count_lf (a ++ b) = count_lf a + count_lf b.
Proof. induction a; simpl; auto. rewrite IHa. lia. Qed.

Lemma last_line_count q a : count_lf q = 0 -> count_lf (last_line_from q a) = 0.
Proof.
  unfold last_line_from. revert q. induction a as [|c a IH]; intros q H; simpl; auto.
  apply IH. unfold step_line. destruct (String.eqb c p_lf) eqn:E; auto.
  rewrite count_lf_app, H. simpl. now rewrite E.
Qed.

Lemma lines_length t : count_lf t <= List.length (lines t).
Proof.
  induction t as [|c t IH]; simpl; auto.
  destruct (String.eqb c p_lf); simpl; [lia|].
  destruct (lines t); simpl in *; lia.
Qed.

Lemma first_line_app a b : count_lf a = 0 -> first_line (a ++ b) = a ++ first_line b.
Proof.
  induction a as [|c a IH]; intros H; simpl in *; auto.
  destruct (String.eqb c p_lf); [simpl in H; lia|]. now rewrite IH.
Qed.

(* Extraction on lists of characters with LF line ends *)
Definition extract (L : list (list pchar)) (sl sc el ec : nat) : list pchar :=
  if Nat.eqb sl el
  then skipn (sc - 1) (firstn (ec - 1) (nth_line L (sl - 1)))
  else skipn (sc - 1) (nth_line L (sl - 1))
       ++ concat (map (nth_line L) (seq sl (el - 1 - sl)))
       ++ firstn (ec - 1) (nth_line L (el - 1)).

Definition lpos (p : list pchar) : nat * nat :=
  (S (count_lf p), S (List.length (last_line_from [] p))).

Lemma extract_correct p m s :
  extract (lines (p ++ m ++ s)) (fst (lpos p)) (snd (lpos p))
    (fst (lpos (p ++ m))) (snd (lpos (p ++ m))) = m.
Proof.
  unfold extract, lpos. simpl fst. simpl snd.
  set (L := lines (p ++ m ++ s)).
  destruct (lines_split p [] (m ++ s) eq_refl) as [A B]. simpl in A, B. fold L in A, B.
  destruct (lines_split (p ++ m) [] s eq_refl) as [A' B']. simpl in A', B'.
  rewrite <- app_assoc in A', B'. fold L in A', B'.
  replace (S (count_lf p) - 1) with (count_lf p) by lia.
  replace (S (count_lf (p ++ m)) - 1) with (count_lf (p ++ m)) by lia.
  replace (S (List.length (last_line_from [] p)) - 1)
    with (List.length (last_line_from [] p)) by lia.
  replace (S (List.length (last_line_from [] (p ++ m))) - 1)
    with (List.length (last_line_from [] (p ++ m))) by lia.
  set (q := last_line_from [] p) in *. set (q' := last_line_from [] (p ++ m)) in *.
  assert (C : count_lf (p ++ m) = count_lf p + count_lf m) by apply count_lf_app.
  destruct (Nat.eqb_spec (S (count_lf p)) (S (count_lf (p ++ m)))) as [E|E].
  - assert (Cm : count_lf m = 0) by lia.
    rewrite B. rewrite first_line_app by auto.
    assert (Q : q' = q ++ m).
    { unfold q'. rewrite last_line_from_app. apply last_line_no_lf; auto. }
    rewrite Q, app_assoc, firstn_app, Nat.sub_diag, firstn_all. simpl.
    rewrite app_nil_r, skipn_app, skipn_all, Nat.sub_diag. reflexivity.
  - assert (Cm : 0 < count_lf m) by lia.
    rewrite B, B'. rewrite firstn_app, Nat.sub_diag, firstn_all, firstn_O, app_nil_r.
    rewrite skipn_app, skipn_all, Nat.sub_diag. simpl skipn.
    assert (LL : count_lf (p ++ m) <= List.length L).
    { etransitivity; [|apply lines_length]. rewrite app_assoc, (count_lf_app (p ++ m)). lia. }
    rewrite firstn_map_nth by lia.
    assert (S1 : firstn (count_lf (p ++ m)) L
                 = firstn (count_lf p) L ++ nth_line L (count_lf p)
                   :: firstn (count_lf (p ++ m) - S (count_lf p)) (skipn (S (count_lf p)) L)).
    { rewrite <- (firstn_skipn (count_lf p) L) at 1.
      rewrite firstn_app, firstn_firstn.
      rewrite Nat.min_r by lia. f_equal.
      rewrite firstn_length_le by lia.
      rewrite (skipn_nth L (count_lf p)) by lia.
      destruct (count_lf (p ++ m) - count_lf p) eqn:D; [lia|].
      simpl. f_equal. f_equal. lia. }
    rewrite S1, concat_app in A'. simpl concat in A'.
    rewrite B in A'.
    assert (Z : p ++ m = (concat (firstn (count_lf p) L) ++ q) ++ m) by (now rewrite A).
    pose proof (eq_trans A' Z) as A2. clear A' Z.
    rewrite <- !app_assoc in A2. apply app_inv_head in A2. apply app_inv_head in A2.
    replace (S (count_lf (p ++ m)) - 1 - S (count_lf p))
      with (count_lf (p ++ m) - S (count_lf p)) by lia.
    exact A2.
Qed.

(* ASCII text decodes to its characters. *)
Definition chars (s : string) : list pchar := map char_string (list_ascii_of_string s).

Lemma decode_ascii s : ascii_only s -> decode s = chars s.
Proof.
  unfold ascii_only, decode, chars. induction s as [|c s IH]; intros H; simpl in *; auto.
  apply andb_true_iff in H. destruct H as [Hc Hs]. apply N.ltb_lt in Hc.
  unfold utf8_length. destruct (N.ltb_spec (N_of_ascii c) 192); [|lia].
  simpl. now rewrite IH.
Qed.

Lemma char_string_eqb c d : String.eqb (char_string c) (char_string d) = Ascii.eqb c d.
Proof. simpl. now destruct (Ascii.eqb c d). Qed.

Lemma universal_chars s : universal (chars s) = chars (with_lf s).
Proof.
  unfold chars. induction s as [|c s IH]; auto.
  change (list_ascii_of_string (String c s)) with (c :: list_ascii_of_string s).
  cbn [map universal with_lf]. unfold p_cr. rewrite char_string_eqb.
  destruct (Ascii.eqb c cr).
  - destruct s as [|d s]; auto.
    change (list_ascii_of_string (String d s)) with (d :: list_ascii_of_string s) in *.
    cbn [map] in *. unfold p_lf. rewrite char_string_eqb. rewrite IH.
    destruct (Ascii.eqb d lf); auto.
  - rewrite IH. reflexivity.
Qed.

Lemma chars_app a b : chars (a ++ b)%string = chars a ++ chars b.
Proof.
  unfold chars. induction a; auto. simpl. now rewrite IHa.
Qed.

Lemma concat_chars s : concat_strings (chars s) = s.
Proof. unfold chars. induction s; simpl; congruence. Qed.

(* No CR LF pair is split. *)
Definition safe_split (p s : string) : Prop :=
  match s with String c _ => c <> lf | EmptyString => True end \/
  (exists p' c, p = (p' ++ char_string c)%string /\ c <> cr) \/ p = ""%string.

Lemma safe_split_cons c p s : safe_split (String c p) s -> p <> ""%string -> safe_split p s.
Proof.
  intros [H|[(p' & d & E & D)|H]] N; [now left| |discriminate].
  right. left. destruct p' as [|e p']; simpl in E; injection E as E1 E2.
  - now subst p.
  - exists p', d. split; auto.
Qed.

Lemma with_lf_app p s : safe_split p s -> with_lf (p ++ s)%string = (with_lf p ++ with_lf s)%string.
Proof.
  induction p as [|c p IH]; intros H; auto.
  destruct p as [|d p].
  - simpl. destruct (Ascii.eqb_spec c cr) as [->|]; auto.
    destruct s as [|e s]; auto.
    destruct (Ascii.eqb_spec e lf) as [->|]; auto.
    exfalso. destruct H as [H|[(p' & d & E & D)|H]]; [congruence| |discriminate].
    destruct p' as [|x p']; simpl in E; [unfold char_string in E; injection E; congruence|].
    destruct p'; discriminate.
  - pose proof (IH (safe_split_cons _ _ _ H ltac:(discriminate))) as IH'. clear IH.
    cbn [append with_lf] in *.
    destruct (Ascii.eqb c cr); [|cbn [append]; now f_equal].
    destruct (Ascii.eqb d lf); [exact IH'|]. cbn [append]. now f_equal.
Qed.

(* Positions in terms of the text with LF line ends *)
Lemma position_from_app : forall p s l c q,
  safe_split p s -> c = S (List.length q) -> count_lf q = 0 ->
  position_from (p ++ s)%string (String.length p) l c
  = (l + count_lf (chars (with_lf p)),
     S (List.length (last_line_from q (chars (with_lf p))))).
Proof.
  induction p as [|a p IH]; intros s l c q H Hc Hq.
  - destruct s; simpl; subst c; f_equal; lia.
  - cbn [append String.length position_from].
    destruct (Ascii.eqb_spec a lf) as [->|Na].
    + change (with_lf (String lf p)) with (String lf (with_lf p)).
      change (chars (String lf (with_lf p))) with (p_lf :: chars (with_lf p)).
      unfold last_line_from. cbn [fold_left count_lf]. unfold step_line at 2.
      rewrite String.eqb_refl. 
      destruct p as [|b p].
      * destruct s; simpl; f_equal; lia.
      * rewrite (IH s (S l) 1 []); auto; [|eapply safe_split_cons; eauto; discriminate].
        unfold last_line_from. f_equal. lia.
    + destruct (Ascii.eqb_spec a cr) as [->|Nc].
      * destruct p as [|b p].
        -- cbn [append String.length]. change (with_lf (String cr "")) with (String lf ""%string).
           destruct s as [|d s].
           ++ simpl. f_equal. lia.
           ++ destruct (Ascii.eqb_spec d lf) as [->|Nd].
              ** exfalso. destruct H as [H|[(p' & x & E & D)|H]]; [congruence| |discriminate].
                 destruct p' as [|y p']; simpl in E; [unfold char_string in E; injection E; congruence|].
                 destruct p'; discriminate.
              ** simpl. f_equal. lia.
        -- cbn [append]. destruct (Ascii.eqb_spec b lf) as [->|Nb].
           ++ assert (W : with_lf (String cr (String lf p)) = with_lf (String lf p)) by reflexivity.
              rewrite W.
              specialize (IH s l (S c) (q ++ [p_cr])). cbn [append] in IH.
              change (with_lf (String lf p)) with (String lf (with_lf p)) in *.
              change (chars (String lf (with_lf p))) with (p_lf :: chars (with_lf p)) in *.
              unfold last_line_from in *. cbn [fold_left] in *.
              unfold step_line in IH at 2. unfold step_line at 2.
              rewrite String.eqb_refl in *.
              apply IH.
              ** eapply safe_split_cons; eauto; discriminate.
              ** rewrite app_length. simpl. lia.
              ** rewrite count_lf_app, Hq. reflexivity.
           ++ assert (W : with_lf (String cr (String b p)) = String lf (with_lf (String b p))).
              { cbn [with_lf]. change (Ascii.eqb cr cr) with true. cbn iota.
                destruct (Ascii.eqb_spec b lf); [contradiction|]. reflexivity. }
              rewrite W.
              change (chars (String lf (with_lf (String b p))))
                with (p_lf :: chars (with_lf (String b p))).
              unfold last_line_from. cbn [fold_left count_lf]. unfold step_line at 2.
              rewrite String.eqb_refl.
              specialize (IH s (S l) 1 []). cbn [append] in IH. rewrite IH; auto.
              ** unfold last_line_from. f_equal. lia.
              ** eapply safe_split_cons; eauto; discriminate.
      * assert (W : with_lf (String a p) = String a (with_lf p)).
        { cbn [with_lf]. destruct (Ascii.eqb_spec a cr); [contradiction|]. reflexivity. }
        rewrite W.
        change (chars (String a (with_lf p))) with (char_string a :: chars (with_lf p)).
        unfold last_line_from. cbn [fold_left count_lf]. unfold step_line at 2.
        unfold p_lf. rewrite char_string_eqb.
        destruct (Ascii.eqb_spec a lf); [contradiction|].
        destruct p as [|b p].
        -- destruct s; simpl; subst c; rewrite ?app_length; simpl; f_equal; lia.
        -- rewrite (IH s l (S c) (q ++ [char_string a])).
           ++ reflexivity.
           ++ eapply safe_split_cons; eauto; discriminate.
           ++ rewrite app_length. simpl. lia.
           ++ rewrite count_lf_app, Hq. cbn [count_lf]. unfold p_lf.
              rewrite char_string_eqb.
              destruct (Ascii.eqb_spec a lf); [contradiction|]. reflexivity.
Qed.

Lemma position_app p s : safe_split p s ->
  position (p ++ s)%string (String.length p) = lpos (chars (with_lf p)).
Proof.
  intros H. unfold position. rewrite (position_from_app p s 1 1 []); auto.
Qed.

Lemma with_lf_no_ends t : string_forall (fun c => negb (is_line_end c)) t = true ->
  with_lf t = t /\ count_lf (chars t) = 0.
Proof.
  unfold is_line_end. induction t as [|c t IH]; intros H; auto.
  simpl in H. apply andb_true_iff in H. destruct H as [Hc Ht].
  apply negb_true_iff, orb_false_iff in Hc. destruct Hc as [Hl Hr].
  destruct (IH Ht) as [A B].
  change (chars (String c t)) with (char_string c :: chars t). cbn [with_lf count_lf].
  rewrite Hr, A. unfold p_lf. rewrite char_string_eqb, Hl. auto.
Qed.

Lemma ends_not_cr t : t <> ""%string ->
  string_forall (fun c => negb (is_line_end c)) t = true ->
  exists p' c, t = (p' ++ char_string c)%string /\ c <> cr.
Proof.
  unfold is_line_end. induction t as [|c t IH]; intros N H; [congruence|].
  simpl in H. apply andb_true_iff in H. destruct H as [Hc Ht].
  destruct t as [|d t].
  - exists ""%string, c. split; auto. intros ->. discriminate.
  - destruct IH as (p' & e & E & Ne); auto; [discriminate|].
    exists (String c p'), e. split; auto. simpl. congruence.
Qed.

Lemma starts_ok t s : t <> ""%string ->
  string_forall (fun c => negb (is_line_end c)) t = true ->
  match (t ++ s)%string with String c _ => c <> lf | EmptyString => True end.
Proof.
  destruct t as [|c t]; intros N H; [congruence|]. simpl in *.
  apply andb_true_iff in H. destruct H as [Hc _]. intros ->. discriminate.
Qed.

Lemma lpos_add a b : count_lf b = 0 ->
  lpos (a ++ b) = (fst (lpos a), snd (lpos a) + List.length b).
Proof.
  intros H. unfold lpos. simpl. rewrite count_lf_app, H, last_line_from_app.
  rewrite last_line_no_lf by auto. rewrite app_length. f_equal; lia.
Qed.

Lemma chars_length s : List.length (chars s) = String.length s.
Proof. unfold chars. induction s; simpl in *; auto. Qed.

Lemma get_app_length p s : String.get (String.length p) (p ++ s)%string = String.get 0 s.
Proof. induction p; simpl; auto. Qed.

Lemma C32_lemma text r :
  in_file text r -> starts_with_token text r -> last_token_on_one_line text r ->
  ascii_only text ->
  text_for_source_range text (info_for_source_range text r) = with_lf (text_of text r).
Proof.
  intros H ST OL AS. destruct (range_split text r H) as (p & m & t & s & E & Lp & Lm & Lt & T & TT).
  unfold last_token_on_one_line in OL. rewrite TT in OL.
  assert (Tn : t <> ""%string).
  { intros ->. destruct H as (_ & H & _). simpl in Lt. lia. }
  destruct (with_lf_no_ends t OL) as [Wt Ct].
  assert (P0 : safe_split p (m ++ t ++ s)%string).
  { left. unfold starts_with_token in ST. rewrite <- Lp, E, get_app_length in ST.
    destruct (m ++ t ++ s)%string; auto. simpl in ST. congruence. }
  assert (P1 : safe_split (p ++ m)%string (t ++ s)%string).
  { left. apply starts_ok; auto. }
  assert (P2 : safe_split (p ++ m ++ t)%string s).
  { right. left. destruct (ends_not_cr t Tn OL) as (t' & c & Et & Nc).
    exists (p ++ m ++ t')%string, c. split; auto. rewrite Et, !app_assoc_s. reflexivity. }
  assert (P3 : safe_split m t).
  { left. pose proof (starts_ok t ""%string Tn OL) as X. now rewrite app_nil_s in X. }
  assert (P4 : safe_split p (m ++ t)%string).
  { destruct P0 as [P0|P0]; [left|now right].
    destruct m; simpl in *; auto. destruct t; simpl in *; auto. }
  assert (RS : range_start text r = lpos (chars (with_lf p))).
  { unfold range_start. rewrite <- Lp, E. apply position_app; auto. }
  assert (RE : range_end text r = lpos (chars (with_lf (p ++ m ++ t)%string))).
  { unfold range_end. rewrite <- Lm, E. rewrite <- app_assoc_s at 1.
    rewrite position_app by auto.
    rewrite <- app_assoc_s, (with_lf_app (p ++ m)%string t), (chars_app (with_lf (p ++ m)%string)).
    - rewrite lpos_add by (now rewrite Wt). rewrite Wt, chars_length, <- Lt.
      destruct (lpos (chars (with_lf (p ++ m)))); reflexivity.
    - pose proof (starts_ok t ""%string Tn OL) as X. rewrite app_nil_s in X. now left. }
  unfold text_for_source_range, info_for_source_range, readlines.
  cbn [start_line start_column end_line end_column].
  rewrite RS, RE, (decode_ascii text AS), universal_chars.
  pose proof (extract_correct (chars (with_lf p)) (chars (with_lf (m ++ t)%string))
                (chars (with_lf s))) as X.
  rewrite <- !chars_app in X. 
  assert (W1 : (with_lf p ++ with_lf (m ++ t) = with_lf (p ++ m ++ t))%string).
  { symmetry. apply with_lf_app; auto. }
  assert (W2 : (with_lf p ++ with_lf (m ++ t) ++ with_lf s = with_lf text)%string).
  { rewrite <- app_assoc_s, W1, <- with_lf_app by auto. rewrite E, !app_assoc_s. reflexivity. }
  rewrite W1, W2 in X.
  transitivity (concat_strings (chars (with_lf (m ++ t)%string))).
  - f_equal. exact X.
  - rewrite concat_chars, T. reflexivity.
Qed.

Lemma with_lf_id s : string_forall (fun c => negb (Ascii.eqb c cr)) s = true -> with_lf s = s.
Proof.
  induction s as [|c s IH]; intros H; auto. simpl in H. apply andb_true_iff in H.
  destruct H as [Hc Hs]. cbn [with_lf]. apply negb_true_iff in Hc. rewrite Hc.
  now rewrite IH.
Qed.

Lemma string_forall_app p (a b : string) :
  string_forall p (a ++ b)%string = (string_forall p a && string_forall p b)%bool.
Proof. induction a; simpl; auto. rewrite IHa. apply andb_assoc. Qed.

Lemma C32_lf_lemma text r :
  in_file text r -> starts_with_token text r -> last_token_on_one_line text r ->
  ascii_only text -> string_forall (fun c => negb (Ascii.eqb c cr)) text = true ->
  text_for_source_range text (info_for_source_range text r) = text_of text r.
Proof.
  intros H ST OL AS NC. rewrite C32_lemma by auto. apply with_lf_id.
  destruct (range_split text r H) as (p & m & t & s & E & _ & _ & _ & T & _).
  rewrite T. rewrite E, !string_forall_app in NC. rewrite string_forall_app.
  repeat (apply andb_true_iff in NC; destruct NC as [? NC]).
  apply andb_true_iff; auto.
Qed.

(* Consistency check *)
Lemma position_le : forall text a b l c,
  a <= b -> b <= String.length text ->
  fst (position_from text a l c) < fst (position_from text b l c) \/
  fst (position_from text a l c) = fst (position_from text b l c) /\
  snd (position_from text a l c) + (b - a) = snd (position_from text b l c).
Proof.
  assert (M : forall text b l c, l <= fst (position_from text b l c)).
  { induction text as [|x text IH]; intros b l c; destruct b; simpl; auto.
    destruct (Ascii.eqb x lf); [specialize (IH b (S l) 1); lia|].
    destruct (Ascii.eqb x cr); [|auto].
    destruct text as [|y text]; [specialize (IH b (S l) 1); lia|].
    destruct (Ascii.eqb y lf); [auto|specialize (IH b (S l) 1); lia]. }
  induction text as [|x text IH]; intros a b l c H L; simpl in L.
  - replace a with b by lia. right. split; auto. lia.
  - destruct a as [|a]; destruct b as [|b]; try lia.
    + change (position_from (String x text) 0 l c) with (l, c). cbn [position_from].
      pose proof (IH 0 b l (S c) ltac:(lia) ltac:(lia)) as IH0.
      replace (position_from text 0 l (S c)) with (l, S c) in IH0
        by (destruct text; reflexivity). simpl in IH0.
      pose proof (M text b (S l) 1).
      assert (G : l < fst (position_from text b l (S c)) \/
                  l = fst (position_from text b l (S c)) /\
                  c + (S b - 0) = snd (position_from text b l (S c))).
      { destruct IH0 as [|[]]; [left|right]; auto. split; auto. lia. }
      destruct (Ascii.eqb x lf); [left; simpl; lia|].
      destruct (Ascii.eqb x cr); [|exact G].
      destruct text as [|y text']; [left; simpl in *; lia|].
      destruct (Ascii.eqb y lf); [exact G|left; simpl in *; lia].
    + cbn [position_from].
      assert (forall l c, let A := position_from text a l c in
        let B := position_from text b l c in
        fst A < fst B \/ fst A = fst B /\ snd A + (S b - S a) = snd B) as G.
      { intros l' c'. replace (S b - S a) with (b - a) by lia. apply IH; lia. }
      destruct (Ascii.eqb x lf); [apply G|].
      destruct (Ascii.eqb x cr); [|apply G].
      destruct text as [|y text']; [apply G|].
      destruct (Ascii.eqb y lf); apply G.
Qed.

Lemma C37_accepts_lemma text r : in_file text r ->
  source_range_consistency_check text r = true.
Proof.
  intros (H1 & H2 & H3). unfold source_range_consistency_check, range_start, range_end,
    position, consistent_positions, tr_end in *.
  destruct (position_le text (tr_begin r) (tr_last r) 1 1) as [H|[Ha Hb]]; try lia;
  destruct (position_from text (tr_begin r) 1 1) as [sl sc];
  destruct (position_from text (tr_last r) 1 1) as [el ec]; simpl in *;
  apply orb_true_iff; rewrite !Nat.ltb_lt; lia.
Qed.

Lemma C37_rejects_lemma text r :
  tr_begin r <= String.length text -> tr_last r <= String.length text ->
  fst (position text (tr_begin r)) <= fst (position text (tr_last r)) ->
  source_range_consistency_check text r = true -> tr_begin r < tr_end r.
Proof.
  intros H1 H2 HL. unfold source_range_consistency_check, range_start, range_end,
    consistent_positions, tr_end in *. unfold position in *.
  destruct (Nat.lt_ge_cases (tr_begin r) (tr_last r)) as [H|H]; [lia|].
  destruct (position_le text (tr_last r) (tr_begin r) 1 1 ltac:(lia) H1) as [G|[Ha Hb]];
  destruct (position_from text (tr_begin r) 1 1) as [sl sc];
  destruct (position_from text (tr_last r) 1 1) as [el ec]; simpl in *;
  rewrite orb_true_iff, !Nat.ltb_lt; intros; lia.
Qed.
