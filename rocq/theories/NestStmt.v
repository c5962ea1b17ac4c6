(* Wrappers of neighbouring statements. *)
From Coq Require Import String Ascii List Bool Arith Lia.
From Verif Require Import Base Clang Gen GenExpr GenBinary GenUnary GenStmt Rewriter Mutation
  MutTree Run TreeSpec RunSpec RunProof RewriterProof Lang Cst SimMutate SimExample
  NestSpec NestProof NestProof2.
Import ListNotations.
Local Open Scope string_scope.

Definition program_of (l : list item) : list (string * cst toy) :=
  map (fun i : item => ("", CStmt (snd i) (CNode KSkip [] (snd (fst i))))) l.
Definition gaps_of (l : list item) : list string := map (fun i : item => fst (fst i)) l.

Lemma items_source l : source (gaps_of l) (program_of l) = items_text l.
Proof. induction l as [|[[g x] s] l IH]; auto. cbn [program_of gaps_of map source text fst snd items_text]. fold (program_of l) (gaps_of l). rewrite IH. reflexivity. Qed.
Lemma items_source_placed l : forall off, items_placed l off ->
  source_placed (gaps_of l) (program_of l) off.
Proof.
  induction l as [|[[g x] s] l IH]; intros off H; [exact Logic.I|].
  destruct H as [H1 H2]. cbn [program_of gaps_of map source_placed fst snd placed].
  fold (program_of l) (gaps_of l). unfold size. cbn [text map concat_strings append].
  split; [split; [exact H1|exact Logic.I]|apply IH; exact H2].
Qed.
Lemma items_places l : source_places (program_of l) = map (fun i : item => PStmt (snd i)) l.
Proof. induction l as [|[[g x] s] l IH]; auto. unfold source_places in *.
  cbn [program_of map flat_map snd]. fold (program_of l). rewrite IH. reflexivity. Qed.
Lemma items_mutated c o l : forall id,
  source (gaps_of l) (fst (mutate_program toy c o (program_of l) id)) = wrapped_apart o l id.
Proof.
  induction l as [|[[g x] s] l IH]; intro id; auto.
  specialize (IH (S id)). cbn [program_of map gaps_of mutate_program mutate fst snd].
  fold (program_of l). destruct (mutate_program toy c o (program_of l) (S id)) as [p' id'].
  cbn [fst source wrapped_apart] in *. fold (gaps_of l). rewrite IH.
  unfold mutated_stmt. destruct (track o); rewrite text_one; cbn; rewrite ?sapp_assoc; reflexivity.
Qed.

Lemma items_bounds l : forall off, items_placed l off ->
  forall i, (In i (flat_map begins (map (fun x : item => PStmt (snd x)) l)) -> off <= i) /\
            (In i (flat_map ends (map (fun x : item => PStmt (snd x)) l)) -> off < i).
Proof.
  induction l as [|[[g x] s] l IH]; intros off H i; [split; contradiction|].
  destruct H as [(Z & B & E) H]. cbn [map snd flat_map begins ends app In].
  destruct (IH _ H i) as [I1 I2]. rewrite B, E. split; intros [Q|Q].
  - lia.
  - specialize (I1 Q). lia.
  - lia.
  - specialize (I2 Q). lia.
Qed.
Lemma items_separated l : forall off, items_placed l off -> spaced l ->
  separated (map (fun i : item => PStmt (snd i)) l).
Proof.
  induction l as [|[[g x] s] l IH]; intros off P Sp i Hb He; [contradiction|].
  destruct P as [(Z & B & E) P]. cbn [map snd flat_map begins ends app In] in Hb, He.
  rewrite B in Hb. rewrite E in He. cbn [spaced] in Sp.
  destruct (items_bounds _ _ P i) as [I1 I2].
  assert (G : forall j, In j (flat_map begins (map (fun x : item => PStmt (snd x)) l)) ->
              off + String.length g + String.length x < j).
  { intros j Hj. destruct l as [|[[g2 x2] s2] l]; [contradiction|].
    inversion Sp as [|? ? N _]; subst. cbn [fst] in N.
    destruct P as [(Z2 & B2 & E2) P]. cbn [map snd flat_map begins app In] in Hj.
    assert (String.length g2 <> 0) by (destruct g2; [congruence|discriminate]).
    destruct Hj as [<-|Hj]; [lia|]. destruct (items_bounds _ _ P j) as [J _]. specialize (J Hj). lia. }
  destruct Hb as [<-|Hb], He as [He|He].
  - lia.
  - specialize (I2 He). lia.
  - specialize (G _ Hb). lia.
  - assert (Sp' : spaced l).
    { destruct l; cbn; auto. inversion Sp; auto. }
    exact (IH _ P Sp' i Hb He).
Qed.

Lemma C30_lemma c o first pre l last ms :
  items_placed l (String.length pre) -> spaced l ->
  map place_of ms = map (fun i => PStmt (snd i)) l ->
  rewrite (pre ++ items_text l ++ last) (edits_from c o first first ms) =
  pre ++ wrapped_apart o l 0 ++ last.
Proof.
  intros P Sp M.
  set (t := CNode (L := toy) KWrong (zip toy (gaps_of l) (program_of l)) "").
  assert (P' := items_source_placed _ _ P).
  assert (T : text t = items_text l).
  { unfold t. cbn [text]. fold (texts toy (zip toy (gaps_of l) (program_of l))).
    rewrite zip_text, sapp_nil_r. apply items_source. }
  rewrite <- T, (nested_rewrite toy c o pre t last ms first).
  - f_equal. f_equal. unfold t. rewrite mutate_node, (zip_mutate toy c o _ _ _ 0 P'). cbn [fst text].
    fold (texts toy (zip toy (gaps_of l) (fst (mutate_program toy c o (program_of l) 0)))).
    rewrite zip_text, sapp_nil_r. apply items_mutated.
  - exact (zip_placed toy _ _ _ P').
  - change (places t) with (flat_map (fun p => places (snd p)) (zip toy (gaps_of l) (program_of l))).
    rewrite (zip_places toy _ _ _ P'), items_places. exact (items_separated _ _ P Sp).
  - change (places t) with (flat_map (fun p => places (snd p)) (zip toy (gaps_of l) (program_of l))).
    rewrite (zip_places toy _ _ _ P'), items_places. exact M.
Qed.

(* Touching statements *)
Lemma update_nth_at {A} (d : A) n f g (l : list A) : f (nth n l d) = g (nth n l d) ->
  update_nth n f l = update_nth n g l.
Proof.
  revert n. induction l as [|x l IH]; intros [|n] H; cbn in *; auto.
  - rewrite H. reflexivity.
  - rewrite (IH _ H). reflexivity.
Qed.
Lemma nth_update_other {A} (d : A) f (l : list A) : forall n m, n <> m ->
  nth n (update_nth m f l) d = nth n l d.
Proof. induction l as [|x l IH]; intros [|n] [|m] H; cbn; auto; congruence. Qed.
Lemma nth_cells text : forall n, fst (nth n (cells_of text) ("", "")) = "".
Proof. induction text as [|a s IH]; intros [|n]; cbn; auto. destruct n; auto. Qed.

Lemma C30_touching_lemma c o first pre x y last s1 s2 i1 i2 :
  track o = false ->
  from_to (String.length pre) (String.length x) (s_range s1) ->
  from_to (String.length (pre ++ x)) (String.length y) (s_range s2) ->
  rewrite (pre ++ x ++ y ++ last)
    (edits_from c o first first [MutStmt s1 i1; MutStmt s2 i2]) =
  pre ++ stmt_open o 0 ++ x ++ stmt_open o 1 ++ stmt_close s1 ++ y ++ stmt_close s2 ++ last.
Proof.
  intros T (Z1 & B1 & E1) (Z2 & B2 & E2).
  assert (Es : edits_from c o first first [MutStmt s1 i1; MutStmt s2 i2] =
          [InsertBefore (String.length pre) (stmt_open o 0);
           InsertAfterToken (String.length (pre ++ x)) (stmt_close s1);
           InsertBefore (String.length (pre ++ x)) (stmt_open o 1);
           InsertAfterToken (String.length (pre ++ x) + String.length y) (stmt_close s2)]).
  { rewrite edits_from_places, Nat.sub_diag by lia. cbn [map place_of place_edits edits_at count app].
    unfold stmt_edits. rewrite T, B1, E1, B2, E2. cbn [app plus]. rewrite length_app. reflexivity. }
  rewrite Es. clear Es. rewrite length_app in *.
  remember (String.length pre) as a eqn:Ea. remember (String.length x) as n eqn:En.
  remember (String.length y) as m eqn:Em.
  set (es := [InsertBefore a (stmt_open o 0); InsertBefore (a + n) (stmt_close s1);
              InsertBefore (a + n) (stmt_open o 1); InsertAfterToken (a + n + m) (stmt_close s2)]).
  set (src := pre ++ x ++ y ++ last).
  assert (Q : rewrite src [InsertBefore a (stmt_open o 0);
           InsertAfterToken (a + n) (stmt_close s1);
           InsertBefore (a + n) (stmt_open o 1);
           InsertAfterToken (a + n + m) (stmt_close s2)] = rewrite src es).
  { unfold rewrite, es, apply_edits. cbn [fold_left apply_edit].
    rewrite (update_nth_at ("", "") (a + n) (fun x0 => (fst x0 ++ stmt_close s1, snd x0))
               (fun x0 => (stmt_close s1 ++ fst x0, snd x0))); auto.
    rewrite nth_update_other by lia. rewrite nth_cells, sapp_nil_r. reflexivity. }
  rewrite Q. clear Q. unfold rewrite.
  assert (Sh : shows (edits_doc es (doc_of src)) 0 (apply_edits es (cells_of src))).
  { apply (shows_edits (fun i => i < a + n + m) (fun i => i = a + n + m)).
    - intros i H1 H2. lia.
    - intros e [<-|[<-|[<-|[<-|[]]]]]; lia.
    - intros i H. exfalso. apply H. reflexivity.
    - intros i H. exfalso. apply H. reflexivity.
    - exact (shows_start src ""). }
  set (D0 := doc_of src) in *.
  assert (Fr : forall u v w, src = u ++ v ++ w -> fresh D0 (String.length u) v).
  { intros u v w Eq. unfold D0. rewrite Eq. apply doc_fresh. reflexivity. }
  destruct (insert_before D0 a (stmt_open o 0) n Z1) as [Q1 O1].
  set (D1 := edit_doc D0 (InsertBefore a (stmt_open o 0))) in *.
  destruct (insert_before D1 (a + n) (stmt_close s1) m Z2) as [Q2 O2].
  set (D2 := edit_doc D1 (InsertBefore (a + n) (stmt_close s1))) in *.
  destruct (insert_before D2 (a + n) (stmt_open o 1) m Z2) as [Q3 O3].
  set (D3 := edit_doc D2 (InsertBefore (a + n) (stmt_open o 1))) in *.
  destruct (insert_after D3 (a + n) (stmt_close s2) m Z2) as [Q4 O4].
  change (edits_doc es D0) with (edit_doc D3 (InsertAfterToken (a + n + m) (stmt_close s2))) in Sh.
  set (D4 := edit_doc D3 (InsertAfterToken (a + n + m) (stmt_close s2))) in *.
  assert (Ls : String.length src = a + (n + (m + String.length last))).
  { unfold src. rewrite !length_app. lia. }
  assert (F1 : seg D0 0 a = pre).
  { rewrite Ea. apply fresh_seg. apply (Fr "" pre (x ++ y ++ last)). reflexivity. }
  assert (F2 : seg D0 a n = x).
  { rewrite En. apply fresh_seg. rewrite Ea. apply (Fr pre x (y ++ last)). reflexivity. }
  assert (F3 : seg D0 (a + n) m = y).
  { rewrite Em. apply fresh_seg. rewrite Ea, En, <- length_app. apply (Fr (pre ++ x) y last).
    unfold src. rewrite sapp_assoc. reflexivity. }
  assert (F4 : seg D0 (a + n + m) (String.length last) = last).
  { apply fresh_seg. rewrite Ea, En, Em, <- !length_app. apply (Fr ((pre ++ x) ++ y) last "").
    unfold src. rewrite !sapp_assoc, sapp_nil_r. reflexivity. }
  assert (Oa : outside D0 D4 a (n + m)).
  { eapply outside_trans; [eapply outside_trans; [eapply outside_trans|]|].
    - eapply outside_weaken; [exact O1|lia|lia].
    - eapply outside_weaken; [exact O2|lia|lia].
    - eapply outside_weaken; [exact O3|lia|lia].
    - eapply outside_weaken; [exact O4|lia|lia]. }
  apply shows_render in Sh. rewrite apply_edits_length, cells_length, Ls in Sh.
  replace (S (a + (n + (m + String.length last)))) with (a + (n + (m + (String.length last + 1)))) in Sh
    by lia.
  rewrite !seg_app in Sh. cbn [seg plus] in Sh.
  rewrite (seg_outside _ _ _ _ 0 a Oa), F1 in Sh by lia.
  rewrite (seg_outside _ _ _ _ a n O4), (seg_outside _ _ _ _ a n O3), (seg_outside _ _ _ _ a n O2),
    Q1, F2 in Sh by lia.
  rewrite Q4, Q3, Q2, (seg_outside _ _ _ _ (a + n) m O1), F3 in Sh by lia.
  rewrite (seg_outside _ _ _ _ (a + n + m) (String.length last) Oa), F4 in Sh by lia.
  destruct Oa as [O5 O6].
  destruct (O5 (a + n + m + String.length last)) as [Hb Hc]; [lia|]. rewrite Hb, Hc in Sh.
  rewrite (O6 (a + (n + (m + (String.length last + 1))))), (O6 (S _)), (O6 0) in Sh by lia.
  unfold D0 in Sh. cbn [doc_of bef aft chr] in Sh.
  assert (End : String.get (a + n + m + String.length last) src = None).
  { replace (a + n + m + String.length last) with (String.length src) by lia.
    clear. induction src; auto. }
  rewrite End, !sapp_nil_r in Sh. cbn [append] in Sh. rewrite Sh, !sapp_assoc. reflexivity.
Qed.
