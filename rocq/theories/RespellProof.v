(* Files some of whose constants are replaced by their values. *)
From Coq Require Import String Ascii List Bool Arith Lia.
From Verif Require Import Base Clang Gen GenExpr GenBinary GenUnary GenStmt Rewriter Mutation
  MutTree PreludeText Run TreeSpec RunSpec RunProof RunProof2 MutTreeProof RewriterProof Lang Cst
  SimMutate NestSpec NestProof NestProof2 RespellSpec.
Import ListNotations.
Local Open Scope string_scope.

(** * A tree, spelled as in a document *)

Section Recut.
Variable L : lang.
Variable D : doc.

Fixpoint recut (t : cst L) (off : nat) : cst L :=
  match t with
  | CVal s v => CVal (seg D off (String.length s)) v
  | CNode k ps last =>
      CNode k
        ((fix go ps off :=
            match ps with
            | [] => []
            | (s, p) :: ps =>
                (seg D off (String.length s), recut p (off + String.length s))
                :: go ps (off + String.length s + size p)
            end) ps off)
        (seg D (off + String.length (texts L ps)) (String.length last))
  | CExpr e sub => CExpr e (recut sub off)
  | CBin b l w1 w2 r =>
      CBin b (recut l off) (seg D (off + size l) (String.length w1))
        (seg D (off + size l + String.length w1 + String.length (bop_str (b_op b)))
           (String.length w2))
        (recut r (off + size l + String.length w1 + String.length (bop_str (b_op b))
                  + String.length w2))
  | CUn u w sub =>
      if is_prefix (u_op u)
      then CUn u (seg D (off + String.length (uop_str (u_op u))) (String.length w))
             (recut sub (off + String.length (uop_str (u_op u)) + String.length w))
      else CUn u (seg D (off + size sub) (String.length w)) (recut sub off)
  | CStmt s sub => CStmt s (recut sub off)
  end.
Fixpoint recut_all (ps : list (string * cst L)) (off : nat) : list (string * cst L) :=
  match ps with
  | [] => []
  | (s, p) :: ps =>
      (seg D off (String.length s), recut p (off + String.length s))
      :: recut_all ps (off + String.length s + size p)
  end.
Lemma recut_node k ps last off :
  recut (CNode k ps last) off =
  CNode k (recut_all ps off) (seg D (off + String.length (texts L ps)) (String.length last)).
Proof. reflexivity. Qed.

(* The operators are as they were. *)
Fixpoint operators (t : cst L) (off : nat) : Prop :=
  match t with
  | CVal _ _ => True
  | CNode k ps _ =>
      (fix go ps off :=
         match ps with
         | [] => True
         | (s, p) :: ps =>
             operators p (off + String.length s) /\ go ps (off + String.length s + size p)
         end) ps off
  | CExpr e sub => operators sub off
  | CBin b l w1 w2 r =>
      operators l off /\ fresh D (off + size l + String.length w1) (bop_str (b_op b)) /\
      operators r (off + size l + String.length w1 + String.length (bop_str (b_op b))
                   + String.length w2)
  | CUn u w sub =>
      if is_prefix (u_op u)
      then fresh D off (uop_str (u_op u)) /\
           operators sub (off + String.length (uop_str (u_op u)) + String.length w)
      else operators sub off /\ fresh D (off + size sub + String.length w) (uop_str (u_op u))
  | CStmt s sub => operators sub off
  end.
Fixpoint operators_all (ps : list (string * cst L)) (off : nat) : Prop :=
  match ps with
  | [] => True
  | (s, p) :: ps =>
      operators p (off + String.length s) /\ operators_all ps (off + String.length s + size p)
  end.
End Recut.
Arguments recut {L}. Arguments recut_all {L}. Arguments operators {L}. Arguments operators_all {L}.

Lemma same_part D D' i n i' n' : same D D' i n -> i <= i' -> i' + n' <= i + n -> same D D' i' n'.
Proof. intros [A B] H1 H2. split; intros j Hj; [apply A|apply B]; lia. Qed.

Lemma size_node L k (ps : list (string * cst L)) last :
  size (CNode k ps last) = String.length (texts L ps) + String.length last.
Proof. unfold size. cbn [text]. apply length_app. Qed.
Lemma texts_cons L s (p : cst L) ps :
  String.length (texts L ((s, p) :: ps)) = String.length s + size p + String.length (texts L ps).
Proof.
  change (texts L ((s, p) :: ps)) with ((s ++ text p) ++ texts L ps). rewrite !length_app. reflexivity.
Qed.
Lemma size_bin L b (l : cst L) w1 w2 r :
  size (CBin b l w1 w2 r) = size l + (String.length w1 + (String.length (bop_str (b_op b))
                              + (String.length w2 + size r))).
Proof. unfold size. cbn [text]. rewrite !length_app. reflexivity. Qed.
Lemma size_un L u w (sub : cst L) :
  size (CUn u w sub) = size sub + String.length w + String.length (uop_str (u_op u)).
Proof.
  unfold size. cbn [text]. unfold un_text. destruct (is_prefix (u_op u)); rewrite !length_app; lia.
Qed.

Lemma recut_same L (t : cst L) : forall D D' off,
  same D D' off (size t) -> recut D' t off = recut D t off /\ (operators D t off -> operators D' t off).
Proof.
  induction t as [s v|k ps last IH|e sub IH|b l w1 w2 r IHl IHr|u w sub IH|s sub IH]
    using cst_induction; intros D D' off S.
  - split; auto. cbn. f_equal. apply seg_same. exact S.
  - rewrite !recut_node, size_node in *.
    change (operators D (CNode k ps last) off) with (operators_all D ps off).
    change (operators D' (CNode k ps last) off) with (operators_all D' ps off).
    assert (G : recut_all D' ps off = recut_all D ps off /\
                (operators_all D ps off -> operators_all D' ps off)).
    { assert (S' : same D D' off (String.length (texts L ps))) by (eapply same_part; eauto; lia).
      clear S k last. revert off S'. induction IH as [|[s p] ps IHp _ IHps]; intros off S; auto.
      rewrite texts_cons in S. cbn [snd] in IHp.
      destruct (IHp D D' (off + String.length s)) as [Q1 O1]; [eapply same_part; eauto; lia|].
      destruct (IHps (off + String.length s + size p)) as [Q2 O2]; [eapply same_part; eauto; lia|].
      cbn [recut_all operators_all]. rewrite Q1, Q2. split; [|tauto]. f_equal. f_equal.
      apply seg_same. eapply same_part; eauto; lia. }
    destruct G as [-> G]. split; [|exact G]. f_equal. apply seg_same. eapply same_part; eauto; lia.
  - cbn [recut operators]. destruct (IH D D' off S) as [-> H]. auto.
  - rewrite size_bin in S. cbn [recut operators].
    destruct (IHl D D' off) as [-> H]; [eapply same_part; eauto; lia|].
    destruct (IHr D D' (off + size l + String.length w1 + String.length (bop_str (b_op b))
                   + String.length w2)) as [-> H']; [eapply same_part; eauto; lia|].
    split.
    + f_equal; apply seg_same; eapply same_part; eauto; lia.
    + intros (O1 & O2 & O3). repeat split; auto. eapply fresh_same; [|exact O2].
      eapply same_part; eauto; lia.
  - rewrite size_un in S. cbn [recut operators]. destruct (is_prefix (u_op u)).
    + destruct (IH D D' (off + String.length (uop_str (u_op u)) + String.length w)) as [-> H];
        [eapply same_part; eauto; lia|]. split.
      * f_equal. apply seg_same. eapply same_part; eauto; lia.
      * intros [O1 O2]. split; auto. eapply fresh_same; [|exact O1]. eapply same_part; eauto; lia.
    + destruct (IH D D' off) as [-> H]; [eapply same_part; eauto; lia|]. split.
      * f_equal. apply seg_same. eapply same_part; eauto; lia.
      * intros [O1 O2]. split; auto. eapply fresh_same; [|exact O2]. eapply same_part; eauto; lia.
  - cbn [recut operators]. destruct (IH D D' off S) as [-> H]. auto.
Qed.

(* The text of the tree as it is spelled *)
Lemma recut_text L (t : cst L) : forall D off, operators D t off ->
  text (recut D t off) = seg D off (size t).
Proof.
  induction t as [s v|k ps last IH|e sub IH|b l w1 w2 r IHl IHr|u w sub IH|s sub IH]
    using cst_induction; intros D off O; auto; try (cbn [recut text]; apply IH; exact O).
  - rewrite recut_node, size_node, seg_app. cbn [text]. fold (texts L (recut_all D ps off)). f_equal.
    change (operators D (CNode k ps last) off) with (operators_all D ps off) in O.
    clear k last. revert off O. induction IH as [|[s p] ps IHp _ IHps]; intros off O; auto.
    cbn [operators_all] in O. destruct O as [O1 O2].
    rewrite texts_cons, !seg_app. cbn [recut_all snd] in *.
    change (texts L ((?a, ?b) :: ?x)) with ((a ++ text b) ++ texts L x). rewrite IHp, IHps by auto.
    rewrite Nat.add_assoc. reflexivity.
  - cbn [operators] in O. destruct O as (O1 & O2 & O3). rewrite size_bin, !seg_app.
    cbn [recut text]. rewrite IHl, IHr by auto. rewrite (fresh_seg _ _ _ O2). reflexivity.
  - rewrite size_un. cbn [operators recut] in *. destruct (is_prefix (u_op u)) eqn:Pre;
      destruct O as [O1 O2]; cbn [text]; unfold un_text; rewrite Pre, IH by auto.
    + replace (size sub + String.length w + String.length (uop_str (u_op u)))
        with (String.length (uop_str (u_op u)) + (String.length w + size sub)) by lia.
      rewrite !seg_app, (fresh_seg _ _ _ O1). reflexivity.
    + rewrite !seg_app, Nat.add_assoc, (fresh_seg _ _ _ O2), sapp_assoc. reflexivity.
Qed.

(** * The edits of a tree in a document *)

Section Nested.
Variable c : ctx.
Variable o : options.
Variable L : lang.
Notation place_edits := (place_edits c o).
Notation counts := (counts c o).

Lemma around_seg D D1 D2 D3 D4 D5 off nl n1 no n2 nr l' op' r' p1 s1 p2 s2 :
  outcome D D1 off nl l' ->
  outcome D1 D2 (off + nl + n1 + no + n2) nr r' ->
  outcome D2 D3 (off + nl + n1) no op' ->
  outcome D3 D4 off nl (p1 ++ seg D3 off nl ++ s1) ->
  outcome D4 D5 (off + nl + n1 + no + n2) nr (p2 ++ seg D4 (off + nl + n1 + no + n2) nr ++ s2) ->
  outcome D D5 off (nl + (n1 + (no + (n2 + nr))))
    ((p1 ++ l' ++ s1) ++ seg D (off + nl) n1 ++ op' ++ seg D (off + nl + n1 + no) n2
     ++ (p2 ++ r' ++ s2)).
Proof.
  intros [Q1 O1] [Q2 O2] [Q3 O3] [Q4 O4] [Q5 O5]. split.
  - rewrite !seg_app.
    rewrite (seg_outside _ _ _ _ off nl O5), Q4, (seg_outside _ _ _ _ off nl O3),
      (seg_outside _ _ _ _ off nl O2), Q1 by lia.
    rewrite (seg_outside _ _ _ _ (off + nl) n1 O5), (seg_outside _ _ _ _ (off + nl) n1 O4),
      (seg_outside _ _ _ _ (off + nl) n1 O3), (seg_outside _ _ _ _ (off + nl) n1 O2),
      (seg_outside _ _ _ _ (off + nl) n1 O1) by lia.
    rewrite (seg_outside _ _ _ _ (off + nl + n1) no O5),
      (seg_outside _ _ _ _ (off + nl + n1) no O4), Q3 by lia.
    rewrite (seg_outside _ _ _ _ (off + nl + n1 + no) n2 O5),
      (seg_outside _ _ _ _ (off + nl + n1 + no) n2 O4),
      (seg_outside _ _ _ _ (off + nl + n1 + no) n2 O3),
      (seg_outside _ _ _ _ (off + nl + n1 + no) n2 O2),
      (seg_outside _ _ _ _ (off + nl + n1 + no) n2 O1) by lia.
    rewrite Q5, (seg_outside _ _ _ _ (off + nl + n1 + no + n2) nr O4),
      (seg_outside _ _ _ _ (off + nl + n1 + no + n2) nr O3), Q2 by lia. reflexivity.
  - eapply outside_trans; [eapply outside_trans; [eapply outside_trans; [eapply outside_trans|]|]|].
    + eapply (outside_weaken _ _ off nl); [exact O1|lia|lia].
    + eapply (outside_weaken _ _ (off + nl + n1 + no + n2) nr); [exact O2|lia|lia].
    + eapply (outside_weaken _ _ (off + nl + n1) no); [exact O3|lia|lia].
    + eapply (outside_weaken _ _ off nl); [exact O4|lia|lia].
    + eapply (outside_weaken _ _ (off + nl + n1 + no + n2) nr); [exact O5|lia|lia].
Qed.

Lemma outcome_seg D off n : outcome D D off n (seg D off n).
Proof. split; [reflexivity|apply outside_refl]. Qed.

Lemma nested_doc (t : cst L) : forall id off D, placed t off -> operators D t off ->
  outcome D (edits_doc (place_edits id (places t)) D) off (size t)
    (text (fst (mutate L c o (recut D t off) id))) /\
  snd (mutate L c o (recut D t off) id) = id + counts (places t).
Proof.
  induction t as [s v|k ps last IH|e sub IH|b l w1 w2 r IHl IHr|u w sub IH|s sub IH]
    using cst_induction; intros id off D P F.
  - cbn. split; [|lia]. apply outcome_seg.
  - rewrite recut_node, mutate_node, size_node. cbn [fst snd places].
    change (placed (CNode k ps last) off) with (placed_all L ps off) in P.
    change (operators D (CNode k ps last) off) with (operators_all D ps off) in F.
    assert (G : outcome D (edits_doc (place_edits id (flat_map (fun p => places (snd p)) ps)) D)
              off (String.length (texts L ps)) (texts L (fst (mutate_all L c o (recut_all D ps off) id))) /\
            snd (mutate_all L c o (recut_all D ps off) id)
            = id + counts (flat_map (fun p => places (snd p)) ps)).
    { clear last k. revert id off D P F.
      induction IH as [|[s p] ps IHp _ IHps]; intros id off D P F.
      - split; [|cbn; lia]. apply (outcome_seg D off 0).
      - cbn [placed_all] in P. destruct P as [Pp Pps].
        cbn [operators_all] in F. destruct F as [Fp Fps]. cbn [snd] in IHp.
        cbn [flat_map snd mutate_all recut_all].
        rewrite place_edits_app, edits_doc_app, counts_app.
        destruct (IHp id _ D Pp Fp) as [[Q1 O1] N1].
        destruct (mutate L c o (recut D p (off + String.length s)) id) as [p' id']. cbn [fst snd] in *. subst id'.
        remember (edits_doc (place_edits id (places p)) D) as D1 eqn:E1. clear E1.
        assert (Sm : forall (q : list (string * cst L)) d, operators_all D q (off + String.length s + size p + d) ->
                  recut_all D1 q (off + String.length s + size p + d)
                  = recut_all D q (off + String.length s + size p + d) /\
                  operators_all D1 q (off + String.length s + size p + d)).
        { clear - O1. intros q. induction q as [|[s' p'] q IH]; intros d H; auto.
          cbn [recut_all operators_all] in *. destruct H as [H1 H2].
          destruct (recut_same L p' D D1 (off + String.length s + size p + d + String.length s')) as [E1 E2].
          { eapply outside_same; [exact O1|lia]. }
          replace (off + String.length s + size p + d + String.length s' + size p')
            with (off + String.length s + size p + (d + String.length s' + size p')) in * by lia.
          destruct (IH _ H2) as [-> H2']. rewrite E1. split; auto.
          f_equal. f_equal. eapply seg_outside; [exact O1|lia]. }
        specialize (Sm ps 0). rewrite Nat.add_0_r in Sm. destruct (Sm Fps) as [Er Fps1]. clear Sm.
        destruct (IHps (id + counts (places p)) _ D1 Pps Fps1) as [[Q2 O2] N2]. rewrite Er in Q2, N2.
        destruct (mutate_all L c o (recut_all D ps (off + String.length s + size p)) (id + counts (places p))) as [ps' id2].
        cbn [fst snd] in *. split; [|lia].
        change (texts L ((?a, p') :: ps')) with ((a ++ text p') ++ texts L ps').
        remember (edits_doc (place_edits (id + counts (places p))
                    (flat_map (fun p => places (snd p)) ps)) D1) as D2 eqn:E2. clear E2.
        rewrite texts_cons. split.
        + rewrite !seg_app. rewrite Nat.add_assoc.
          rewrite Q2. f_equal.
          rewrite (seg_outside _ _ _ _ off (String.length s) O2),
            (seg_outside _ _ _ _ off (String.length s) O1) by lia. f_equal.
          rewrite (seg_outside _ _ _ _ _ _ O2) by lia. exact Q1.
        + eapply outside_trans.
          * eapply outside_weaken; [exact O1|lia|lia].
          * eapply outside_weaken; [exact O2|lia|lia]. }
    destruct G as [[Q O] N]. split; [|exact N]. cbn [text].
    fold (texts L (fst (mutate_all L c o (recut_all D ps off) id))). split.
    + rewrite seg_app, Q. f_equal. apply (seg_outside _ _ _ _ _ _ O). lia.
    + eapply outside_weaken; [exact O|lia|lia].
  - cbn [placed] in P. destruct P as [(Z & B & E) P]. cbn [operators] in F.
    destruct (IH id off D P F) as [G N]. cbn [recut mutate places].
    destruct (mutate L c o (recut D sub off) id) as [sub' id']. cbn [fst snd] in *. subst id'.
    rewrite counts_app, place_edits_app, edits_doc_app. cbn [NestProof.counts count NestProof.place_edits edits_at].
    rewrite app_nil_r, expr_text. split; [|lia]. unfold expr_edits. rewrite B, E.
    apply wrapped; [exact Z|exact G].
  - rewrite size_bin. cbn [placed] in P.
    destruct P as ((Zl & Bl & El) & Pl & Op & (Zr & Br & Er) & Pr & (Zb & Bb & Eb)).
    rewrite size_bin in Zb, Eb.
    cbn [operators] in F. destruct F as (Fl & Fo & Fr).
    destruct (IHl id off D Pl Fl) as [Gl Nl]. cbn [recut mutate places].
    destruct (mutate L c o (recut D l off) id) as [l' id']. cbn [fst snd] in *. subst id'.
    pose proof (proj2 Gl) as Ol.
    remember (edits_doc (place_edits id (places l)) D) as D1 eqn:E1.
    destruct (recut_same L r D D1 (off + size l + String.length w1
                + String.length (bop_str (b_op b)) + String.length w2)) as [Rr Rf].
    { eapply outside_same; [exact Ol|lia]. }
    destruct (IHr (id + counts (places l)) _ D1 Pr (Rf Fr)) as [Gr Nr]. rewrite Rr in Gr, Nr.
    destruct (mutate L c o (recut D r _) (id + counts (places l))) as [r' id']. cbn [fst snd] in *. subst id'.
    rewrite !counts_app, !place_edits_app, !edits_doc_app. cbn [NestProof.counts count NestProof.place_edits edits_at].
    rewrite app_nil_r. split; [|lia]. rewrite <- E1. clear E1.
    remember (edits_doc (place_edits (id + counts (places l)) (places r)) D1) as D2 eqn:E2. clear E2.
    pose proof (proj2 Gr) as Or.
    assert (Fo2 : fresh D2 (off + size l + String.length w1) (bop_str (b_op b))).
    { eapply fresh_outside; [exact Or|lia|]. eapply fresh_outside; [exact Ol|lia|exact Fo]. }
    remember (seg D (off + size l) (String.length w1)) as v1 eqn:V1.
    remember (seg D (off + size l + String.length w1 + String.length (bop_str (b_op b)))
                (String.length w2)) as v2 eqn:V2.
    cbn [text] in *.
    destruct (c_logical c b).
    + unfold c_logical_edits, mutated_c_logical. rewrite text_call1, edits_doc_app.
      change (mf_name (c_logical_outer_function c o b))
        with (binary_function_name c (optimise o) b ++ "_outer").
      remember (id + counts (places l) + counts (places r)) as i eqn:Ei. clear Ei.
      cbn [append]. rewrite Bb, Eb, (sapp_assoc _ "_outer" "("). cbn [append].
      apply wrapped; [exact Zb|]. cbn [text].
      remember (binary_function_name c (optimise o) b) as name eqn:En.
      subst v1 v2.
      destruct (track o); cbn [negb when].
      * assert (G := around_seg D D1 D2 D2 D2 D2 off _ _ _ _ _ _ _ _ "" "" "" "" Gl Gr
                       (outcome_refl _ _ _ Fo2)).
        cbn [append] in G. rewrite !sapp_nil_r in G. apply G; split; auto using outside_refl.
      * rewrite !text_call1. cbn [append].
        change (mf_name (c_logical_lhs_function c o b))
          with (binary_function_name c (optimise o) b ++ "_lhs").
        change (mf_name (c_logical_rhs_function c o b))
          with (binary_function_name c (optimise o) b ++ "_rhs"). rewrite <- En.
        rewrite (sapp_assoc _ "_lhs" "("), (sapp_assoc _ "_rhs" "("). cbn [append].
        rewrite Bl, El, Br, Er. eapply around_seg; [exact Gl|exact Gr|apply outcome_refl; exact Fo2| |].
        -- apply wrap_seg. exact Zl.
        -- apply wrap_seg. exact Zr.
    + destruct (binary_text c o L b (id + counts (places l) + counts (places r)) v1 v2)
        as (p1 & s1 & p2 & s2 & -> & ->). rewrite Op, Bl, El, Br, Er. subst v1 v2.
      eapply around_seg; [exact Gl|exact Gr| | |].
      * apply (replace_seg _ _ _ "," (bop_nonempty (b_op b)) Fo2).
      * apply wrap_seg. exact Zl.
      * apply wrap_seg. exact Zr.
  - cbn [placed] in P. destruct P as [(Z & B & E) P]. rewrite size_un in *.
    cbn [operators recut places] in *.
    rewrite counts_app, place_edits_app, edits_doc_app. cbn [NestProof.counts count NestProof.place_edits edits_at].
    rewrite app_nil_r.
    destruct (is_prefix (u_op u)) eqn:Pre; destruct P as [Op P]; destruct F as [F1 F2]; cbn [mutate].
    + destruct (IH id _ D P F2) as [G N].
      destruct (unary_text c o L u (id + counts (places sub))
                  (seg D (off + String.length (uop_str (u_op u))) (String.length w)))
        as (p & q & Qe & Qt). rewrite Qe.
      cbn [edits_doc fold_left].
      match goal with |- outcome _ (edit_doc (edit_doc ?d ?a) ?b) _ _ _ /\ _ =>
        change (edit_doc (edit_doc d a) b) with (edits_doc [a; b] d) end.
      rewrite B, E, Op.
      destruct (mutate L c o (recut D sub _) id) as [sub' id']. cbn [fst snd] in *. subst id'.
      split; [|lia]. rewrite Qt. apply wrapped; [exact Z|]. destruct G as [Q O].
      remember (edits_doc (place_edits id (places sub)) D) as D1 eqn:E1. clear E1.
      assert (Fo1 : fresh D1 off (uop_str (u_op u))).
      { eapply fresh_outside; [exact O|lia|exact F1]. }
      destruct (replace_seg _ _ _ "" (uop_nonempty (u_op u)) Fo1) as [Q2 O2].
      rewrite Pre.
      replace (size sub + String.length w + String.length (uop_str (u_op u)))
        with (String.length (uop_str (u_op u)) + (String.length w + size sub)) by lia. split.
      * rewrite !seg_app, Q2. cbn [append].
        rewrite (seg_outside _ _ _ _ _ (String.length w) O2), (seg_outside _ _ _ _ _ (String.length w) O) by lia. f_equal.
        rewrite (seg_outside _ _ _ _ _ _ O2) by lia. exact Q.
      * eapply outside_trans.
        -- eapply outside_weaken; [exact O|lia|lia].
        -- eapply outside_weaken; [exact O2|lia|lia].
    + destruct (IH id _ D P F1) as [G N].
      destruct (unary_text c o L u (id + counts (places sub))
                  (seg D (off + size sub) (String.length w)))
        as (p & q & Qe & Qt). rewrite Qe.
      cbn [edits_doc fold_left].
      match goal with |- outcome _ (edit_doc (edit_doc ?d ?a) ?b) _ _ _ /\ _ =>
        change (edit_doc (edit_doc d a) b) with (edits_doc [a; b] d) end.
      rewrite B, E, Op.
      destruct (mutate L c o (recut D sub _) id) as [sub' id']. cbn [fst snd] in *. subst id'.
      split; [|lia]. rewrite Qt. apply wrapped; [exact Z|]. destruct G as [Q O].
      remember (edits_doc (place_edits id (places sub)) D) as D1 eqn:E1. clear E1.
      assert (Fo1 : fresh D1 (off + size sub + String.length w) (uop_str (u_op u))).
      { eapply fresh_outside; [exact O|lia|exact F2]. }
      destruct (replace_seg _ _ _ "" (uop_nonempty (u_op u)) Fo1) as [Q2 O2].
      rewrite Pre. split.
      * rewrite !seg_app, Nat.add_assoc, Q2, !sapp_nil_r.
        rewrite (seg_outside _ _ _ _ off _ O2), Q by lia. f_equal.
        rewrite (seg_outside _ _ _ _ _ _ O2), (seg_outside _ _ _ _ _ _ O) by lia. reflexivity.
      * eapply outside_trans.
        -- eapply outside_weaken; [exact O|lia|lia].
        -- eapply outside_weaken; [exact O2|lia|lia].
  - cbn [placed] in P. destruct P as [(Z & B & E) P]. cbn [operators] in F.
    destruct (IH id off D P F) as [G N]. cbn [recut mutate places].
    destruct (mutate L c o (recut D sub off) id) as [sub' id']. cbn [fst snd] in *. subst id'.
    rewrite counts_app, place_edits_app, edits_doc_app. cbn [NestProof.counts count NestProof.place_edits edits_at].
    rewrite app_nil_r. split; [|lia]. unfold stmt_edits, mutated_stmt. rewrite B, E.
    destruct (track o); rewrite text_one.
    + rewrite sapp_nil_r. apply outcome_before; [exact Z|exact G].
    + apply wrapped; [exact Z|exact G].
Qed.
End Nested.

(** * Replacements commute with the edits of the places *)

Definition equal (D D' : doc) : Prop :=
  forall j, aft D' j = aft D j /\ bef D' j = bef D j /\ chr D' j = chr D j.
Lemma equal_refl D : equal D D.
Proof. intro j. auto. Qed.
Lemma equal_trans D1 D2 D3 : equal D1 D2 -> equal D2 D3 -> equal D1 D3.
Proof. intros A B j. destruct (A j) as (? & ? & ?), (B j) as (? & ? & ?). repeat split; congruence. Qed.
Lemma equal_same D D' i n : equal D D' -> same D D' i n.
Proof. intro E. split; intros j _; destruct (E j) as (? & ? & ?); auto. Qed.
Lemma equal_edit D D' e : equal D D' -> equal (edit_doc D e) (edit_doc D' e).
Proof.
  intros E j. destruct (E j) as (A & B & C). destruct e as [i s|i s|i n s]; cbn [edit_doc aft bef chr].
  - repeat split; auto. unfold set. destruct (Nat.eqb_spec j i); auto. subst. rewrite B. reflexivity.
  - repeat split; auto. unfold set. destruct (Nat.eqb_spec j i); auto. subst. rewrite A. reflexivity.
  - repeat split; auto. rewrite C. reflexivity.
Qed.
Lemma equal_edits es : forall D D', equal D D' -> equal (edits_doc es D) (edits_doc es D').
Proof.
  induction es as [|e es IH]; intros D D' E; auto. apply IH, equal_edit, E.
Qed.

(* Replacements that do not overlap *)
Definition disjoint (e r : edit) : Prop :=
  match e, r with
  | ReplaceText i n _, ReplaceText j m _ => n <> 0 /\ m <> 0 /\ (j + m <= i \/ i + n <= j)
  | _, ReplaceText _ _ _ => True
  | _, _ => False
  end.
Lemma commute_one D e r : disjoint e r ->
  equal (edit_doc (edit_doc D r) e) (edit_doc (edit_doc D e) r).
Proof.
  destruct r as [j s'|j s'|j m s']; destruct e as [i s|i s|i n s]; cbn [disjoint]; try tauto;
    intros H k; cbn [edit_doc aft bef chr]; auto.
  repeat split; auto.
  destruct (Nat.eqb_spec k i), (Nat.eqb_spec k j), (Nat.ltb_spec i k), (Nat.ltb_spec k (i + n)),
    (Nat.ltb_spec j k), (Nat.ltb_spec k (j + m)); cbn [andb]; auto; lia.
Qed.
Lemma commute_edits es r : forall D, Forall (fun e => disjoint e r) es ->
  equal (edits_doc es (edit_doc D r)) (edit_doc (edits_doc es D) r).
Proof.
  induction es as [|e es IH]; intros D H; [apply equal_refl|]. inversion H; subst.
  cbn [edits_doc fold_left]. eapply equal_trans; [|exact (IH _ H3)].
  apply equal_edits, commute_one, H2.
Qed.
Lemma commute rw es : forall D, (forall r, In r rw -> Forall (fun e => disjoint e r) es) ->
  equal (edits_doc es (edits_doc rw D)) (edits_doc (es ++ rw)%list D).
Proof.
  induction rw as [|r rw IH]; intros D H.
  - rewrite app_nil_r. apply equal_refl.
  - cbn [edits_doc fold_left]. eapply equal_trans; [apply IH; intros; apply H; right; assumption|].
    rewrite !edits_doc_app. change (edits_doc (r :: rw) ?d) with (edits_doc rw (edit_doc d r)).
    apply equal_edits, commute_edits, H. left. reflexivity.
Qed.

Lemma edits_token c o p id i n s :
  In (ReplaceText i n s) (edits_at c o p id) -> operator_token p = Some (i, n).
Proof.
  destruct p as [e|b|u|st]; cbn [edits_at].
  - cbn. intros [H|[H|[]]]; inversion H.
  - destruct (c_logical c b).
    + unfold c_logical_edits. destruct (track o); cbn [negb when app In]; intro H;
        repeat (destruct H as [H|H]); try contradiction; inversion H.
    + cbn [binary_edits operator_token]. intro H; repeat (destruct H as [H|H]); try contradiction; inversion H.
      reflexivity.
  - cbn [operator_token]. intro H. cbn in H.
    repeat (destruct H as [H|H]); try contradiction; inversion H. reflexivity.
  - unfold stmt_edits. destruct (track o); cbn; intro H; repeat (destruct H as [H|H]);
      try contradiction; inversion H.
Qed.
Lemma place_edits_token c o ps : forall id i n s,
  In (ReplaceText i n s) (place_edits c o id ps) ->
  n <> 0 /\ exists p, In p ps /\ operator_token p = Some (i, n).
Proof.
  induction ps as [|p ps IH]; intros id i n s H; [contradiction|]. cbn [place_edits] in H.
  apply in_app_iff in H. destruct H as [H|H].
  - split; [exact (edits_replace _ _ _ _ _ _ _ H)|]. exists p. split; [left; reflexivity|].
    exact (edits_token _ _ _ _ _ _ _ H).
  - destruct (IH _ _ _ _ H) as (N & q & I & T). split; auto. exists q. split; [right|]; assumption.
Qed.
Lemma beside_disjoint c o rw ps id : beside_operators rw ps ->
  forall r, In r rw -> Forall (fun e => disjoint e r) (place_edits c o id ps).
Proof.
  intros B r Hr. destruct (B r Hr) as (j & m & s & -> & Nz & H). apply Forall_forall.
  intros e He. destruct e as [i t|i t|i n t]; cbn; auto.
  destruct (place_edits_token _ _ _ _ _ _ _ He) as (Nn & p & Hp & T).
  specialize (H p i n Hp T). lia.
Qed.

Lemma replaced_same rw : forall D j m,
  (forall r, In r rw -> exists i n s, r = ReplaceText i n s /\ (n = 0 -> False) /\ (i + n <= j \/ j + m <= i)) ->
  same D (edits_doc rw D) j m.
Proof.
  induction rw as [|r rw IH]; intros D j m H; [split; auto|].
  change (edits_doc (r :: rw) D) with (edits_doc rw (edit_doc D r)).
  specialize (IH (edit_doc D r) j m (fun x I => H x (or_intror I))).
  destruct (H r (or_introl eq_refl)) as (i & n & s & -> & Nz & Dj). destruct IH as [A B]. split.
  - intros k Hk. destruct (A k Hk) as [-> ->]. cbn [edit_doc bef chr]. split; auto.
    destruct (Nat.eqb_spec k i), (Nat.ltb_spec i k), (Nat.ltb_spec k (i + n)); cbn [andb]; auto; lia.
  - intros k Hk. rewrite B by lia. reflexivity.
Qed.

Lemma replaced_inserts rw : forall D,
  (forall r, In r rw -> exists i n s, r = ReplaceText i n s) ->
  forall j, aft (edits_doc rw D) j = aft D j /\ bef (edits_doc rw D) j = bef D j.
Proof.
  induction rw as [|r rw IH]; intros D H j; auto.
  change (edits_doc (r :: rw) D) with (edits_doc rw (edit_doc D r)).
  destruct (IH (edit_doc D r) (fun x I => H x (or_intror I)) j) as [A B].
  destruct (H r (or_introl eq_refl)) as (i & n & s & ->). split; [rewrite A|rewrite B]; reflexivity.
Qed.

Section Operators.
Variable L : lang.
Lemma operators_fresh D D' (t : cst L) : forall off, placed t off -> fresh D off (text t) ->
  (forall p j m, In p (places t) -> operator_token p = Some (j, m) -> same D D' j m) ->
  operators D' t off.
Proof.
  induction t as [s v|k ps last IH|e sub IH|b l w1 w2 r IHl IHr|u w sub IH|s sub IH]
    using cst_induction; intros off P F S.
  - exact I.
  - change (placed (CNode k ps last) off) with (placed_all L ps off) in P.
    change (operators D' (CNode k ps last) off) with (operators_all D' ps off).
    cbn [text] in F. fold (texts L ps) in F. apply fresh_app in F. destruct F as [F _].
    cbn [places] in S. clear k last. revert off P F.
    induction IH as [|[s p] ps IHp _ IHps]; intros off P F; [exact I|].
    change (texts L ((s, p) :: ps)) with ((s ++ text p) ++ texts L ps) in F.
    rewrite sapp_assoc in F. apply fresh_app in F. destruct F as [_ F].
    apply fresh_app in F. destruct F as [Fp F]. destruct P as [Pp P]. cbn [snd flat_map] in *. split.
    + apply IHp; auto. intros q j m Hq. apply S. apply in_app_iff. auto.
    + apply IHps; auto. intros q j m Hq. apply S. apply in_app_iff. auto.
  - cbn [placed text places operators] in *. apply IH; auto; [apply P|].
    intros q j m Hq. apply S. apply in_app_iff. auto.
  - cbn [placed text places operators] in *. destruct P as (_ & Pl & Op & _ & Pr & _).
    apply fresh_app in F. destruct F as [Fl F]. apply fresh_app in F. destruct F as [_ F].
    apply fresh_app in F. destruct F as [Fo F]. apply fresh_app in F. destruct F as [_ Fr].
    split; [|split].
    + apply IHl; auto. intros q j m Hq. apply S. apply in_app_iff. auto.
    + eapply fresh_same; [|exact Fo]. apply (S (PBin b)); [|cbn; rewrite Op; reflexivity].
      rewrite !in_app_iff. right. right. left. reflexivity.
    + apply IHr; auto. intros q j m Hq. apply S. rewrite !in_app_iff. auto.
  - cbn [placed text places operators] in *. destruct P as [_ P]. unfold un_text in F.
    destruct (is_prefix (u_op u)); destruct P as [Op P].
    + apply fresh_app in F. destruct F as [Fo F]. apply fresh_app in F. destruct F as [_ Fs]. split.
      * eapply fresh_same; [|exact Fo]. apply (S (PUn u)); [|cbn; rewrite Op; reflexivity].
        rewrite !in_app_iff. right. left. reflexivity.
      * apply IH; auto. intros q j m Hq. apply S. apply in_app_iff. auto.
    + apply fresh_app in F. destruct F as [Fs F]. apply fresh_app in F. destruct F as [_ Fo]. split.
      * apply IH; auto. intros q j m Hq. apply S. apply in_app_iff. auto.
      * eapply fresh_same; [|exact Fo]. apply (S (PUn u)); [|cbn; rewrite Op; reflexivity].
        rewrite !in_app_iff. right. left. reflexivity.
  - cbn [placed text places operators] in *. apply IH; auto; [apply P|].
    intros q j m Hq. apply S. apply in_app_iff. auto.
Qed.
End Operators.

(** * Files *)

Section File.
Variable L : lang.
Variable c : ctx.
Variable o : options.

Lemma replaced_cells pre (t : cst L) post rw :
  placed t (String.length pre) -> separated (places t) -> beside_operators rw (places t) ->
  let src := pre ++ text t ++ post in
  let D0 := edits_doc rw (doc_of src) in
  let cs := apply_edits (place_edits c o 0 (places t) ++ rw)%list (cells_of src) in
  let t' := recut D0 t (String.length pre) in
  let pre' := seg D0 0 (String.length pre) in
  let post' := seg D0 (String.length pre + size t) (String.length post + 1) in
    rewrite src rw = pre' ++ text t' ++ post' /\
    render (firstn (String.length pre) cs) = pre' /\
    render (skipn (String.length pre) cs) = text (fst (mutate L c o t' 0)) ++ post'.
Proof.
  intros P Ap Bs src D0 cs t' pre' post'.
  assert (Repl : forall r, In r rw -> exists i n s, r = ReplaceText i n s).
  { intros r Hr. destruct (Bs r Hr) as (i & n & s & -> & _). eauto. }
  assert (F : fresh (doc_of src) (String.length pre) (text t)) by (apply doc_fresh; reflexivity).
  assert (Fo : operators D0 t (String.length pre)).
  { apply (operators_fresh L (doc_of src)); auto. intros p j m Hp T. apply replaced_same.
    intros r Hr. destruct (Bs r Hr) as (i & n & s & -> & Nz & H). exists i, n, s.
    repeat split; auto. exact (H p j m Hp T). }
  destruct (nested_doc c o L t 0 _ D0 P Fo) as [[Q O] _].
  pose proof (commute rw (place_edits c o 0 (places t)) (doc_of src) (beside_disjoint c o rw _ 0 Bs)) as Cm.
  fold D0 in Cm.
  assert (Ins : forall j, aft D0 j = "" /\ bef D0 j = "").
  { intro j. destruct (replaced_inserts rw (doc_of src) Repl j) as [A B]. split; [exact A|exact B]. }
  assert (Sh : shows (edits_doc (place_edits c o 0 (places t) ++ rw)%list (doc_of src)) 0 cs).
  { apply (shows_edits (fun i => In i (flat_map begins (places t)))
             (fun i => In i (flat_map ends (places t)))).
    - intros i H1 H2. exact (Ap i H1 H2).
    - intros e He. apply in_app_iff in He. destruct He as [He|He].
      + exact (place_edits_apart c o (places t) 0 e He).
      + destruct (Bs e He) as (i & n & s & -> & Nz & _). exact Nz.
    - intros i H. exfalso. apply H. reflexivity.
    - intros i H. exfalso. apply H. reflexivity.
    - exact (shows_start src ""). }
  assert (Sh0 : shows D0 0 (apply_edits rw (cells_of src))).
  { apply (shows_edits (fun i => False) (fun i => False)).
    - auto.
    - intros e He. destruct (Bs e He) as (i & n & s & -> & Nz & _). exact Nz.
    - intros i H. exfalso. apply H. reflexivity.
    - intros i H. exfalso. apply H. reflexivity.
    - exact (shows_start src ""). }
  remember (edits_doc (place_edits c o 0 (places t) ++ rw)%list (doc_of src)) as D eqn:E. clear E.
  remember (edits_doc (place_edits c o 0 (places t)) D0) as D1 eqn:E1. clear E1.
  assert (Sg : forall i n, seg D i n = seg D1 i n).
  { intros i n. apply seg_same, equal_same, Cm. }
  assert (Af : forall i, i <= String.length pre \/ String.length pre + size t < i -> aft D i = "").
  { intros i Hi. destruct (Cm i) as (-> & _). destruct O as [_ O]. rewrite O by lia. apply Ins. }
  assert (Len : List.length cs = S (String.length src)).
  { unfold cs. rewrite apply_edits_length, cells_length. reflexivity. }
  assert (Len0 : List.length (apply_edits rw (cells_of src)) = S (String.length src)).
  { rewrite apply_edits_length, cells_length. reflexivity. }
  assert (Ls : String.length src = String.length pre + (size t + String.length post)).
  { unfold src, size. rewrite !length_app. reflexivity. }
  unfold pre', post'.
  split; [|split].
  - apply shows_render in Sh0. rewrite Len0 in Sh0.
    destruct (Ins (0 + S (String.length src))) as [A1 _], (Ins 0) as [A2 _].
    rewrite A1, A2, sapp_nil_r in Sh0. unfold rewrite. rewrite Sh0. cbn [append].
    unfold t'. rewrite recut_text by exact Fo.
    replace (S (String.length src)) with (String.length pre + (size t + (String.length post + 1))) by lia.
    rewrite !seg_app. reflexivity.
  - rewrite <- (firstn_skipn (String.length pre) cs) in Sh. apply shows_app in Sh. destruct Sh as [S1 _].
    apply shows_render in S1. rewrite firstn_length, Len in S1.
    replace (Nat.min (String.length pre) (S (String.length src))) with (String.length pre) in S1 by lia.
    rewrite !Af, sapp_nil_r in S1 by lia. rewrite S1. cbn [append]. rewrite Sg.
    apply (seg_outside _ _ _ _ _ _ O). lia.
  - rewrite <- (firstn_skipn (String.length pre) cs) in Sh. apply shows_app in Sh. destruct Sh as [_ S2].
    rewrite firstn_length, Len in S2.
    replace (0 + Nat.min (String.length pre) (S (String.length src))) with (String.length pre) in S2 by lia.
    apply shows_render in S2. rewrite skipn_length, Len in S2.
    rewrite !Af, sapp_nil_r in S2 by lia. rewrite S2. cbn [append].
    replace (S (String.length src) - String.length pre) with (size t + (String.length post + 1)) by lia.
    rewrite Sg, seg_app, Q. f_equal. apply (seg_outside _ _ _ _ _ _ O). lia.
Qed.
End File.
