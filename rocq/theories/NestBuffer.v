(* The edits of a placed tree do not get in each other's way. *)
From Coq Require Import String Ascii List Bool Arith Lia.
From Verif Require Import Base Clang Gen GenExpr GenBinary GenUnary GenStmt Rewriter Mutation
  MutTree PreludeText Run TreeSpec RunSpec RunProof RunProof2 RewriterProof Lang Cst SimMutate NestSpec
  NestProof NestProof2 RewriteBuffer RewriteBufferSpec RewriteBufferProof.
Import ListNotations.
Local Open Scope list_scope.

(* An edit within n characters from offset off *)
Definition within (off n : nat) (e : edit) : Prop :=
  match e with
  | InsertBefore i _ | InsertAfterToken i _ => off <= i <= off + n
  | ReplaceText i l _ => 0 < l /\ off <= i /\ i + l <= off + n
  end.
(* An insertion at one of some offsets *)
Definition at_one_of (is : list nat) (e : edit) : Prop :=
  match e with
  | InsertBefore i _ | InsertAfterToken i _ => In i is
  | ReplaceText _ _ _ => False
  end.

Definition orderly (off n : nat) (es : list edit) : Prop :=
  Forall (within off n) es /\ ForallOrdPairs edits_compatible es.

Lemma pairs_app {A} (R : A -> A -> Prop) a : forall b, ForallOrdPairs R a -> ForallOrdPairs R b ->
  (forall x y, In x a -> In y b -> R x y) -> ForallOrdPairs R (a ++ b).
Proof.
  induction a as [|x a IH]; intros b Pa Pb X; [exact Pb|]. inversion Pa; subst. cbn.
  constructor.
  - apply Forall_app. split; [assumption|]. apply Forall_forall. intros y Hy.
    apply X; [left; reflexivity|exact Hy].
  - apply IH; auto. intros; apply X; [right|]; assumption.
Qed.

Lemma within_weaken off n off' n' e : within off n e -> off' <= off -> off + n <= off' + n' ->
  within off' n' e.
Proof. destruct e; cbn; lia. Qed.
Lemma orderly_weaken off n off' n' es : orderly off n es -> off' <= off -> off + n <= off' + n' ->
  orderly off' n' es.
Proof.
  intros (F & P) A B. split; [|exact P]. eapply Forall_impl; [|exact F].
  intros e H. eapply within_weaken; eauto.
Qed.
Lemma orderly_nil off n : orderly off n [].
Proof. split; constructor. Qed.

(* Edits side by side *)
Lemma orderly_side off n off' n' lo hi es es' :
  orderly off n es -> orderly off' n' es' -> off + n <= off' ->
  lo <= off -> off' + n' <= lo + hi -> orderly lo hi (es ++ es').
Proof.
  intros (F & P) (F' & P') H L R. split.
  - apply Forall_app. split; eapply Forall_impl; try eassumption;
      intros e W; eapply within_weaken; try eassumption; lia.
  - apply pairs_app; auto. rewrite Forall_forall in F, F'. intros x y Hx Hy.
    specialize (F x Hx). specialize (F' y Hy). destruct x, y; cbn in *; lia.
Qed.

(* Insertions around and between edits *)
Lemma orderly_around off n es ins is :
  orderly off n es -> Forall (at_one_of is) ins ->
  (forall i, In i is -> off <= i <= off + n /\
     forall j l s, In (ReplaceText j l s) es -> i <= j \/ j + l <= i) ->
  orderly off n (es ++ ins).
Proof.
  intros (F & P) I A. rewrite Forall_forall in I. split.
  - apply Forall_app. split; [exact F|]. apply Forall_forall. intros e H. specialize (I e H).
    destruct e; cbn in *; try contradiction; apply A in I; tauto.
  - apply pairs_app; auto.
    + clear -I. induction ins as [|x ins IH]; constructor.
      * apply Forall_forall. intros y Hy. pose proof (I x (or_introl eq_refl)) as X.
        pose proof (I y (or_intror Hy)) as Y. destruct x, y; cbn in *; tauto.
      * apply IH. intros e H. apply I. right. exact H.
    + intros x y Hx Hy. specialize (I y Hy). destruct y; cbn in I; try contradiction;
        destruct x; cbn; auto; apply A in I; destruct I as (_ & I); exact (I _ _ _ Hx).
Qed.

(* One more replacement *)
Lemma orderly_replace off n es i l s :
  orderly off n es -> 0 < l -> off <= i -> i + l <= off + n ->
  (forall e, In e es -> clear_of i l e) -> orderly off n (es ++ [ReplaceText i l s]).
Proof.
  intros (F & P) H1 H2 H3 C. split.
  - apply Forall_app. split; [exact F|]. constructor; [|constructor]. cbn. lia.
  - apply pairs_app; auto.
    + constructor; constructor.
    + intros x y Hx [<-|[]]. specialize (C x Hx). destruct x; cbn in *; auto. lia.
Qed.

Section Tree.
Variable c : ctx.
Variable o : options.
Variable L : lang.

Lemma within_replace off n e j l s : within off n e -> e = ReplaceText j l s ->
  off <= j /\ j + l <= off + n.
Proof. intros W ->. cbn in W. lia. Qed.

Lemma bop_positive b : 0 < String.length (bop_str b).
Proof. destruct b; cbn; lia. Qed.
Lemma uop_positive u : 0 < String.length (uop_str u).
Proof. destruct u; cbn; lia. Qed.

Lemma length_sapp s t : String.length (s ++ t)%string = String.length s + String.length t.
Proof. induction s; cbn; auto. Qed.

Ltac all_at := repeat (apply Forall_cons; [cbn [at_one_of In] in *; auto 6|]); try apply Forall_nil.

Lemma placed_orderly (t : cst L) : forall id off, placed t off ->
  orderly off (size t) (place_edits c o id (places t)).
Proof.
  induction t as [s v|k ps last IHps|e sub IHsub|b l w1 w2 r IHl IHr|u w sub IHsub|s sub IHsub]
    using cst_induction; intros id off P.
  - apply orderly_nil.
  - assert (G : forall id off, placed_all L ps off ->
      orderly off (String.length (texts L ps))
        (place_edits c o id (flat_map (fun p => places (snd p)) ps))).
    { clear id off P last. induction ps as [|[s p] ps IH]; intros id off P; [apply orderly_nil|].
      destruct P as (Pp & Pps). inversion IHps; subst. cbn [flat_map snd].
      rewrite place_edits_app. unfold texts. cbn [map concat_strings fst snd].
      rewrite !length_sapp. fold (texts L ps).
      eapply orderly_side.
      - eapply H1. exact Pp.
      - apply IH; eauto.
      - cbn [snd]; lia.
      - lia.
      - unfold size. lia. }
    cbn [places]. eapply orderly_weaken; [apply G; exact P|lia|].
    unfold size. cbn [text]. unfold texts. rewrite length_sapp. lia.
  - cbn [places]. destruct P as ((Nz & B & E) & P). specialize (IHsub id off P).
    rewrite place_edits_app. cbn [place_edits edits_at]. rewrite app_nil_r.
    apply (orderly_around off (size sub) _ _ [off; off + size sub]).
    + exact IHsub.
    + unfold expr_edits. rewrite B, E. all_at.
    + intros i [<-|[<-|[]]]; (split; [lia|]); intros j l s0 H;
        destruct IHsub as (F & _); rewrite Forall_forall in F; specialize (F _ H); cbn in F; lia.
  - destruct P as ((Nzl & Bl & El) & Pl & Op & (Nzr & Br & Er) & Pr & (Nz & Bt & Et)).
    specialize (IHl id off Pl).
    specialize (IHr (id + counts c o (places l)) _ Pr).
    cbn [places]. rewrite !place_edits_app. cbn [place_edits edits_at]. rewrite app_nil_r.
    set (el := place_edits c o id (places l)) in *.
    set (er := place_edits c o (id + counts c o (places l)) (places r)) in *.
    set (right := off + size l + String.length w1 + String.length (bop_str (b_op b))
                  + String.length w2) in *.
    assert (Sz : size (CBin b l w1 w2 r) = right + size r - off).
    { unfold size, right. cbn [text]. rewrite !length_sapp. unfold size. lia. }
    assert (LR : orderly off (size (CBin b l w1 w2 r)) (el ++ er)).
    { eapply orderly_side; [exact IHl|exact IHr|unfold right; lia|lia|].
      rewrite Sz. unfold right. lia. }
    pose proof (bop_positive (b_op b)) as Pos.
    destruct IHl as (Fl & _), IHr as (Fr & _). rewrite Forall_forall in Fl, Fr.
    rewrite app_assoc.
    set (pts := [off; off + size l; right; right + size r]).
    assert (Pts : forall i, In i pts -> off <= i <= off + size (CBin b l w1 w2 r) /\
       forall j n s, In (ReplaceText j n s) (el ++ er) -> i <= j \/ j + n <= i).
    { intros i H. split.
      - rewrite Sz. unfold pts in H. unfold right in *. cbn in H. lia.
      - intros j n s Q. apply in_app_or in Q. unfold pts, right in H.
        destruct Q as [Q|Q]; [specialize (Fl _ Q)|specialize (Fr _ Q)]; cbn in *;
          unfold right in *; lia. }
    destruct (c_logical c b).
    + apply (orderly_around _ _ _ _ pts LR); [|exact Pts].
      unfold c_logical_edits. apply Forall_app. split.
      * destruct (negb (track o)); cbn [when]; rewrite ?Bl, ?El, ?Br, ?Er;
          unfold pts, right; all_at.
      * rewrite ?Bt, ?Et, Sz. unfold pts. all_at. right. right. right. left. unfold right. lia.
    + destruct (binary_text c o L b (id + counts c o (places l) + counts c o (places r)) w1 w2)
        as (p1 & s1 & p2 & s2 & E & _).
      rewrite <- Nat.add_assoc in E.
      replace (id + counts c o (places l ++ places r)) with
        (id + (counts c o (places l) + counts c o (places r))) by (rewrite counts_app; reflexivity).
      rewrite ?Nat.add_assoc in *. rewrite E.
      change (?a :: ?b) with ([a] ++ b). rewrite app_assoc.
      apply (orderly_around _ _ _ _ pts).
      * apply orderly_replace; auto.
        -- lia.
        -- rewrite Op, Sz. unfold right. lia.
        -- intros e He. apply in_app_or in He.
           destruct He as [He|He]; [specialize (Fl _ He)|specialize (Fr _ He)];
             destruct e; cbn in *; unfold right in *; lia.
      * rewrite Bl, El, Br, Er. unfold pts. all_at.
      * intros i H. destruct (Pts i H) as (Q1 & Q2). split; [exact Q1|].
        intros j n s Q. apply in_app_or in Q. destruct Q as [Q|[Q|[]]]; [eapply Q2; eauto|].
        inversion Q; subst. rewrite Op. unfold pts, right in H. cbn in H. lia.
  - destruct P as ((Nz & B & E) & P).
    cbn [places]. rewrite place_edits_app. cbn [place_edits edits_at]. rewrite app_nil_r.
    destruct (unary_text c o L u (id + counts c o (places sub)) w) as (p & s & Eq & _).
    rewrite Eq. change (?a :: ?b) with ([a] ++ b). rewrite app_assoc.
    pose proof (uop_positive (u_op u)) as Pos.
    assert (Sz : size (CUn u w sub) = String.length (uop_str (u_op u)) + String.length w + size sub).
    { unfold size. cbn [text]. unfold un_text. destruct (is_prefix (u_op u)); rewrite !length_sapp; lia. }
    assert (G : exists at', orderly at' (size sub) (place_edits c o id (places sub)) /\
        off <= at' /\ at' + size sub <= off + size (CUn u w sub) /\
        off <= u_op_offset u /\
        u_op_offset u + String.length (uop_str (u_op u)) <= off + size (CUn u w sub) /\
        (u_op_offset u + String.length (uop_str (u_op u)) <= at' \/
         at' + size sub <= u_op_offset u)).
    { destruct (is_prefix (u_op u)); destruct P as (Op & P); eexists;
        (split; [apply IHsub; exact P|]); rewrite Op, Sz; lia. }
    destruct G as (at' & Or & G1 & G2 & G3 & G4 & G5).
    pose proof Or as (F & _). rewrite Forall_forall in F.
    apply (orderly_around _ _ _ _ [off; off + size (CUn u w sub)]).
    + apply orderly_replace; auto.
      * eapply orderly_weaken; [exact Or|lia|lia].
      * intros e He. specialize (F _ He). destruct e; cbn in *; lia.
    + rewrite B, E. all_at.
    + intros i H. cbn [In] in H. split; [lia|]. intros j n s0 Q. apply in_app_or in Q.
      destruct Q as [Q|[Q|[]]].
      * specialize (F _ Q). cbn [within] in F. lia.
      * inversion Q; subst. lia.
  - cbn [places]. destruct P as ((Nz & B & E) & P). specialize (IHsub id off P).
    rewrite place_edits_app. cbn [place_edits edits_at]. rewrite app_nil_r.
    apply (orderly_around off (size sub) _ _ [off; off + size sub]).
    + exact IHsub.
    + unfold stmt_edits. destruct (track o); rewrite ?B, ?E; all_at.
    + intros i [<-|[<-|[]]]; (split; [lia|]); intros j l s0 H;
        destruct IHsub as (F & _); rewrite Forall_forall in F; specialize (F _ H); cbn in F; lia.
Qed.
End Tree.

Lemma orderly_compatible text n es : orderly 0 n es -> n <= String.length text ->
  compatible_edits text es.
Proof.
  intros (F & P) H. split; [|exact P]. eapply Forall_impl; [|exact F].
  intros e W. destruct e; cbn in *; lia.
Qed.

Lemma nested_buffer L c o pre (t : cst L) post ms first :
  placed t (String.length pre) -> map place_of ms = places t ->
  buffer_rewrite (pre ++ text t ++ post) (edits_from c o first first ms) =
  rewrite (pre ++ text t ++ post) (edits_from c o first first ms).
Proof.
  intros P M. apply buffer_refines.
  rewrite edits_from_places, Nat.sub_diag, M by lia.
  apply (orderly_compatible _ (String.length pre + size t)).
  - eapply orderly_weaken; [apply placed_orderly; exact P|lia|lia].
  - rewrite !length_sapp. unfold size. lia.
Qed.

Lemma written_buffer o bt fs n t :
  In (n, t) (rs_written (run o bt fs)) ->
  exists f u, In f fs /\ f_name f = n /\ f_unit f = Some u /\
    forall L pre gaps (p : list (string * cst L)) last,
      f_text f = (pre ++ source gaps p ++ last)%string ->
      ui_prelude_offset u = String.length pre -> ui_rewrites u = [] ->
      map place_of (post (ui_tree u)) = source_places p ->
      source_placed gaps p (String.length pre) ->
      exists first num,
        t = buffer_rewrite (f_text f)
              (edits_from (ui_ctx u) o first first (post (ui_tree u)) ++
               prelude_edits (ui_ctx u) o first num (ui_prelude_offset u)
                 (map print_mfun (flat_map (site_functions (ui_ctx u) o) (post (ui_tree u)))))%list.
Proof.
  intros H. rewrite run_written in H. apply output_split in H.
  destruct H as (d1 & f & u & d2 & E & U & N & H). simpl in H.
  exists f, u. split.
  { assert (G : forall fs seen, In f (distinct seen fs) -> In f fs).
    { clear. induction fs as [|x fs IH]; intros seen Hin; simpl in *; [contradiction|].
      destruct (in_dec string_dec (f_name x) seen); [right; eauto|].
      destruct Hin as [<-|Hin]; [left; reflexivity|right; eauto]. }
    apply (G fs []). rewrite E. apply in_or_app. right. left. reflexivity. }
  repeat (split; [assumption|]).
  intros L pre gaps p last Tx Off Rw Ms Pl.
  set (id := list_sum (map (offers o) d1)) in *.
  unfold handle_unit in H. rewrite apply_mutations_id in H.
  destruct (apply_mutations_effects (ui_ctx u) o true id (tidy (ui_tree u))) as (Ee & Ed).
  rewrite Ee, Ed in H.
  destruct (Nat.eqb_spec id (id + tree_total (ui_ctx u) (optimise o) (tidy (ui_tree u))))
    as [C|C]; [discriminate|].
  cbn [h_output] in H. injection H as <-.
  rewrite Rw, post_tidy. cbn [app].
  eexists id, _. symmetry. apply buffer_refines.
  set (tt := CNode (L := L) KWrong (zip L gaps p) "").
  assert (T : text tt = source gaps p).
  { unfold tt. cbn [text]. fold (texts L (zip L gaps p)). rewrite zip_text, sapp_nil_r. reflexivity. }
  assert (Pt : placed tt (String.length pre)) by exact (zip_placed _ _ _ _ Pl).
  assert (Ps : places tt = source_places p) by exact (zip_places _ _ _ _ Pl).
  rewrite edits_from_places, Nat.sub_diag, Ms, <- Ps by lia.
  pose proof (placed_orderly (ui_ctx u) o L tt 0 _ Pt) as Or.
  apply (orderly_compatible _ (String.length pre + size tt)).
  2:{ rewrite Tx, !length_sapp. unfold size. rewrite T. lia. }
  rewrite Off.
  apply (orderly_around _ _ _ _ [String.length pre]).
  - eapply orderly_weaken; [exact Or|lia|lia].
  - unfold prelude_edits. apply Forall_app. split.
    + apply Forall_forall. intros e He. apply in_map_iff in He. destruct He as (d & <- & _).
      cbn. auto.
    + constructor; [cbn; auto|constructor].
  - intros i [<-|[]]. split; [lia|]. intros j l s Q. destruct Or as (F & _).
    rewrite Forall_forall in F. specialize (F _ Q). cbn in F. lia.
Qed.
