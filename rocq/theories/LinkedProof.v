(* Programs linked from several mutated files behave like the program in which the listed
   mutants are made. *)
From Coq Require Import String List NArith ZArith Bool Lia Eqdep_dec.
From Verif Require Import Base Clang Gen GenExpr GenBinary GenUnary GenStmt Mutation GenSpec
  Rewriter PreludeText Prelude PreludeSpec PreludeProof PreludeProof2 Tracking Lang Cst Runtime
  SimSpec SimRel SimProof SimMutate SimTop SimProgress Linked LinkedSpec.
Import ListNotations.

(** * The linked runtime *)

Lemma set_same {S : nat -> Type} k (x : S k) d : set_state k x d k = x.
Proof.
  unfold set_state. destruct (Nat.eq_dec k k) as [e|n]; [|congruence].
  rewrite (UIP_dec Nat.eq_dec e eq_refl). reflexivity.
Qed.
Lemma set_other {S : nat -> Type} k (x : S k) d j : j <> k -> set_state k x d j = d j.
Proof. intro H. unfold set_state. destruct (Nat.eq_dec k j); congruence. Qed.

Lemma locate_some ns id : id < list_sum ns ->
  exists n, nth_error ns (fst (locate ns id)) = Some n /\ snd (locate ns id) < n.
Proof.
  revert id. induction ns as [|n ns IH]; intros id H; cbn in H; [lia|].
  cbn [locate]. destruct (Nat.ltb_spec id n) as [Lt|Ge].
  - exists n. auto.
  - destruct (IH (id - n)) as (m & A & B); [unfold list_sum; lia|].
    destruct (locate ns (id - n)) as [k i]. exists m. auto.
Qed.
Lemma locate_before ns n rest i : i < n ->
  locate (ns ++ n :: rest) (list_sum ns + i) = (List.length ns, i).
Proof.
  intro H. induction ns as [|m ns IH]; cbn [app locate List.length list_sum fold_right].
  - cbn [Nat.add]. destruct (Nat.ltb_spec i n); [reflexivity|lia].
  - destruct (Nat.ltb_spec (m + fold_right Nat.add 0 ns + i) m); [lia|].
    replace (m + fold_right Nat.add 0 ns + i - m) with (list_sum ns + i) by (unfold list_sum; lia).
    rewrite IH. reflexivity.
Qed.
(* Ids that follow each other within a file *)
Lemma locate_add ns id n : fst (locate ns (id + n)) = fst (locate ns id) ->
  snd (locate ns (id + n)) = snd (locate ns id) + n.
Proof.
  revert id. induction ns as [|m ns IH]; intro id; cbn [locate]; [auto|].
  destruct (Nat.ltb_spec id m) as [A|A], (Nat.ltb_spec (id + n) m) as [B|B]; cbn; auto; try lia.
  - destruct (locate ns (id + n - m)). cbn. discriminate.
  - replace (id + n - m) with (id - m + n) by lia. specialize (IH (id - m)).
    destruct (locate ns (id - m + n)), (locate ns (id - m)). cbn in *. intro Q.
    injection Q as Q. auto.
Qed.

(* Every file works by itself, with its own mutants enabled. *)
Lemma linked_works ns (R : nat -> runtime) (E : nat -> nat -> bool) (q : bool)
  (Inv : forall k, rt_state (R k) -> Prop) :
  (forall k n, nth_error ns k = Some n ->
     working (R k) (E k) (if q then one_file n 0 else one_file 0 n) (Inv k)) ->
  working (linked ns R) (fun id => E (fst (locate ns id)) (snd (locate ns id)))
    {| lim_queried := if q then list_sum ns else 0;
       lim_recorded := if q then 0 else list_sum ns;
       lim_file := fun id => fst (locate ns id) |}
    (fun d => forall k, Inv k (d k)).
Proof.
  intro W. split; cbn [linked rt_state rt_flag rt_query rt_record lim_queried lim_recorded lim_file].
  - intros d i I F id Hid Sm. destruct q; [|lia].
    destruct (locate_some ns id Hid) as (n & Nk & Lt).
    destruct (locate ns i) as [k j]. cbn in Sm. rewrite Sm in *. 
    apply (working_flag _ _ _ _ (W k n Nk) (d k) j (I k) F); auto.
  - intros d id I Hid. destruct q; [|lia].
    destruct (locate_some ns id Hid) as (n & Nk & Lt).
    destruct (locate ns id) as [k i]. cbn [fst snd] in *.
    destruct (working_query _ _ _ _ (W k n Nk) (d k) i (I k) Lt) as (x & -> & Ix).
    eexists. split; [reflexivity|]. intro j. destruct (Nat.eq_dec j k) as [->|Ne].
    + rewrite set_same. exact Ix.
    + rewrite set_other by exact Ne. apply I.
  - intros d id n I Po Hid Sm. destruct q; [lia|].
    assert (Lt : id + (n - 1) < list_sum ns) by lia.
    destruct (locate_some ns _ Lt) as (m & Nk & Lt2). rewrite (locate_add _ _ _ Sm) in Lt2.
    rewrite Sm in Nk. destruct (locate ns id) as [k i]. cbn [fst snd] in *.
    destruct (working_record _ _ _ _ (W k m Nk) (d k) i n (I k) Po) as (x & -> & Ix);
      [cbn; lia|reflexivity|].
    eexists. split; [reflexivity|]. intro j. destruct (Nat.eq_dec j k) as [->|Ne].
    + rewrite set_same. exact Ix.
    + rewrite set_other by exact Ne. apply I.
Qed.

Section Files.
Variable L : lang.
Variable c : ctx.
Variable o : options.
Notation opt := (optimise o).
Notation tm := (tm L).
Variable cpp17 : bool.

(** * Moving the ids of a program *)

Lemma first_moved {A} (E E' : nat -> bool) a (l : list A) : forall id,
  (forall i, id <= i -> i < id + List.length l -> E' (a + i) = E i) ->
  first_enabled E' (a + id) l = first_enabled E id l.
Proof.
  induction l as [|x l IH]; intros id H; cbn; auto. cbn in H.
  rewrite H by lia. destruct (E id); auto. rewrite <- Nat.add_succ_r. apply IH.
  intros i I1 I2. apply H; lia.
Qed.

Lemma spec_moved rest E E' a t : forall id,
  (forall i, id <= i -> i < snd (spec L c opt rest E t id) -> E' (a + i) = E i) ->
  spec L c opt rest E' t (a + id) =
  (fst (spec L c opt rest E t id), a + snd (spec L c opt rest E t id)).
Proof.
  induction t as [s v|k ps last IH|e sub IH|b l w1 w2 r IHl IHr|u w sub IH|s sub IH]
    using cst_induction; intros id H.
  - reflexivity.
  - rewrite !(spec_node L c o) in *. cbn [fst snd] in *.
    assert (Q : spec_all L c o rest E' ps (a + id) =
      (fst (spec_all L c o rest E ps id), a + snd (spec_all L c o rest E ps id)));
      [|rewrite Q; reflexivity].
    revert id H. induction IH as [|[s p] ps Hp F IHF]; intros id H; [reflexivity|].
    cbn [spec_all] in *. destruct (same_ids L c o rest E p id) as [_ M].
    specialize (Hp id). cbn [snd] in Hp.
    assert (M2 : forall q j, j <= snd (spec_all L c o rest E q j)).
    { clear. induction q as [|[s p] q IH]; intro j; cbn; auto.
      destruct (same_ids L c o rest E p j) as [_ M]. destruct (spec L c opt rest E p j) as [x i].
      specialize (IH i). destruct (spec_all L c o rest E q i). cbn in *. lia. }
    specialize (M2 ps). destruct (spec L c opt rest E p id) as [x i]. cbn [fst snd] in *.
    specialize (M2 i). specialize (IHF i).
    destruct (spec_all L c o rest E ps i) as [xs j]. cbn [fst snd] in *.
    rewrite Hp by (intros n N1 N2; apply H; lia).
    rewrite IHF by (intros n N1 N2; apply H; lia). reflexivity.
  - cbn [SimSpec.spec] in *. destruct (same_ids L c o rest E sub id) as [_ M]. specialize (IH id).
    destruct (spec L c opt rest E sub id) as [x i]. cbn [fst snd] in *.
    rewrite IH by (intros n N1 N2; apply H; lia). cbn [fst snd].
    unfold expr_choice. rewrite (first_moved E E' a) by (rewrite map_length; intros n N1 N2; apply H; lia).
    rewrite Nat.add_assoc. reflexivity.
  - cbn [SimSpec.spec] in *. destruct (same_ids L c o rest E l id) as [_ M]. specialize (IHl id).
    destruct (spec L c opt rest E l id) as [x i]. cbn [fst snd] in *.
    destruct (same_ids L c o rest E r i) as [_ M2]. specialize (IHr i).
    destruct (spec L c opt rest E r i) as [y j]. cbn [fst snd] in *.
    rewrite IHl by (intros n N1 N2; apply H; lia). rewrite IHr by (intros n N1 N2; apply H; lia).
    unfold binary_choice. rewrite (first_moved E E' a) by (intros n N1 N2; apply H; lia).
    rewrite Nat.add_assoc. f_equal.
    destruct (rest && c_logical c b) eqn:Q; auto. apply andb_true_iff in Q as [_ Cl].
    unfold binary_actions in H. rewrite Cl in H. cbn in H.
    unfold c_logical_with_rest. rewrite <- !Nat.add_succ_r, !H by lia. reflexivity.
  - cbn [SimSpec.spec] in *. destruct (same_ids L c o rest E sub id) as [_ M]. specialize (IH id).
    destruct (spec L c opt rest E sub id) as [x i]. cbn [fst snd] in *.
    rewrite IH by (intros n N1 N2; apply H; lia). cbn [fst snd].
    unfold unary_choice. rewrite (first_moved E E' a) by (rewrite map_length; intros n N1 N2; apply H; lia).
    rewrite Nat.add_assoc. reflexivity.
  - cbn [SimSpec.spec] in *. destruct (same_ids L c o rest E sub id) as [_ M]. specialize (IH id).
    destruct (spec L c opt rest E sub id) as [x i]. cbn [fst snd] in *.
    rewrite IH by (intros n N1 N2; apply H; lia). cbn [fst snd].
    rewrite H by lia. rewrite Nat.add_succ_r. reflexivity.
Qed.

Lemma program_moved rest E E' a p : forall id,
  (forall i, id <= i -> i < snd (spec_program L c opt rest E p id) -> E' (a + i) = E i) ->
  spec_program L c opt rest E' p (a + id) =
  (fst (spec_program L c opt rest E p id), a + snd (spec_program L c opt rest E p id)).
Proof.
  induction p as [|[f t] p IH]; intros id H; [reflexivity|].
  cbn [spec_program] in *. destruct (same_ids L c o rest E t id) as [_ M].
  pose proof (spec_moved rest E E' a t id) as St.
  destruct (spec L c opt rest E t id) as [x i]. cbn [fst snd] in *.
  destruct (program_ids L c o rest E p i) as [_ M2]. specialize (IH i).
  destruct (spec_program L c opt rest E p i) as [q j]. cbn [fst snd] in *.
  rewrite St by (intros n N1 N2; apply H; lia). rewrite IH by (intros n N1 N2; apply H; lia).
  reflexivity.
Qed.

Lemma program_count p id :
  snd (mutate_program L c o p id) = id + snd (mutate_program L c o p 0).
Proof.
  rewrite (proj1 (program_ids L c o false (fun _ => false) p id)).
  rewrite (proj1 (program_ids L c o false (fun _ => false) p 0)).
  rewrite <- (Nat.add_0_r id) at 1.
  rewrite (program_moved false (fun _ => false) (fun _ => false)) by reflexivity. reflexivity.
Qed.

Lemma whole_app rest E p q : forall id,
  spec_program L c opt rest E (p ++ q) id =
  (fst (spec_program L c opt rest E p id) ++
     fst (spec_program L c opt rest E q (snd (spec_program L c opt rest E p id))),
   snd (spec_program L c opt rest E q (snd (spec_program L c opt rest E p id)))).
Proof.
  induction p as [|[f t] p IH]; intro id; cbn.
  - destruct (spec_program L c opt rest E q id). reflexivity.
  - destruct (spec L c opt rest E t id) as [x i]. rewrite IH.
    destruct (spec_program L c opt rest E p i) as [p' j]. cbn.
    destruct (spec_program L c opt rest E q j). reflexivity.
Qed.

Lemma body_app p q g :
  body_of L c (p ++ q) g = match body_of L c p g with Some t => Some t | None => body_of L c q g end.
Proof. induction p as [|[f t] p IH]; cbn; auto. destruct (String.eqb g f); auto. Qed.
Lemma lookup_app p q g :
  lookup_body L (p ++ q) g =
  match lookup_body L p g with Some t => Some t | None => lookup_body L q g end.
Proof. induction p as [|[f t] p IH]; cbn; auto. destruct (String.eqb g f); auto. Qed.

(** * The ids in the text *)

Notation move := (move L).
Lemma pass_moved a s t : pass L c s (move a t) = move a (pass L c s t).
Proof.
  unfold pass. destruct (declared c s) as [[[]|p]|]; try reflexivity.
  destruct t as [v|l|k args]; try reflexivity.
  destruct k; try reflexivity. destruct args as [|b [|b' args]]; try reflexivity.
  cbn [map Linked.move renumber]. destruct (String.eqb s _); [|reflexivity].
  destruct p; reflexivity.
Qed.
Lemma pass_all_moved a ps ts :
  pass_all L c ps (map (move a) ts) = map (move a) (pass_all L c ps ts).
Proof.
  revert ts. induction ps as [|[s x] ps IH]; intros [|t ts]; try reflexivity.
  cbn. rewrite pass_moved, IH. reflexivity.
Qed.
Lemma binary_moved a b x y : good_binary b = true ->
  binary_term L c b (RBin (b_op b)) (move a x) (move a y) =
  move a (binary_term L c b (RBin (b_op b)) x y).
Proof.
  intro G. unfold binary_term, binary_site, binary_operands, expression.
  destruct (is_logical (b_op b)); [destruct (is_assign (b_op b)); cbn; destruct (cpp c); reflexivity|].
  destruct (is_assign (b_op b)); [cbn; destruct (cpp c); reflexivity|].
  destruct (bop_eqb (b_op b) Comma); cbn; reflexivity.
Qed.
Lemma call_moved a f id before x x' after :
  den L c x' = move a (den L c x) ->
  den L c (call1 L f (a + id) before x' after) = move a (den L c (call1 L f id before x after)).
Proof. intro Q. cbn. rewrite Q. rewrite <- pass_all_moved. reflexivity. Qed.

Lemma den_mutated a t : forall id, SimSpec.well_formed L c t = true ->
  den L c (fst (mutate L c o t (a + id))) = move a (den L c (fst (mutate L c o t id))) /\
  snd (mutate L c o t (a + id)) = a + snd (mutate L c o t id).
Proof.
  induction t as [s v|k ps last IH|e sub IH|b l w1 w2 r IHl IHr|u w sub IH|s sub IH]
    using cst_induction; intros id Wf; cbn [SimSpec.well_formed] in Wf.
  - split; reflexivity.
  - rewrite !mutate_node. cbn [fst snd]. apply andb_true_iff in Wf as [Sk Wf].
    assert (Q : map (fun p => den L c (snd p)) (fst (mutate_all L c o ps (a + id))) =
                map (move a) (map (fun p => den L c (snd p)) (fst (mutate_all L c o ps id))) /\
                snd (mutate_all L c o ps (a + id)) = a + snd (mutate_all L c o ps id)).
    { clear Sk. revert id. induction IH as [|[s p] ps Hp F IHF]; intro id; [split; reflexivity|].
      cbn in Wf. apply andb_true_iff in Wf as [W1 W2].
      cbn [mutate_all]. specialize (Hp id W1). cbn [snd] in Hp.
      destruct (mutate L c o p id) as [x i], (mutate L c o p (a + id)) as [x' i'].
      cbn [fst snd] in Hp. destruct Hp as [Hp ->]. specialize (IHF W2 i).
      destruct (mutate_all L c o ps i) as [xs j], (mutate_all L c o ps (a + i)) as [xs' j'].
      cbn [fst snd] in *. destruct IHF as [IHF ->]. cbn [map]. cbn [snd]. rewrite Hp, IHF. auto. }
    destruct Q as [Q1 Q2]. split; [|exact Q2]. cbn [den]. rewrite Q1.
    destruct k; try discriminate; reflexivity.
  - apply andb_true_iff in Wf as [Go Wf]. specialize (IH id Wf). cbn [Cst.mutate].
    destruct (mutate L c o sub id) as [x i], (mutate L c o sub (a + id)) as [x' i'].
    cbn [fst snd] in *. destruct IH as [IH ->]. split; [|lia].
    unfold mutated_expr.
    assert (Q : forall k before after t t', den L c t' = move a (den L c t) ->
      renumber L a k = k -> (forall f n, k <> KM f n) ->
      den L c (CNode k [(before, t')] after) = move a (den L c (CNode k [(before, t)] after))).
    { clear. intros k before after t t' Q R Nk. cbn. rewrite Q.
      destruct k; try (cbn in *; congruence); cbn; rewrite ?R; try reflexivity. }
    destruct (e_init_list_cast e) as [t|].
    + apply Q; [|reflexivity|discriminate].
      destruct (cpp c && e_side_effects e); [|destruct (negb (cpp c) && e_lvalue e)].
      * apply call_moved. apply Q; [exact IH|reflexivity|discriminate].
      * apply call_moved. apply Q; [exact IH|reflexivity|discriminate].
      * cbn [den map snd]. rewrite IH. cbn [Linked.move renumber]. rewrite <- pass_all_moved. reflexivity.
    + destruct (cpp c && e_side_effects e); [|destruct (negb (cpp c) && e_lvalue e)].
      * apply call_moved. apply Q; [exact IH|reflexivity|discriminate].
      * apply call_moved. apply Q; [exact IH|reflexivity|discriminate].
      * cbn [den map snd]. rewrite IH. cbn [Linked.move renumber]. rewrite <- pass_all_moved. reflexivity.
  - apply andb_true_iff in Wf as [Wf Wr]. apply andb_true_iff in Wf as [Go Wl].
    specialize (IHl id Wl). cbn [Cst.mutate].
    destruct (mutate L c o l id) as [x i], (mutate L c o l (a + id)) as [x' i'].
    cbn [fst snd] in *. destruct IHl as [IHl ->]. specialize (IHr i Wr).
    destruct (mutate L c o r i) as [y j], (mutate L c o r (a + i)) as [y' j'].
    cbn [fst snd] in *. destruct IHr as [IHr ->]. split; [|lia].
    destruct (c_logical c b) eqn:Cl.
    + unfold mutated_c_logical. apply call_moved. destruct (track o).
      * cbn [den]. rewrite IHl, IHr. apply binary_moved. exact Go.
      * cbn [den]. fold (den L c). rewrite <- binary_moved by exact Go.
        rewrite !(call_moved a _ _ _ _ _ _ IHl), !(call_moved a _ _ _ _ _ _ IHr). reflexivity.
    + unfold mutated_binary. cbn [den map snd].
      set (l1 := if lhs_delayed c b then _ else _). set (l2 := if lhs_delayed c b then _ else _).
      set (r1 := if rhs_delayed c b then _ else _). set (r2 := if rhs_delayed c b then _ else _).
      assert (Q1 : den L c l1 = move a (den L c l2)).
      { unfold l1, l2. destruct (lhs_delayed c b); [cbn; rewrite IHl; reflexivity|].
        destruct (negb (cpp c) && is_assign (b_op b)); [cbn; rewrite IHl; reflexivity|exact IHl]. }
      assert (Q2 : den L c r1 = move a (den L c r2)).
      { unfold r1, r2. destruct (rhs_delayed c b); [cbn; rewrite IHr; reflexivity|exact IHr]. }
      rewrite Q1, Q2. cbn [Linked.move renumber]. rewrite <- pass_all_moved. reflexivity.
  - apply andb_true_iff in Wf as [Go Wf]. specialize (IH id Wf). cbn [Cst.mutate].
    destruct (mutate L c o sub id) as [x i], (mutate L c o sub (a + id)) as [x' i'].
    cbn [fst snd] in *. destruct IH as [IH ->]. split; [|lia].
    unfold mutated_unary. destruct (unary_delayed c u); [|destruct (negb (cpp c) && is_incdec (u_op u))].
    + apply call_moved. cbn. rewrite IH. reflexivity.
    + apply call_moved. cbn. rewrite IH. reflexivity.
    + cbn [den map snd]. rewrite IH. cbn [Linked.move renumber]. rewrite <- pass_all_moved. reflexivity.
  - specialize (IH id Wf). cbn [Cst.mutate].
    destruct (mutate L c o sub id) as [x i], (mutate L c o sub (a + id)) as [x' i'].
    cbn [fst snd] in *. destruct IH as [IH ->]. split; [|lia].
    unfold mutated_stmt. destruct (track o); cbn; rewrite IH; reflexivity.
Qed.

Lemma body_moved a p g : forall id, well_formed_program L c p = true ->
  body_of L c (fst (mutate_program L c o p (a + id))) g =
  option_map (move a) (body_of L c (fst (mutate_program L c o p id)) g).
Proof.
  induction p as [|[f t] p IH]; intros id Wf; [reflexivity|].
  cbn in Wf. apply andb_true_iff in Wf as [W1 W2]. cbn [mutate_program].
  destruct (den_mutated a t id W1) as [Q1 Q2].
  destruct (mutate L c o t id) as [x i], (mutate L c o t (a + id)) as [x' i'].
  cbn [fst snd] in *. subst i'. specialize (IH i W2).
  destruct (mutate_program L c o p i), (mutate_program L c o p (a + i)). cbn in *.
  destruct (String.eqb g f); [rewrite Q1; reflexivity|exact IH].
Qed.

(** * The functions of all files *)

Notation whole := (whole L).
Notation counts := (counts L c o).

Notation well_formed_files := (well_formed_files L c).
Notation productive_files := (productive_files L c o).
Notation sequenced_files := (sequenced_files L c).

(* The functions of all mutated files, the ids running on *)
Fixpoint mutate_files (files : list (source L)) (id : nat) : list (string * cst L) :=
  match files with
  | [] => []
  | (_, p) :: files =>
      let (q, id) := mutate_program L c o p id in
      (q ++ mutate_files files id)%list
  end.
Lemma mutated_whole files : forall id,
  mutate_files files id = fst (mutate_program L c o (whole files) id).
Proof.
  assert (App : forall p q id, mutate_program L c o (p ++ q) id =
    (fst (mutate_program L c o p id) ++
       fst (mutate_program L c o q (snd (mutate_program L c o p id))),
     snd (mutate_program L c o q (snd (mutate_program L c o p id))))).
  { induction p as [|[f t] p IH]; intros q id; cbn.
    - destruct (mutate_program L c o q id). reflexivity.
    - destruct (mutate L c o t id) as [x i]. rewrite IH.
      destruct (mutate_program L c o p i) as [p' j]. cbn.
      destruct (mutate_program L c o q j). reflexivity. }
  induction files as [|[f p] files IH]; intro id; [reflexivity|].
  cbn [mutate_files LinkedSpec.whole flat_map snd]. rewrite App. cbn [fst].
  destruct (mutate_program L c o p id) as [q j]. cbn [fst snd]. f_equal. apply IH.
Qed.
Lemma whole_well_formed files : well_formed_files files ->
  well_formed_program L c (whole files) = true.
Proof.
  unfold LinkedSpec.well_formed_files. intro Wf. induction Wf as [|s files W1 W IH]; [reflexivity|].
  cbn [LinkedSpec.whole flat_map]. unfold well_formed_program. rewrite forallb_app.
  apply andb_true_iff. split; assumption.
Qed.

Notation linked_body := (linked_body L c o).
Lemma linked_mutated files g : well_formed_files files -> forall id,
  linked_body files id g = body_of L c (mutate_files files id) g.
Proof.
  intro Wf. induction Wf as [|[f p] files W1 W IH]; intro id; [reflexivity|].
  cbn [Linked.linked_body mutate_files snd] in *.
  pose proof (body_moved id p g 0 W1) as Q. rewrite Nat.add_0_r in Q.
  pose proof (program_count p id) as Nx.
  destruct (mutate_program L c o p id) as [q i], (mutate_program L c o p 0) as [q0 n].
  cbn [fst snd] in *. subst i. rewrite body_app, Q.
  destruct (body_of L c q0 g); [reflexivity|]. apply IH.
Qed.
Lemma diverges_ext R b1 b2 e : (forall g, b1 g = b2 g) -> forall m d t,
  diverges L R c b1 cpp17 e m d t -> diverges L R c b2 cpp17 e m d t.
Proof.
  intro Q. cofix CIH. intros m d t H. inversion H as [m2 d2 t2 m' d' t' St Dv]; subst.
  econstructor; [exact (step_ext L c cpp17 _ _ _ _ _ _ _ _ Q St)|]. apply CIH. exact Dv.
Qed.
Lemma behaves_like_mutated R d b1 b2 t bs s : (forall g, b1 g = b2 g) ->
  behaves_like L c cpp17 R d b1 t bs s -> behaves_like L c cpp17 R d b2 t bs s.
Proof.
  intros Q [B1 B2 B3 B4]. assert (Q' : forall g, b2 g = b1 g) by (intro; symmetry; apply Q).
  split; intros.
  - destruct H as (d' & St & F). apply (B1 e m m' r). exists d'. eauto using steps_ext.
  - destruct H as (m' & d' & t' & St & F). apply (B2 e m).
    exists m', d', t'. eauto using steps_ext, step_ext.
  - destruct H as (d' & t' & St). apply (B3 e m m'). exists d', t'. eauto using steps_ext.
  - apply B4. eapply diverges_ext; eauto.
Qed.

Lemma files_bodies rest E ns R bs files : forall before,
  ns = before ++ counts files ->
  (track o = true -> forall i, E i = false) ->
  well_formed_files files -> (track o = true -> productive_files files) ->
  (cpp17 = true -> sequenced_files files) ->
  (rest = false -> drops_program L c opt R bs cpp17 E (whole files) (list_sum before)) ->
  forall g, match body_of L c (mutate_files files (list_sum before)) g,
                  lookup_body L (fst (spec_program L c opt rest E (whole files) (list_sum before))) g with
            | Some t, Some s =>
                rel L c R E (bounds o (fun id => fst (locate ns id)) (list_sum ns)) bs cpp17 Same t s
            | None, None => True
            | _, _ => False
            end.
Proof.
  induction files as [|[f p] files IH]; intros before Qn Tr Wf Pr Sq Dr g; [exact I|].
  cbn [mutate_files LinkedSpec.whole flat_map snd]. rewrite whole_app. cbn [fst].
  inversion Wf as [|? ? W1 W2]; subst. clear Wf.
  assert (P1 : track o = true -> productive_program L c o p = true).
  { intro T. specialize (Pr T). inversion Pr. assumption. }
  assert (P2 : track o = true -> productive_files files).
  { intro T. specialize (Pr T). inversion Pr. assumption. }
  assert (S1 : cpp17 = true -> sequenced_program L c p = true).
  { intro T. specialize (Sq T). inversion Sq. assumption. }
  assert (S2 : cpp17 = true -> sequenced_files files).
  { intro T. specialize (Sq T). inversion Sq. assumption. }
  assert (Dapp : forall p q id, drops_program L c opt R bs cpp17 E (p ++ q) id ->
    drops_program L c opt R bs cpp17 E p id /\
    drops_program L c opt R bs cpp17 E q (snd (spec_program L c opt false E p id))).
  { clear. induction p as [|[f t] p IH]; intros q id H; cbn in *; auto.
    destruct H as [H1 H2]. apply IH in H2 as [H2 H3]. split; [split; assumption|].
    destruct (spec L c opt false E t id) as [x i]. cbn in *.
    destruct (spec_program L c opt false E p i). exact H3. }
  set (n := count L c o (f, p)) in *.
  assert (Nx : snd (spec_program L c opt rest E p (list_sum before)) = list_sum (before ++ [n])).
  { rewrite <- (proj1 (program_ids L c o rest E p _)), program_count.
    unfold n, count. cbn [snd]. rewrite list_sum_app. cbn. lia. }
  assert (Nm : snd (mutate_program L c o p (list_sum before)) = list_sum (before ++ [n])).
  { rewrite (proj1 (program_ids L c o rest E p _)). exact Nx. }
  assert (Le : list_sum (before ++ [n]) <= list_sum (before ++ n :: counts files)).
  { rewrite !list_sum_app. cbn. lia. }
  pose proof (program_bodies L c o cpp17 rest E
    (fun id => fst (locate (before ++ n :: counts files) id))
    (list_sum (before ++ n :: counts files)) (list_sum before) (list_sum (before ++ [n])) R bs p
    (list_sum before) Le) as B.
  specialize (IH (before ++ [n])). rewrite <- app_assoc in IH. cbn [app] in IH.
  change (counts ((f, p) :: files)) with (n :: counts files).
  specialize (IH eq_refl Tr W2 P2 S2).
  destruct (mutate_program L c o p (list_sum before)) as [q j]. cbn [fst snd] in *. subst j.
  rewrite Nx. rewrite body_app, lookup_app.
  rewrite Nx in B.
  assert (B2 : match body_of L c q g,
                  lookup_body L (fst (spec_program L c opt rest E p (list_sum before))) g with
            | Some t, Some s =>
                rel L c R E (bounds o (fun id => fst (locate (before ++ n :: counts files) id))
                  (list_sum (before ++ n :: counts files))) bs cpp17 Same t s
            | None, None => True
            | _, _ => False
            end).
  { apply B; auto.
    - intros i I1 I2. rewrite list_sum_app in I2. cbn in I2.
      replace i with (list_sum before + (i - list_sum before)) by lia.
      rewrite locate_before by lia. rewrite <- (Nat.add_0_r (list_sum before)) at 2.
      rewrite locate_before by lia. reflexivity.
    - intro Z. apply (Dapp _ _ _ (Dr Z)). }
  clear B.
  destruct (body_of L c q g) as [t|], (lookup_body L _ g) as [s|]; try contradiction; auto.
  apply IH. intro Z. rewrite <- Nx, Z. apply (Dapp _ _ _ (Dr Z)).
Qed.

Lemma files_total files :
  list_sum (counts files) = snd (mutate_program L c o (whole files) 0).
Proof.
  induction files as [|[f p] files IH]; [reflexivity|].
  cbn [LinkedSpec.whole flat_map snd].
  rewrite (proj1 (program_ids L c o false (fun _ => false) _ 0)), whole_app. cbn [snd].
  rewrite <- (proj1 (program_ids L c o false (fun _ => false) p 0)).
  rewrite <- (proj1 (program_ids L c o false (fun _ => false) _ _)), program_count.
  fold (whole files). rewrite <- IH. reflexivity.
Qed.

(* Everything but the runtime *)
Lemma files_lemma rest E R Inv d files g args :
  let bs := lookup_body L (fst (spec_program L c opt rest E (whole files) 0)) in
  working R E (bounds o (fun id => fst (locate (counts files) id)) (list_sum (counts files))) Inv ->
  Inv d ->
  (track o = true -> forall i, E i = false) ->
  well_formed_files files -> (track o = true -> productive_files files) ->
  (cpp17 = true -> sequenced_files files) ->
  (rest = false -> drops_program L c opt no_runtime bs cpp17 E (whole files) 0) ->
  behaves_like L c cpp17 R d (linked_body files 0) (call L g args)
    bs (call L g args).
Proof.
  intros bs W I Tr Wf Pr Sq Dr.
  pose proof (files_bodies rest E (counts files) no_runtime bs files [] eq_refl Tr Wf Pr Sq Dr) as B.
  pose proof (call_rel L c cpp17 no_runtime E
    (bounds o (fun id => fst (locate (counts files) id)) (list_sum (counts files))) bs g args) as Hr.
  apply (behaves_like_mutated R d (body_of L c (mutate_files files 0)));
    [intro g'; symmetry; apply linked_mutated; exact Wf|].
  split; intros.
  - eapply simulation_finishes; eauto.
  - eapply simulation_undefined; eauto.
  - eapply simulation_reaches; eauto.
  - eapply simulation_diverges; eauto.
Qed.

(** * The mutants of each file *)

(* The mutants that are made *)
Definition enabled (zs : list Z) (files : list (source L)) (id : nat) : bool :=
  listed (first_of L files (fst (locate (counts files) id))) zs (snd (locate (counts files) id)).

Lemma made_whole zs files all : forall before,
  all = before ++ files ->
  fst (spec_program L c opt true (enabled zs all) (whole files) (list_sum (counts before))) =
  made L c o zs files.
Proof.
  induction files as [|[f p] files IH]; intros before Q; [reflexivity|].
  cbn [LinkedSpec.whole made flat_map snd fst]. rewrite whole_app. cbn [fst].
  assert (Nc : snd (mutate_program L c o p 0) = count L c o (f, p)) by reflexivity.
  assert (Mv := program_moved true (listed f zs) (enabled zs all) (list_sum (counts before)) p 0).
  rewrite Nat.add_0_r in Mv. rewrite Mv; clear Mv.
  - cbn [fst snd]. f_equal.
    rewrite <- (proj1 (program_ids L c o true (listed f zs) p 0)), Nc.
    specialize (IH (before ++ [(f, p)])). rewrite <- app_assoc in IH.
    unfold counts in IH. rewrite map_app, list_sum_app in IH. cbn [map list_sum fold_right] in IH.
    rewrite Nat.add_0_r in IH. exact (IH Q).
  - intros i _ Hi. rewrite <- (proj1 (program_ids L c o true (listed f zs) p 0)), Nc in Hi.
    unfold enabled. rewrite Q. unfold counts. rewrite map_app. cbn [map].
    rewrite locate_before by exact Hi. cbn [fst snd]. f_equal.
    unfold first_of. rewrite map_app, app_nth2; rewrite !map_length; [|lia].
    rewrite Nat.sub_diag. reflexivity.
Qed.

Lemma working_ext R E E' b Inv : (forall i, i < lim_queried b -> E i = E' i) ->
  working R E b Inv -> working R E' b Inv.
Proof.
  intros Q [W1 W2 W3]. split; auto.
  - intros d i I F id Hid Sm. rewrite <- Q by exact Hid. eauto.
  - intros d id I Hid. rewrite <- Q by exact Hid. auto.
Qed.

Lemma linked_selecting_works files v zs :
  track o = false ->
  variable_lists v zs -> Forall (fun s => Forall (int_safe (fst s)) zs) files ->
  working (linked_selecting L c o files v) (enabled zs files)
    (bounds o (fun id => fst (locate (counts files) id)) (list_sum (counts files)))
    (fun d => forall k, selecting_inv (first_of L files k) (count_in L c o files k) zs (d k)).
Proof.
  intros T V S.
  pose proof (linked_works (counts files)
    (fun k => selecting (first_of L files k) (count_in L c o files k) (cpp c) v)
    (fun k => listed (first_of L files k) zs) true
    (fun k => selecting_inv (first_of L files k) (count_in L c o files k) zs)) as W.
  unfold bounds. rewrite T. apply W. clear W. intros k n Nk.
  assert (n = count_in L c o files k) as ->.
  { unfold count_in. symmetry. apply nth_error_nth. exact Nk. }
  apply selecting_works; auto.
  assert (k < List.length files).
  { unfold counts in Nk. rewrite <- (map_length (count L c o)). apply nth_error_Some. congruence. }
  unfold first_of. rewrite Forall_forall in S.
  destruct (nth_error files k) as [s|] eqn:Ns; [|apply nth_error_None in Ns; lia].
  rewrite (nth_error_nth (map fst files) k 0 (x := fst s)) by (rewrite nth_error_map, Ns; reflexivity).
  apply S. eapply nth_error_In; eauto.
Qed.

Lemma linked_lemma files v zs g args :
  track o = false ->
  variable_lists v zs -> Forall (fun s => Forall (int_safe (fst s)) zs) files ->
  well_formed_files files -> (cpp17 = true -> sequenced_files files) ->
  behaves_like L c cpp17 (linked_selecting L c o files v) (linked_initial L c o files v)
    (linked_body files 0) (call L g args)
    (lookup_body L (made L c o zs files)) (call L g args).
Proof.
  intros T V S Wf Sq. rewrite <- (made_whole zs files files [] eq_refl).
  eapply files_lemma; eauto using linked_selecting_works; try congruence.
  intro k. left. reflexivity.
Qed.

(* One run of the tool *)
Lemma one_run_enabled zs ps : forall id i,
  i < list_sum (counts (one_run L c o ps id)) ->
  enabled zs (one_run L c o ps id) i = listed id zs i.
Proof.
  induction ps as [|p ps IH]; intros id i H; [cbn in H; lia|].
  cbn [one_run] in *. unfold enabled in *. change (counts ((id, p) :: ?l)) with (count L c o (id, p) :: counts l) in *.
  cbn [list_sum fold_right] in H.
  cbn [locate]. destruct (Nat.ltb_spec i (count L c o (id, p))) as [Lt|Ge]; [reflexivity|].
  set (n := count L c o (id, p)) in *.
  specialize (IH (id + n) (i - n)).
  destruct (locate (counts (one_run L c o ps (id + n))) (i - n)) as [k j].
  cbn [fst snd first_of map nth] in *. unfold first_of in *. cbn [map nth].
  rewrite IH by (unfold list_sum, Linked.counts in *; lia).
  unfold listed. replace (id + n + (i - n)) with (id + i) by lia. reflexivity.
Qed.
Lemma spec_same rest E E' p id :
  (forall i, id <= i -> i < snd (spec_program L c opt rest E p id) -> E' i = E i) ->
  spec_program L c opt rest E' p id = spec_program L c opt rest E p id.
Proof.
  intro H. pose proof (program_moved rest E E' 0 p id H) as Q. cbn [Nat.add] in Q. rewrite Q.
  destruct (spec_program L c opt rest E p id). reflexivity.
Qed.

Lemma one_run_whole ps : forall id, whole (one_run L c o ps id) = List.concat ps.
Proof. induction ps as [|p ps IH]; intro id; cbn; auto. f_equal. apply IH. Qed.

Lemma one_run_lemma ps v zs g args :
  track o = false ->
  variable_lists v zs ->
  Forall (fun s => Forall (int_safe (fst s)) zs) (one_run L c o ps 0) ->
  Forall (fun p => well_formed_program L c p = true) ps ->
  (cpp17 = true -> Forall (fun p => sequenced_program L c p = true) ps) ->
  behaves_like L c cpp17 (linked_selecting L c o (one_run L c o ps 0) v)
    (linked_initial L c o (one_run L c o ps 0) v)
    (linked_body (one_run L c o ps 0) 0) (call L g args)
    (lookup_body L (fst (spec_program L c opt true (listed 0 zs) (List.concat ps) 0))) (call L g args).
Proof.
  intros T V S Wf Sq.
  assert (F : forall (P : list (string * cst L) -> Prop) id, Forall P ps ->
    Forall (fun s => P (snd s)) (one_run L c o ps id)).
  { intros P id H. clear - H. revert id. induction H; intro id; cbn; constructor; auto. }
  assert (Q : fst (spec_program L c opt true (listed 0 zs) (List.concat ps) 0) =
              made L c o zs (one_run L c o ps 0)).
  { rewrite <- (made_whole zs _ (one_run L c o ps 0) [] eq_refl), one_run_whole. f_equal.
    symmetry. apply spec_same. intros i _ Hi. apply one_run_enabled.
    rewrite files_total, one_run_whole.
    rewrite (proj1 (program_ids L c o true (listed 0 zs) _ 0)). exact Hi. }
  rewrite Q. apply linked_lemma; auto.
  - apply (F (fun p => well_formed_program L c p = true)). exact Wf.
  - intro H. apply (F (fun p => sequenced_program L c p = true)). exact (Sq H).
Qed.

(** * Files without listed mutants *)

Lemma spec_off E t : forall id,
  off E id (snd (spec L c opt false E t id) - id) ->
  spec L c opt true E t id = spec L c opt false E t id.
Proof.
  induction t as [s v|k ps last IH|e sub IH|b l w1 w2 r IHl IHr|u w sub IH|s sub IH]
    using cst_induction; intros id O.
  - reflexivity.
  - rewrite !(spec_node L c o) in *. cbn [fst snd] in *.
    assert (Q : spec_all L c o true E ps id = spec_all L c o false E ps id);
      [|rewrite Q; reflexivity].
    revert id O. induction IH as [|[s p] ps Hp F IHF]; intros id O; [reflexivity|].
    cbn [spec_all] in *. destruct (same_ids L c o false E p id) as [_ M].
    specialize (Hp id). cbn [snd] in Hp.
    assert (M2 : forall q j, j <= snd (spec_all L c o false E q j)).
    { clear. induction q as [|[s p] q IH]; intro j; cbn; auto.
      destruct (same_ids L c o false E p j) as [_ M]. destruct (spec L c opt false E p j) as [x i].
      specialize (IH i). destruct (spec_all L c o false E q i). cbn in *. lia. }
    specialize (M2 ps). destruct (spec L c opt false E p id) as [x i]. cbn [fst snd] in *.
    specialize (M2 i). specialize (IHF i).
    destruct (spec_all L c o false E ps i) as [xs j]. cbn [fst snd] in *.
    rewrite Hp by (intros n N; apply O; lia).
    rewrite IHF by (intros n N; apply O; lia). reflexivity.
  - cbn [SimSpec.spec] in *. destruct (same_ids L c o false E sub id) as [_ M]. specialize (IH id).
    destruct (spec L c opt false E sub id) as [x i]. cbn [fst snd] in *.
    rewrite IH by (intros n N; apply O; lia).
    rewrite (off_expr c o) by (intros n N; apply O; lia). reflexivity.
  - cbn [SimSpec.spec] in *. destruct (same_ids L c o false E l id) as [_ M]. specialize (IHl id).
    destruct (spec L c opt false E l id) as [x i]. cbn [fst snd] in *.
    destruct (same_ids L c o false E r i) as [_ M2]. specialize (IHr i).
    destruct (spec L c opt false E r i) as [y j]. cbn [fst snd] in *.
    rewrite IHl by (intros n N; apply O; lia). rewrite IHr by (intros n N; apply O; lia).
    assert (Oj : off E j (List.length (binary_actions c opt b))) by (intros n N; apply O; lia).
    rewrite (off_binary c o) by exact Oj. cbn [with_choice andb].
    destruct (c_logical c b) eqn:Cl; [|reflexivity]. f_equal.
    unfold binary_actions in Oj. rewrite Cl in Oj.
    unfold c_logical_with_rest. rewrite !Oj by (cbn; lia).
    assert (Lo : is_logical (b_op b) = true).
    { unfold c_logical in Cl. apply andb_true_iff in Cl as [_ Cl]. exact Cl. }
    destruct (b_op b) eqn:Op; try discriminate; unfold c_logical_term, binary_term, binary_site, binary_operands;
      cbn; rewrite ?Op; reflexivity.
  - cbn [SimSpec.spec] in *. destruct (same_ids L c o false E sub id) as [_ M]. specialize (IH id).
    destruct (spec L c opt false E sub id) as [x i]. cbn [fst snd] in *.
    rewrite IH by (intros n N; apply O; lia).
    rewrite (off_unary o) by (intros n N; apply O; lia). cbn [with_choice]. f_equal.
    destruct (u_op u); reflexivity.
  - cbn [SimSpec.spec] in *. destruct (same_ids L c o false E sub id) as [_ M]. specialize (IH id).
    destruct (spec L c opt false E sub id) as [x i]. cbn [fst snd] in *.
    rewrite IH by (intros n N; apply O; lia). reflexivity.
Qed.
Lemma program_off E p : forall id,
  off E id (snd (spec_program L c opt false E p id) - id) ->
  spec_program L c opt true E p id = spec_program L c opt false E p id.
Proof.
  induction p as [|[f t] p IH]; intros id O; [reflexivity|].
  cbn [spec_program] in *. destruct (same_ids L c o false E t id) as [_ M].
  pose proof (spec_off E t id) as St.
  destruct (spec L c opt false E t id) as [x i]. cbn [fst snd] in *.
  destruct (program_ids L c o false E p i) as [_ M2]. specialize (IH i).
  destruct (spec_program L c opt false E p i) as [q j]. cbn [fst snd] in *.
  rewrite St by (intros n N; apply O; lia). rewrite IH by (intros n N; apply O; lia).
  reflexivity.
Qed.

Lemma off_made s zs g :
  well_formed_program L c (snd s) = true ->
  unlisted L c o zs s ->
  lookup_body L (fst (spec_program L c opt true (listed (fst s) zs) (snd s) 0)) g =
  body_of L c (snd s) g.
Proof.
  intros Wf No.
  assert (O : off (listed (fst s) zs) 0
                (snd (spec_program L c opt false (listed (fst s) zs) (snd s) 0) - 0)).
  { intros i Hi. rewrite <- (proj1 (program_ids L c o false (listed (fst s) zs) (snd s) 0)) in Hi.
    destruct (listed (fst s) zs i) eqn:Li; auto. apply listed_in in Li.
    destruct (No i); auto. unfold count. lia. }
  rewrite program_off by exact O. apply (spec_none_program L c o _ _ 0 Wf O).
Qed.

(* Only the functions of one file change. *)
Lemma only_file zs one others before g :
  well_formed_files (before ++ others) ->
  Forall (unlisted L c o zs) (before ++ others) ->
  lookup_body L (made L c o zs (before ++ one :: others)) g =
  match body_of L c (whole before) g with
  | Some t => Some t
  | None =>
      match lookup_body L (fst (spec_program L c opt true (listed (fst one) zs) (snd one) 0)) g with
      | Some t => Some t
      | None => body_of L c (whole others) g
      end
  end.
Proof.
  intros Wf No.
  assert (Q : forall l, well_formed_files l ->
    Forall (unlisted L c o zs) l ->
    lookup_body L (made L c o zs l) g = body_of L c (whole l) g).
  { clear. induction l as [|s l IH]; intros Wf No; [reflexivity|].
    inversion Wf; inversion No; subst. cbn [made LinkedSpec.whole flat_map].
    rewrite lookup_app, body_app, off_made by assumption.
    change (flat_map snd l) with (whole l). rewrite <- IH by assumption. reflexivity. }
  apply Forall_app in Wf as [W1 W2]. apply Forall_app in No as [N1 N2].
  unfold made at 1. rewrite flat_map_app. cbn [flat_map]. rewrite !lookup_app.
  rewrite <- !(Q _) by assumption. reflexivity.
Qed.

Lemma only_one_lemma zs before one after g :
  well_formed_files (before ++ after) -> Forall (unlisted L c o zs) (before ++ after) ->
  lookup_body L (made L c o zs (before ++ one :: after)) g =
  match body_of L c (whole before) g with
  | Some t => Some t
  | None =>
      match lookup_body L (made L c o zs [one]) g with
      | Some t => Some t
      | None => body_of L c (whole after) g
      end
  end.
Proof.
  intros Wf No. rewrite (only_file zs one after before g Wf No).
  cbn [made flat_map]. rewrite app_nil_r. reflexivity.
Qed.

Lemma none_lemma files v zs g args :
  track o = false ->
  variable_lists v zs -> Forall (fun s => Forall (int_safe (fst s)) zs) files ->
  well_formed_files files -> (cpp17 = true -> sequenced_files files) ->
  Forall (unlisted L c o zs) files ->
  behaves_like L c cpp17 (linked_selecting L c o files v) (linked_initial L c o files v)
    (linked_body files 0) (call L g args)
    (body_of L c (whole files)) (call L g args).
Proof.
  intros T V S Wf Sq No.
  eapply behaves_like_ext; [|apply linked_lemma; eauto].
  intro g'. destruct files as [|s files]; [reflexivity|].
  inversion Wf; inversion No; subst.
  rewrite (only_file zs s files []) by assumption. cbn [LinkedSpec.whole flat_map body_of].
  rewrite body_app, off_made by assumption. reflexivity.
Qed.

Lemma linked_never_stuck files R d g args :
  well_formed_files files ->
  never_stuck L c cpp17 R (linked_body files 0) d (call L g args).
Proof.
  intro Wf. apply never_stuck_lemma; [|apply call_inactive].
  intros h s H. rewrite linked_mutated, mutated_whole in H by exact Wf.
  apply (mutated_inactive L c o (whole files) 0 h s (whole_well_formed files Wf) H).
Qed.

(** * Coverage builds *)

Lemma linked_coverage_lemma files tracking can_open g args :
  track o = true -> cpp c || negb tracking || can_open = true ->
  well_formed_files files -> productive_files files -> (cpp17 = true -> sequenced_files files) ->
  behaves_like L c cpp17 (linked_recording L c o files tracking can_open)
    (linked_track L c o files tracking can_open)
    (linked_body files 0) (call L g args)
    (body_of L c (whole files)) (call L g args).
Proof.
  intros T Co Wf Pr Sq.
  pose proof (whole_well_formed files Wf) as Ww.
  assert (O : off (fun _ => false) 0
                (snd (spec_program L c opt false (fun _ => false) (whole files) 0) - 0))
    by (intros i Hi; reflexivity).
  destruct (spec_none_program L c o _ _ 0 Ww O) as [Q Ro].
  eapply behaves_like_ext; [exact Q|].
  apply (files_lemma false (fun _ => false) (linked_recording L c o files tracking can_open)
    (fun d => forall k, List.length (t_recorded (d k)) = count_in L c o files k)); auto.
  - pose proof (linked_works (counts files)
      (fun k => recording (first_of L files k) (cpp c) tracking can_open)
      (fun _ _ => false) false
      (fun k (d : tracked) => List.length (t_recorded d) = count_in L c o files k)) as W.
    unfold bounds. rewrite T. apply W. clear W. intros k n Nk.
    assert (n = count_in L c o files k) as ->.
    { unfold count_in. symmetry. apply nth_error_nth. exact Nk. }
    apply recording_works. exact Co.
  - intro k. cbn. apply repeat_length.
  - intros _. apply removals_drops_program. exact Ro.
Qed.
End Files.
