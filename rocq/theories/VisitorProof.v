(* The traversal reaches exactly the positions on open paths. *)
From Coq Require Import List Bool Arith Lia Permutation.
From Verif Require Import Base Clang Gen GenExpr GenBinary GenUnary GenStmt Mutation MutTree
  TreeSpec Sites Visitor VisitorSpec.
Import ListNotations.

Definition site := (list nat * mutation)%type.

(* What has been found so far on the current node *)
Definition sites (st : vstate) : list site :=
  flat_map post (vs_children st) ++ vs_mutations st.

Definition mut_tag (m : mutation) : nat :=
  match m with
  | MutExpr _ _ => 0 | MutBinary _ _ _ _ => 1 | MutUnary _ _ _ => 2 | MutStmt _ _ => 3
  end.

Definition key (s : site) : list nat * nat := (fst s, mut_tag (snd s)).

Lemma node_induction (P : node -> Prop) :
  (forall k i ks, (forall r c, In (r, c) ks -> P c) -> P (Ast k i ks)) -> forall n, P n.
Proof.
  intros H. fix IH 1. intros [k i ks]. apply H.
  induction ks as [|[r c] ks IHks]; intros r' c' Hin.
  - destruct Hin.
  - destruct Hin as [Heq | Hin].
    + injection Heq as _ <-. apply IH.
    + exact (IHks r' c' Hin).
Qed.

Lemma perm_push f st new :
  Permutation (sites (f {| vs_mutations := []; vs_children := []; vs_vars := vs_vars st;
                  vs_asserts := vs_asserts st; vs_arrays := vs_arrays st;
                  vs_args := vs_args st; vs_prelude := vs_prelude st |})) new ->
  Permutation (sites (push_tree f st)) (sites st ++ new).
Proof.
  intros H. unfold push_tree, sites in *. cbn [vs_mutations vs_children].
  rewrite flat_map_app. cbn [flat_map post].
  rewrite app_nil_r, <- !app_assoc.
  apply Permutation_app_head.
  rewrite app_assoc, Permutation_app_comm.
  apply Permutation_app_head. exact H.
Qed.

Lemma sites_add pos ms st : sites (add_mutations pos ms st) = sites st ++ map (pair pos) ms.
Proof. unfold sites, add_mutations. cbn. now rewrite app_assoc. Qed.

Lemma sites_record is_cpp d i pos st : sites (record_decl is_cpp d i pos st) = sites st.
Proof.
  unfold record_decl, set_prelude.
  destruct d; repeat match goal with |- context [if ?b then _ else _] => destruct b end;
    try destruct (vs_prelude st); reflexivity.
Qed.

(* ---- The loop over the children ------------------------------------------------------ *)
Lemma children_sites f (Q : nat -> list site -> Prop) ks : forall base st,
  (forall j r c, nth_error ks j = Some (r, c) -> forall st, exists new,
     Permutation (sites (f r c (base + j) st)) (sites st ++ new) /\ Q (base + j) new) ->
  exists news,
    length news = length ks /\
    Permutation (sites (visit_children f ks base st)) (sites st ++ concat news) /\
    forall j new, nth_error news j = Some new -> Q (base + j) new.
Proof.
  induction ks as [|[r c] ks IH]; intros base st H.
  - exists []. split; [reflexivity|]. split.
    + cbn. now rewrite app_nil_r.
    + intros [|j] new Hj; discriminate.
  - destruct (H 0 r c eq_refl st) as (new & Hp & Hq). rewrite Nat.add_0_r in Hp, Hq.
    destruct (IH (S base) (f r c base st)) as (news & Hlen & Hperm & Hnews).
    { intros j r' c' Hj st'. destruct (H (S j) r' c' Hj st') as (new' & Hp' & Hq').
      rewrite Nat.add_succ_r in Hp', Hq'. eauto. }
    exists (new :: news). split; [cbn; lia|]. split.
    + cbn [visit_children concat]. fold (visit_children f).
      etransitivity; [exact Hperm|]. rewrite app_assoc.
      now apply Permutation_app_tail.
    + intros [|j] new' Hj.
      * cbn in Hj. injection Hj as <-. now rewrite Nat.add_0_r.
      * rewrite Nat.add_succ_r. exact (Hnews j new' Hj).
Qed.

Lemma in_concat_nth {A} (news : list (list A)) x :
  In x (concat news) <-> exists j new, nth_error news j = Some new /\ In x new.
Proof.
  rewrite in_concat. split.
  - intros (new & Hin & Hx). apply In_nth_error in Hin as [j Hj]. eauto.
  - intros (j & new & Hj & Hx). exists new. split; [now apply nth_error_In in Hj | exact Hx].
Qed.

Lemma nodup_app {A} (l1 l2 : list A) :
  NoDup l1 -> NoDup l2 -> (forall x, In x l1 -> ~ In x l2) -> NoDup (l1 ++ l2).
Proof.
  induction l1 as [|x l1 IH]; intros H1 H2 H; cbn; [exact H2|].
  inversion H1; subst. constructor.
  - rewrite in_app_iff. intros [Hx | Hx]; [contradiction|]. apply (H x); [now left | exact Hx].
  - apply IH; auto. intros y Hy. apply H. now right.
Qed.

Lemma NoDup_concat_indexed {A K} (f : A -> K) : forall news : list (list A),
  (forall j new, nth_error news j = Some new -> NoDup (map f new)) ->
  (forall j1 j2 n1 n2 a b, nth_error news j1 = Some n1 -> nth_error news j2 = Some n2 ->
     In a n1 -> In b n2 -> f a = f b -> j1 = j2) ->
  NoDup (map f (concat news)).
Proof.
  induction news as [|new news IH]; intros H1 H2; cbn.
  - constructor.
  - rewrite map_app. apply nodup_app.
    + apply (H1 0 new eq_refl).
    + apply IH.
      * intros j n Hj. apply (H1 (S j) n Hj).
      * intros j1 j2 n1 n2 a b Ha Hb Ia Ib E.
        specialize (H2 (S j1) (S j2) n1 n2 a b Ha Hb Ia Ib E). lia.
    + intros x Hx Hx'. apply in_map_iff in Hx as (a & <- & Ha).
      apply in_map_iff in Hx' as (b & E & Hb).
      apply in_concat_nth in Hb as (j & n & Hj & Hb).
      specialize (H2 0 (S j) new n a b eq_refl Hj Ha Hb (eq_sym E)). lia.
Qed.

(* ---- Which nodes are entered --------------------------------------------------------- *)
Definition mode_ok (m : mode) (up : list frame) : Prop := m = Component <-> in_block up.

Notation label_ok := not_in_label.

Lemma role_eqb_spec a b : reflect (a = b) (role_eqb a b).
Proof. destruct a, b; constructor; congruence. Qed.

Lemma child_mode_ok m k r up m' :
  mode_ok m up -> child_mode m k r = Some m' ->
  mode_ok m' ({| fr_kind := k; fr_role := r |} :: up) /\
  label_ok ({| fr_kind := k; fr_role := r |} :: up).
Proof.
  unfold mode_ok, not_in_label. intros Hm Hc.
  destruct k as [s | e x | d | l];
    [| injection Hc as <-; split; [|exact I]; split; [discriminate | intros H; inversion H]..].
  destruct s; cbn in Hc;
    try (injection Hc as <-; split; [|exact I]; split;
         first [discriminate | intros H; inversion H; fail | intros _; constructor
               | intros _; reflexivity]).
  - destruct (role_eqb_spec r RSub) as [-> | ]; [|discriminate]. injection Hc as <-.
    split; [|reflexivity]. rewrite Hm. split.
    + intros H. now constructor.
    + intros H. inversion H; assumption.
  - destruct (role_eqb_spec r RSub) as [-> | ]; [|discriminate]. injection Hc as <-.
    split; [|reflexivity]. rewrite Hm. split.
    + intros H. now constructor.
    + intros H. inversion H; assumption.
Qed.

Lemma child_mode_none m k r k' up is_cpp :
  child_mode m k r = None -> constant_context is_cpp k' ({| fr_kind := k; fr_role := r |} :: up).
Proof.
  destruct k as [s | | | ]; try discriminate. destruct s; try discriminate; cbn;
    destruct (role_eqb_spec r RSub); intros H; try discriminate;
    apply cc_case_value; auto.
Qed.

Definition is_frame_address (k : kind) : bool :=
  match k with KExpr EFrameAddress _ => true | _ => false end.

(* TraverseStmt returns early exactly for constant contexts. *)
Lemma statement_skipped is_cpp k up :
  is_statement k -> label_ok up ->
  constant_context is_cpp k up <-> stmt_skipped k up || is_frame_address k = true.
Proof.
  intros Hs Hl. split.
  - intros H. destruct H; try destruct Hs; cbn; try reflexivity;
      rewrite ?orb_true_r; try reflexivity.
    + cbn in Hl. destruct H as [-> | ->]; contradiction.
    + destruct (parent up) as [[[[]|[]| |] []]|]; try reflexivity;
        destruct constexpr; reflexivity.
    + unfold stmt_skipped. destruct k as [|[]| |]; try destruct Hs; reflexivity.
    + unfold stmt_skipped. destruct k as [|[]| |]; try destruct Hs; reflexivity.
    + unfold stmt_skipped. destruct k as [|[]| |]; try destruct Hs; reflexivity.
  - intros H. apply orb_true_iff in H as [H | H].
    + unfold stmt_skipped in H.
      destruct k as [s | e x | |]; try destruct Hs.
      * destruct up as [|[[sk|ek| |] r] up]; try discriminate; cbn in H.
        -- destruct sk as [| | | | | | [] | |]; try discriminate;
             destruct r; try discriminate; apply cc_if_constexpr; exact I.
        -- destruct ek; try discriminate.
           ++ apply cc_sizeof_operand; exact I.
           ++ destruct r; try discriminate. apply cc_new_size; exact I.
      * destruct e; try (now constructor);
        destruct up as [|[[sk|ek| |] r] up]; cbn in H; try discriminate;
          try (destruct to_decltype; try discriminate; now constructor);
          try (destruct sk as [| | | | | | [] | |]; try discriminate;
               try (destruct to_decltype; try discriminate; now constructor);
               destruct r; try discriminate;
               try (destruct to_decltype; try discriminate; now constructor);
               apply cc_if_constexpr; exact I);
          destruct ek; try discriminate;
          try (apply cc_sizeof_operand; exact I);
          try (destruct to_decltype; try discriminate; now constructor);
          destruct r; try discriminate;
          try (destruct to_decltype; try discriminate; now constructor);
          apply cc_new_size; exact I.
    + destruct k as [|[]| |]; try discriminate. constructor.
Qed.

Lemma decl_entered_open is_cpp opt d i up :
  label_ok up -> blocked is_cpp opt (KDecl d) i up <-> decl_entered is_cpp d i = false.
Proof.
  intros Hl. unfold blocked. split.
  - intros [H | [H | H]].
    + inversion H; subst; cbn; try reflexivity; rewrite ?andb_false_r; try reflexivity;
        try contradiction.
      * match goal with h : v_specialization _ = false |- _ => rewrite h end. cbn.
        match goal with h : _ \/ _ |- _ => destruct h as [-> | ->] end;
          rewrite ?andb_false_r; reflexivity.
      * match goal with h : v_specialization _ = false |- _ => rewrite h end.
        match goal with h : v_static_local _ = true |- _ => rewrite h end. cbn.
        now rewrite !andb_false_r.
      * cbn in Hl. match goal with h : _ \/ _ |- _ => destruct h as [-> | ->] end;
          contradiction.
    + destruct H as (_ & _ & e & x & E & _). discriminate.
    + destruct H as (Hm & d' & E & Hd). injection E as <-.
      destruct d; try contradiction; cbn; rewrite ?Hm; reflexivity.
  - destruct d as [| |[] mk|v| |ca|]; cbn; try discriminate; intros H.
    + left. constructor.
    + left. constructor.
    + rewrite andb_true_r in H. right. right. split; [exact H|]. eexists. split; [reflexivity|].
      discriminate.
    + destruct (n_in_main i) eqn:Hm.
      2: { right. right. split; [exact Hm|]. eexists. split; [reflexivity | discriminate]. }
      destruct (v_specialization v) eqn:Hsp; [discriminate|]. cbn in H. left.
      destruct (v_constexpr v) eqn:Hc; [constructor; auto|].
      destruct (v_constinit v) eqn:Hi; [constructor; auto|]. cbn in H.
      destruct is_cpp; [discriminate|]. cbn in H.
      destruct (v_static_local v) eqn:Hst; [|discriminate].
      apply cc_c_static; auto.
    + left. constructor.
    + right. right. split; [exact H|]. eexists. split; [reflexivity | discriminate].
    + right. right. split; [exact H|]. eexists. split; [reflexivity | discriminate].
Qed.

Lemma loc_entered_open is_cpp opt l i up :
  label_ok up -> blocked is_cpp opt (KLoc l) i up <-> loc_entered is_cpp l = false.
Proof.
  intros Hl. unfold blocked. split.
  - intros [H | [H | H]].
    + inversion H; subst; cbn; try reflexivity; try contradiction.
      cbn in Hl. match goal with h : _ \/ _ |- _ => destruct h as [-> | ->] end;
          contradiction.
    + destruct H as (_ & _ & e & x & E & _). discriminate.
    + destruct H as (_ & d & E & _). discriminate.
  - destruct l; cbn; try discriminate; intros H; left; try constructor.
    destruct is_cpp; [reflexivity | discriminate].
Qed.

(* ---- What the traversal finds --------------------------------------------------------- *)
(* Where a mutation is found: a removal at a removable component of a block, anything else at
   an expression that is not itself blocked. *)
Definition found_at (is_cpp opt : bool) (m : mutation) (up : list frame) (n : node) : Prop :=
  match m with
  | MutStmt s l =>
      in_block up /\ removable opt (node_kind n) (node_info n) /\
      ~ discarded opt (node_kind n) up /\ s = n_site (node_info n) /\ l = n_loc (node_info n)
  | _ =>
      ~ blocked is_cpp opt (node_kind n) (node_info n) up /\
      exists vars, In m (visit_expr opt vars up n)
  end.

Definition removal_here (opt : bool) (up : list frame) (n : node) : Prop :=
  in_block up /\ removable opt (node_kind n) (node_info n) /\
  ~ discarded opt (node_kind n) up.

(* new: what traversing the node at pos adds *)
Record traversed (is_cpp opt : bool) (n : node) (up : list frame) (pos : list nat)
  (new : list site) : Prop := {
  tr_sound : forall p m, In (p, m) new ->
    exists q up' n', p = pos ++ q /\ open_path is_cpp opt n up q up' n' /\
                     found_at is_cpp opt m up' n';
  tr_complete : forall q up' n', open_path is_cpp opt n up q up' n' ->
    removal_here opt up' n' ->
    In (pos ++ q, MutStmt (n_site (node_info n')) (n_loc (node_info n'))) new;
  tr_nodup : NoDup (map key new)
}.

(* The same without the removal of the node itself *)
Record entered (is_cpp opt : bool) (n : node) (up : list frame) (pos : list nat)
  (new : list site) : Prop := {
  en_sound : forall p m, In (p, m) new ->
    exists q up' n', p = pos ++ q /\ open_path is_cpp opt n up q up' n' /\
                     found_at is_cpp opt m up' n' /\ (is_removal m -> q <> []);
  en_complete : forall q up' n', open_path is_cpp opt n up q up' n' -> q <> [] ->
    removal_here opt up' n' ->
    In (pos ++ q, MutStmt (n_site (node_info n')) (n_loc (node_info n'))) new;
  en_nodup : NoDup (map key new)
}.

Lemma visit_expr_tags opt vars up n m : In m (visit_expr opt vars up n) -> mut_tag m <> 3.
Proof.
  destruct n as [[|e x| |] i ks]; cbn [visit_expr]; try (intros []).
  repeat match goal with |- In _ (if ?b then _ else _) -> _ => destruct b; [intros []|] end.
  rewrite in_app_iff. unfold when. intros [H | H].
  - destruct e; try destruct H;
      repeat match type of H with In _ (if ?b then _ else _) => destruct b end;
      repeat (destruct H as [<- | H]); try destruct H; discriminate.
  - match type of H with In _ (if ?b then _ else _) => destruct b end;
      repeat (destruct H as [<- | H]); try destruct H; discriminate.
Qed.

Lemma visit_expr_nodup opt vars up n : NoDup (map mut_tag (visit_expr opt vars up n)).
Proof.
  destruct n as [[|e x| |] i ks]; cbn [visit_expr]; try (constructor; fail).
  repeat match goal with |- NoDup (map _ (if ?b then _ else _)) => destruct b; [constructor|] end.
  unfold when. rewrite map_app.
  match goal with |- NoDup (_ ++ map _ (if ?b then _ else _)) => destruct b end;
    destruct e; cbn; try (repeat constructor; cbn; tauto);
    match goal with |- context [if ?b then _ else _] => destruct b end; cbn;
    repeat constructor; cbn; intuition congruence.
Qed.

Lemma descend_entered is_cpp opt k i ks m up pos st :
  (forall r c, In (r, c) ks -> forall m up pos st, mode_ok m up -> label_ok up ->
     exists new, Permutation (sites (traverse is_cpp opt c m up pos st)) (sites st ++ new) /\
                 traversed is_cpp opt c up pos new) ->
  mode_ok m up -> ~ blocked is_cpp opt k i up ->
  exists new,
    Permutation (sites (visit_children (fun r c idx st =>
          match child_mode m k r with
          | Some m' =>
              traverse is_cpp opt c m' ({| fr_kind := k; fr_role := r |} :: up)
                (pos ++ [idx]) st
          | None => st
          end) ks 0 st)) (sites st ++ new) /\
    entered is_cpp opt (Ast k i ks) up pos new /\
    (forall p m, In (p, m) new -> p <> pos).
Proof.
  intros IH Hm Hb.
  set (f := fun r c idx st => _).
  destruct (children_sites f
    (fun j new => forall r c, nth_error ks j = Some (r, c) ->
       match child_mode m k r with
       | Some _ => traversed is_cpp opt c ({| fr_kind := k; fr_role := r |} :: up)
                     (pos ++ [j]) new
       | None => new = []
       end) ks 0 st) as (news & Hlen & Hperm & Hnews).
  { intros j r c Hj st'. unfold f. cbn [Nat.add].
    destruct (child_mode m k r) as [m'|] eqn:Hc.
    - destruct (child_mode_ok m k r up m' Hm Hc) as [Hm' Hl'].
      destruct (IH r c (nth_error_In _ _ Hj) m' _ (pos ++ [j]) st' Hm' Hl') as (new & Hp & Ht).
      exists new. split; [exact Hp|]. intros r2 c2 Hj2. rewrite Hj in Hj2.
      injection Hj2 as <- <-. rewrite Hc. exact Ht.
    - exists []. split; [now rewrite app_nil_r|]. intros r2 c2 Hj2. rewrite Hj in Hj2.
      injection Hj2 as <- <-. now rewrite Hc. }
  assert (Hpart : forall j new, nth_error news j = Some new -> exists r c,
            nth_error ks j = Some (r, c) /\
            match child_mode m k r with
            | Some _ => traversed is_cpp opt c ({| fr_kind := k; fr_role := r |} :: up)
                     (pos ++ [j]) new
            | None => new = []
            end).
  { intros j new Hj. assert (Hlt : j < length ks).
    { rewrite <- Hlen. apply nth_error_Some. congruence. }
    destruct (nth_error ks j) as [[r c]|] eqn:Hk.
    - exists r, c. split; [reflexivity|]. exact (Hnews j new Hj r c Hk).
    - apply nth_error_None in Hk. lia. }
  assert (Hin : forall j new p m', nth_error news j = Some new -> In (p, m') new ->
            exists r c q up' n', nth_error ks j = Some (r, c) /\ p = pos ++ j :: q /\
              open_path is_cpp opt c ({| fr_kind := k; fr_role := r |} :: up) q up' n' /\
              found_at is_cpp opt m' up' n').
  { intros j new p m' Hj Hp. destruct (Hpart j new Hj) as (r & c & Hk & Ht).
    destruct (child_mode m k r) as [m2|].
    - destruct (tr_sound _ _ _ _ _ _ Ht p m' Hp) as (q & up' & n' & -> & Ho & Hf).
      exists r, c, q, up', n'. rewrite <- app_assoc. auto.
    - subst new. destruct Hp. }
  exists (concat news). split; [exact Hperm|]. split; [split|].
  - intros p m' Hp. apply in_concat_nth in Hp as (j & new & Hj & Hp).
    destruct (Hin j new p m' Hj Hp) as (r & c & q & up' & n' & Hk & -> & Ho & Hf).
    exists (j :: q), up', n'. split; [reflexivity|]. split; [|split].
    + eapply open_child; eauto.
    + exact Hf.
    + discriminate.
  - intros q up' n' Ho Hq Hr. inversion Ho; subst; [contradiction|].
    match goal with h : nth_error ks _ = Some _ |- _ => rename h into Hk end.
    match goal with h : open_path _ _ c _ _ _ _ |- _ => rename h into Hc end.
    assert (Hlt : idx < length news).
    { rewrite Hlen. apply nth_error_Some. congruence. }
    destruct (nth_error news idx) as [new|] eqn:Hj; [|apply nth_error_None in Hj; lia].
    specialize (Hnews idx new Hj r c Hk). cbn in Hnews.
    apply in_concat_nth. exists idx, new. split; [exact Hj|].
    destruct (child_mode m k r) as [m2|] eqn:Hcm.
    + pose proof (tr_complete _ _ _ _ _ _ Hnews q0 up' n' Hc Hr) as H.
      now rewrite <- app_assoc in H.
    + exfalso. inversion Hc; subst.
      * (* the child itself: a case value is not a component of a block *)
        destruct Hr as (Hblk & _). destruct k as [[]| | |]; try discriminate; cbn in Hcm;
          destruct (role_eqb_spec r RSub); try discriminate; inversion Hblk; subst;
          contradiction.
      * match goal with h : ~ blocked _ _ _ _ _ |- _ => apply h end.
        left. eapply child_mode_none; eauto.
  - apply NoDup_concat_indexed.
    + intros j new Hj. destruct (Hpart j new Hj) as (r & c & Hk & Ht).
      destruct (child_mode m k r).
      * apply (tr_nodup _ _ _ _ _ _ Ht).
      * subst new. constructor.
    + intros j1 j2 n1 n2 [p1 m1] [p2 m2] H1 H2 I1 I2 E.
      destruct (Hin j1 n1 p1 m1 H1 I1) as (r1 & c1 & q1 & u1 & x1 & _ & -> & _).
      destruct (Hin j2 n2 p2 m2 H2 I2) as (r2 & c2 & q2 & u2 & x2 & _ & -> & _).
      unfold key in E. apply pair_equal_spec in E as [E _]. cbn in E.
      apply app_inv_head in E. now injection E.
  - intros p m' Hp. apply in_concat_nth in Hp as (j & new & Hj & Hp).
    destruct (Hin j new p m' Hj Hp) as (r & c & q & up' & n' & _ & -> & _).
    intros E. rewrite <- (app_nil_r pos) in E at 2. apply app_inv_head in E. discriminate.
Qed.

Lemma nothing_entered is_cpp opt k i ks up pos :
  blocked is_cpp opt k i up -> entered is_cpp opt (Ast k i ks) up pos [].
Proof.
  intros Hb. split.
  - intros p m [].
  - intros q up' n' Ho Hq _. inversion Ho; subst; contradiction.
  - constructor.
Qed.

(* A node that is not a removable component of a block *)
Lemma entered_traversed is_cpp opt n up pos new :
  entered is_cpp opt n up pos new -> ~ removal_here opt up n ->
  traversed is_cpp opt n up pos new.
Proof.
  intros [H1 H2 H3] Hr. split.
  - intros p m Hp. destruct (H1 p m Hp) as (q & up' & n' & E & Ho & Hf & _). eauto 6.
  - intros q up' n' Ho Hr'. destruct q as [|j q].
    + inversion Ho; subst. contradiction.
    + eapply H2; eauto. discriminate.
  - exact H3.
Qed.

(* A removable component of a block *)
Lemma entered_removed is_cpp opt n up pos new :
  entered is_cpp opt n up pos new -> removal_here opt up n ->
  traversed is_cpp opt n up pos
    (new ++ [(pos, MutStmt (n_site (node_info n)) (n_loc (node_info n)))]).
Proof.
  intros [H1 H2 H3] Hr. split.
  - intros p m Hp. apply in_app_iff in Hp as [Hp | [Hp | []]].
    + destruct (H1 p m Hp) as (q & up' & n' & E & Ho & Hf & _). eauto 6.
    + injection Hp as <- <-. exists [], up, n. rewrite app_nil_r. split; [reflexivity|].
      split; [constructor|]. destruct Hr as (Ha & Hb & Hc). cbn. auto.
  - intros q up' n' Ho Hr'. apply in_app_iff. destruct q as [|j q].
    + inversion Ho; subst. right. left. now rewrite app_nil_r.
    + left. eapply H2; eauto. discriminate.
  - rewrite map_app. apply nodup_app.
    + exact H3.
    + repeat constructor. intros [].
    + cbn. intros x Hx [E | []]. subst x. apply in_map_iff in Hx as ([p m] & E & Hin).
      unfold key in E. apply pair_equal_spec in E as [E1 E2]. cbn in E1, E2. subst p.
      destruct (H1 pos m Hin) as (q & up' & n' & E & Ho & Hf & Hq).
      rewrite <- (app_nil_r pos) in E at 1. apply app_inv_head in E. subst q.
      destruct m; try discriminate. now apply Hq.
Qed.

Lemma removals_iff opt k i up :
  is_statement k -> is_switch_case k = false -> in_block up -> ~ discarded opt k up ->
  forall ks,
    (removals opt k i = [MutStmt (n_site i) (n_loc i)] /\ removal_here opt up (Ast k i ks)) \/
    (removals opt k i = [] /\ ~ removal_here opt up (Ast k i ks)).
Proof.
  intros Hs Hc Hb Hd ks. unfold removals, removal_here, removable. cbn [node_kind node_info].
  destruct (n_in_main i); cbn [negb orb].
  2: { right. split; [reflexivity|]. intros (_ & (_ & H & _) & _). discriminate. }
  destruct k as [s | e x | |]; try destruct Hs.
  - destruct s; try discriminate; cbn;
      try (right; split; [reflexivity|]; intros (_ & H & _); intuition congruence);
      try (left; split; [destruct opt; reflexivity|]; intuition discriminate).
    destruct opt; cbn.
    + right. split; [reflexivity|]. intros (_ & H & _). intuition congruence.
    + left. split; [reflexivity|]. intuition discriminate.
  - left. split; [destruct opt; reflexivity|]. cbn. intuition discriminate.
Qed.

Lemma useless_discarded opt k up :
  in_block up -> useless_component opt k = true <-> discarded opt k up.
Proof.
  intros Hb. unfold useless_component, discarded. split.
  - intros H. apply andb_true_iff in H as [-> H]. split; [reflexivity|]. split; [exact Hb|].
    destruct k as [|e x| |]; try discriminate. exists e, x. split; [reflexivity|].
    now destruct (e_side_effects (x_expr x)).
  - intros (-> & _ & e & x & -> & H). now rewrite H.
Qed.

Lemma traverse_found is_cpp opt : forall n m up pos st,
  mode_ok m up -> label_ok up ->
  exists new,
    Permutation (sites (traverse is_cpp opt n m up pos st)) (sites st ++ new) /\
    traversed is_cpp opt n up pos new.
Proof.
  induction n as [k i ks IH] using node_induction. intros m up pos st Hm Hl.
  pose proof (fun st Hb => descend_entered is_cpp opt k i ks m up pos st IH Hm Hb) as Hdesc.
  (* TraverseStmt *)
  assert (Hstmt : is_statement k -> ~ discarded opt k up -> forall st,
    exists new,
      Permutation (sites
        (if stmt_skipped k up then st
         else match k with
              | KExpr EFrameAddress _ => add_arg (pos ++ [first_arg ks 0]) st
              | _ =>
                  push_tree (fun st =>
                    let st := visit_children (fun r c idx st =>
                        match child_mode m k r with
                        | Some m' =>
                            traverse is_cpp opt c m'
                              ({| fr_kind := k; fr_role := r |} :: up) (pos ++ [idx]) st
                        | None => st
                        end) ks 0 st in
                    add_mutations pos (visit_expr opt (vs_vars st) up (Ast k i ks)) st) st
              end)) (sites st ++ new) /\
      entered is_cpp opt (Ast k i ks) up pos new).
  { intros Hs Hd st'. destruct (stmt_skipped k up) eqn:Hsk.
    { exists []. split; [now rewrite app_nil_r|]. apply nothing_entered. left.
      apply statement_skipped; auto. now rewrite Hsk. }
    destruct (is_frame_address k) eqn:Hfa.
    { exists []. destruct k as [|[]| |]; try discriminate. rewrite app_nil_r.
      split; [reflexivity|]. apply nothing_entered. left. constructor. }
    assert (Hb : ~ blocked is_cpp opt k i up).
    { intros [H | [H | H]].
      - apply statement_skipped in H; auto. rewrite Hsk, Hfa in H. discriminate.
      - contradiction.
      - destruct H as (_ & d & -> & _). destruct Hs. }
    match goal with |- exists new, Permutation (sites ?t) _ /\ _ =>
      replace t with (push_tree (fun st =>
                    let st := visit_children (fun r c idx st =>
                        match child_mode m k r with
                        | Some m' =>
                            traverse is_cpp opt c m'
                              ({| fr_kind := k; fr_role := r |} :: up) (pos ++ [idx]) st
                        | None => st
                        end) ks 0 st in
                    add_mutations pos (visit_expr opt (vs_vars st) up (Ast k i ks)) st) st')
        by (destruct k as [|[]| |]; try reflexivity; discriminate) end.
    match goal with |- exists new, Permutation (sites (push_tree ?F st')) _ /\ _ =>
      set (F0 := F) end.
    match goal with |- exists new, Permutation (sites (push_tree F0 ?s)) _ /\ _ =>
      set (st0 := {| vs_mutations := []; vs_children := []; vs_vars := vs_vars s;
                  vs_asserts := vs_asserts s; vs_arrays := vs_arrays s;
                  vs_args := vs_args s; vs_prelude := vs_prelude s |}) end.
    destruct (Hdesc st0 Hb) as (new & Hp & He & Hne).
    set (own := visit_expr opt
                  (vs_vars (visit_children (fun r c idx st =>
                        match child_mode m k r with
                        | Some m' =>
                            traverse is_cpp opt c m'
                              ({| fr_kind := k; fr_role := r |} :: up) (pos ++ [idx]) st
                        | None => st
                        end) ks 0 st0)) up (Ast k i ks)).
    exists (new ++ map (pair pos) own). split.
    - apply perm_push. fold st0. unfold F0. cbv zeta. rewrite sites_add.
      fold own. apply Permutation_app_tail. exact Hp.
    - destruct He as [E1 E2 E3]. split.
      + intros p x Hx. apply in_app_iff in Hx as [Hx | Hx]; [now apply E1|].
        apply in_map_iff in Hx as (y & Hy & Hin). injection Hy as <- <-.
        exists [], up, (Ast k i ks). rewrite app_nil_r. split; [reflexivity|].
        split; [constructor|]. pose proof (visit_expr_tags _ _ _ _ _ Hin) as Ht.
        split.
        * destruct y; cbn in Ht; try congruence; cbn; eauto.
        * destruct y; cbn in *; congruence.
      + intros q up' n' Ho Hq Hr. apply in_app_iff. left. now apply (E2 q up' n').
      + rewrite map_app. apply nodup_app.
        * exact E3.
        * assert (Hnd := visit_expr_nodup opt
                  (vs_vars (visit_children (fun r c idx st =>
                        match child_mode m k r with
                        | Some m' =>
                            traverse is_cpp opt c m'
                              ({| fr_kind := k; fr_role := r |} :: up) (pos ++ [idx]) st
                        | None => st
                        end) ks 0 st0)) up (Ast k i ks)).
          fold own in Hnd. clearbody own. rewrite map_map. unfold key. cbn.
          rewrite <- (map_map mut_tag (pair pos)).
          apply FinFun.Injective_map_NoDup; [|exact Hnd]. intros a b E. now injection E.
        * intros y Hy Hy'. apply in_map_iff in Hy as ([p x] & <- & Hin).
          apply in_map_iff in Hy' as ([p' x'] & E & Hin').
          apply in_map_iff in Hin' as (z & Hz & _). injection Hz as <- <-.
          unfold key in E. apply pair_equal_spec in E as [E _]. cbn in E. subst p.
          exact (Hne pos x Hin eq_refl). }
  (* statements and expressions *)
  assert (Hcase : is_statement k -> exists new,
    Permutation (sites (traverse is_cpp opt (Ast k i ks) m up pos st)) (sites st ++ new) /\
    traversed is_cpp opt (Ast k i ks) up pos new).
  { intros Hs. specialize (Hstmt Hs).
    match type of Hstmt with _ -> forall st, exists new, Permutation (sites (@?F st)) _ /\ _ =>
      set (statement := F) in Hstmt end.
    match type of Hdesc with forall st, _ -> exists new, Permutation (sites (@?F st)) _ /\ _ =>
      set (descend := F) in Hdesc end.
    assert (Heq : traverse is_cpp opt (Ast k i ks) m up pos st =
              match m with
              | Plain => statement st
              | Component =>
                  if is_switch_case k then descend st
                  else if useless_component opt k then st
                  else push_tree (fun st =>
                         add_mutations pos (removals opt k i) (statement st)) st
              end) by (destruct k; try destruct Hs; reflexivity).
    rewrite Heq. clear Heq.
    destruct m.
    - assert (Hnb : ~ in_block up) by (intros H; apply Hm in H; discriminate).
      assert (Hd : ~ discarded opt k up) by (intros (_ & H & _); contradiction).
      destruct (Hstmt Hd st) as (new & Hp & He). exists new. split; [exact Hp|].
      apply entered_traversed; [exact He|]. intros (H & _). contradiction.
    - assert (Hblk : in_block up) by (now apply Hm).
      destruct (is_switch_case k) eqn:Hsw.
      { assert (Hb : ~ blocked is_cpp opt k i up).
        { intros [H | [H | H]].
          - apply statement_skipped in H; auto. apply orb_true_iff in H as [H | H].
            + unfold stmt_skipped in H. destruct k as [[]|[]| |]; try discriminate;
                inversion Hblk; subst; discriminate.
            + destruct k as [[]|[]| |]; discriminate.
          - destruct H as (_ & _ & e' & x' & -> & _). discriminate.
          - destruct H as (_ & d' & -> & _). discriminate. }
        destruct (Hdesc st Hb) as (new & Hp & He & _). exists new. split; [exact Hp|].
        apply entered_traversed; [exact He|].
        intros (_ & (_ & _ & _ & _ & _ & H1 & H2 & _) & _). cbn in H1, H2.
        destruct k as [[]|[]| |]; try discriminate; congruence. }
      destruct (useless_component opt k) eqn:Hu.
      { exists []. rewrite app_nil_r. split; [reflexivity|].
        pose proof (proj1 (useless_discarded opt k up Hblk) Hu) as Hd.
        apply entered_traversed.
        - apply nothing_entered. right. left. exact Hd.
        - intros (_ & _ & H). contradiction. }
      assert (Hd : ~ discarded opt k up).
      { intros H. apply useless_discarded in H; auto. congruence. }
      destruct (Hstmt Hd {| vs_mutations := []; vs_children := []; vs_vars := vs_vars st;
                  vs_asserts := vs_asserts st; vs_arrays := vs_arrays st;
                  vs_args := vs_args st; vs_prelude := vs_prelude st |})
        as (new & Hp & He).
      exists (new ++ map (pair pos) (removals opt k i)). split.
      { apply perm_push. rewrite sites_add. apply Permutation_app_tail. exact Hp. }
      destruct (removals_iff opt k i up Hs Hsw Hblk Hd ks) as [[-> Hr] | [-> Hr]].
      + now apply entered_removed.
      + cbn [map]. rewrite app_nil_r. now apply entered_traversed. }
  clear Hstmt.
  destruct k as [s | e x | d | l]; [exact (Hcase I) | exact (Hcase I) | |].
  { (* declarations *)
    assert (Hnr : ~ removal_here opt up (Ast (KDecl d) i ks)).
    { intros (_ & (H & _) & _). destruct H. }
    cbn [traverse]. destruct (decl_entered is_cpp d i) eqn:Hd.
    - assert (Hb : ~ blocked is_cpp opt (KDecl d) i up).
      { intros H. apply decl_entered_open in H; auto. congruence. }
      destruct (Hdesc (record_decl is_cpp d i pos st) Hb) as (new & Hp & He & _).
      rewrite sites_record in Hp. exists new. split.
      + destruct d; exact Hp.
      + now apply entered_traversed.
    - exists []. rewrite sites_record, app_nil_r. split; [reflexivity|].
      apply entered_traversed; [|exact Hnr]. apply nothing_entered.
      now apply decl_entered_open. }
  { (* locations *)
    assert (Hnr : ~ removal_here opt up (Ast (KLoc l) i ks)).
    { intros (_ & (H & _) & _). destruct H. }
    cbn [traverse]. destruct (loc_entered is_cpp l) eqn:Hd.
    - assert (Hb : ~ blocked is_cpp opt (KLoc l) i up).
      { intros H. apply loc_entered_open in H; auto. congruence. }
      destruct (Hdesc st Hb) as (new & Hp & He & _). exists new. split; [exact Hp|].
      now apply entered_traversed.
    - exists []. rewrite app_nil_r. split; [reflexivity|].
      apply entered_traversed; [|exact Hnr]. apply nothing_entered.
      now apply loc_entered_open. }
Qed.

(* ---- The whole translation unit -------------------------------------------------------- *)
Lemma visit_found is_cpp opt root : exists new,
  Permutation (post (visited_tree is_cpp opt root)) new /\
  traversed is_cpp opt root [] [] new.
Proof.
  destruct (traverse_found is_cpp opt root Plain [] [] vstate0) as (new & Hp & Ht).
  - split; [discriminate | intros H; inversion H].
  - exact I.
  - exists new. split; [|exact Ht]. exact Hp.
Qed.

Lemma site_path is_cpp opt root pos m :
  In (pos, m) (post (visited_tree is_cpp opt root)) ->
  exists up n, open_path is_cpp opt root [] pos up n /\ found_at is_cpp opt m up n.
Proof.
  intros H. destruct (visit_found is_cpp opt root) as (new & Hp & Ht).
  apply (Permutation_in _ Hp) in H.
  destruct (tr_sound _ _ _ _ _ _ Ht pos m H) as (q & up & n & -> & Ho & Hf). eauto.
Qed.

Lemma open_is_path is_cpp opt n up q up' n' :
  open_path is_cpp opt n up q up' n' -> path n up q up' n'.
Proof. induction 1; [constructor | econstructor; eauto]. Qed.

Lemma path_unique n up q u1 n1 : path n up q u1 n1 ->
  forall u2 n2, path n up q u2 n2 -> u1 = u2 /\ n1 = n2.
Proof.
  induction 1 as [|k i ks up idx r c q u1 n1 Hk Hp IH]; intros u2 n2 H2.
  - inversion H2; subst. auto.
  - inversion H2 as [|? ? ? ? ? r' c' ? ? ? Hk' Hp']; subst.
    rewrite Hk in Hk'. injection Hk' as <- <-. now apply IH.
Qed.

Lemma open_prefix is_cpp opt n up p u1 n1 : path n up p u1 n1 ->
  forall q u2 n2, q <> [] -> open_path is_cpp opt n up (p ++ q) u2 n2 ->
  ~ blocked is_cpp opt (node_kind n1) (node_info n1) u1.
Proof.
  induction 1 as [|k i ks up idx r c p u1 n1 Hk Hp IH]; intros q u2 n2 Hq Ho.
  - cbn in Ho. inversion Ho; subst; [contradiction|]. assumption.
  - cbn in Ho. inversion Ho as [|? ? ? ? ? r' c' ? ? ? Hb Hk' Ho']; subst.
    rewrite Hk in Hk'. injection Hk' as <- <-. eapply IH; eauto.
Qed.

Lemma constant_code_not_mutated is_cpp opt root pos m :
  In (pos, m) (post (visited_tree is_cpp opt root)) ->
  forall p q up n, pos = p ++ q -> walk root p up n ->
  constant_context is_cpp (node_kind n) up ->
  q = [] /\ is_removal m.
Proof.
  intros Hin p q up n -> Hw Hc.
  destruct (site_path _ _ _ _ _ Hin) as (up' & n' & Ho & Hf).
  destruct q as [|j q].
  - split; [reflexivity|]. rewrite app_nil_r in Ho. apply open_is_path in Ho.
    destruct (path_unique _ _ _ _ _ Hw _ _ Ho) as [<- <-].
    destruct m; try exact I; exfalso; destruct Hf as [Hb _]; apply Hb; left; exact Hc.
  - exfalso. eapply (open_prefix is_cpp opt); eauto; [|left; exact Hc]. discriminate.
Qed.

Lemma in_function_inside up : in_function up = true -> inside_function up.
Proof.
  induction up as [|f up IH]; [discriminate|]. intros H.
  assert (Hstep : (match fr_kind f with
                     | KDecl (DVar _) | KDecl DParm => True
                     | KDecl _ => False
                     | _ => True
                     end) -> in_function up = true -> inside_function (f :: up)).
  { intros Hf Hup. destruct (IH Hup) as (inner & g & outer & c & mk & -> & Hg & Hall).
    exists (f :: inner), g, outer, c, mk. auto. }
  cbn in H. destruct (fr_kind f) as [| |[]|] eqn:E; try discriminate;
    try (apply Hstep; [exact I | exact H]).
  exists [], f, up, constexpr, marker. auto.
Qed.

Lemma expression_site is_cpp opt root pos m :
  In (pos, m) (post (visited_tree is_cpp opt root)) -> ~ is_removal m ->
  forall up n, walk root pos up n ->
  ~ blocked is_cpp opt (node_kind n) (node_info n) up /\
  exists vars, In m (visit_expr opt vars up n).
Proof.
  intros Hin Hm up n Hw. destruct (site_path _ _ _ _ _ Hin) as (up' & n' & Ho & Hf).
  apply open_is_path in Ho. destruct (path_unique _ _ _ _ _ Hw _ _ Ho) as [<- <-].
  destruct m; try exact Hf. exfalso. apply Hm. exact I.
Qed.

(* What visit_expr checks first *)
Lemma visit_expr_checks opt vars up n m : In m (visit_expr opt vars up n) ->
  exists e x i ks, n = Ast (KExpr e x) i ks /\ in_function up = true /\ n_in_main i = true /\
    x_supported x = true /\ may_depend_on_temporary n = false.
Proof.
  destruct n as [[|e x| |] i ks]; cbn [visit_expr]; try (intros []).
  destruct (opt && _); [intros []|].
  destruct (in_function up); [|intros []]. cbn [negb].
  destruct (existsb _ _); [intros []|].
  destruct (n_in_main i) eqn:Hi; [|intros []]. cbn [negb].
  destruct (x_consistent x); [|intros []]. cbn [negb].
  destruct (x_supported x) eqn:Hs; [|intros []]. cbn [negb].
  destruct (may_affect_adl _ _ _); [intros []|].
  destruct (may_depend_on_temporary _) eqn:Ht; [intros []|].
  intros _. exists e, x, i, ks. auto.
Qed.

Lemma expressions_in_functions is_cpp opt root pos m :
  In (pos, m) (post (visited_tree is_cpp opt root)) -> ~ is_removal m ->
  forall up n, walk root pos up n ->
  inside_function up /\ n_in_main (node_info n) = true /\
  exists e x, node_kind n = KExpr e x /\ x_supported x = true.
Proof.
  intros Hin Hm up n Hw. destruct (expression_site _ _ _ _ _ Hin Hm up n Hw) as (_ & vars & H).
  apply visit_expr_checks in H as (e & x & i & ks & -> & Hf & Hi & Hs & _).
  split; [now apply in_function_inside|]. cbn. eauto.
Qed.

Lemma removal_sites is_cpp opt root pos s l :
  In (pos, MutStmt s l) (post (visited_tree is_cpp opt root)) <->
  exists up n, open_path is_cpp opt root [] pos up n /\ in_block up /\
    removable opt (node_kind n) (node_info n) /\ ~ discarded opt (node_kind n) up /\
    s = n_site (node_info n) /\ l = n_loc (node_info n).
Proof.
  split.
  - intros Hin. destruct (site_path _ _ _ _ _ Hin) as (up & n & Ho & Hf).
    destruct Hf as (H1 & H2 & H3 & H4 & H5). eauto 8.
  - intros (up & n & Ho & H1 & H2 & H3 & -> & ->).
    destruct (visit_found is_cpp opt root) as (new & Hp & Ht).
    apply (Permutation_in _ (Permutation_sym Hp)).
    apply (tr_complete _ _ _ _ _ _ Ht pos up n Ho). split; auto.
Qed.

Lemma sites_distinct is_cpp opt root :
  NoDup (map key (post (visited_tree is_cpp opt root))).
Proof.
  destruct (visit_found is_cpp opt root) as (new & Hp & Ht).
  eapply Permutation_NoDup; [|apply (tr_nodup _ _ _ _ _ _ Ht)].
  apply Permutation_map. now symmetry.
Qed.

Lemma removed_once is_cpp opt root l1 l2 l3 pos m1 m2 :
  post (visited_tree is_cpp opt root) = l1 ++ (pos, m1) :: l2 ++ (pos, m2) :: l3 ->
  is_removal m1 -> is_removal m2 -> False.
Proof.
  intros E H1 H2. pose proof (sites_distinct is_cpp opt root) as H. rewrite E in H.
  rewrite map_app, map_cons, map_app, map_cons in H. apply NoDup_remove_2 in H. apply H.
  apply in_or_app. right. apply in_or_app. right. left.
  destruct m1; try destruct H1. destruct m2; try destruct H2. reflexivity.
Qed.

(* ---- Temporaries ------------------------------------------------------------------------ *)
Lemma may_depend_refers n : may_depend_on_temporary n = true <-> refers_to_temporary n.
Proof.
  induction n as [k i ks IH] using node_induction. split.
  - destruct k as [|e x| |]; try discriminate. cbn [may_depend_on_temporary].
    destruct e; try discriminate; intros H; [.. | apply refers_temporary];
      apply andb_true_iff in H as [Hl H]; apply orb_true_iff in Hl;
      apply existsb_exists in H as ([r c] & Hin & H); cbn in H; destruct r; try discriminate;
      apply (IH _ _ Hin) in H; try (eapply refers_member; eauto; fail);
      (match type of Hin with In (?r, _) _ => eapply (refers_call _ _ _ _ c r) end;
       [ first [left; eexists; reflexivity | right; left; reflexivity
               | right; right; reflexivity]
       | exact Hl
       | first [left; reflexivity | right; reflexivity]
       | exact Hin
       | exact H ]).
  - intros H. inversion H; subst; cbn [may_depend_on_temporary].
    + reflexivity.
    + apply andb_true_iff. split; [now apply orb_true_iff|]. apply existsb_exists.
      exists (RBase, b). split; [assumption|]. cbn. now apply (IH RBase b).
    + match goal with h : (exists adl, _) \/ _ |- _ => destruct h as [[adl ->] | [-> | ->]] end;
        (apply andb_true_iff; split; [now apply orb_true_iff|]; apply existsb_exists;
         exists (r, a); split; [assumption|]; cbn;
         match goal with h : r = RArg \/ _ |- _ => destruct h as [-> | ->] end;
         eapply IH; eauto).
Qed.

Lemma temporaries_not_mutated is_cpp opt root pos m :
  In (pos, m) (post (visited_tree is_cpp opt root)) -> ~ is_removal m ->
  forall up n, walk root pos up n -> ~ refers_to_temporary n.
Proof.
  intros Hin Hm up n Hw Hr. destruct (expression_site _ _ _ _ _ Hin Hm up n Hw) as (_ & vars & H).
  apply visit_expr_checks in H as (e & x & i & ks & -> & _ & _ & _ & Ht).
  apply may_depend_refers in Hr. congruence.
Qed.

(* Removal leaves declarations and labels alone. *)
Lemma removed_statement is_cpp opt root pos s l :
  In (pos, MutStmt s l) (post (visited_tree is_cpp opt root)) ->
  forall up n, walk root pos up n -> removable opt (node_kind n) (node_info n) /\ in_block up.
Proof.
  intros Hin up n Hw. apply removal_sites in Hin as (up' & n' & Ho & Hb & Hr & _).
  apply open_is_path in Ho. destruct (path_unique _ _ _ _ _ Hw _ _ Ho) as [<- <-]. auto.
Qed.

(* ---- What is recorded for rewriting ------------------------------------------------------ *)
Section Recorded.
Variable is_cpp opt : bool.
Variable g : vstate -> list (list nat).
Variable want : decl_kind -> info -> bool.
Hypothesis g_push : forall f st, g (push_tree f st) =
  g (f {| vs_mutations := []; vs_children := []; vs_vars := vs_vars st;
          vs_asserts := vs_asserts st; vs_arrays := vs_arrays st;
          vs_args := vs_args st; vs_prelude := vs_prelude st |}).
Hypothesis g_reset : forall st,
  g {| vs_mutations := []; vs_children := []; vs_vars := vs_vars st;
       vs_asserts := vs_asserts st; vs_arrays := vs_arrays st;
       vs_args := vs_args st; vs_prelude := vs_prelude st |} = g st.
Hypothesis g_add : forall pos ms st, g (add_mutations pos ms st) = g st.
Hypothesis g_var : forall l st, g (add_var l st) = g st.
Hypothesis g_arg : forall p st, g (add_arg p st) = g st.
Hypothesis g_record : forall d i pos st,
  g (record_decl is_cpp d i pos st) = g st ++ (if want d i then [pos] else []).

Definition wanted (n : node) : Prop :=
  exists d, node_kind n = KDecl d /\ want d (node_info n) = true.

Definition records (n : node) (up : list frame) (pos : list nat) (below : bool)
  (p : list nat) : Prop :=
  exists q up' n', p = pos ++ q /\ open_path is_cpp opt n up q up' n' /\
    not_in_label up' /\ wanted n' /\ (below = true -> q <> []).

Lemma records_children f (Q : nat -> list nat -> Prop) ks : forall base st,
  (forall j r c, nth_error ks j = Some (r, c) -> forall st p,
     In p (g (f r c (base + j) st)) <-> In p (g st) \/ Q (base + j) p) ->
  forall p, In p (g (visit_children f ks base st)) <->
    In p (g st) \/ exists j, j < length ks /\ Q (base + j) p.
Proof.
  induction ks as [|[r c] ks IH]; intros base st H p.
  - cbn. split; [auto|]. intros [Hp | (j & Hj & _)]; [exact Hp | lia].
  - cbn [visit_children]. fold (visit_children f).
    rewrite (IH (S base) (f r c base st)).
    2: { intros j r' c' Hj st' p'. pose proof (H (S j) r' c' Hj st' p') as Hs.
         rewrite Nat.add_succ_r in Hs. exact Hs. }
    pose proof (H 0 r c eq_refl st p) as H0. rewrite Nat.add_0_r in H0. rewrite H0.
    cbn [length]. split.
    + intros [[Hp | Hp] | (j & Hj & Hq)].
      * now left.
      * right. exists 0. rewrite Nat.add_0_r. split; [lia | exact Hp].
      * right. exists (S j). rewrite Nat.add_succ_r. split; [lia | exact Hq].
    + intros [Hp | (j & Hj & Hq)]; [now left; left|]. destruct j as [|j].
      * rewrite Nat.add_0_r in Hq. left. now right.
      * rewrite Nat.add_succ_r in Hq. right. exists j. split; [lia | exact Hq].
Qed.

Lemma traverse_records : forall n m up pos st,
  mode_ok m up -> not_in_label up ->
  forall p, In p (g (traverse is_cpp opt n m up pos st)) <->
    In p (g st) \/ records n up pos false p.
Proof.
  induction n as [k i ks IH] using node_induction. intros m up pos st Hm Hl.
  set (descend := visit_children (fun r c idx st =>
                        match child_mode m k r with
                        | Some m' =>
                            traverse is_cpp opt c m'
                              ({| fr_kind := k; fr_role := r |} :: up) (pos ++ [idx]) st
                        | None => st
                        end) ks 0).
  assert (Hdesc : ~ blocked is_cpp opt k i up -> forall st p,
            In p (g (descend st)) <-> In p (g st) \/ records (Ast k i ks) up pos true p).
  { intros Hb st' p. unfold descend.
    rewrite (records_children _ (fun j p => forall r c, nth_error ks j = Some (r, c) ->
       records c ({| fr_kind := k; fr_role := r |} :: up) (pos ++ [j]) false p)).
    - split; (intros [H | H]; [now left | right]).
      + destruct H as (j & Hj & H). destruct (nth_error ks j) as [[r c]|] eqn:Hk.
        2: { apply nth_error_None in Hk. lia. }
        destruct (H r c Hk) as (q & up' & n' & -> & Ho & Hn & Hw & _).
        exists (j :: q), up', n'. rewrite <- app_assoc. split; [reflexivity|].
        split; [eapply open_child; eauto|]. split; [exact Hn|]. split; [exact Hw | discriminate].
      + destruct H as (q & up' & n' & -> & Ho & Hn & Hw & Hq).
        inversion Ho; subst; [now specialize (Hq eq_refl)|].
        exists idx. split; [apply nth_error_Some; congruence|].
        cbn [Nat.add]. intros r' c' Hk'.
        match goal with h : nth_error ks _ = Some (r, c) |- _ => rewrite h in Hk' end.
        injection Hk' as <- <-. exists q0, up', n'. rewrite <- app_assoc.
        split; [reflexivity|]. split; [assumption|]. split; [exact Hn|].
        split; [exact Hw | discriminate].
    - intros j r c Hj st2 p2. cbn [Nat.add].
      destruct (child_mode m k r) as [m'|] eqn:Hc.
      + destruct (child_mode_ok m k r up m' Hm Hc) as [Hm' Hl'].
        rewrite (IH r c (nth_error_In _ _ Hj) m' _ (pos ++ [j]) st2 Hm' Hl' p2).
        split; (intros [H | H]; [now left | right]).
        * intros r2 c2 E. rewrite Hj in E. injection E as <- <-. exact H.
        * exact (H r c Hj).
      + split; [now left|]. intros [H | H]; [exact H|]. exfalso.
        destruct (H r c Hj) as (q & up' & n' & _ & Ho & Hn & _).
        inversion Ho; subst.
        * destruct k as [[]| | |]; try discriminate; cbn in Hc, Hn; subst r; discriminate.
        * match goal with h : ~ blocked _ _ _ _ _ |- _ => apply h end.
          left. eapply child_mode_none; eauto. }
  assert (Hnone : blocked is_cpp opt k i up -> is_statement k \/ (exists l, k = KLoc l) ->
            forall p, ~ records (Ast k i ks) up pos false p).
  { intros Hb Hk p (q & up' & n' & _ & Ho & _ & (d & Hd & _) & _).
    inversion Ho; subst; [|contradiction]. cbn in Hd. subst k.
    destruct Hk as [[] | (l & E)]; discriminate. }
  assert (Hbelow : is_statement k \/ (exists l, k = KLoc l) -> forall p,
            records (Ast k i ks) up pos true p <-> records (Ast k i ks) up pos false p).
  { intros Hk p. split; intros (q & up' & n' & E & Ho & Hn & Hw & Hq);
      exists q, up', n'; repeat (split; [assumption|]); [discriminate|].
    intros _ ->. inversion Ho; subst. destruct Hw as (d & Hd & _). cbn in Hd. subst k.
    destruct Hk as [[] | (l & Hk)]; discriminate. }
  destruct (match k with KStmt _ | KExpr _ _ => true | _ => false end) eqn:Hkind.
  { assert (Hs : is_statement k) by (destruct k; try discriminate; exact I).
    assert (Hstmt : ~ discarded opt k up -> forall st p,
      In p (g (if stmt_skipped k up then st
               else match k with
                    | KExpr EFrameAddress _ => add_arg (pos ++ [first_arg ks 0]) st
                    | _ =>
                        push_tree (fun st =>
                          let st := descend st in
                          add_mutations pos (visit_expr opt (vs_vars st) up (Ast k i ks)) st) st
                    end)) <-> In p (g st) \/ records (Ast k i ks) up pos false p).
    { intros Hd st' p. destruct (stmt_skipped k up) eqn:Hsk.
      { split; [now left|]. intros [H | H]; [exact H|]. exfalso.
        eapply Hnone; eauto. left. apply statement_skipped; auto. now rewrite Hsk. }
      destruct (is_frame_address k) eqn:Hfa.
      { destruct k as [|[]| |]; try discriminate. rewrite g_arg.
        split; [now left|]. intros [H | H]; [exact H|]. exfalso.
        eapply Hnone; eauto. left. constructor. }
      assert (Hb : ~ blocked is_cpp opt k i up).
      { intros [H | [H | H]].
        - apply statement_skipped in H; auto. rewrite Hsk, Hfa in H. discriminate.
        - contradiction.
        - destruct H as (_ & d & -> & _). destruct Hs. }
      match goal with |- In p (g ?t) <-> _ =>
        replace t with (push_tree (fun st =>
                          let st := descend st in
                          add_mutations pos (visit_expr opt (vs_vars st) up (Ast k i ks)) st) st')
          by (destruct k as [|[]| |]; try reflexivity; discriminate) end.
      rewrite g_push. cbv zeta. rewrite g_add, (Hdesc Hb), g_reset.
      now rewrite Hbelow by auto. }
    assert (Heq : traverse is_cpp opt (Ast k i ks) m up pos st =
              let statement := fun st =>
               (if stmt_skipped k up then st
               else match k with
                    | KExpr EFrameAddress _ => add_arg (pos ++ [first_arg ks 0]) st
                    | _ =>
                        push_tree (fun st =>
                          let st := descend st in
                          add_mutations pos (visit_expr opt (vs_vars st) up (Ast k i ks)) st) st
                    end) in
              match m with
              | Plain => statement st
              | Component =>
                  if is_switch_case k then descend st
                  else if useless_component opt k then st
                  else push_tree (fun st =>
                         add_mutations pos (removals opt k i) (statement st)) st
              end) by (destruct k; try destruct Hs; reflexivity).
    rewrite Heq. clear Heq. cbv zeta. intros p. destruct m.
    - assert (Hnb : ~ in_block up) by (intros H; apply Hm in H; discriminate).
      apply Hstmt. intros (_ & H & _). contradiction.
    - assert (Hblk : in_block up) by (now apply Hm).
      destruct (is_switch_case k) eqn:Hsw.
      { rewrite Hdesc.
        - now rewrite Hbelow by auto.
        - intros [H | [H | H]].
          + apply statement_skipped in H; auto. apply orb_true_iff in H as [H | H].
            * unfold stmt_skipped in H. destruct k as [[]|[]| |]; try discriminate;
                inversion Hblk; subst; discriminate.
            * destruct k as [[]|[]| |]; discriminate.
          + destruct H as (_ & _ & e' & x' & -> & _). discriminate.
          + destruct H as (_ & d' & -> & _). discriminate. }
      destruct (useless_component opt k) eqn:Hu.
      { split; [now left|]. intros [H | H]; [exact H|]. exfalso. eapply Hnone; eauto.
        right. left. now apply useless_discarded. }
      rewrite g_push, g_add, Hstmt, g_reset; [reflexivity|].
      intros H. apply useless_discarded in H; auto. congruence. }
  destruct k as [s | e x | d | l]; try discriminate.
  - assert (Hself : forall p, records (Ast (KDecl d) i ks) up pos false p <->
              (want d i = true /\ p = pos) \/ records (Ast (KDecl d) i ks) up pos true p).
    { intros p. split.
      - intros (q & up' & n' & -> & Ho & Hn & Hw & Hq). destruct q as [|j q].
        + left. inversion Ho; subst. destruct Hw as (d' & E & Hw). injection E as <-.
          rewrite app_nil_r. auto.
        + right. exists (j :: q), up', n'. split; [reflexivity|].
          split; [exact Ho|]. split; [exact Hn|]. split; [exact Hw | discriminate].
      - intros [[Hw ->] | (q & up' & n' & -> & Ho & Hn & Hw & Hq)].
        + exists [], up, (Ast (KDecl d) i ks). rewrite app_nil_r. split; [reflexivity|].
          split; [constructor|]. split; [exact Hl|]. split; [|discriminate].
          exists d. auto.
        + exists q, up', n'. split; [reflexivity|]. repeat (split; [assumption|]). discriminate. }
    assert (Hrec : forall st p, In p (g (record_decl is_cpp d i pos st)) <->
              In p (g st) \/ (want d i = true /\ p = pos)).
    { intros st' p. rewrite g_record, in_app_iff. destruct (want d i); cbn.
      - split; (intros [H | H]; [now left | right]).
        + destruct H as [H | []]. auto.
        + destruct H as [_ ->]. now left.
      - split; (intros [H | H]; [now left | exfalso]); [exact H | destruct H; discriminate]. }
    intros p. cbn [traverse]. destruct (decl_entered is_cpp d i) eqn:Hd.
    + assert (Hb : ~ blocked is_cpp opt (KDecl d) i up).
      { intros H. apply decl_entered_open in H; auto. congruence. }
      fold descend. rewrite Hself.
      replace (In p (g match d with
                       | DVar v => add_var (v_location v) (descend (record_decl is_cpp d i pos st))
                       | _ => descend (record_decl is_cpp d i pos st)
                       end)) with (In p (g (descend (record_decl is_cpp d i pos st))))
        by (destruct d; rewrite ?g_var; reflexivity).
      rewrite (Hdesc Hb), Hrec. apply or_assoc.
    + rewrite Hrec, Hself. split; [intros [H | H]; auto|].
      intros [H | [H | H]]; [now left | now right | exfalso].
      destruct H as (q & up' & n' & _ & Ho & _ & _ & Hq).
      inversion Ho; subst; [now apply Hq|].
      match goal with h : ~ blocked _ _ _ _ _ |- _ => apply h end.
      now apply decl_entered_open.
  - intros p. cbn [traverse]. destruct (loc_entered is_cpp l) eqn:Hd.
    + fold descend. rewrite Hdesc; [now rewrite Hbelow by eauto|].
      intros H. apply loc_entered_open in H; auto. congruence.
    + split; [now left|]. intros [H | H]; [exact H|]. exfalso. eapply Hnone; eauto.
      now apply loc_entered_open.
Qed.
End Recorded.

Lemma asserts_record is_cpp d i p st :
  vs_asserts (record_decl is_cpp d i p st) =
  vs_asserts st ++
  (if match d with DStaticAssert => n_in_main i | _ => false end then [p] else []).
Proof.
  unfold record_decl, set_prelude.
  destruct d; cbn; destruct (n_in_main i); cbn; rewrite ?app_nil_r; try reflexivity;
    repeat match goal with
           | |- context [vs_prelude ?s] => destruct (vs_prelude s)
           | |- context [if ?b then _ else _] => destruct b
           end; reflexivity.
Qed.

Lemma arrays_record d i p st :
  vs_arrays (record_decl true d i p st) =
  vs_arrays st ++
  (if match d with
      | DField b => n_in_main i && b
      | DVar v => n_in_main i && (v_constant_array v && negb (v_specialization v))
      | _ => false
      end then [p] else []).
Proof.
  unfold record_decl, set_prelude.
  destruct d; cbn; destruct (n_in_main i); cbn; rewrite ?app_nil_r; try reflexivity;
    repeat match goal with
           | |- context [vs_prelude ?s] => destruct (vs_prelude s)
           | |- context [if ?b then _ else _] => destruct b
           end; cbn; rewrite ?app_nil_r; reflexivity.
Qed.

Lemma start_ok : mode_ok Plain [].
Proof. split; [discriminate | intros H; inversion H]. Qed.

Lemma assertions_recorded is_cpp opt root pos :
  In pos (vs_asserts (visit is_cpp opt root)) <->
  exists up n, open_path is_cpp opt root [] pos up n /\ not_in_label up /\
               static_assertion n.
Proof.
  pose proof (traverse_records is_cpp opt vs_asserts
    (fun d i => match d with DStaticAssert => n_in_main i | _ => false end)
    (fun _ _ => eq_refl) (fun _ => eq_refl) (fun _ _ _ => eq_refl) (fun _ _ => eq_refl)
    (fun _ _ => eq_refl) (asserts_record is_cpp) root Plain [] [] vstate0 start_ok I pos) as H.
  unfold visit. etransitivity; [exact H|]. clear H. split.
  - intros [[] | (q & up & n & -> & Ho & Hn & (d & Hd & Hw) & _)]. exists up, n.
    split; [exact Ho|]. split; [exact Hn|]. split; destruct d; try discriminate; assumption.
  - intros (up & n & Ho & Hn & Hk & Hi). right. exists pos, up, n.
    split; [reflexivity|]. split; [exact Ho|]. split; [exact Hn|].
    split; [|discriminate]. exists DStaticAssert. auto.
Qed.

Lemma arrays_recorded opt root pos :
  In pos (vs_arrays (visit true opt root)) <->
  exists up n, open_path true opt root [] pos up n /\ not_in_label up /\
               constant_sized_array n.
Proof.
  pose proof (traverse_records true opt vs_arrays
    (fun d i => match d with
                | DField b => n_in_main i && b
                | DVar v => n_in_main i && (v_constant_array v && negb (v_specialization v))
                | _ => false
                end)
    (fun _ _ => eq_refl) (fun _ => eq_refl) (fun _ _ _ => eq_refl) (fun _ _ => eq_refl)
    (fun _ _ => eq_refl) arrays_record root Plain [] [] vstate0 start_ok I pos) as H.
  unfold visit. etransitivity; [exact H|]. clear H. split.
  - intros [[] | (q & up & n & -> & Ho & Hn & (d & Hd & Hw) & _)]. exists up, n.
    split; [exact Ho|]. split; [exact Hn|].
    destruct d; try discriminate; apply andb_true_iff in Hw as [Hi Hw]; split; auto.
    + right. exists v. apply andb_true_iff in Hw as [Hc Hs]. split; [exact Hd|].
      split; [exact Hc | now destruct (v_specialization v)].
    + left. subst. exact Hd.
  - intros (up & n & Ho & Hn & Hi & Hk). right. exists pos, up, n.
    split; [reflexivity|]. split; [exact Ho|]. split; [exact Hn|].
    split; [|discriminate]. destruct Hk as [Hk | (v & Hk & Hc & Hs)].
    + exists (DField true). rewrite Hi. auto.
    + exists (DVar v). rewrite Hi, Hc, Hs. auto.
Qed.
