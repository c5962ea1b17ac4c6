(* The denotation of a mutated tree is related to the program that is to be executed. *)
From Coq Require Import String List ZArith Bool Lia.
From Verif Require Import Base Clang Gen GenExpr GenBinary GenUnary GenStmt Mutation GenSpec
  GenProof Lang Cst SimSpec SimRel SimProof.
Import ListNotations.

(** * Types of generated functions *)

Lemma declared_spelling c T s p : In (s, p) (spellings c T) ->
  declared c s = Some (Direct p T) /\
  declared c (wrap_function true s) = Some (Delayed p T).
Proof.
  destruct c as [cp pb cs ws].
  intros [Q|[Q|[Q|[Q|[Q|[]]]]]]; injection Q as <- <-;
    destruct pb, T; split; vm_compute; reflexivity.
Qed.
Lemma declared_value c T : declared c (ty_name c T) = Some (Direct ByValue T).
Proof. apply (declared_spelling c T). left. reflexivity. Qed.
Lemma declared_delayed_value c T :
  declared c (wrap_function true (ty_name c T)) = Some (Delayed ByValue T).
Proof. apply (declared_spelling c T). left. reflexivity. Qed.

(** * Trees *)

Lemma cst_induction (L : lang) (P : cst L -> Prop) :
  (forall s v, P (CVal s v)) ->
  (forall k ps last, Forall (fun p => P (snd p)) ps -> P (CNode k ps last)) ->
  (forall e sub, P sub -> P (CExpr e sub)) ->
  (forall b l w1 w2 r, P l -> P r -> P (CBin b l w1 w2 r)) ->
  (forall u w sub, P sub -> P (CUn u w sub)) ->
  (forall s sub, P sub -> P (CStmt s sub)) ->
  forall t, P t.
Proof.
  intros V K X B U S. fix IH 1. intros [s v|k ps last|e sub|b l w1 w2 r|u w sub|s sub].
  - apply V.
  - apply K. induction ps as [|[s p] ps IHp]; constructor; [apply IH|exact IHp].
  - apply X, IH.
  - apply B; apply IH.
  - apply U, IH.
  - apply S, IH.
Qed.

Section Mutate.
Variable L : lang.
Variable c : ctx.
Variable o : options.
Variable rest : bool.
Variable E : nat -> bool.

Notation tm := (tm L).
Notation opt := (optimise o).
Notation den := (den L c).
Notation mutate := (mutate L c o).
Notation spec := (spec L c opt rest E).

Fixpoint mutate_all (ps : list (string * cst L)) (id : nat) : list (string * cst L) * nat :=
  match ps with
  | [] => ([], id)
  | (s, p) :: ps =>
      let (p, id) := mutate p id in
      let (ps, id) := mutate_all ps id in
      ((s, p) :: ps, id)
  end.
Lemma mutate_node k ps last id :
  mutate (CNode k ps last) id =
  (CNode k (fst (mutate_all ps id)) last, snd (mutate_all ps id)).
Proof.
  cbn [Cst.mutate].
  match goal with |- (let (_, _) := ?f ps id in _) = _ =>
    assert (Q : forall ps id, f ps id = mutate_all ps id) end.
  { reflexivity. }
  rewrite Q. destruct (mutate_all ps id). reflexivity.
Qed.
Fixpoint spec_all (ps : list (string * cst L)) (id : nat) : list tm * nat :=
  match ps with
  | [] => ([], id)
  | (_, p) :: ps =>
      let (a, id) := spec p id in
      let (args, id) := spec_all ps id in
      (a :: args, id)
  end.
Lemma spec_node k ps last id :
  spec (CNode k ps last) id = (N k (fst (spec_all ps id)), snd (spec_all ps id)).
Proof.
  cbn [SimSpec.spec].
  match goal with |- (let (_, _) := ?f ps id in _) = _ =>
    assert (Q : forall ps id, f ps id = spec_all ps id) end.
  { reflexivity. }
  rewrite Q. destruct (spec_all ps id). reflexivity.
Qed.

(* Both give the same ids, in increasing order. *)
Lemma same_ids t : forall id, snd (mutate t id) = snd (spec t id) /\ id <= snd (spec t id).
Proof.
  induction t as [s v|k ps last IH|e sub IH|b l w1 w2 r IHl IHr|u w sub IH|s sub IH]
    using cst_induction; intro id.
  - auto.
  - rewrite mutate_node, spec_node. cbn [snd]. revert id.
    induction IH as [|[s p] ps Hp F IHF]; intro id; cbn; auto.
    specialize (Hp id). cbn in Hp.
    destruct (mutate p id) as [p' i1], (spec p id) as [x i2]. cbn in Hp.
    destruct Hp as [-> Hp]. specialize (IHF i2).
    destruct (mutate_all ps i2), (spec_all ps i2). cbn in *. lia.
  - cbn [Cst.mutate SimSpec.spec]. specialize (IH id). destruct (mutate sub id), (spec sub id). cbn in *. lia.
  - cbn [Cst.mutate SimSpec.spec]. specialize (IHl id). destruct (mutate l id) as [l' i1], (spec l id) as [x i2]. cbn in IHl.
    destruct IHl as [-> IHl]. specialize (IHr i2).
    destruct (mutate r i2), (spec r i2). cbn in *. lia.
  - cbn [Cst.mutate SimSpec.spec]. specialize (IH id). destruct (mutate sub id), (spec sub id). cbn in *. lia.
  - cbn [Cst.mutate SimSpec.spec]. specialize (IH id). destruct (mutate sub id), (spec sub id). cbn in *. lia.
Qed.

(** * No calls are being executed *)

Lemma inactive_rvalue x : active (snd x) = false -> active (rvalue (L:=L) x) = false.
Proof. destruct x as [[|] t]; cbn; intros ->; auto. Qed.
Lemma inactive_lvalue x : active (snd x) = false -> active (lvalue (L:=L) x) = false.
Proof. destruct x as [[|] t]; cbn; auto. Qed.
Lemma inactive_expression r x1 x2 :
  active (snd x1) = false -> active (snd x2) = false ->
  active (snd (expression L c r x1 x2)) = false.
Proof.
  intros A1 A2. pose proof (inactive_rvalue x1 A1). pose proof (inactive_lvalue x1 A1).
  pose proof (inactive_rvalue x2 A2).
  assert (U : forall o, active (snd (unary_expression L c o x1)) = false).
  { intro o'. unfold unary_expression. destruct (is_incdec o'); cbn; rewrite orb_false_r; auto. }
  destruct r as [| |o'|o'|o'|o'|l]; cbn [expression]; auto.
  - destruct (is_incdec o'); cbn; rewrite ?orb_false_r; auto.
  - destruct (is_logical o'); [|destruct (is_assign o'); [|destruct (bop_eqb o' Comma)]];
      cbn; rewrite ?orb_false_r; auto; apply orb_false_iff; auto.
Qed.
Lemma inactive_site_expression r d1 d2 x1 x2 :
  active (snd x1) = false -> active (snd x2) = false ->
  active (snd (site_expression L c rest r d1 d2 x1 x2)) = false.
Proof.
  intros A1 A2. pose proof (inactive_expression r x1 x2 A1 A2) as Ex. unfold site_expression.
  destruct rest; auto. destruct r, d1, d2; auto; cbn in *; rewrite ?A1, ?A2; reflexivity.
Qed.
Lemma inactive_expr_site e z x : (forall a, active (snd a) = false -> active (snd (z a)) = false) ->
  active x = false -> active (expr_site L e z x) = false.
Proof.
  intros Z A. unfold expr_site.
  match goal with |- context [rvalue ?z] => assert (active (rvalue z) = false) as Q end.
  { apply inactive_rvalue, Z.
    destruct (e_lvalue e); cbn; rewrite A; reflexivity. }
  destruct (e_init_list_cast e); cbn [active existsb] in *; rewrite Q; reflexivity.
Qed.
Lemma inactive_unary_site u z x : (forall a, active (snd a) = false -> active (snd (z a)) = false) ->
  active x = false -> active (unary_site L c u z x) = false.
Proof.
  intros Z A. unfold unary_site.
  match goal with |- context [rvalue ?z] => assert (active (snd z) = false) as Q end.
  { apply Z. destruct (e_lvalue (u_sub u)); cbn; rewrite A; reflexivity. }
  pose proof (inactive_rvalue _ Q). pose proof (inactive_lvalue _ Q).
  destruct (cpp c && u_lvalue u); auto. cbn [active existsb] in *. rewrite orb_false_r. auto.
Qed.
Lemma inactive_binary_site b z x y :
  (forall a a', active (snd a) = false -> active (snd a') = false -> active (snd (z a a')) = false) ->
  active x = false -> active y = false -> active (binary_site L c b z x y) = false.
Proof.
  intros Z A1 A2. unfold binary_site.
  match goal with |- context [rvalue ?z] => assert (active (snd z) = false) as Q end.
  { apply Z; unfold binary_operands; cbn.
    - destruct (is_assign (b_op b)); cbn; rewrite A1; reflexivity.
    - rewrite A2. reflexivity. }
  pose proof (inactive_rvalue _ Q). pose proof (inactive_lvalue _ Q).
  destruct (is_assign (b_op b) && cpp c); auto. cbn [active existsb] in *.
  rewrite orb_false_r. auto.
Qed.
Lemma inactive_binary_term b r x y : active x = false -> active y = false ->
  active (binary_term L c b r x y) = false.
Proof. apply inactive_binary_site. apply inactive_expression. Qed.
Lemma inactive_c_logical_term b r x y : active x = false -> active y = false ->
  active (c_logical_term L c b r x y) = false.
Proof.
  intros A1 A2. destruct r; cbn [c_logical_term]; try (apply inactive_binary_term; auto).
  - cbn. rewrite A1. reflexivity.
  - cbn. rewrite A2. reflexivity.
Qed.
Lemma inactive_c_logical_with_rest b id x y : active x = false -> active y = false ->
  active (c_logical_with_rest L c E b id x y) = false.
Proof.
  intros A1 A2. unfold c_logical_with_rest. destruct (E id); [apply inactive_binary_term; auto|].
  destruct (E (S (S id))), (E (S id)); cbn; rewrite A1, A2; reflexivity.
Qed.
Lemma inactive_choice f r : (forall r, active (f r) = false) ->
  active (with_choice L f r) = false.
Proof. intros H. destruct r; cbn; auto. Qed.

Lemma inactive_spec t : well_formed L c t = true -> forall id, active (fst (spec t id)) = false.
Proof.
  induction t as [s v|k ps last IH|e sub IH|b l w1 w2 r IHl IHr|u w sub IH|s sub IH]
    using cst_induction; intros Wf id; cbn [well_formed] in Wf.
  - reflexivity.
  - rewrite spec_node. cbn [fst]. apply andb_true_iff in Wf as [Sk Wf].
    assert (A : existsb active (fst (spec_all ps id)) = false).
    { revert id. induction IH as [|[s p] ps Hp F IHF]; intro id; cbn; auto.
      cbn in Wf. apply andb_true_iff in Wf as [W1 W2]. specialize (Hp W1 id). cbn in Hp.
      destruct (spec p id) as [x i]. specialize (IHF W2 i). destruct (spec_all ps i).
      cbn in *. rewrite Hp. auto. }
    destruct k; try discriminate; exact A.
  - cbn [SimSpec.spec]. apply andb_true_iff in Wf as [_ Wf]. specialize (IH Wf id).
    destruct (spec sub id) as [x i]. apply inactive_choice. intro.
    apply inactive_expr_site; auto. intros. apply inactive_site_expression; auto.
  - cbn [SimSpec.spec]. apply andb_true_iff in Wf as [Wf Wr]. apply andb_true_iff in Wf as [_ Wl].
    specialize (IHl Wl id). destruct (spec l id) as [x i]. specialize (IHr Wr i).
    destruct (spec r i) as [y j]. cbn [fst] in *.
    destruct (rest && c_logical c b); [apply inactive_c_logical_with_rest; auto|].
    apply inactive_choice. intro r0. destruct (c_logical c b).
    + apply inactive_c_logical_term; auto.
    + apply inactive_binary_site; auto. intros. apply inactive_site_expression; auto.
  - cbn [SimSpec.spec]. apply andb_true_iff in Wf as [_ Wf]. specialize (IH Wf id).
    destruct (spec sub id) as [x i]. apply inactive_choice. intro.
    apply inactive_unary_site; auto. intros. apply inactive_site_expression; auto.
  - cbn [SimSpec.spec]. specialize (IH Wf id). destruct (spec sub id). cbn in *. destruct (E n); auto.
Qed.

Lemma inactive_pass p a : active a = false -> active (pass L c p a) = false.
Proof.
  intro A. unfold pass. destruct (declared c p) as [[[| |] T|q T]|]; cbn; try rewrite A; auto.
  destruct a as [v|l|k args]; auto. destruct k; auto. destruct args as [|b [|]]; auto.
  destruct (String.eqb _ _); auto. cbn in A. destruct q; cbn; rewrite orb_false_r; auto.
Qed.
Lemma inactive_pass_all ps : forall args, existsb active args = false ->
  existsb active (pass_all L c ps args) = false.
Proof.
  induction ps as [|[p n] ps IH]; intros [|a args] A; cbn; auto.
  cbn in A. apply orb_false_iff in A as [A1 A2]. rewrite inactive_pass, IH; auto.
Qed.
(* A node of a mutated tree *)
Lemma inactive_node k ps last :
  (forall e, k <> KInCall e) -> Forall (fun p => active (den (snd p)) = false) ps ->
  active (den (CNode k ps last)) = false.
Proof.
  intros NC F.
  assert (A : existsb active (map (fun p => den (snd p)) ps) = false).
  { induction F as [|p ps Hp F IH]; cbn; auto. rewrite Hp, IH. reflexivity. }
  cbn [Cst.den]. destruct k; try exact A.
  - destruct (NC e eq_refl).
  - cbn [active]. apply inactive_pass_all. exact A.
Qed.

Lemma inactive_mutate t : well_formed L c t = true ->
  forall id, active (den (fst (mutate t id))) = false.
Proof.
  assert (Nd : forall k ps last, (forall e, k <> KInCall e) ->
    Forall (fun p => active (den (snd p)) = false) ps -> active (den (CNode k ps last)) = false)
    by exact inactive_node.
  assert (N1 : forall k s a last, (forall e, k <> KInCall e) -> active (den a) = false ->
    active (den (CNode k [(s, a)] last)) = false).
  { intros. apply Nd; auto. }
  induction t as [s v|k ps last IH|e sub IH|b l w1 w2 r IHl IHr|u w sub IH|s sub IH]
    using cst_induction; intros Wf id; cbn [well_formed] in Wf.
  - reflexivity.
  - rewrite mutate_node. cbn [fst]. apply andb_true_iff in Wf as [Sk Wf]. apply Nd.
    { intros e ->. discriminate. }
    revert id. induction IH as [|[s p] ps Hp F IHF]; intro id; cbn; auto.
    cbn in Wf. apply andb_true_iff in Wf as [W1 W2]. specialize (Hp W1 id). cbn in Hp.
    destruct (mutate p id) as [x i]. specialize (IHF W2 i). destruct (mutate_all ps i).
    constructor; auto.
  - cbn [Cst.mutate]. apply andb_true_iff in Wf as [_ Wf]. specialize (IH Wf id).
    destruct (mutate sub id) as [x i]. cbn [fst] in *. unfold mutated_expr, call1.
    destruct (e_init_list_cast e); [apply N1; [discriminate|]|];
      (destruct (cpp c && e_side_effects e); [|destruct (negb (cpp c) && e_lvalue e)]);
      repeat (apply N1; [discriminate|]); auto.
  - cbn [Cst.mutate]. apply andb_true_iff in Wf as [Wf Wr]. apply andb_true_iff in Wf as [_ Wl].
    specialize (IHl Wl id). destruct (mutate l id) as [x i]. specialize (IHr Wr i).
    destruct (mutate r i) as [y j]. cbn [fst] in *.
    destruct (c_logical c b).
    + unfold mutated_c_logical, call1. apply N1; [discriminate|]. cbn [Cst.den].
      apply inactive_binary_term; destruct (track o); auto; apply N1; auto; discriminate.
    + unfold mutated_binary, lambda. apply Nd; [discriminate|].
      repeat constructor; cbn [snd].
      * destruct (lhs_delayed c b); [|destruct (negb (cpp c) && is_assign (b_op b))]; auto;
          apply N1; auto; discriminate.
      * destruct (rhs_delayed c b); auto; apply N1; auto; discriminate.
  - cbn [Cst.mutate]. apply andb_true_iff in Wf as [_ Wf]. specialize (IH Wf id).
    destruct (mutate sub id) as [x i]. cbn [fst] in *. unfold mutated_unary, call1.
    destruct (unary_delayed c u); [|destruct (negb (cpp c) && is_incdec (u_op u))];
      repeat (apply N1; [discriminate|]); auto.
  - cbn [Cst.mutate]. specialize (IH Wf id). destruct (mutate sub id) as [x i]. cbn [fst] in *.
    unfold mutated_stmt. destruct (track o); apply N1; auto; discriminate.
Qed.

(** * Simple operands *)

Lemma calm_rvalue x : calm L (snd x) = true -> calm L (rvalue x) = true.
Proof. destruct x as [[|] t]; cbn; intros ->; auto. Qed.
Lemma calm_lvalue x : calm L (snd x) = true -> calm L (lvalue x) = true.
Proof. destruct x as [[|] t]; cbn; auto. Qed.
Lemma calm_expression r x1 x2 :
  calm L (snd x1) = true -> calm L (snd x2) = true ->
  calm L (snd (expression L c r x1 x2)) = true.
Proof.
  intros A1 A2. pose proof (calm_rvalue x1 A1). pose proof (calm_lvalue x1 A1).
  pose proof (calm_rvalue x2 A2).
  assert (U : forall o, calm L (snd (unary_expression L c o x1)) = true).
  { intro o'. unfold unary_expression. destruct (is_incdec o'); cbn; rewrite andb_true_r; auto. }
  destruct r as [| |o'|o'|o'|o'|l]; cbn [expression]; auto.
  - destruct (is_incdec o'); cbn; rewrite ?andb_true_r; auto.
  - destruct (is_logical o'); [|destruct (is_assign o'); [|destruct (bop_eqb o' Comma)]];
      cbn; rewrite ?andb_true_r; auto; apply andb_true_iff; auto.
Qed.
Lemma calm_binary_term b r x y : calm L x = true -> calm L y = true ->
  calm L (binary_term L c b r x y) = true.
Proof.
  intros A1 A2. unfold binary_term, binary_site.
  match goal with |- context [rvalue ?z] => assert (calm L (snd z) = true) as Q end.
  { apply calm_expression; unfold binary_operands; cbn.
    - destruct (is_assign (b_op b)); cbn; rewrite A1; reflexivity.
    - rewrite A2. reflexivity. }
  pose proof (calm_rvalue _ Q). pose proof (calm_lvalue _ Q).
  destruct (is_assign (b_op b) && cpp c); auto. cbn [calm forallb] in *.
  rewrite andb_true_r. auto.
Qed.
Lemma calm_pass p a : calm L a = true -> calm L (pass L c p a) = true.
Proof.
  intro A. unfold pass. destruct (declared c p) as [[[| |] T|q T]|]; cbn; try rewrite A; auto.
  destruct a as [v|l|k args]; auto. destruct k; auto. destruct args as [|b [|]]; auto.
  destruct (String.eqb _ _); auto. cbn in A. rewrite andb_true_r in A.
  destruct q; cbn; rewrite A; reflexivity.
Qed.
Lemma calm_pass_all ps : forall args, forallb (calm L) args = true ->
  forallb (calm L) (pass_all L c ps args) = true.
Proof.
  induction ps as [|[p n] ps IH]; intros [|a args] A; cbn; auto.
  cbn in A. apply andb_true_iff in A as [A1 A2]. rewrite calm_pass, IH; auto.
Qed.
Definition calm_kind (k : kind L) : bool := calm L (N k []).
Lemma calm_node k ps last :
  calm_kind k = true -> Forall (fun p => calm L (den (snd p)) = true) ps ->
  calm L (den (CNode k ps last)) = true.
Proof.
  intros NC F.
  assert (A : forallb (calm L) (map (fun p => den (snd p)) ps) = true).
  { induction F as [|p ps Hp F IH]; cbn; auto. rewrite Hp, IH. reflexivity. }
  cbn [Cst.den]. destruct k; try discriminate; try exact A.
  cbn [calm]. apply calm_pass_all. exact A.
Qed.

Lemma calm_mutate t : simple L t = true ->
  forall id, calm L (den (fst (mutate t id))) = true.
Proof.
  assert (Nd : forall k ps last, calm_kind k = true ->
    Forall (fun p => calm L (den (snd p)) = true) ps -> calm L (den (CNode k ps last)) = true)
    by exact calm_node.
  assert (N1 : forall k s a last, calm_kind k = true -> calm L (den a) = true ->
    calm L (den (CNode k [(s, a)] last)) = true).
  { intros. apply Nd; auto. }
  induction t as [s v|k ps last IH|e sub IH|b l w1 w2 r IHl IHr|u w sub IH|s sub IH]
    using cst_induction; intros Si id; cbn [simple] in Si.
  - reflexivity.
  - rewrite mutate_node. cbn [fst]. apply andb_true_iff in Si as [Sk Si]. apply Nd.
    { destruct k; auto. }
    revert id. induction IH as [|[s p] ps Hp F IHF]; intro id; cbn; auto.
    cbn in Si. apply andb_true_iff in Si as [W1 W2]. specialize (Hp W1 id). cbn in Hp.
    destruct (mutate p id) as [x i]. specialize (IHF W2 i). destruct (mutate_all ps i).
    constructor; auto.
  - cbn [Cst.mutate]. specialize (IH Si id).
    destruct (mutate sub id) as [x i]. cbn [fst] in *. unfold mutated_expr, call1.
    destruct (e_init_list_cast e); [apply N1; [reflexivity|]|];
      (destruct (cpp c && e_side_effects e); [|destruct (negb (cpp c) && e_lvalue e)]);
      repeat (apply N1; [reflexivity|]); auto.
  - cbn [Cst.mutate]. apply andb_true_iff in Si as [Wl Wr].
    specialize (IHl Wl id). destruct (mutate l id) as [x i]. specialize (IHr Wr i).
    destruct (mutate r i) as [y j]. cbn [fst] in *.
    destruct (c_logical c b).
    + unfold mutated_c_logical, call1. apply N1; [reflexivity|]. cbn [Cst.den].
      apply calm_binary_term; destruct (track o); auto; apply N1; auto; reflexivity.
    + unfold mutated_binary, lambda. apply Nd; [reflexivity|].
      repeat constructor; cbn [snd].
      * destruct (lhs_delayed c b); [|destruct (negb (cpp c) && is_assign (b_op b))]; auto;
          apply N1; auto; reflexivity.
      * destruct (rhs_delayed c b); auto; apply N1; auto; reflexivity.
  - cbn [Cst.mutate]. specialize (IH Si id).
    destruct (mutate sub id) as [x i]. cbn [fst] in *. unfold mutated_unary, call1.
    destruct (unary_delayed c u); [|destruct (negb (cpp c) && is_incdec (u_op u))];
      repeat (apply N1; [reflexivity|]); auto.
  - cbn [Cst.mutate]. discriminate.
Qed.

(** * The function called at a site *)

Lemma choice_of {A} (meaning : A -> option rhs) original (ms : list (A * rhs)) :
  (forall m, In m ms -> meaning (fst m) = Some (snd m)) -> forall id k,
  choice meaning original (first_enabled E (id + k) (map fst ms)) =
  Some (match find (fun l => E (id + fst l)) (number_from k (map snd ms)) with
        | Some l => snd l
        | None => original
        end).
Proof.
  induction ms as [|[a r] ms IH]; intros Hm id k; cbn; auto.
  destruct (E (id + k)).
  - exact (Hm (a, r) (or_introl eq_refl)).
  - replace (S (id + k)) with (id + S k) by lia. apply IH. intros m Hi. apply Hm. right. exact Hi.
Qed.
Lemma first_enabled_none {A} (acts : list A) : (forall i, E i = false) ->
  forall id, first_enabled E id acts = None.
Proof. intro Z. induction acts; intro id; cbn; auto. rewrite Z. auto. Qed.

(* The ids of the mutants of all files are below total; those of the file at hand are from lo
   up to num. *)
Variable file : nat -> nat.
Variable total : nat.
Definition bounds : limits :=
  {| lim_queried := if track o then 0 else total;
     lim_recorded := if track o then total else 0; lim_file := file |}.
Variables lo num : nat.
Hypothesis Num_total : num <= total.
Hypothesis One_file : forall i, lo <= i -> i < num -> file i = file lo.
Lemma within id i : lo <= id -> id <= i -> i < num -> file i = file id.
Proof. intros. rewrite (One_file i), (One_file id); auto; lia. Qed.

Lemma chosen_of {A} (meaning : A -> option rhs) (ms : list (A * rhs)) f id :
  (forall m, In m ms -> meaning (fst m) = Some (snd m)) ->
  (track o = true -> forall i, E i = false) ->
  mf_lines f = when (negb (track o)) (number_from 0 (map snd ms)) ->
  choice meaning (mf_orig f) (first_enabled E id (map fst ms)) = Some (chosen E f id) /\
  (chosen E f id = mf_orig f \/ In (chosen E f id) (map snd ms)).
Proof.
  intros Hm Z Li. unfold chosen. rewrite Li. destruct (track o); cbn [negb when].
  - rewrite first_enabled_none by auto. auto.
  - rewrite <- (Nat.add_0_r id) at 1. rewrite (choice_of _ _ _ Hm). split; auto.
    destruct (find _ _) as [l|] eqn:Fi; auto. right. apply find_some in Fi as [Hl _].
    apply (in_map snd) in Hl.
    assert (Q : forall k, map snd (number_from k (map snd ms)) = map snd ms).
    { intro k. generalize (map snd ms). intro q. revert k. induction q; intro k; cbn; f_equal; auto. }
    rewrite Q in Hl. exact Hl.
Qed.
Lemma ids_ok_of {A} (ms : list (A * rhs)) f id :
  lo <= id -> id + length ms <= num -> (track o = true -> 0 < length ms) ->
  mf_lines f = when (negb (track o)) (number_from 0 (map snd ms)) ->
  mf_track f = (if track o then Some (length ms) else None) ->
  ids_ok bounds f id.
Proof.
  intros Lo Le Po Li Tr. unfold bounds. split; cbn [lim_queried lim_recorded lim_file].
  - intros l Hl. rewrite Li in Hl. apply when_in in Hl as [Nt Hl]. apply negb_true_iff in Nt. rewrite Nt.
    apply In_nth_error in Hl as [k Hk]. rewrite number_from_nth, nth_error_map in Hk.
    destruct (nth_error ms k) eqn:Nk; [|discriminate]. injection Hk as <-. cbn.
    assert (k < length ms) by (apply nth_error_Some; congruence).
    split; [lia|apply within; lia].
  - intros n Q. rewrite Tr in Q. destruct (track o); [|discriminate]. injection Q as <-.
    specialize (Po eq_refl). repeat split; [lia..|apply within; lia].
Qed.

Lemma expr_choice_chosen e id :
  (track o = true -> forall i, E i = false) ->
  expr_choice c opt E e id = Some (chosen E (expr_function c o e) id) /\
  (chosen E (expr_function c o e) id = RArg1 \/
   In (chosen E (expr_function c o e) id) (map snd (expr_mutants c opt e))).
Proof.
  intro Z. exact (chosen_of (expr_meaning c) (expr_mutants c opt e) (expr_function c o e) id
           (expr_mutants_meaning c opt e) Z eq_refl).
Qed.
Lemma unary_choice_chosen u id :
  (track o = true -> forall i, E i = false) ->
  unary_choice opt E u id = Some (chosen E (unary_function c o u) id) /\
  (chosen E (unary_function c o u) id = original_unary (u_op u) \/
   In (chosen E (unary_function c o u) id) (map snd (unary_mutants opt u))).
Proof.
  intro Z. pose proof (chosen_of un_meaning (unary_mutants opt u) (unary_function c o u) id
           (unary_mutants_meaning opt u) Z eq_refl) as Q.
  unfold unary_choice. rewrite <- apply_uop_original. exact Q.
Qed.
Lemma binary_choice_chosen b id :
  (track o = true -> forall i, E i = false) -> c_logical c b = false ->
  binary_choice c opt E b id = Some (chosen E (binary_function c o b) id) /\
  (chosen E (binary_function c o b) id = RBin (b_op b) \/
   In (chosen E (binary_function c o b) id) (map snd (binary_mutants opt b))).
Proof.
  intros Z C. pose proof (chosen_of bin_meaning (binary_mutants opt b) (binary_function c o b) id
           (binary_mutants_meaning opt b) Z eq_refl) as Q.
  unfold binary_choice, binary_actions. rewrite C. exact Q.
Qed.

(* The operations that can occur. *)
Ltac in_mutants H :=
  repeat match type of H with
         | In _ (map snd (_ ++ _)) => rewrite map_app in H; apply in_app_iff in H; destruct H as [H|H]
         | In _ (map snd (when ?b _)) => destruct b eqn:?; cbn [when] in H
         | In _ (map snd (if ?b then _ else _)) => destruct b eqn:?
         | In _ (map snd []) => destruct H
         | In _ (map snd (_ :: _)) => cbn [map snd] in H
         | In _ (_ :: _) => destruct H as [H|H]
         | In _ [] => destruct H
         end.

Lemma expr_operation e r : In r (map snd (expr_mutants c opt e)) ->
  fits_op r (e_lvalue e) = true /\ uses2 r = false.
Proof.
  intro H. unfold expr_mutants, lvalue_insertions, nonlvalue_insertions, constant_replacements,
    boolean_replacements, integer_replacements, float_replacements in H.
  destruct (e_lvalue e) eqn:Lv; cbn [negb orb] in H; in_mutants H; subst r; auto.
Qed.
Lemma unary_operation u r :
  good_unary c u = true ->
  In r (map snd (unary_mutants opt u)) ->
  fits_op r (e_lvalue (u_sub u)) = true /\ uses2 r = false /\
  (cpp c && u_lvalue u = true ->
   fst (expression L c r (e_lvalue (u_sub u), skip) (false, skip)) = true).
Proof.
  intros Go H. unfold unary_mutants in H. rewrite map_app in H. apply in_app_iff in H as [H|H].
  - rewrite map_map in H. apply in_map_iff in H as (o' & <- & H). cbn [snd].
    unfold replacement_uops in H. apply filter_In in H as [H V].
    assert (Va : valid_uop u o' = true).
    { destruct (valid_uop u o'); auto. rewrite orb_true_r in V. discriminate. }
    clear V. unfold valid_uop in Va.
    destruct (e_lvalue (u_sub u)) eqn:Lv.
    + split; [|split].
      * destruct o'; reflexivity.
      * destruct o'; reflexivity.
      * intro Cl. apply andb_true_iff in Cl as [Cp Ul]. rewrite Ul in Va.
        destruct o'; cbn in *; rewrite ?Cp; auto;
          repeat match type of Va with context [if ?b then _ else _] => destruct b end;
          discriminate.
    + cbn [negb andb] in Va. split; [|split].
      * destruct o'; try discriminate; reflexivity.
      * destruct o'; reflexivity.
      * intro Cl. apply andb_true_iff in Cl as [Cp Ul]. exfalso.
        apply andb_true_iff in Go as [_ Go]; unfold good_places in Go. rewrite Ul, Lv in Go.
        destruct (is_incdec (u_op u)); cbn in Go; try discriminate.
        rewrite andb_false_r in Go. discriminate.
  - in_mutants H. subst r. cbn. split; [|split]; auto. intro Cl.
    apply andb_true_iff in Cl as [Cp Ul].
    destruct (e_lvalue (u_sub u)) eqn:Lv; auto.
    apply andb_true_iff in Go as [_ Go]; unfold good_places in Go. rewrite Ul, Lv in Go.
    destruct (is_incdec (u_op u)); cbn in Go; try discriminate.
    rewrite andb_false_r in Go. discriminate.
Qed.
Lemma unary_original u :
  good_unary c u = true ->
  let r := original_unary (u_op u) in
  fits_op r (e_lvalue (u_sub u)) = true /\ uses2 r = false /\
  (cpp c && u_lvalue u = true ->
   fst (expression L c r (e_lvalue (u_sub u), skip) (false, skip)) = true).
Proof.
  intros Go r. apply andb_true_iff in Go as [_ Go]; unfold good_places in Go.
  destruct (u_op u); cbn in r; subst r; cbn in *;
    destruct (e_lvalue (u_sub u)), (u_lvalue u), (cpp c); cbn in *; try discriminate; auto.
Qed.

Lemma candidate_class b o' : In o' (candidate_ops b) -> good_binary b = true ->
  is_assign o' = is_assign (b_op b) /\ (is_logical o' = true -> is_logical (b_op b) = true) /\
  bop_eqb o' Comma = false /\ (o' = Shl \/ o' = Shr -> b_op b = Shl \/ b_op b = Shr).
Proof.
  unfold candidate_ops. intros H Go.
  unfold good_binary in Go. destruct (is_bool (e_ty (b_lhs b)));
  destruct (b_op b); try discriminate Go; cbn in H; cbn [is_assign is_logical];
    repeat (destruct H as [H|H];
            [subst o'; cbn; repeat split; auto; intros [Q|Q]; auto; discriminate|]); destruct H.
Qed.
Lemma binary_operation b r :
  good_binary b = true ->
  r = RBin (b_op b) \/ In r (map snd (binary_mutants opt b)) ->
  fits_op r (is_assign (b_op b)) = true /\
  (is_assign (b_op b) && cpp c = true ->
   fst (expression L c r (is_assign (b_op b), skip) (false, skip)) = true) /\
  (forall o, r = RBin o -> is_logical o = true -> is_logical (b_op b) = true) /\
  match r with RArg1 | RArg2 | RBin _ => True | _ => False end /\
  (forall o, r = RBin o -> is_assign o = is_assign (b_op b) /\
                           (o = Shl \/ o = Shr -> b_op b = Shl \/ b_op b = Shr)).
Proof.
  intros Go Hr.
  assert (Op : forall o', is_assign o' = is_assign (b_op b) -> bop_eqb o' Comma = false ->
    (is_logical o' = true -> is_logical (b_op b) = true) ->
    (o' = Shl \/ o' = Shr -> b_op b = Shl \/ b_op b = Shr) -> r = RBin o' ->
    fits_op r (is_assign (b_op b)) = true /\
    (is_assign (b_op b) && cpp c = true ->
     fst (expression L c r (is_assign (b_op b), skip) (false, skip)) = true) /\
    (forall o, r = RBin o -> is_logical o = true -> is_logical (b_op b) = true) /\
    match r with RArg1 | RArg2 | RBin _ => True | _ => False end /\
    (forall o, r = RBin o -> is_assign o = is_assign (b_op b) /\
                             (o = Shl \/ o = Shr -> b_op b = Shl \/ b_op b = Shr))).
  { intros o' As Co Lo Sh ->. rewrite <- As. split; [|split; [|split; [|split]]].
    - cbn. rewrite Co. destruct (is_assign o'); reflexivity.
    - intro Q. apply andb_true_iff in Q as [Q1 Q2]. cbn [expression].
      rewrite Q1. destruct o'; try discriminate Q1; cbn; rewrite Q2; reflexivity.
    - intros o1 Q. injection Q as <-. exact Lo.
    - exact I.
    - intros o1 Q. injection Q as <-. auto. }
  destruct Hr as [Hr|Hr].
  - apply (Op (b_op b)); auto. unfold good_binary in Go.
    destruct (bop_eqb (b_op b) Comma); auto.
  - unfold binary_mutants in Hr. rewrite map_app in Hr. apply in_app_iff in Hr as [Hr|Hr].
    + unfold operator_replacements in Hr. rewrite map_map in Hr.
      apply in_map_iff in Hr as (o' & <- & Hr). apply filter_In in Hr as [Hr _].
      destruct (candidate_class b o' Hr Go) as (As & Lo & Co & Sh).
      apply (Op o'); auto.
    + unfold argument_replacements in Hr.
      destruct (opt && is_relational (b_op b)); [destruct Hr|].
      destruct (is_assign (b_op b)) eqn:As; [destruct Hr|].
      in_mutants Hr; subst r; (split; [reflexivity|]); (split; [discriminate|]);
        (split; [intros o1 Q; discriminate|]); (split; [exact I|]); intros o1 Q; discriminate.
Qed.

(** * The relation *)

Variable R : runtime.
Variable bs : string -> option tm.
Variable cpp17 : bool.
Notation rel := (rel L c R E bounds bs cpp17).
Notation arg := (arg L c R E bounds bs cpp17).

Lemma rel_single k t s : relatable L k = true -> rel Same t s -> rel Same (N k [t]) (N k [s]).
Proof. intros. apply rel_n; auto. Qed.
Lemma rel_double k t1 s1 t2 s2 : relatable L k = true -> rel Same t1 s1 -> rel Same t2 s2 ->
  rel Same (N k [t1; t2]) (N k [s1; s2]).
Proof. intros. apply rel_n; auto. Qed.
Lemma typed_at T a : typed L T (N (KAt T) [a]).
Proof. left. eauto. Qed.
Lemma placed_lv a : placed L (N KLv [a]).
Proof. left. eauto. Qed.

(* Operands, given the subtree. *)
Lemma operand_ok sub id u delayed lv T s :
  dropped_ok L c R bs cpp17 u delayed sub (operand_term L lv T s) ->
  u = true \/ delayed = true \/
  (calm L (den (fst (mutate sub id))) = true /\ harmless L c R bs cpp17 (operand_term L lv T s)).
Proof. intros [->|[->|[Si H]]]; auto. right. right. split; auto. apply calm_mutate. exact Si. Qed.

Lemma arg_value p T u t s :
  declared c p = Some (Direct ByValue T) -> rel Same t s ->
  u = true \/ (calm L t = true /\ harmless L c R bs cpp17 (N (KAt T) [s])) ->
  arg p AVal u (pass L c p t) (value_of_type T s).
Proof.
  intros D Hr H. unfold pass. rewrite D. apply (arg_val L c R E bounds bs cpp17 p T); auto.
  - apply typed_at.
  - apply rel_single; auto.
  - destruct H as [H|[Ca H]]; auto. right. split; auto. cbn. rewrite Ca. reflexivity.
Qed.
Lemma arg_object p T u t s :
  declared c p = Some (Direct ByReference T) -> rel Same t s ->
  u = true \/ (calm L t = true /\ harmless L c R bs cpp17 (N KLv [s])) ->
  arg p AVal u (pass L c p t) (object s).
Proof.
  intros D Hr H. unfold pass. rewrite D. apply (arg_ref L c R E bounds bs cpp17 p T); auto.
  - apply placed_lv.
  - apply rel_single; auto.
  - destruct H as [H|[Ca H]]; auto. right. split; auto. cbn. rewrite Ca. reflexivity.
Qed.
Lemma arg_pointer p T u t s :
  declared c p = Some (Direct ByPointer T) -> rel Same t s ->
  u = true \/ (calm L t = true /\ harmless L c R bs cpp17 (N KLv [s])) ->
  arg p APtr u (pass L c p (N KAddr [t])) (object s).
Proof.
  intros D Hr H. unfold pass. rewrite D. apply (arg_ptr L c R E bounds bs cpp17 p T); auto.
  - apply ptr_addr; auto.
  - destruct H as [H|[Ca H]]; auto. right. split; auto. cbn. rewrite Ca. reflexivity.
Qed.
Lemma arg_delayed_value w T u t s :
  declared c (wrap_function true w) = Some (Delayed ByValue T) -> rel Same t s ->
  active s = false ->
  arg (wrap_function true w) ALam u (pass L c (wrap_function true w) (N (KLambda w) [t]))
    (value_of_type T s).
Proof.
  intros D Hr A. unfold pass. rewrite D, String.eqb_refl.
  apply (arg_lam_val L c R E bounds bs cpp17 _ T); auto; [apply rel_single; auto|].
  cbn. rewrite A. reflexivity.
Qed.
Lemma arg_delayed_object w T u t s :
  declared c (wrap_function true w) = Some (Delayed ByReference T) -> rel Same t s ->
  active s = false ->
  arg (wrap_function true w) ALam u (pass L c (wrap_function true w) (N (KLambda w) [t]))
    (object s).
Proof.
  intros D Hr A. unfold pass. rewrite D, String.eqb_refl.
  apply (arg_lam_ref L c R E bounds bs cpp17 _ T); auto; [apply rel_single; auto|].
  cbn. rewrite A. reflexivity.
Qed.

(* The type that a site declares for an operand of type T. *)
Lemma input_type_spelling e :
  e_lvalue e && negb (e_volatile e) && e_const e = false ->
  In (input_type c e, if e_lvalue e then if cpp c then ByReference else ByPointer else ByValue)
    (spellings c (e_ty e)).
Proof.
  intro Nc. unfold input_type, cpp_type_modifiers, c_type_modifiers, spellings.
  destruct (e_lvalue e), (cpp c), (e_volatile e), (e_const e); try discriminate; cbn; tauto.
Qed.
Lemma binary_lhs_spelling b :
  In (binary_lhs_type c b,
      if is_assign (b_op b) then if cpp c then ByReference else ByPointer else ByValue)
    (spellings c (e_ty (b_lhs b))).
Proof.
  unfold binary_lhs_type, spellings.
  destruct (is_assign (b_op b)), (cpp c), (e_volatile (b_lhs b)); cbn; tauto.
Qed.
Lemma binary_result_spelling b :
  In (binary_result_type c b, if is_assign (b_op b) && cpp c then ByReference else ByValue)
    (spellings c (b_ty b)).
Proof.
  unfold binary_result_type, spellings.
  destruct (is_assign (b_op b)), (cpp c), (e_volatile (b_lhs b)); cbn; tauto.
Qed.
Lemma unary_result_spelling u :
  u_lvalue u && negb (u_volatile u) && u_const u = false ->
  In (unary_result_type c u, if cpp c && u_lvalue u then ByReference else ByValue)
    (spellings c (u_ty u)).
Proof.
  intro Nc. unfold unary_result_type, spellings.
  destruct (u_lvalue u), (cpp c), (u_volatile u), (u_const u); try discriminate; cbn; tauto.
Qed.

Lemma returned_of result p T x : In (result, p) (spellings c T) ->
  returned L c result x =
  match p with ByReference => lvalue x | ByPointer => N KWrong [] | ByValue => N (KAt T) [rvalue x] end.
Proof.
  intro I. destruct (declared_spelling _ _ _ _ I) as [D _]. unfold returned. rewrite D.
  destruct p; reflexivity.
Qed.
Lemma fits_of result p T r lv1 lv2 :
  In (result, p) (spellings c T) -> p <> ByPointer -> fits_op r lv1 = true ->
  (p = ByReference -> fst (expression L c r (lv1, skip) (lv2, skip)) = true) ->
  fits L c result r lv1 lv2 = true.
Proof.
  intros I Np F Rf. destruct (declared_spelling _ _ _ _ I) as [D _]. unfold fits. rewrite D, F.
  destruct p; auto.
Qed.

Hypothesis Tracking : track o = true -> forall i, E i = false.

(* Calls *)
Lemma arg_lam_any p u u' t x : arg p ALam u t x -> arg p ALam u' t x.
Proof. intro Ha. inversion Ha; subst; econstructor; eauto. Qed.

Lemma rel_site1 f id p t x r d :
  mf_params f = [p] -> chosen E f id = r -> ids_ok bounds f id ->
  fits L c (mf_result f) r (fst x) false = true -> uses2 r = false ->
  is_delayed (fst (mf_access f)) = d ->
  arg (fst p) (fst (mf_access f)) (uses1 r || rest) t x ->
  rel Same (N (KM f id) [t])
    (returned L c (mf_result f) (site_expression L c rest r d true x no_operand)).
Proof.
  intros P Ch Ok Fi U2 D Ha. unfold site_expression.
  destruct rest.
  - rewrite orb_true_r in Ha. destruct (uses1 r) eqn:U1.
    + assert (expression_with_rest L c r d true x no_operand = expression L c r x no_operand) as ->
        by (destruct r; try discriminate; reflexivity).
      eapply rel_call1; eauto. rewrite U1. exact Ha.
    + destruct r as [| | | | | |l]; try discriminate. cbn [expression_with_rest].
      destruct d.
      * assert (Al : fst (mf_access f) = ALam) by (destruct (fst (mf_access f)); congruence || discriminate).
        eapply rel_call1; eauto. rewrite U1. rewrite Al in *. eapply arg_lam_any; eauto.
      * cbn [expression snd]. eapply rel_rest1; eauto.
        intro Al. rewrite Al in D. discriminate.
  - rewrite orb_false_r in Ha. eapply rel_call1; eauto.
Qed.

Lemma rel_site2 f id p1 p2 t1 t2 x1 x2 r d1 d2 :
  mf_params f = [p1; p2] -> chosen E f id = r -> ids_ok bounds f id ->
  fits L c (mf_result f) r (fst x1) (fst x2) = true ->
  match r with RArg1 | RArg2 | RBin _ => True | _ => False end ->
  (forall o, r = RBin o -> is_logical o = true -> snd (mf_access f) = ALam) ->
  (cpp17 = true -> in_order r (fst (mf_access f)) (snd (mf_access f))) ->
  is_delayed (fst (mf_access f)) = d1 -> is_delayed (snd (mf_access f)) = d2 ->
  arg (fst p1) (fst (mf_access f)) (uses1 r || rest) t1 x1 ->
  arg (fst p2) (snd (mf_access f)) (uses2 r || rest) t2 x2 ->
  rel Same (N (KM f id) [t1; t2])
    (returned L c (mf_result f) (site_expression L c rest r d1 d2 x1 x2)).
Proof.
  intros P Ch Ok Fi Sh La Io D1 D2 Ha1 Ha2. unfold site_expression.
  assert (Lam : forall a, is_delayed a = true -> a = ALam) by (intros []; congruence || discriminate).
  destruct rest.
  - rewrite orb_true_r in Ha1, Ha2. destruct r as [| | | | |o'|]; try tauto;
      cbn [expression_with_rest].
    + destruct d2.
      * change x1 with (expression L c RArg1 x1 x2) at 1. eapply rel_call2; eauto.
        rewrite (Lam _ D2) in *. eapply arg_lam_any; eauto.
      * rewrite <- D1. eapply rel_rest_right; eauto. intro Q. rewrite Q in D2. discriminate.
    + destruct d1.
      * change x2 with (expression L c RArg2 x1 x2) at 1. eapply rel_call2; eauto.
        rewrite (Lam _ D1) in *. eapply arg_lam_any; eauto.
      * rewrite <- D2. eapply rel_rest_left; eauto. intro Q. rewrite Q in D1. discriminate.
    + eapply rel_call2; eauto. cbn [uses2]. destruct (is_logical o') eqn:Lo; auto.
      rewrite (La o' eq_refl Lo) in *. eapply arg_lam_any; eauto.
  - rewrite orb_false_r in Ha1, Ha2. eapply rel_call2; eauto.
Qed.

(* Sites *)
Lemma mutated_expr_rel e id sub sub' s :
  good_expr e = true -> active s = false ->
  (simple L sub = true -> calm L (den sub') = true) ->
  ids_ok bounds (expr_function c o e) id ->
  (rest = false -> expr_drops L c opt R bs cpp17 E e id sub s) ->
  rel Same (den sub') s ->
  rel Same (den (mutated_expr L c o e id sub'))
    (with_choice L (fun r =>
       expr_site L e (fun a => site_expression L c rest r (cpp c && e_side_effects e) true
                                 a no_operand) s) (expr_choice c opt E e id)).
Proof.
  intros Go Ac Ca Ok Dr Hr.
  destruct (expr_choice_chosen e id Tracking) as [Q Op]. pose proof (fun H => Dr H _ Q) as Dr1; clear Dr; rename Dr1 into Dr. rewrite Q.
  set (f := expr_function c o e) in *. set (r := chosen E f id) in *. cbn [with_choice].
  assert (Nc : e_lvalue e && negb (e_volatile e) && e_const e = false).
  { unfold good_expr, can_mutate_lvalue in Go.
    destruct (e_lvalue e), (e_volatile e), (e_const e); auto. }
  assert (Op' : fits_op r (e_lvalue e) = true /\ uses2 r = false).
  { destruct Op as [->|Op]; [split; reflexivity|]. exact (expr_operation e r Op). }
  destruct Op' as [Fi U2].
  destruct (declared_spelling _ _ _ _ (input_type_spelling e Nc)) as [D1 D2].
  set (x := if e_lvalue e then object s else value_of_type (e_ty e) s).
  assert (Dr' : cpp c && e_side_effects e = false -> uses1 r || rest = true \/
                calm L (den sub') = true /\ harmless L c R bs cpp17 (operand_term L (e_lvalue e) (e_ty e) s)).
  { intro Nd. destruct rest; [left; apply orb_true_r|]. rewrite orb_false_r.
    destruct (Dr eq_refl) as [U|[U|[Si H]]]; auto. congruence. }
  (* the call *)
  assert (Call : forall a, 
    arg (wrap_function (cpp c && e_side_effects e) (input_type c e)) (fst (mf_access f)) (uses1 r || rest)
      (pass L c (wrap_function (cpp c && e_side_effects e) (input_type c e)) a) x ->
    rel Same (N (KM f id) (pass_all L c (mf_params f) [a]))
      (N (KAt (e_ty e)) [rvalue (site_expression L c rest r (cpp c && e_side_effects e) true
                                   x no_operand)])).
  { intros a Ha.
    assert (Rt : In (mf_result f, ByValue) (spellings c (e_ty e))) by (left; reflexivity).
    rewrite <- (returned_of (mf_result f) ByValue (e_ty e) _ Rt).
    apply (rel_site1 f id (wrap_function (cpp c && e_side_effects e) (input_type c e), "arg"%string));
      auto; [|unfold f, expr_function; cbn [mf_access fst];
              destruct (cpp c), (e_lvalue e), (e_side_effects e); reflexivity].
    replace (fst x) with (e_lvalue e) by (unfold x; destruct (e_lvalue e); reflexivity).
    apply (fits_of _ _ _ _ _ _ Rt); auto; discriminate. }
  assert (Site : forall a, 
    arg (wrap_function (cpp c && e_side_effects e) (input_type c e)) (fst (mf_access f)) (uses1 r || rest)
      (pass L c (wrap_function (cpp c && e_side_effects e) (input_type c e)) a) x ->
    rel Same
      (match e_init_list_cast e with
       | Some t => N (KAt t) [N (KM f id) (pass_all L c (mf_params f) [a])]
       | None => N (KM f id) (pass_all L c (mf_params f) [a])
       end) (expr_site L e (fun a => site_expression L c rest r (cpp c && e_side_effects e) true
                                       a no_operand) s)).
  { intros a Ha. unfold expr_site. fold x. destruct (e_init_list_cast e); auto.
    apply rel_single; auto. }
  clear Call. unfold mutated_expr, call1. fold f.
  assert (Ax : fst (mf_access f) = if negb (cpp c) && e_lvalue e then APtr
                   else if cpp c && e_side_effects e then ALam else AVal) by reflexivity.
  destruct (cpp c && e_side_effects e) eqn:Dl.
  - (* lambda *)
    specialize (Site (N (KLambda (input_type c e)) [den sub'])).
    assert (Cp : cpp c = true) by (destruct (cpp c); auto; discriminate).
    rewrite Cp in *. cbn [negb andb] in Ax. rewrite Ax in Site.
    match type of Site with ?A -> _ => assert (Ha : A) end.
    { unfold x. destruct (e_lvalue e).
      - apply (arg_delayed_object _ (e_ty e)); auto.
      - apply (arg_delayed_value _ (e_ty e)); auto. }
    specialize (Site Ha). destruct (e_init_list_cast e); exact Site.
  - destruct (negb (cpp c) && e_lvalue e) eqn:Pt.
    + (* pointer *)
      specialize (Site (N KAddr [den sub'])). rewrite Ax in Site.
      apply andb_true_iff in Pt as [Cp Lv]. apply negb_true_iff in Cp.
      unfold x, operand_term in *. rewrite Cp, Lv in *.
      match type of Site with ?A -> _ => assert (Ha : A) end.
      { apply (arg_pointer _ (e_ty e)); auto. }
      specialize (Site Ha). destruct (e_init_list_cast e); exact Site.
    + specialize (Site (den sub')). rewrite Ax in Site.
      match type of Site with ?A -> _ => assert (Ha : A) end.
      { unfold x, operand_term in *. destruct (e_lvalue e).
        - rewrite andb_true_r in Pt. apply negb_false_iff in Pt. rewrite Pt in *.
          apply (arg_object _ (e_ty e)); auto.
        - apply (arg_value _ (e_ty e)); auto. }
      specialize (Site Ha). destruct (e_init_list_cast e); exact Site.
Qed.

Lemma mutated_unary_rel u id w sub sub' s :
  good_unary c u = true -> active s = false ->
  (simple L sub = true -> calm L (den sub') = true) ->
  ids_ok bounds (unary_function c o u) id ->
  (rest = false -> unary_drops L c opt R bs cpp17 E u id sub s) ->
  rel Same (den sub') s ->
  rel Same (den (mutated_unary L c o u id w sub'))
    (with_choice L (fun r =>
       unary_site L c u (fun a => site_expression L c rest r (unary_delayed c u) true
                                    a no_operand) s) (unary_choice opt E u id)).
Proof.
  intros Go Ac Ca Ok Dr Hr.
  destruct (unary_choice_chosen u id Tracking) as [Q Op]. pose proof (fun H => Dr H _ Q) as Dr1; clear Dr; rename Dr1 into Dr. rewrite Q.
  set (f := unary_function c o u) in *. set (r := chosen E f id) in *. cbn [with_choice].
  assert (Op' : fits_op r (e_lvalue (u_sub u)) = true /\ uses2 r = false /\
    (cpp c && u_lvalue u = true ->
     fst (expression L c r (e_lvalue (u_sub u), skip) (false, skip)) = true)).
  { destruct Op as [->|Op]; [exact (unary_original u Go)|exact (unary_operation u r Go Op)]. }
  destruct Op' as (Fi & U2 & Rf). clear Op.
  apply andb_true_iff in Go as [_ Go]; unfold good_places in Go. apply andb_true_iff in Go as [Go Uc].
  apply andb_true_iff in Go as [Go Nc]. apply andb_true_iff in Go as [Sl Ul].
  apply negb_true_iff in Uc. apply negb_true_iff in Nc. apply eqb_prop in Sl. apply eqb_prop in Ul.
  destruct (declared_spelling _ _ _ _ (input_type_spelling (u_sub u) Nc)) as [D1 D2].
  pose proof (unary_result_spelling u Uc) as Rt.
  set (e := u_sub u) in *.
  set (x := if e_lvalue e then object s else value_of_type (e_ty e) s).
  assert (Dr' : unary_delayed c u = false -> uses1 r || rest = true \/
                calm L (den sub') = true /\ harmless L c R bs cpp17 (operand_term L (e_lvalue e) (e_ty e) s)).
  { intro Nd. destruct rest; [left; apply orb_true_r|]. rewrite orb_false_r.
    destruct (Dr eq_refl) as [U|[U|[Si H]]]; auto.
    change (operator_late c u) with (unary_delayed c u) in U. congruence. }
  assert (Site : forall a, 
    arg (wrap_function (unary_delayed c u) (unary_input_type c u)) (fst (mf_access f)) (uses1 r || rest)
      (pass L c (wrap_function (unary_delayed c u) (unary_input_type c u)) a) x ->
    rel Same (N (KM f id) (pass_all L c (mf_params f) [a]))
      (unary_site L c u (fun a => site_expression L c rest r (unary_delayed c u) true
                                    a no_operand) s)).
  { intros a Ha.
    match goal with |- rel _ _ ?y => assert (y = returned L c (mf_result f)
      (site_expression L c rest r (unary_delayed c u) true x no_operand)) as -> end.
    { rewrite (returned_of _ _ _ _ Rt). unfold unary_site. fold e x.
      destruct (cpp c && u_lvalue u); reflexivity. }
    apply (rel_site1 f id (wrap_function (unary_delayed c u) (unary_input_type c u), "arg"%string));
      auto; [|unfold f, unary_function, unary_delayed; cbn [mf_access fst];
              destruct (cpp c), (is_incdec (u_op u)); cbn [andb negb];
              repeat match goal with |- context [if ?b then _ else _] => destruct b end;
              reflexivity].
    replace (fst x) with (e_lvalue e) by (unfold x; destruct (e_lvalue e); reflexivity).
    apply (fits_of _ _ _ _ _ _ Rt); auto.
    - destruct (cpp c && u_lvalue u); discriminate.
    - destruct (cpp c && u_lvalue u); auto; discriminate. }
  unfold mutated_unary, call1. fold f e.
  assert (Ax : fst (mf_access f) = if negb (cpp c) && is_incdec (u_op u) then APtr
                   else if unary_delayed c u then ALam else AVal) by reflexivity.
  rewrite <- Sl in *.
  destruct (unary_delayed c u) eqn:Dl.
  - specialize (Site (N (KLambda (unary_input_type c u)) [den sub'])).
    assert (Cp : cpp c = true) by (unfold unary_delayed in Dl; destruct (cpp c); auto; discriminate).
    rewrite Cp in *. cbn [negb andb] in Ax. rewrite Ax in Site.
    match type of Site with ?A -> _ => assert (Ha : A) end.
    { unfold x. destruct (e_lvalue e).
      - apply (arg_delayed_object _ (e_ty e)); auto.
      - apply (arg_delayed_value _ (e_ty e)); auto. }
    exact (Site Ha).
  - destruct (negb (cpp c) && e_lvalue e) eqn:Pt.
    + specialize (Site (N KAddr [den sub'])). rewrite Ax in Site.
      apply andb_true_iff in Pt as [Cp Lv]. apply negb_true_iff in Cp.
      unfold x, operand_term in *. rewrite Cp, Lv in *.
      match type of Site with ?A -> _ => assert (Ha : A) end.
      { apply (arg_pointer _ (e_ty e)); auto. }
      exact (Site Ha).
    + specialize (Site (den sub')). rewrite Ax in Site.
      match type of Site with ?A -> _ => assert (Ha : A) end.
      { unfold x, operand_term in *. destruct (e_lvalue e).
        - rewrite andb_true_r in Pt. apply negb_false_iff in Pt. rewrite Pt in *.
          apply (arg_object _ (e_ty e)); auto.
        - apply (arg_value _ (e_ty e)); auto. }
      exact (Site Ha).
Qed.

Lemma mutated_binary_rel b id w1 w2 l r l' r' x y :
  good_binary b = true -> c_logical c b = false -> active x = false -> active y = false ->
  (simple L l = true -> calm L (den l') = true) ->
  (simple L r = true -> calm L (den r') = true) ->
  ids_ok bounds (binary_function c o b) id ->
  (cpp17 = true -> in_sequence c b = true) ->
  (rest = false -> binary_drops L c opt R bs cpp17 E b id l r x y) ->
  rel Same (den l') x -> rel Same (den r') y ->
  rel Same (den (mutated_binary L c o b id l' w1 w2 r'))
    (with_choice L (fun r =>
       binary_site L c b (site_expression L c rest r (lhs_delayed c b) (rhs_delayed c b)) x y)
       (binary_choice c opt E b id)).
Proof.
  intros Go Cl Ax Ay Cx Cy Ok Sq Dr Hx Hy.
  destruct (binary_choice_chosen b id Tracking Cl) as [Q Op]. pose proof (fun H => Dr H _ Q) as Dr1; clear Dr; rename Dr1 into Dr. rewrite Q.
  set (f := binary_function c o b) in *. set (op := chosen E f id) in *. cbn [with_choice].
  destruct (binary_operation b op Go Op) as (Fi & Rf & Lo & Sh & Io). clear Op.
  destruct (declared_spelling _ _ _ _ (binary_lhs_spelling b)) as [D1 D2].
  pose proof (binary_result_spelling b) as Rt.
  assert (Lod : forall o, op = RBin o -> is_logical o = true -> rhs_delayed c b = true).
  { intros o' Qo Ho. specialize (Lo o' Qo Ho). unfold c_logical in Cl. rewrite Lo in Cl.
    unfold rhs_delayed. rewrite Lo. destruct (cpp c); auto; discriminate. }
  set (x' := if is_assign (b_op b) then object x else value_of_type (e_ty (b_lhs b)) x).
  set (y' := value_of_type (e_ty (b_rhs b)) y).
  set (p1 := wrap_function (lhs_delayed c b) (binary_lhs_type c b)).
  set (p2 := wrap_function (rhs_delayed c b) (binary_rhs_type c b)).
  assert (Site : forall a1 a2,
    arg p1 (fst (mf_access f)) (uses1 op || rest) (pass L c p1 a1) x' ->
    arg p2 (snd (mf_access f)) (uses2 op || rest) (pass L c p2 a2) y' ->
    rel Same (N (KM f id) (pass_all L c (mf_params f) [a1; a2]))
      (binary_site L c b (site_expression L c rest op (lhs_delayed c b) (rhs_delayed c b)) x y)).
  { intros a1 a2 H1 H2.
    match goal with |- rel _ _ ?z => assert (z = returned L c (mf_result f)
      (site_expression L c rest op (lhs_delayed c b) (rhs_delayed c b) x' y')) as -> end.
    { rewrite (returned_of _ _ _ _ Rt). unfold binary_site, binary_operands. cbn [fst snd].
      fold x' y'. destruct (is_assign (b_op b) && cpp c); reflexivity. }
    apply (rel_site2 f id (p1, "arg1"%string) (p2, "arg2"%string)); auto.
    - replace (fst x') with (is_assign (b_op b))
        by (unfold x'; destruct (is_assign (b_op b)); reflexivity).
      apply (fits_of _ _ _ _ _ _ Rt); auto.
      + destruct (is_assign (b_op b) && cpp c); discriminate.
      + destruct (is_assign (b_op b) && cpp c); auto; discriminate.
    - intros o' Qo Ho. cbn. rewrite (Lod o' Qo Ho). reflexivity.
    - intro Qc. specialize (Sq Qc). destruct op as [| | | | |o'|]; try exact I. cbn [in_order].
      destruct (Io o' eq_refl) as [Io1 Io2]. unfold in_sequence in Sq.
      change (left_late c b) with (lhs_delayed c b) in Sq.
      change (right_late c b) with (rhs_delayed c b) in Sq. rewrite <- Io1 in Sq. split.
      + intro Ao. rewrite Ao in Sq. cbn. rewrite Sq.
        assert (cpp c = true) as -> by (unfold lhs_delayed in Sq; destruct (cpp c); auto; discriminate).
        reflexivity.
      + intro Qo. assert (Ro : rhs_delayed c b = true).
        { assert (is_assign o' = false) as Qa by (destruct Qo as [->| ->]; reflexivity).
          rewrite Qa in Sq. destruct (Io2 Qo) as [Q2|Q2]; rewrite Q2 in Sq; exact Sq. }
        cbn. rewrite Ro. reflexivity.
    - cbn. unfold lhs_delayed. destruct (cpp c), (is_assign (b_op b)), (e_side_effects (b_lhs b)); reflexivity.
    - cbn. destruct (rhs_delayed c b); reflexivity. }
  unfold mutated_binary. fold f.
  assert (Ha1 : arg p1 (fst (mf_access f)) (uses1 op || rest)
    (pass L c p1 (den (if lhs_delayed c b then lambda L (binary_lhs_type c b) l'
            else if negb (cpp c) && is_assign (b_op b) then CNode KAddr [("&("%string, l')] ")"%string
            else l'))) x').
  { unfold p1. clear - Dr D1 D2 Hx Ax Cx. cbn [mf_access fst f binary_function].
    change (fst (mf_access f)) with (if negb (cpp c) && is_assign (b_op b) then APtr
                   else if lhs_delayed c b then ALam else AVal).
    destruct (lhs_delayed c b) eqn:Dl.
    - assert (Cp : cpp c = true) by (unfold lhs_delayed in Dl; destruct (cpp c); auto; discriminate).
      rewrite Cp in *. cbn [negb andb].
      unfold x'. destruct (is_assign (b_op b)).
      + apply (arg_delayed_object _ (e_ty (b_lhs b))); auto.
      + apply (arg_delayed_value _ (e_ty (b_lhs b))); auto.
    - assert (Dr' : uses1 op || rest = true \/ calm L (den l') = true /\
         harmless L c R bs cpp17 (operand_term L (is_assign (b_op b)) (e_ty (b_lhs b)) x)).
      { destruct rest; [left; apply orb_true_r|]. rewrite orb_false_r.
        destruct (Dr eq_refl) as [[U|[U|[Si H]]] _]; auto.
        change (left_late c b) with (lhs_delayed c b) in U. congruence. }
      destruct (negb (cpp c) && is_assign (b_op b)) eqn:Pt.
      + apply andb_true_iff in Pt as [Cp Lv]. apply negb_true_iff in Cp.
        unfold x', operand_term in *. rewrite Cp, Lv in *.
        apply (arg_pointer _ (e_ty (b_lhs b))); auto.
      + unfold x', operand_term in *. destruct (is_assign (b_op b)).
        * rewrite andb_true_r in Pt. apply negb_false_iff in Pt. rewrite Pt in *.
          apply (arg_object _ (e_ty (b_lhs b))); auto.
        * apply (arg_value _ (e_ty (b_lhs b))); auto. }
  assert (Ha2 : arg p2 (snd (mf_access f)) (uses2 op || rest)
    (pass L c p2 (den (if rhs_delayed c b then lambda L (binary_rhs_type c b) r' else r'))) y').
  { unfold p2, y'. change (snd (mf_access f)) with (if rhs_delayed c b then ALam else AVal).
    destruct (rhs_delayed c b) eqn:Dl.
    - apply (arg_delayed_value _ (e_ty (b_rhs b))); auto. apply declared_delayed_value.
    - apply (arg_value _ (e_ty (b_rhs b))); auto; [apply declared_value|].
      destruct rest; [left; apply orb_true_r|]. rewrite orb_false_r.
      destruct (Dr eq_refl) as [_ [U|[U|[Si H]]]]; auto;
        [|change (right_late c b) with (rhs_delayed c b) in U; congruence].
      apply orb_true_iff in U as [U|U]; auto. left.
      apply andb_true_iff in U as [U1 U2]. destruct op as [| | | | |o'|]; try discriminate.
      cbn [uses2]. destruct (is_logical o') eqn:Lo'; auto.
      specialize (Lod o' eq_refl Lo'). discriminate. }
  exact (Site _ _ Ha1 Ha2).
Qed.

(* && and || in C *)
Lemma unit_fun_c name T fast lines tr : unit_fun c (c_logical_fun name (ty_name c T) fast lines tr) T.
Proof.
  exists (ty_name c T, "arg"%string). cbn. pose proof (declared_value c T). auto.
Qed.

Lemma mutated_c_logical_rel b id w1 w2 l r l' r' x y :
  c_logical c b = true -> active (den r') = false ->
  (simple L l = true -> calm L (den l') = true) ->
  (simple L r = true -> calm L (den r') = true) ->
  lo <= id -> id + 3 <= num ->
  binary_drops L c opt R bs cpp17 E b id l r x y -> c_logical_apart c E b id ->
  rel Same (den l') x -> rel Same (den r') y ->
  rel Same (den (mutated_c_logical L c o b id l' w1 w2 r'))
    (with_choice L (fun r => c_logical_term L c b r x y) (binary_choice c opt E b id)).
Proof.
  intros Cl Ar Cx Cy Lw Le Dr Apart Hx Hy.
  specialize (Apart Cl).
  assert (Lo : is_logical (b_op b) = true).
  { unfold c_logical in Cl. apply andb_true_iff in Cl as [_ Cl]. exact Cl. }
  assert (As : is_assign (b_op b) = false) by (destruct (b_op b); auto; discriminate).
  set (Tl := e_ty (b_lhs b)) in *. set (Tr := e_ty (b_rhs b)) in *. set (T := b_ty b) in *.
  unfold mutated_c_logical, call1.
  set (fo := c_logical_outer_function c o b).
  set (fl := c_logical_lhs_function c o b).
  set (fr := c_logical_rhs_function c o b).
  assert (Uo : unit_fun c fo T) by apply unit_fun_c.
  assert (Ul : unit_fun c fl Tl) by apply unit_fun_c.
  assert (Ur : unit_fun c fr Tr) by apply unit_fun_c.
  assert (Oo : ids_ok bounds fo id).
  { unfold bounds. split.
    - intros q Hq. unfold fo, c_logical_outer_function, c_logical_fun in Hq. cbn in Hq.
      destruct (track o); cbn in Hq; [tauto|]. destruct Hq as [<-|[]]. cbn.
      split; [lia|apply within; lia].
    - intros n Q. cbn in Q. destruct (track o); [|discriminate]. injection Q as <-.
      cbn [lim_recorded lim_file]. repeat split; [lia..|apply within; lia]. }
  assert (Ol : track o = false -> ids_ok bounds fl id).
  { intro Nt. unfold bounds. rewrite Nt. split; [|intros n Q; discriminate].
    intros q Hq. cbn in Hq. destruct Hq as [<-|[<-|[]]]; cbn; (split; [lia|apply within; lia]). }
  assert (Or : track o = false -> ids_ok bounds fr id).
  { intro Nt. unfold bounds. rewrite Nt. split; [|intros n Q; discriminate].
    intros q Hq. cbn in Hq. destruct Hq as [<-|[<-|[]]]; cbn; (split; [lia|apply within; lia]). }
  assert (Pv : forall T t, pass L c (ty_name c T) t = N (KAt T) [t]).
  { intros T0 t. unfold pass. rewrite declared_value. reflexivity. }
  assert (Dc : forall f T s t n before after, mf_params f = [(ty_name c T, s)] ->
    den (CNode (KM f n) [(before, t)] after) = N (KM f n) [N (KAt T) [den t]]).
  { intros f T0 s t n before after P. cbn [Cst.den map snd]. rewrite P. cbn [pass_all].
    rewrite Pv. reflexivity. }
  rewrite (Dc fo T "arg"%string) by reflexivity.
  assert (Bt : forall op s t, is_logical op = true ->
    binary_term L c b (RBin op) s t = N (KAt T) [N (KLogic op) [N (KAt Tl) [s]; N (KAt Tr) [t]]]).
  { intros op s t Ho. unfold binary_term, binary_site, binary_operands, expression. rewrite As, Ho.
    cbn [andb fst snd value_of_type rvalue]. reflexivity. }
  cbn [Cst.den]. rewrite Bt by exact Lo.
  assert (Acts : binary_actions c opt b = c_logical_actions b)
    by (unfold binary_actions; rewrite Cl; reflexivity).
  unfold binary_drops in Dr. unfold binary_choice in *. rewrite Acts in *.
  destruct (track o) eqn:Tk.
  { (* coverage *)
    rewrite first_enabled_none by auto. cbn [choice with_choice c_logical_term]. rewrite Bt by exact Lo.
    apply (rel_same L c R E bounds bs cpp17 fo id T); auto.
    - unfold chosen, fo, c_logical_outer_function. rewrite Tk. reflexivity.
    - apply typed_at.
    - apply rel_at; [apply typed_at|]. apply rel_single; auto. apply rel_double; auto;
        apply rel_single; auto. }
  specialize (Ol eq_refl). specialize (Or eq_refl).
  rewrite (Dc fl Tl "arg"%string), (Dc fr Tr "arg"%string) by reflexivity.
  assert (Co : chosen E fo id = if E id then RPre LNot else RArg1).
  { unfold chosen, fo, c_logical_outer_function. rewrite Tk. cbn. rewrite Nat.add_0_r.
    destruct (E id); reflexivity. }
  assert (Cll : chosen E fl id = if E id then RPre LNot else if E (S (S id))
            then RLit (LInt (c_logical_unit b)) else RArg1).
  { unfold chosen, fl. cbn. replace (id + 2) with (S (S id)) by lia. rewrite Nat.add_0_r.
    destruct (E id), (E (S (S id))); reflexivity. }
  assert (Cr : chosen E fr id = if E id then RPre LNot else if E (S id)
            then RLit (LInt (c_logical_unit b)) else RArg1).
  { unfold chosen, fr. cbn. replace (id + 1) with (S id) by lia. rewrite Nat.add_0_r.
    destruct (E id), (E (S id)); reflexivity. }
  assert (Un : c_logical_unit b = if bop_eqb (b_op b) LAnd then 1%Z else 0%Z) by reflexivity.
  unfold c_logical_actions in *. cbn [first_enabled] in *.
  destruct (E id) eqn:E0; [|destruct (E (S id)) eqn:E1; [|destruct (E (S (S id))) eqn:E2]].
  - (* the other operator *)
    assert (Qd : choice bin_meaning (RBin (b_op b))
        (Some (if bop_eqb (b_op b) LAnd then BReplaceWithLOr else BReplaceWithLAnd))
        = Some (RBin (dual (b_op b)))).
    { destruct (b_op b); try discriminate; reflexivity. }
    rewrite Qd. cbn [with_choice c_logical_term].
    rewrite Bt by (destruct (b_op b); try discriminate; reflexivity).
    apply (rel_not_not L c R E bounds bs cpp17 fo id T); auto.
    apply opp_conv, opp_conv. apply (opp_logic L c R E bounds bs cpp17 T (b_op b) Tl Tr); auto.
    + apply neg_conv. apply neg_call; auto; [apply typed_at|apply rel_single; auto].
    + apply neg_conv. apply neg_call; auto; [apply typed_at|apply rel_single; auto].
  - (* left operand *)
    cbn [choice bin_meaning with_choice c_logical_term].
    destruct Apart as [A|[A|A]]; try discriminate.
    rewrite A in Cll.
    apply (rel_same L c R E bounds bs cpp17 fo id T); auto; [apply typed_at|].
    apply rel_at; [apply typed_at|]. apply rel_single; auto.
    apply (rel_left L c R E bounds bs cpp17 (b_op b) Tr); auto.
    + apply rel_at; [apply typed_at|]. apply (rel_same L c R E bounds bs cpp17 fl id Tl); auto.
      * apply typed_at.
      * apply rel_single; auto.
    + cbn. rewrite Ar. reflexivity.
    + apply const_conv.
      apply (const_call L c R E bounds bs cpp17 fr id Tr _ _ (N (KAt Tr) [y])); auto.
      * apply typed_at.
      * apply rel_single; auto.
      * destruct (Dr RArg1 eq_refl) as [_ [U|[U|[Si H]]]].
        -- cbn in U. rewrite andb_false_r in U. discriminate.
        -- unfold right_late in U. unfold c_logical in Cl. destruct (cpp c); discriminate.
        -- cbn. rewrite Cy; auto.
      * destruct (Dr RArg1 eq_refl) as [_ [U|[U|[Si H]]]]; auto.
        -- cbn in U. rewrite andb_false_r in U. discriminate.
        -- unfold right_late in U. unfold c_logical in Cl. destruct (cpp c); discriminate.
  - (* right operand *)
    cbn [choice bin_meaning with_choice c_logical_term].
    apply (rel_same L c R E bounds bs cpp17 fo id T); auto; [apply typed_at|].
    apply rel_at; [apply typed_at|]. apply rel_single; auto.
    apply (rel_right L c R E bounds bs cpp17 (b_op b) Tl); auto.
    + apply rel_at; [apply typed_at|]. apply (rel_same L c R E bounds bs cpp17 fr id Tr); auto.
      * apply typed_at.
      * apply rel_single; auto.
    + apply const_conv.
      apply (const_call L c R E bounds bs cpp17 fl id Tl _ _ (N (KAt Tl) [x])); auto.
      * apply typed_at.
      * apply rel_single; auto.
      * destruct (Dr RArg2 eq_refl) as [[U|[U|[Si H]]] _].
        -- discriminate.
        -- unfold left_late in U. unfold c_logical in Cl. destruct (cpp c); discriminate.
        -- cbn. rewrite Cx; auto.
      * destruct (Dr RArg2 eq_refl) as [[U|[U|[Si H]]] _].
        -- discriminate.
        -- unfold left_late in U. unfold c_logical in Cl. destruct (cpp c); discriminate.
        -- rewrite As in H. exact H.
  - (* original *)
    cbn [choice with_choice c_logical_term]. rewrite Bt by exact Lo.
    apply (rel_same L c R E bounds bs cpp17 fo id T); auto; [apply typed_at|].
    apply rel_at; [apply typed_at|]. apply rel_single; auto. apply rel_double; auto.
    + apply rel_at; [apply typed_at|]. apply (rel_same L c R E bounds bs cpp17 fl id Tl); auto.
      * apply typed_at.
      * apply rel_single; auto.
    + apply rel_at; [apply typed_at|]. apply (rel_same L c R E bounds bs cpp17 fr id Tr); auto.
      * apply typed_at.
      * apply rel_single; auto.
Qed.

(* ... in which operands are evaluated that are not needed *)
Lemma mutated_c_logical_rest b id w1 w2 l' r' x y :
  c_logical c b = true -> active (den r') = false -> lo <= id -> id + 3 <= num ->
  rel Same (den l') x -> rel Same (den r') y ->
  rel Same (den (mutated_c_logical L c o b id l' w1 w2 r'))
    (c_logical_with_rest L c E b id x y).
Proof.
  intros Cl Ar Lw Le Hx Hy.
  assert (Lo : is_logical (b_op b) = true).
  { unfold c_logical in Cl. apply andb_true_iff in Cl as [_ Cl]. exact Cl. }
  assert (As : is_assign (b_op b) = false) by (destruct (b_op b); auto; discriminate).
  set (Tl := e_ty (b_lhs b)) in *. set (Tr := e_ty (b_rhs b)) in *. set (T := b_ty b) in *.
  unfold mutated_c_logical, call1.
  set (fo := c_logical_outer_function c o b).
  set (fl := c_logical_lhs_function c o b).
  set (fr := c_logical_rhs_function c o b).
  assert (Uo : unit_fun c fo T) by apply unit_fun_c.
  assert (Ul : unit_fun c fl Tl) by apply unit_fun_c.
  assert (Ur : unit_fun c fr Tr) by apply unit_fun_c.
  assert (Oo : ids_ok bounds fo id).
  { unfold bounds. split.
    - intros q Hq. unfold fo, c_logical_outer_function, c_logical_fun in Hq. cbn in Hq.
      destruct (track o); cbn in Hq; [tauto|]. destruct Hq as [<-|[]]. cbn.
      split; [lia|apply within; lia].
    - intros n Q. cbn in Q. destruct (track o); [|discriminate]. injection Q as <-.
      cbn [lim_recorded lim_file]. repeat split; [lia..|apply within; lia]. }
  assert (Ol : track o = false -> ids_ok bounds fl id).
  { intro Nt. unfold bounds. rewrite Nt. split; [|intros n Q; discriminate].
    intros q Hq. cbn in Hq. destruct Hq as [<-|[<-|[]]]; cbn; (split; [lia|apply within; lia]). }
  assert (Or : track o = false -> ids_ok bounds fr id).
  { intro Nt. unfold bounds. rewrite Nt. split; [|intros n Q; discriminate].
    intros q Hq. cbn in Hq. destruct Hq as [<-|[<-|[]]]; cbn; (split; [lia|apply within; lia]). }
  assert (Pv : forall T t, pass L c (ty_name c T) t = N (KAt T) [t]).
  { intros T0 t. unfold pass. rewrite declared_value. reflexivity. }
  assert (Dc : forall f T s t n before after, mf_params f = [(ty_name c T, s)] ->
    den (CNode (KM f n) [(before, t)] after) = N (KM f n) [N (KAt T) [den t]]).
  { intros f T0 s t n before after P. cbn [Cst.den map snd]. rewrite P. cbn [pass_all].
    rewrite Pv. reflexivity. }
  rewrite (Dc fo T "arg"%string) by reflexivity.
  assert (Bt : forall op s t, is_logical op = true ->
    binary_term L c b (RBin op) s t = N (KAt T) [N (KLogic op) [N (KAt Tl) [s]; N (KAt Tr) [t]]]).
  { intros op s t Ho. unfold binary_term, binary_site, binary_operands, expression. rewrite As, Ho.
    cbn [andb fst snd value_of_type rvalue]. reflexivity. }
  cbn [Cst.den]. rewrite Bt by exact Lo. unfold c_logical_with_rest.
  fold Tl Tr T. destruct (track o) eqn:Tk.
  { rewrite !Tracking by auto.
    apply (rel_same L c R E bounds bs cpp17 fo id T); auto.
    - unfold chosen, fo, c_logical_outer_function. rewrite Tk. reflexivity.
    - apply typed_at.
    - apply rel_at; [apply typed_at|]. apply rel_single; auto. apply rel_double; auto;
        apply rel_single; auto. }
  specialize (Ol eq_refl). specialize (Or eq_refl).
  rewrite (Dc fl Tl "arg"%string), (Dc fr Tr "arg"%string) by reflexivity.
  assert (Co : chosen E fo id = if E id then RPre LNot else RArg1).
  { unfold chosen, fo, c_logical_outer_function. rewrite Tk. cbn. rewrite Nat.add_0_r.
    destruct (E id); reflexivity. }
  assert (Un : c_logical_unit b = match b_op b with LAnd => 1%Z | _ => 0%Z end)
    by (unfold c_logical_unit; destruct (b_op b); reflexivity).
  assert (Cll : chosen E fl id = if E id then RPre LNot else if E (S (S id))
            then RLit (LInt (match b_op b with LAnd => 1%Z | _ => 0%Z end)) else RArg1).
  { unfold chosen, fl. cbn. replace (id + 2) with (S (S id)) by lia. rewrite Nat.add_0_r.
    rewrite <- Un. destruct (E id), (E (S (S id))); reflexivity. }
  assert (Cr : chosen E fr id = if E id then RPre LNot else if E (S id)
            then RLit (LInt (match b_op b with LAnd => 1%Z | _ => 0%Z end)) else RArg1).
  { unfold chosen, fr. cbn. replace (id + 1) with (S id) by lia. rewrite Nat.add_0_r.
    rewrite <- Un. destruct (E id), (E (S id)); reflexivity. }
  destruct (E id).
  - (* the other operator *)
    change (match b_op b with LAnd => LOr | _ => LAnd end) with (dual (b_op b)).
    rewrite Bt by (destruct (b_op b); try discriminate; reflexivity).
    apply (rel_not_not L c R E bounds bs cpp17 fo id T); auto.
    apply opp_conv, opp_conv. apply (opp_logic L c R E bounds bs cpp17 T (b_op b) Tl Tr); auto.
    + apply neg_conv. apply neg_call; auto; [apply typed_at|apply rel_single; auto].
    + apply neg_conv. apply neg_call; auto; [apply typed_at|apply rel_single; auto].
  - (* the operands, changed or not *)
    assert (Op : forall f T0 t s (b0 : bool) l0, unit_fun c f T0 -> ids_ok bounds f id ->
      mf_result f = ty_name c T0 ->
      chosen E f id = (if b0 then RLit l0 else RArg1) -> rel Same t s ->
      rel Same (N (KAt T0) [N (KM f id) [N (KAt T0) [t]]])
        (if b0 then N (KAt T0) [N KComma [N (KAt T0) [s]; RV (literal L l0)]] else N (KAt T0) [s])).
    { intros f T0 t s b0 l0 U Ok Rf Ch Hr. destruct b0; (apply rel_at; [apply typed_at|]).
      - destruct U as (p & P & D & Dr & A).
        assert (N (KAt T0) [N KComma [N (KAt T0) [s]; RV (literal L l0)]] =
          returned L c (mf_result f) (false, N KComma [snd (false, N (KAt T0) [s]); RV (literal L l0)])) as ->.
        { unfold returned. rewrite Dr. reflexivity. }
        apply (rel_rest1 L c R E bounds bs cpp17 f id p _ (false, N (KAt T0) [s])); auto.
        + unfold fits. rewrite Dr. reflexivity.
        + rewrite A. apply (arg_val L c R E bounds bs cpp17 (fst p) T0); auto.
          * apply typed_at.
          * apply rel_single; auto.
        + rewrite A. discriminate.
      - apply (rel_same L c R E bounds bs cpp17 f id T0); auto; [apply typed_at|apply rel_single; auto]. }
    apply (rel_same L c R E bounds bs cpp17 fo id T); auto; [apply typed_at|].
    apply rel_at; [apply typed_at|]. apply rel_single; auto. apply rel_double; auto.
Qed.

Notation drops := (drops L c opt R bs cpp17 E).
Fixpoint drops_all (ps : list (string * cst L)) (id : nat) : Prop :=
  match ps with
  | [] => True
  | (_, p) :: ps => drops p id /\ drops_all ps (snd (SimSpec.spec L c opt false E p id))
  end.
Lemma drops_node k ps last id : drops (CNode k ps last) id = drops_all ps id.
Proof. reflexivity. Qed.

Theorem mutate_rel t : forall id,
  well_formed L c t = true -> (track o = true -> productive L c opt t = true) ->
  (cpp17 = true -> sequenced L c t = true) ->
  (rest = false -> drops t id) -> lo <= id -> snd (spec t id) <= num ->
  rel Same (den (fst (mutate t id))) (fst (spec t id)).
Proof.
  induction t as [s v|k ps last IH|e sub IH|b l w1 w2 r IHl IHr|u w sub IH|s sub IH]
    using cst_induction; intros id Wf Pr Sq Dr Lo Le;
    cbn [well_formed productive sequenced] in Wf, Pr, Sq.
  - constructor.
  - rewrite drops_node in Dr. rewrite spec_node in Le. rewrite mutate_node, spec_node.
    cbn [fst snd] in *. apply andb_true_iff in Wf as [Sk Wf].
    assert (F : Forall2 (rel Same) (map (fun p => den (snd p)) (fst (mutate_all ps id)))
                  (fst (spec_all ps id))).
    { revert id Dr Lo Le. induction IH as [|[s p] ps Hp F IHF]; intros id Dr Lo Le; cbn; auto.
      cbn in Wf, Dr, Le. apply andb_true_iff in Wf as [W1 W2].
      pose proof (fun H => proj1 (Dr H)) as Dr1. 
      assert (Dr2 : rest = false -> drops_all ps (snd (spec p id))).
      { intro Z. pose proof (proj2 (Dr Z)) as Q. rewrite Z. exact Q. }
      assert (Sq1 : cpp17 = true -> sequenced L c p = true).
      { intro T. specialize (Sq T). cbn in Sq. apply andb_true_iff in Sq. tauto. }
      assert (Sq2 : cpp17 = true -> forallb (fun p => sequenced L c (snd p)) ps = true).
      { intro T. specialize (Sq T). cbn in Sq. apply andb_true_iff in Sq. tauto. }
      assert (Pr1 : track o = true -> productive L c opt p = true).
      { intro T. specialize (Pr T). cbn in Pr. apply andb_true_iff in Pr. tauto. }
      assert (Pr2 : track o = true -> forallb (fun p => productive L c opt (snd p)) ps = true).
      { intro T. specialize (Pr T). cbn in Pr. apply andb_true_iff in Pr. tauto. }
      specialize (Hp id W1 Pr1 Sq1 Dr1 Lo). cbn in Hp. destruct (same_ids p id) as [Q Up].
      destruct (mutate p id) as [p' i1], (spec p id) as [x i2]. cbn in Q, Up. subst i1.
      cbn [snd] in Dr2.
      assert (Mo : i2 <= snd (spec_all ps i2)).
      { clear. revert i2. induction ps as [|[s p] ps IH]; intro i; cbn; auto.
        destruct (same_ids p i) as [_ Q]. destruct (spec p i) as [x j]. cbn in Q.
        specialize (IH j). destruct (spec_all ps j). cbn in *. lia. }
      specialize (IHF W2 Pr2 Sq2 i2 Dr2 (Nat.le_trans _ _ _ Lo Up)). 
      destruct (mutate_all ps i2), (spec_all ps i2). cbn in *.
      constructor; [apply Hp; lia|apply IHF; lia]. }
    cbn [Cst.den]. destruct k; try discriminate; apply rel_n; auto.
  - apply andb_true_iff in Wf as [Go Wf]. cbn [SimSpec.drops] in Dr.
    pose proof (fun H => proj1 (Dr H)) as Dr1. 
    assert (Dr2 : rest = false ->
      expr_drops L c opt R bs cpp17 E e (snd (spec sub id)) sub (fst (spec sub id))).
    { intro Z. pose proof (proj2 (Dr Z)) as Q. rewrite Z.
      destruct (SimSpec.spec L c opt false E sub id). exact Q. }
    clear Dr.
    assert (Pr1 : track o = true -> productive L c opt sub = true).
    { intro T. specialize (Pr T). apply andb_true_iff in Pr. tauto. }
    pose proof (inactive_spec sub Wf id) as Ac.
    pose proof (fun Si => calm_mutate sub Si id) as Ca.
    cbn [SimSpec.spec] in Le. specialize (IH id Wf Pr1 Sq Dr1 Lo). destruct (same_ids sub id) as [Q Up].
    cbn [Cst.mutate SimSpec.spec].
    destruct (mutate sub id) as [sub' i1], (spec sub id) as [x i2]. cbn in Q, Up. subst i1.
    cbn [fst snd] in *. apply (mutated_expr_rel e i2 sub); auto; [|apply IH; lia].
    apply (ids_ok_of (expr_mutants c opt e)); auto; [lia|].
    intro T. specialize (Pr T). apply andb_true_iff in Pr as [Pr _]. apply negb_true_iff in Pr.
    apply Nat.eqb_neq in Pr. lia.
  - apply andb_true_iff in Wf as [Wf Wr]. apply andb_true_iff in Wf as [Go Wl].
    cbn [SimSpec.drops] in Dr.
    pose proof (fun H => proj1 (Dr H)) as Dr1.
    assert (Dr2 : rest = false -> drops r (snd (spec l id))).
    { intro Z. pose proof (proj1 (proj2 (Dr Z))) as Q. rewrite Z. exact Q. }
    assert (Dr3 : rest = false ->
      binary_drops L c opt R bs cpp17 E b (snd (spec r (snd (spec l id)))) l r
        (fst (spec l id)) (fst (spec r (snd (spec l id)))) /\
      c_logical_apart c E b (snd (spec r (snd (spec l id))))).
    { intro Z. pose proof (proj2 (proj2 (Dr Z))) as Q. rewrite Z.
      destruct (SimSpec.spec L c opt false E l id) as [x i]. cbn [fst snd].
      destruct (SimSpec.spec L c opt false E r i). exact Q. }
    clear Dr.
    assert (Sql : cpp17 = true -> sequenced L c l = true).
    { intro T. specialize (Sq T). rewrite !andb_true_iff in Sq. tauto. }
    assert (Sqr : cpp17 = true -> sequenced L c r = true).
    { intro T. specialize (Sq T). rewrite !andb_true_iff in Sq. tauto. }
    assert (Sqb : cpp17 = true -> in_sequence c b = true).
    { intro T. specialize (Sq T). rewrite !andb_true_iff in Sq. tauto. }
    assert (Prl : track o = true -> productive L c opt l = true).
    { intro T. specialize (Pr T). rewrite !andb_true_iff in Pr. tauto. }
    assert (Prr : track o = true -> productive L c opt r = true).
    { intro T. specialize (Pr T). rewrite !andb_true_iff in Pr. tauto. }
    pose proof (inactive_spec l Wl id) as Al. pose proof (fun Si => calm_mutate l Si id) as Cal.
    cbn [SimSpec.spec] in Le. specialize (IHl id Wl Prl Sql Dr1 Lo). destruct (same_ids l id) as [Q Up].
    cbn [Cst.mutate SimSpec.spec].
    destruct (mutate l id) as [l' i1], (spec l id) as [x i2]. cbn in Q, Up. subst i1. cbn [fst snd] in *.
    pose proof (inactive_spec r Wr i2) as Ar. pose proof (fun Si => calm_mutate r Si i2) as Car.
    pose proof (inactive_mutate r Wr i2) as Amr.
    specialize (IHr i2 Wr Prr Sqr Dr2 (Nat.le_trans _ _ _ Lo Up)). destruct (same_ids r i2) as [Q Mo].
    destruct (mutate r i2) as [r' i1], (spec r i2) as [y i3]. cbn in Q, Mo. subst i1. cbn [fst snd] in *.
    destruct (c_logical c b) eqn:Cl; rewrite ?andb_true_r, ?andb_false_r.
    + unfold binary_actions in Le. rewrite Cl in Le. cbn [List.length c_logical_actions] in Le.
      destruct rest eqn:Re.
      { apply mutated_c_logical_rest; auto; [lia|apply IHl; lia|apply IHr; lia]. }
      destruct (Dr3 eq_refl) as [Dr4 Apart].
      apply (mutated_c_logical_rel b i3 w1 w2 l r); auto; [lia|apply IHl; lia|apply IHr; lia].
    + apply (mutated_binary_rel b i3 w1 w2 l r); auto;
        [|intro Z; apply (Dr3 Z)|apply IHl; lia|apply IHr; lia].
      unfold binary_actions in Le, Pr. rewrite Cl in Le, Pr. rewrite map_length in Le, Pr.
      apply (ids_ok_of (binary_mutants opt b)); auto; [lia|].
      intro T. specialize (Pr T). rewrite !andb_true_iff in Pr. destruct Pr as [[Pr _] _].
      apply negb_true_iff in Pr. apply Nat.eqb_neq in Pr. lia.
  - apply andb_true_iff in Wf as [Go Wf]. cbn [SimSpec.drops] in Dr.
    pose proof (fun H => proj1 (Dr H)) as Dr1. 
    assert (Dr2 : rest = false ->
      unary_drops L c opt R bs cpp17 E u (snd (spec sub id)) sub (fst (spec sub id))).
    { intro Z. pose proof (proj2 (Dr Z)) as Q. rewrite Z.
      destruct (SimSpec.spec L c opt false E sub id). exact Q. }
    clear Dr.
    assert (Pr1 : track o = true -> productive L c opt sub = true).
    { intro T. specialize (Pr T). apply andb_true_iff in Pr. tauto. }
    pose proof (inactive_spec sub Wf id) as Ac.
    pose proof (fun Si => calm_mutate sub Si id) as Ca.
    cbn [SimSpec.spec] in Le. specialize (IH id Wf Pr1 Sq Dr1 Lo). destruct (same_ids sub id) as [Q Up].
    cbn [Cst.mutate SimSpec.spec].
    destruct (mutate sub id) as [sub' i1], (spec sub id) as [x i2]. cbn in Q, Up. subst i1.
    cbn [fst snd] in *. apply (mutated_unary_rel u i2 w sub); auto; [|apply IH; lia].
    apply (ids_ok_of (unary_mutants opt u)); auto; [lia|].
    intro T. specialize (Pr T). apply andb_true_iff in Pr as [Pr _]. apply negb_true_iff in Pr.
    apply Nat.eqb_neq in Pr. lia.
  - cbn [SimSpec.spec] in Le. cbn [SimSpec.drops] in Dr. specialize (IH id Wf Pr Sq Dr Lo).
    destruct (same_ids sub id) as [Q _]. cbn [Cst.mutate SimSpec.spec].
    destruct (mutate sub id) as [sub' i1], (spec sub id) as [x i2]. cbn in Q. subst i1.
    cbn [fst snd] in *. unfold mutated_stmt. cbn [Cst.den map snd].
    destruct (track o) eqn:T.
    + rewrite Tracking by auto. cbn [Cst.den map snd].
      apply rel_record; [lia|unfold bounds; rewrite T; cbn [lim_recorded]; lia| |apply IH; lia].
      cbn [bounds lim_file]. f_equal. lia.
    + cbn [Cst.den map snd]. destruct (E i2) eqn:Ei.
      * apply rel_drop; auto. unfold bounds. rewrite T. cbn [lim_queried]. lia.
      * apply rel_keep; auto; [unfold bounds; rewrite T; cbn [lim_queried]; lia|apply IH; lia].
Qed.
End Mutate.
