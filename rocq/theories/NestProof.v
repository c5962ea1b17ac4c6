(* Nested rewrites come out nested. *)
From Coq Require Import String Ascii List Bool Arith Lia.
From Verif Require Import Base Clang Gen GenExpr GenBinary GenUnary GenStmt Rewriter Mutation
  MutTree Run TreeSpec RunSpec RunProof RewriterProof Lang Cst
  SimMutate NestSpec.
Import ListNotations.
Local Open Scope string_scope.

(** * Documents in which the two kinds of insertions at an offset are kept separated *)

Record doc := { aft : nat -> string; bef : nat -> string; chr : nat -> string }.

Definition set (f : nat -> string) (i : nat) (s : string) : nat -> string :=
  fun j => if Nat.eqb j i then s else f j.
Definition edit_doc (D : doc) (e : edit) : doc :=
  match e with
  | InsertBefore i s => {| aft := aft D; bef := set (bef D) i (s ++ bef D i); chr := chr D |}
  | InsertAfterToken i s => {| aft := set (aft D) i (aft D i ++ s); bef := bef D; chr := chr D |}
  | ReplaceText i n s =>
      {| aft := aft D; bef := bef D;
         chr := fun j => if Nat.eqb j i then s
                         else if Nat.ltb i j && Nat.ltb j (i + n) then "" else chr D j |}
  end.
Definition edits_doc (es : list edit) (D : doc) : doc := fold_left edit_doc es D.

(* The text from offset i, n characters *)
Fixpoint seg (D : doc) (i n : nat) : string :=
  match n with
  | 0 => ""
  | S n => bef D i ++ chr D i ++ aft D (S i) ++ seg D (S i) n
  end.

Definition same (D D' : doc) (i n : nat) : Prop :=
  (forall j, i <= j < i + n -> bef D' j = bef D j /\ chr D' j = chr D j) /\
  (forall j, i < j <= i + n -> aft D' j = aft D j).
Definition outside (D D' : doc) (i n : nat) : Prop :=
  (forall j, ~ i <= j < i + n -> bef D' j = bef D j /\ chr D' j = chr D j) /\
  (forall j, ~ i < j <= i + n -> aft D' j = aft D j).

Lemma seg_same D D' n : forall i, same D D' i n -> seg D' i n = seg D i n.
Proof.
  induction n as [|n IH]; intros i [H1 H2]; auto. cbn [seg].
  destruct (H1 i) as [-> ->]; [lia|]. rewrite H2 by lia. rewrite IH; auto.
  split; intros; [apply H1|apply H2]; lia.
Qed.
Lemma seg_app D n m : forall i, seg D i (n + m) = seg D i n ++ seg D (i + n) m.
Proof.
  induction n as [|n IH]; intro i; cbn [seg plus].
  - rewrite Nat.add_0_r. reflexivity.
  - rewrite IH, !sapp_assoc. replace (i + S n) with (S i + n) by lia. reflexivity.
Qed.

Lemma outside_refl D i n : outside D D i n.
Proof. split; auto. Qed.
Lemma outside_trans D1 D2 D3 i n : outside D1 D2 i n -> outside D2 D3 i n -> outside D1 D3 i n.
Proof.
  intros [A B] [A' B']. split; intros j H.
  - destruct (A j H) as [P Q], (A' j H) as [P' Q']. rewrite P', Q'. auto.
  - rewrite B', B; auto.
Qed.
Lemma outside_weaken D D' i n i' n' : outside D D' i n -> i' <= i -> i + n <= i' + n' ->
  outside D D' i' n'.
Proof. intros [A B] L1 L2. split; intros j H; [apply A|apply B]; lia. Qed.
Lemma outside_same D D' i n i' n' : outside D D' i n -> i + n <= i' \/ i' + n' <= i ->
  same D D' i' n'.
Proof. intros [A B] H. split; intros j Hj; [apply A|apply B]; lia. Qed.

(* Original text *)
Fixpoint fresh (D : doc) (i : nat) (s : string) : Prop :=
  match s with
  | EmptyString => True
  | String c s => bef D i = "" /\ chr D i = char_string c /\ aft D (S i) = "" /\ fresh D (S i) s
  end.
Lemma fresh_seg D s : forall i, fresh D i s -> seg D i (String.length s) = s.
Proof.
  induction s as [|c s IH]; intros i H; auto. destruct H as (H1 & H2 & H3 & H4).
  cbn [seg String.length]. rewrite H1, H2, H3, IH by exact H4. reflexivity.
Qed.
Lemma fresh_app D s t : forall i,
  fresh D i (s ++ t) <-> fresh D i s /\ fresh D (i + String.length s) t.
Proof.
  induction s as [|c s IH]; intro i; cbn [fresh append String.length].
  - rewrite Nat.add_0_r. tauto.
  - rewrite IH. replace (i + S (String.length s)) with (S i + String.length s) by lia. tauto.
Qed.
Lemma fresh_same D D' s : forall i, same D D' i (String.length s) -> fresh D i s -> fresh D' i s.
Proof.
  induction s as [|c s IH]; intros i [H1 H2] F; auto. cbn in *. destruct F as (F1 & F2 & F3 & F4).
  destruct (H1 i) as [Q1 Q2]; [lia|]. rewrite Q1, Q2, (H2 (S i)) by lia. repeat split; auto.
  apply IH; auto. split; intros; [apply H1|apply H2]; lia.
Qed.

Lemma length_app s t : String.length (s ++ t) = String.length s + String.length t.
Proof. induction s; cbn; auto. Qed.

(* Insertions at the ends of a segment *)
Lemma set_same f i s : set f i s i = s.
Proof. unfold set. rewrite Nat.eqb_refl. reflexivity. Qed.
Lemma set_other f i s j : j <> i -> set f i s j = f j.
Proof. intro H. unfold set. apply Nat.eqb_neq in H. rewrite H. reflexivity. Qed.
Lemma insert_before D i s n : n <> 0 ->
  seg (edit_doc D (InsertBefore i s)) i n = s ++ seg D i n /\
  outside D (edit_doc D (InsertBefore i s)) i n.
Proof.
  intro Nz. destruct n as [|n]; [congruence|]. split.
  - cbn [seg edit_doc bef chr aft]. rewrite set_same, sapp_assoc.
    rewrite <- (seg_same D (edit_doc D (InsertBefore i s)) n (S i)); auto.
    split; intros j Hj; cbn; rewrite ?set_other by lia; auto.
  - split; intros j Hj; cbn; rewrite ?set_other by lia; auto.
Qed.
Lemma insert_after D i s n : n <> 0 ->
  seg (edit_doc D (InsertAfterToken (i + n) s)) i n = seg D i n ++ s /\
  outside D (edit_doc D (InsertAfterToken (i + n) s)) i n.
Proof.
  intro Nz. split.
  - revert i Nz. induction n as [|n IH]; intros i Nz; [congruence|]. destruct n as [|n].
    + cbn [seg edit_doc bef chr aft]. replace (i + 1) with (S i) by lia.
      rewrite set_same, !sapp_nil_r, !sapp_assoc. reflexivity.
    + specialize (IH (S i) ltac:(lia)). replace (S i + S n) with (i + S (S n)) in IH by lia.
      change (seg ?D i (S (S n))) with (bef D i ++ chr D i ++ aft D (S i) ++ seg D (S i) (S n)).
      rewrite IH. cbn [edit_doc bef chr aft]. rewrite set_other by lia.
      rewrite !sapp_assoc. reflexivity.
  - split; intros j Hj; cbn; rewrite ?set_other by lia; auto.
Qed.
Lemma wrap_seg D i s t n : n <> 0 ->
  seg (edits_doc [InsertBefore i s; InsertAfterToken (i + n) t] D) i n = s ++ seg D i n ++ t /\
  outside D (edits_doc [InsertBefore i s; InsertAfterToken (i + n) t] D) i n.
Proof.
  intro Nz. cbn [edits_doc fold_left].
  destruct (insert_before D i s n Nz) as [Q1 O1].
  destruct (insert_after (edit_doc D (InsertBefore i s)) i t n Nz) as [Q2 O2].
  split; [rewrite Q2, Q1, sapp_assoc; reflexivity|eauto using outside_trans].
Qed.
(* Replacing a token *)
Lemma seg_blank D n : forall i,
  (forall j, i <= j < i + n -> bef D j = "" /\ chr D j = "" /\ aft D (S j) = "") -> seg D i n = "".
Proof.
  induction n as [|n IH]; intros i H; auto. cbn [seg].
  destruct (H i) as (-> & -> & ->); [lia|]. apply IH. intros j Hj. apply H. lia.
Qed.
Lemma fresh_inserts D s : forall i, fresh D i s ->
  forall j, i <= j < i + String.length s -> bef D j = "" /\ aft D (S j) = "".
Proof.
  induction s as [|c s IH]; intros i F j Hj; cbn in *; [lia|]. destruct F as (F1 & F2 & F3 & F4).
  destruct (Nat.eq_dec j i) as [->|Ne]; auto. apply (IH (S i)); auto. lia.
Qed.
Lemma replace_seg D i tok s : tok <> "" -> fresh D i tok ->
  seg (edit_doc D (ReplaceText i (String.length tok) s)) i (String.length tok) = s /\
  outside D (edit_doc D (ReplaceText i (String.length tok) s)) i (String.length tok).
Proof.
  intros Ne F. pose proof (fresh_inserts _ _ _ F) as I. destruct tok as [|c tok]; [congruence|].
  cbn [String.length] in *. set (n := String.length tok) in *. split.
  - cbn [seg]. rewrite seg_blank.
    + cbn [edit_doc bef chr aft]. rewrite Nat.eqb_refl. destruct (I i) as [-> ->]; [lia|].
      cbn [append]. rewrite sapp_nil_r. reflexivity.
    + intros j Hj. cbn [edit_doc bef chr aft]. destruct (I j) as [-> ->]; [lia|].
      replace (Nat.eqb j i) with false by (symmetry; apply Nat.eqb_neq; lia).
      replace (Nat.ltb i j) with true by (symmetry; apply Nat.ltb_lt; lia).
      replace (Nat.ltb j (i + S n)) with true by (symmetry; apply Nat.ltb_lt; lia). auto.
  - split; intros j Hj; cbn [edit_doc bef chr aft]; auto. split; auto.
    replace (Nat.eqb j i) with false by (symmetry; apply Nat.eqb_neq; lia).
    replace (Nat.ltb i j && Nat.ltb j (i + S n)) with false; auto.
    symmetry. apply andb_false_iff. rewrite !Nat.ltb_ge. lia.
Qed.
Lemma edits_doc_app e1 e2 D : edits_doc (e1 ++ e2)%list D = edits_doc e2 (edits_doc e1 D).
Proof. apply fold_left_app. Qed.

Lemma seg_outside D D' i n i' n' : outside D D' i n -> i + n <= i' \/ i' + n' <= i ->
  seg D' i' n' = seg D i' n'.
Proof. intros O H. apply seg_same. eauto using outside_same. Qed.
Lemma fresh_outside D D' i n i' s : outside D D' i n ->
  i + n <= i' \/ i' + String.length s <= i -> fresh D i' s -> fresh D' i' s.
Proof. intros O H. apply fresh_same. eauto using outside_same. Qed.

(** * Edits of a list of places *)

Section Places.
Variable c : ctx.
Variable o : options.

Definition count (p : place) : nat :=
  match p with
  | PExpr e => List.length (expr_mutants c (optimise o) e)
  | PBin b => List.length (binary_actions c (optimise o) b)
  | PUn u => List.length (unary_mutants (optimise o) u)
  | PStmt _ => 1
  end.
Definition edits_at (p : place) (id : nat) : list edit :=
  match p with
  | PExpr e => expr_edits c o e id
  | PBin b => if c_logical c b then c_logical_edits c o b id else binary_edits c o b id
  | PUn u => unary_edits c o u id
  | PStmt s => stmt_edits o s id
  end.
Fixpoint counts (ps : list place) : nat :=
  match ps with [] => 0 | p :: ps => count p + counts ps end.
Fixpoint place_edits (id : nat) (ps : list place) : list edit :=
  match ps with
  | [] => []
  | p :: ps => edits_at p id ++ place_edits (id + count p) ps
  end%list.

Lemma counts_app p q : counts (p ++ q) = counts p + counts q.
Proof. induction p; cbn; lia. Qed.
Lemma place_edits_app p q : forall id,
  place_edits id (p ++ q) = (place_edits id p ++ place_edits (id + counts p) q)%list.
Proof.
  induction p as [|x p IH]; intro id; cbn [counts place_edits app].
  - rewrite Nat.add_0_r. reflexivity.
  - rewrite IH, <- app_assoc, Nat.add_assoc. reflexivity.
Qed.
Lemma apply_places m first id : first <= id ->
  a_edits (apply_mutation c o m first id) = edits_at (place_of m) (id - first) /\
  mutant_count c (optimise o) m = count (place_of m).
Proof. intro Le. destruct m; cbn; auto. Qed.
Lemma edits_from_places first ms : forall id, first <= id ->
  edits_from c o first id ms = place_edits (id - first) (map place_of ms).
Proof.
  induction ms as [|m ms IH]; intros id Le; cbn [edits_from place_edits map]; auto.
  destruct (apply_places m first id Le) as [-> Q]. rewrite IH, Q by lia.
  replace (id + count (place_of m) - first) with (id - first + count (place_of m)) by lia.
  reflexivity.
Qed.

(** * The edits of a site *)

Lemma ends_star s : ends_with_star (s ++ "*") = true.
Proof. induction s as [|a s IH]; auto. cbn. destruct s; auto. Qed.
Lemma ends_star_app s t : ends_with_star t = true -> ends_with_star (s ++ t) = true.
Proof.
  intro H. induction s as [|a s IH]; auto. cbn. destruct (s ++ t) eqn:E; [discriminate|exact IH].
Qed.
Lemma c_input_star e : cpp c = false -> e_lvalue e = true ->
  ends_with_star (input_type c e) = true.
Proof.
  intros C V. unfold input_type, c_type_modifiers. rewrite C, V.
  destruct (e_volatile e), (e_const e); rewrite <- ?sapp_assoc; apply ends_star.
Qed.

Ltac norm := repeat first [progress rewrite ?sapp_assoc, ?sapp_nil_r | progress cbn [append]].

Section Tree.
Variable L : lang.

Lemma text_call1 f id b (a : cst L) z :
  text (call1 L f id b a z) =
  (b ++ mf_name f ++ "(") ++ text a ++ z ++ ", " ++ string_of_nat id ++ ")".
Proof. cbn [call1 text map fst snd concat_strings]. rewrite sapp_nil_r, !sapp_assoc. reflexivity. Qed.
Lemma text_one k b (a : cst L) z : text (CNode k [(b, a)] z) = b ++ text a ++ z.
Proof. cbn. rewrite sapp_nil_r, !sapp_assoc. reflexivity. Qed.

Lemma expr_text e id (sub : cst L) :
  text (mutated_expr L c o e id sub) = expr_prefix c o e ++ text sub ++ expr_suffix c e id.
Proof.
  unfold mutated_expr, expr_prefix, expr_suffix.
  assert (Q : negb (cpp c) && e_lvalue e && ends_with_star (input_type c e) =
              negb (cpp c) && e_lvalue e).
  { destruct (cpp c) eqn:C, (e_lvalue e) eqn:V; auto. rewrite c_input_star; auto. }
  rewrite Q. clear Q. set (paren := match e_binop e with Some Comma => true | _ => false end).
  replace (match e_binop e with Some Comma => "(" | _ => "" end) with (if paren then "(" else "")
    by (unfold paren; destruct (e_binop e) as [[]|]; reflexivity).
  replace (match e_binop e with Some Comma => ")" | _ => "" end) with (if paren then ")" else "")
    by (unfold paren; destruct (e_binop e) as [[]|]; reflexivity).
  generalize (if e_preceded_by_ident e then " " else ""), (if paren then "(" else ""),
    (if paren then ")" else ""). clear paren. intros space lp rp.
  destruct (e_init_list_cast e), (cpp c && e_side_effects e) eqn:D,
    (negb (cpp c) && e_lvalue e) eqn:P; try (exfalso; destruct (cpp c); discriminate);
    rewrite ?text_one, ?text_call1, ?text_one;
    change (mf_name (expr_function c o e)) with (expr_function_name c (optimise o) e);
    generalize (expr_function_name c (optimise o) e), (input_type c e), (string_of_nat id), (text sub);
    intros name ty ids x; destruct (e_cxx11_constant e); cbn [negb]; norm; reflexivity.
Qed.


Lemma binary_text b id w1 w2 : exists p1 s1 p2 s2,
  binary_edits c o b id =
    [ReplaceText (b_op_offset b) (String.length (bop_str (b_op b))) ",";
     InsertBefore (r_begin (e_range (b_lhs b))) p1;
     InsertAfterToken (r_end (e_range (b_lhs b))) s1;
     InsertBefore (r_begin (e_range (b_rhs b))) p2;
     InsertAfterToken (r_end (e_range (b_rhs b))) s2] /\
  forall l r : cst L, text (mutated_binary L c o b id l w1 w2 r) =
    (p1 ++ text l ++ s1) ++ w1 ++ "," ++ w2 ++ (p2 ++ text r ++ s2).
Proof.
  unfold binary_edits. eexists _, _, _, _. split; [reflexivity|]. intros l r.
  unfold mutated_binary, lambda. cbn [text map fst snd concat_strings].
  change (mf_name (binary_function c o b)) with (binary_function_name c (optimise o) b).
  destruct (lhs_delayed c b), (negb (cpp c) && is_assign (b_op b)), (rhs_delayed c b);
    rewrite ?text_one;
    generalize (binary_function_name c (optimise o) b), (string_of_nat id), (text l), (text r),
      (binary_lhs_type c b), (binary_rhs_type c b); intros; norm; reflexivity.
Qed.

Lemma unary_text u id w : exists p s,
  unary_edits c o u id =
    [ReplaceText (u_op_offset u) (String.length (uop_str (u_op u))) "";
     InsertBefore (r_begin (u_range u)) p; InsertAfterToken (r_end (u_range u)) s] /\
  forall sub : cst L, text (mutated_unary L c o u id w sub) =
    p ++ (if is_prefix (u_op u) then w ++ text sub else text sub ++ w) ++ s.
Proof.
  unfold unary_edits. eexists _, _. split; [reflexivity|]. intro sub.
  unfold mutated_unary.
  assert (Q : unary_delayed c u = true -> negb (cpp c) && is_incdec (u_op u) = false).
  { unfold unary_delayed. destruct (cpp c); auto; discriminate. }
  destruct (unary_delayed c u); [rewrite (Q eq_refl)|clear Q; destruct (negb (cpp c) && is_incdec (u_op u))];
    rewrite ?text_one, ?text_call1, ?text_one;
    change (mf_name (unary_function c o u)) with (unary_function_name c (optimise o) u);
    generalize (unary_function_name c (optimise o) u), (string_of_nat id), (text sub),
      (unary_input_type c u); intros; destruct (is_prefix (u_op u)), (e_cxx11_constant (u_sub u));
    cbn [negb]; norm; reflexivity.
Qed.

(** * The edits of a tree *)

Definition outcome (D D' : doc) (off n : nat) (s : string) : Prop :=
  seg D' off n = s /\ outside D D' off n.

(* An operand with text around it *)
Lemma wrapped D D' off n s p q : n <> 0 -> outcome D D' off n s ->
  outcome D (edits_doc [InsertBefore off p; InsertAfterToken (off + n) q] D') off n (p ++ s ++ q).
Proof.
  intros Nz [Q O]. destruct (wrap_seg D' off p q n Nz) as [Q' O']. unfold outcome.
  rewrite Q', Q. eauto using outside_trans.
Qed.
Lemma outcome_before D D' off n s p : n <> 0 -> outcome D D' off n s ->
  outcome D (edit_doc D' (InsertBefore off p)) off n (p ++ s).
Proof.
  intros Nz [Q O]. destruct (insert_before D' off p n Nz) as [Q' O']. unfold outcome.
  rewrite Q', Q. eauto using outside_trans.
Qed.

Ltac sz := cbn [String.length text] in *; rewrite ?length_app in *; lia.

(* Two operands and an operator between them: the operands are changed, then the operator,
   then text is put around the operands *)
Lemma around D D1 D2 D3 D4 D5 off l w1 op w2 r l' op' r' p1 s1 p2 s2 :
  fresh D off (l ++ w1 ++ op ++ w2 ++ r) ->
  let nl := String.length l in let n1 := String.length w1 in let no := String.length op in
  let n2 := String.length w2 in let nr := String.length r in
  outcome D D1 off nl l' ->
  outcome D1 D2 (off + nl + n1 + no + n2) nr r' ->
  outcome D2 D3 (off + nl + n1) no op' ->
  outcome D3 D4 off nl (p1 ++ seg D3 off nl ++ s1) ->
  outcome D4 D5 (off + nl + n1 + no + n2) nr (p2 ++ seg D4 (off + nl + n1 + no + n2) nr ++ s2) ->
  outcome D D5 off (nl + (n1 + (no + (n2 + nr))))
    ((p1 ++ l' ++ s1) ++ w1 ++ op' ++ w2 ++ (p2 ++ r' ++ s2)).
Proof.
  intros F nl n1 no n2 nr [Q1 O1] [Q2 O2] [Q3 O3] [Q4 O4] [Q5 O5].
  apply fresh_app in F. destruct F as [_ F]. apply fresh_app in F. destruct F as [Fw1 F].
  apply fresh_app in F. destruct F as [_ F]. apply fresh_app in F. destruct F as [Fw2 _].
  fold nl n1 no n2 in Fw1, Fw2.
  apply fresh_seg in Fw1, Fw2. fold n1 n2 in Fw1, Fw2. split.
  - rewrite !seg_app.
    rewrite (seg_outside _ _ _ _ off nl O5), Q4, (seg_outside _ _ _ _ off nl O3),
      (seg_outside _ _ _ _ off nl O2), Q1 by lia.
    rewrite (seg_outside _ _ _ _ (off + nl) n1 O5), (seg_outside _ _ _ _ (off + nl) n1 O4),
      (seg_outside _ _ _ _ (off + nl) n1 O3), (seg_outside _ _ _ _ (off + nl) n1 O2),
      (seg_outside _ _ _ _ (off + nl) n1 O1), Fw1 by lia.
    rewrite (seg_outside _ _ _ _ (off + nl + n1) no O5),
      (seg_outside _ _ _ _ (off + nl + n1) no O4), Q3 by lia.
    rewrite (seg_outside _ _ _ _ (off + nl + n1 + no) n2 O5),
      (seg_outside _ _ _ _ (off + nl + n1 + no) n2 O4),
      (seg_outside _ _ _ _ (off + nl + n1 + no) n2 O3),
      (seg_outside _ _ _ _ (off + nl + n1 + no) n2 O2),
      (seg_outside _ _ _ _ (off + nl + n1 + no) n2 O1), Fw2 by lia.
    rewrite Q5, (seg_outside _ _ _ _ (off + nl + n1 + no + n2) nr O4),
      (seg_outside _ _ _ _ (off + nl + n1 + no + n2) nr O3), Q2 by lia. reflexivity.
  - eapply outside_trans; [eapply outside_trans; [eapply outside_trans; [eapply outside_trans|]|]|].
    + eapply (outside_weaken _ _ off nl); [exact O1|lia|lia].
    + eapply (outside_weaken _ _ (off + nl + n1 + no + n2) nr); [exact O2|lia|lia].
    + eapply (outside_weaken _ _ (off + nl + n1) no); [exact O3|lia|lia].
    + eapply (outside_weaken _ _ off nl); [exact O4|lia|lia].
    + eapply (outside_weaken _ _ (off + nl + n1 + no + n2) nr); [exact O5|lia|lia].
Qed.

Lemma outcome_refl D off s : fresh D off s -> outcome D D off (String.length s) s.
Proof. intro F. split; [apply fresh_seg; exact F|apply outside_refl]. Qed.
Lemma outcome_outer D D' D'' off n s s' : outcome D D' off n s -> outcome D' D'' off n s' ->
  outcome D D'' off n s'.
Proof. intros [_ O] [Q O']. split; eauto using outside_trans. Qed.

Fixpoint placed_all (ps : list (string * cst L)) (off : nat) : Prop :=
  match ps with
  | [] => True
  | (s, p) :: ps =>
      placed p (off + String.length s) /\ placed_all ps (off + String.length s + size p)
  end.
Definition texts (ps : list (string * cst L)) : string :=
  concat_strings (map (fun p => fst p ++ text (snd p)) ps).

Lemma bop_nonempty b : bop_str b <> "".
Proof. destruct b; discriminate. Qed.
Lemma uop_nonempty u : uop_str u <> "".
Proof. destruct u; discriminate. Qed.

Lemma nested t : forall id off D, placed t off -> fresh D off (text t) ->
  outcome D (edits_doc (place_edits id (places t)) D) off (size t)
    (text (fst (mutate L c o t id))) /\
  snd (mutate L c o t id) = id + counts (places t).
Proof.
  induction t as [s v|k ps last IH|e sub IH|b l w1 w2 r IHl IHr|u w sub IH|s sub IH]
    using cst_induction; intros id off D P F.
  - cbn. split; [|lia]. apply outcome_refl. exact F.
  - rewrite mutate_node. cbn [fst snd places].
    change (placed (CNode k ps last) off) with (placed_all ps off) in P.
    cbn [text] in F. fold (texts ps) in F. apply fresh_app in F. destruct F as [F Fl].
    assert (G : outcome D (edits_doc (place_edits id (flat_map (fun p => places (snd p)) ps)) D)
              off (String.length (texts ps)) (texts (fst (mutate_all L c o ps id))) /\
            snd (mutate_all L c o ps id) = id + counts (flat_map (fun p => places (snd p)) ps)).
    { clear Fl last k. revert id off D P F.
      induction IH as [|[s p] ps IHp _ IHps]; intros id off D P F.
      - split; [|cbn; lia]. apply (outcome_refl D off ""). exact F.
      - cbn [placed_all] in P. destruct P as [Pp Pps].
        change (texts ((s, p) :: ps)) with ((s ++ text p) ++ texts ps) in *.
        rewrite sapp_assoc in F. apply fresh_app in F. destruct F as [Fs F].
        apply fresh_app in F. destruct F as [Fp Fps]. cbn [snd] in IHp.
        cbn [flat_map snd mutate_all]. rewrite place_edits_app, edits_doc_app, counts_app.
        destruct (IHp id _ D Pp Fp) as [[Q1 O1] N1]. unfold size in *.
        destruct (mutate L c o p id) as [p' id']. cbn [fst snd] in *. subst id'.
        remember (edits_doc (place_edits id (places p)) D) as D1 eqn:E1. clear E1.
        destruct (IHps (id + counts (places p)) _ D1 Pps) as [[Q2 O2] N2].
        { eapply fresh_outside; [exact O1|lia|exact Fps]. }
        destruct (mutate_all L c o ps (id + counts (places p))) as [ps' id2].
        cbn [fst snd] in *. split; [|lia].
        change (texts ((s, p') :: ps')) with ((s ++ text p') ++ texts ps').
        remember (edits_doc (place_edits (id + counts (places p))
                    (flat_map (fun p => places (snd p)) ps)) D1) as D2 eqn:E2. clear E2.
        rewrite !length_app in *. split.
        + rewrite !seg_app. replace (off + (String.length s + String.length (text p)))
            with (off + String.length s + String.length (text p)) by lia.
          rewrite Q2. f_equal.
          rewrite (seg_outside _ _ _ _ off (String.length s) O2),
            (seg_outside _ _ _ _ off (String.length s) O1), (fresh_seg _ _ _ Fs) by lia. f_equal.
          rewrite (seg_outside _ _ _ _ _ _ O2) by lia. exact Q1.
        + eapply outside_trans.
          * eapply outside_weaken; [exact O1|lia|lia].
          * eapply outside_weaken; [exact O2|lia|lia]. }
    destruct G as [[Q O] N]. split; [|exact N]. unfold size. cbn [text].
    fold (texts ps) (texts (fst (mutate_all L c o ps id))). rewrite length_app. split.
    + rewrite seg_app, Q. f_equal. rewrite (seg_outside _ _ _ _ _ _ O) by lia.
      apply fresh_seg. exact Fl.
    + eapply outside_weaken; [exact O|lia|lia].
  - cbn [placed] in P. destruct P as [(Z & B & E) P]. cbn [text] in F.
    destruct (IH id off D P F) as [G N]. cbn [mutate places].
    destruct (mutate L c o sub id) as [sub' id']. cbn [fst snd] in *. subst id'.
    rewrite counts_app, place_edits_app, edits_doc_app. cbn [counts count place_edits edits_at].
    rewrite app_nil_r, expr_text. split; [|lia]. unfold expr_edits. rewrite B, E.
    apply wrapped; [exact Z|exact G].
  - cbn [placed] in P. destruct P as ((Zl & Bl & El) & Pl & Op & (Zr & Br & Er) & Pr & (Zb & Bb & Eb)).
    cbn [text] in F. unfold size in *.
    pose proof F as F0. apply fresh_app in F0. destruct F0 as [Fl F0].
    apply fresh_app in F0. destruct F0 as [_ F0]. apply fresh_app in F0. destruct F0 as [Fo F0].
    apply fresh_app in F0. destruct F0 as [_ Fr].
    destruct (IHl id off D Pl Fl) as [Gl Nl]. cbn [mutate places].
    destruct (mutate L c o l id) as [l' id']. cbn [fst snd] in *. subst id'.
    pose proof (proj2 Gl) as Ol.
    destruct (IHr (id + counts (places l)) _ (edits_doc (place_edits id (places l)) D) Pr) as [Gr Nr].
    { eapply fresh_outside; [exact Ol|lia|exact Fr]. }
    destruct (mutate L c o r (id + counts (places l))) as [r' id']. cbn [fst snd] in *. subst id'.
    rewrite !counts_app, !place_edits_app, !edits_doc_app. cbn [counts count place_edits edits_at].
    rewrite app_nil_r. split; [|lia].
    remember (edits_doc (place_edits id (places l)) D) as D1 eqn:E1. clear E1.
    remember (edits_doc (place_edits (id + counts (places l)) (places r)) D1) as D2 eqn:E2. clear E2.
    pose proof (proj2 Gr) as Or.
    assert (Fo2 : fresh D2 (off + String.length (text l) + String.length w1) (bop_str (b_op b))).
    { eapply fresh_outside; [exact Or|lia|]. eapply fresh_outside; [exact Ol|lia|exact Fo]. }
    cbn [text] in *. rewrite !length_app in *.
    destruct (c_logical c b).
    + unfold c_logical_edits, mutated_c_logical. rewrite text_call1, edits_doc_app.
      change (mf_name (c_logical_outer_function c o b))
        with (binary_function_name c (optimise o) b ++ "_outer").
      remember (id + counts (places l) + counts (places r)) as i eqn:Ei. clear Ei.
      cbn [append]. rewrite Bb, Eb, (sapp_assoc _ "_outer" "("). cbn [append].
      apply wrapped; [exact Zb|]. cbn [text].
      remember (binary_function_name c (optimise o) b) as name eqn:En.
      destruct (track o); cbn [negb when].
      * assert (G := around D D1 D2 D2 D2 D2 off _ w1 _ w2 _ _ _ _ "" "" "" "" F Gl Gr
                       (outcome_refl _ _ _ Fo2)).
        cbn [append] in G. rewrite !sapp_nil_r in G. apply G; split; auto using outside_refl.
      * rewrite !text_call1. cbn [append].
        change (mf_name (c_logical_lhs_function c o b))
          with (binary_function_name c (optimise o) b ++ "_lhs").
        change (mf_name (c_logical_rhs_function c o b))
          with (binary_function_name c (optimise o) b ++ "_rhs"). rewrite <- En.
        rewrite (sapp_assoc _ "_lhs" "("), (sapp_assoc _ "_rhs" "("). cbn [append].
        rewrite Bl, El, Br, Er. eapply around; [exact F|exact Gl|exact Gr|apply outcome_refl; exact Fo2| |].
        -- apply wrap_seg. exact Zl.
        -- apply wrap_seg. exact Zr.
    + destruct (binary_text b (id + counts (places l) + counts (places r)) w1 w2)
        as (p1 & s1 & p2 & s2 & -> & ->). rewrite Op, Bl, El, Br, Er.
      eapply around; [exact F|exact Gl|exact Gr| | |].
      * apply (replace_seg _ _ _ "," (bop_nonempty (b_op b)) Fo2).
      * apply wrap_seg. exact Zl.
      * apply wrap_seg. exact Zr.
  - cbn [placed] in P. destruct P as [(Z & B & E) P]. unfold size in *. cbn [text] in *.
    unfold un_text in *. cbn [mutate places].
    rewrite counts_app, place_edits_app, edits_doc_app. cbn [counts count place_edits edits_at].
    rewrite app_nil_r.
    destruct (unary_text u (id + counts (places sub)) w) as (p & q & Qe & Qt). rewrite Qe.
    cbn [edits_doc fold_left]. 
    match goal with |- outcome _ (edit_doc (edit_doc ?d ?a) ?b) _ _ _ /\ _ =>
      change (edit_doc (edit_doc d a) b) with (edits_doc [a; b] d) end.
    rewrite B, E.
    destruct (is_prefix (u_op u)) eqn:Pre; destruct P as [Op P]; rewrite Op;
      rewrite !length_app in *.
    + pose proof F as F0. apply fresh_app in F0. destruct F0 as [Fo F0].
      apply fresh_app in F0. destruct F0 as [Fw Fs].
      destruct (IH id _ D P Fs) as [G N].
      destruct (mutate L c o sub id) as [sub' id']. cbn [fst snd] in *. subst id'.
      split; [|lia]. rewrite Qt. apply wrapped; [exact Z|]. destruct G as [Q O].
      remember (edits_doc (place_edits id (places sub)) D) as D1 eqn:E1. clear E1.
      assert (Fo1 : fresh D1 off (uop_str (u_op u))).
      { eapply fresh_outside; [exact O|lia|exact Fo]. }
      destruct (replace_seg _ _ _ "" (uop_nonempty (u_op u)) Fo1) as [Q2 O2]. split.
      * rewrite !seg_app, Q2. cbn [append].
        rewrite (seg_outside _ _ _ _ _ (String.length w) O2), (seg_outside _ _ _ _ _ (String.length w) O),
          (fresh_seg _ _ _ Fw) by lia. f_equal.
        rewrite (seg_outside _ _ _ _ _ _ O2) by lia. exact Q.
      * eapply outside_trans.
        -- eapply outside_weaken; [exact O|lia|lia].
        -- eapply outside_weaken; [exact O2|lia|lia].
    + pose proof F as F0. apply fresh_app in F0. destruct F0 as [Fs F0].
      apply fresh_app in F0. destruct F0 as [Fw Fo].
      destruct (IH id _ D P Fs) as [G N].
      destruct (mutate L c o sub id) as [sub' id']. cbn [fst snd] in *. subst id'.
      split; [|lia]. rewrite Qt. apply wrapped; [exact Z|]. destruct G as [Q O].
      remember (edits_doc (place_edits id (places sub)) D) as D1 eqn:E1. clear E1.
      assert (Fo1 : fresh D1 (off + String.length (text sub) + String.length w) (uop_str (u_op u))).
      { eapply fresh_outside; [exact O|lia|exact Fo]. }
      destruct (replace_seg _ _ _ "" (uop_nonempty (u_op u)) Fo1) as [Q2 O2]. split.
      * rewrite !seg_app, Q2, !sapp_nil_r.
        rewrite (seg_outside _ _ _ _ off _ O2), Q by lia. f_equal.
        rewrite (seg_outside _ _ _ _ _ _ O2), (seg_outside _ _ _ _ _ _ O) by lia.
        exact (fresh_seg _ _ _ Fw).
      * eapply outside_trans.
        -- eapply outside_weaken; [exact O|lia|lia].
        -- eapply outside_weaken; [exact O2|lia|lia].
  - cbn [placed] in P. destruct P as [(Z & B & E) P]. cbn [text] in F.
    destruct (IH id off D P F) as [G N]. cbn [mutate places].
    destruct (mutate L c o sub id) as [sub' id']. cbn [fst snd] in *. subst id'.
    rewrite counts_app, place_edits_app, edits_doc_app. cbn [counts count place_edits edits_at].
    rewrite app_nil_r. split; [|lia]. unfold stmt_edits, mutated_stmt. rewrite B, E.
    destruct (track o); rewrite text_one.
    + rewrite sapp_nil_r. apply outcome_before; [exact Z|exact G].
    + apply wrapped; [exact Z|exact G].
Qed.
End Tree.
End Places.

(** * The cells of the rewriter *)

Definition doc_of (text : string) : doc :=
  {| aft := fun _ => ""; bef := fun _ => "";
     chr := fun i => match String.get i text with Some a => char_string a | None => "" end |}.
Lemma doc_fresh s : forall pre i post, i = String.length pre -> fresh (doc_of (pre ++ s ++ post)) i s.
Proof.
  induction s as [|a s IH]; intros pre i post ->; cbn [fresh]; auto.
  split; [reflexivity|]. split.
  - cbn [doc_of chr]. replace (String.get (String.length pre) (pre ++ String a s ++ post))
      with (Some a); auto. induction pre; auto.
  - split; [reflexivity|]. specialize (IH (pre ++ String a "") (S (String.length pre)) post).
    rewrite sapp_assoc in IH. apply IH. rewrite length_app. cbn. lia.
Qed.

(* A list of cells from offset i on shows a document *)
Fixpoint shows (D : doc) (i : nat) (cs : list cell) : Prop :=
  match cs with
  | [] => True
  | x :: cs => x = (aft D i ++ bef D i, chr D i) /\ shows D (S i) cs
  end.
Lemma shows_app D c1 c2 : forall i,
  shows D i (c1 ++ c2) <-> shows D i c1 /\ shows D (i + List.length c1) c2.
Proof.
  induction c1 as [|x c1 IH]; intro i; cbn [shows app List.length].
  - rewrite Nat.add_0_r. tauto.
  - rewrite IH. replace (i + S (List.length c1)) with (S i + List.length c1) by lia. tauto.
Qed.
Lemma shows_render D cs : forall i, shows D i cs ->
  render cs ++ aft D (i + List.length cs) = aft D i ++ seg D i (List.length cs).
Proof.
  induction cs as [|x cs IH]; intros i H; cbn [List.length].
  - rewrite Nat.add_0_r. cbn. rewrite sapp_nil_r. reflexivity.
  - destruct H as [-> H]. change (render (?x :: cs)) with (cell_text x ++ render cs).
    unfold cell_text. cbn [fst snd seg]. specialize (IH _ H).
    replace (i + S (List.length cs)) with (S i + List.length cs) by lia.
    rewrite !sapp_assoc, IH. reflexivity.
Qed.
Lemma shows_start text : forall pre, shows (doc_of (pre ++ text)) (String.length pre) (cells_of text).
Proof.
  induction text as [|a text IH]; intro pre; cbn [cells_of shows].
  - split; auto. cbn [doc_of aft bef chr append]. f_equal.
    replace (String.get (String.length pre) (pre ++ "")) with (@None ascii); auto.
    induction pre; auto.
  - split.
    + cbn [doc_of aft bef chr append]. f_equal.
      replace (String.get (String.length pre) (pre ++ String a text)) with (Some a); auto.
      induction pre; auto.
    + specialize (IH (pre ++ String a "")). rewrite sapp_assoc, length_app in IH. cbn in IH.
      replace (S (String.length pre)) with (String.length pre + 1) by lia. exact IH.
Qed.

Lemma shows_update D D' n f cs : forall i,
  shows D i cs ->
  (forall j, j <> i + n -> aft D' j = aft D j /\ bef D' j = bef D j /\ chr D' j = chr D j) ->
  f (aft D (i + n) ++ bef D (i + n), chr D (i + n)) =
    (aft D' (i + n) ++ bef D' (i + n), chr D' (i + n)) ->
  shows D' i (update_nth n f cs).
Proof.
  assert (K : forall cs i, shows D i cs ->
            (forall j, i <= j -> aft D' j = aft D j /\ bef D' j = bef D j /\ chr D' j = chr D j) ->
            shows D' i cs).
  { clear. induction cs as [|x cs IH]; intros i H E; auto. destruct H as [-> H]. split.
    - destruct (E i) as (-> & -> & ->); auto.
    - apply IH; auto. intros j Hj. apply E. lia. }
  revert n. induction cs as [|x cs IH]; intros n i H E Q; destruct n as [|n]; cbn [update_nth]; auto.
  - destruct H as [-> H]. rewrite Nat.add_0_r in *. split; auto. apply (K _ _ H).
    intros j Hj. apply E. lia.
  - destruct H as [-> H]. split.
    + destruct (E i) as (-> & -> & ->); [lia|reflexivity].
    + replace (i + S n) with (S i + n) in * by lia. apply IH; auto.
Qed.

Definition blank_doc (D : doc) (i n : nat) : doc :=
  {| aft := aft D; bef := bef D;
     chr := fun j => if Nat.leb i j && Nat.ltb j (i + n) then "" else chr D j |}.
Lemma shows_blank n : forall D i cs, shows D 0 cs -> shows (blank_doc D i n) 0 (blank i n cs).
Proof.
  assert (X : forall D D', (forall j, aft D' j = aft D j /\ bef D' j = bef D j /\ chr D' j = chr D j) ->
            forall cs i, shows D i cs -> shows D' i cs).
  { intros D D' E. induction cs as [|x cs IH]; intros i H; auto. destruct H as [-> H]. split; auto.
    destruct (E i) as (-> & -> & ->). reflexivity. }
  induction n as [|n IH]; intros D i cs H; cbn [blank].
  - apply (X D); auto. intro j. cbn [blank_doc aft bef chr]. repeat split; auto.
    replace (Nat.leb i j && Nat.ltb j (i + 0)) with false; auto.
    symmetry. apply andb_false_iff. rewrite Nat.leb_gt, Nat.ltb_ge. lia.
  - assert (H1 : shows (blank_doc D i 1) 0 (update_nth i (fun x => (fst x, "")) cs)).
    { apply (shows_update D); auto.
      - intros j Hj. cbn [blank_doc aft bef chr]. repeat split; auto.
        replace (Nat.leb i j && Nat.ltb j (i + 1)) with false; auto.
        symmetry. apply andb_false_iff. rewrite Nat.leb_gt, Nat.ltb_ge. lia.
      - cbn [blank_doc aft bef chr fst snd plus]. f_equal.
        replace (Nat.leb i i && Nat.ltb i (i + 1)) with true; auto.
        symmetry. apply andb_true_iff. rewrite Nat.leb_le, Nat.ltb_lt. lia. }
    apply (IH _ (S i)) in H1. revert H1. apply X. intro j. cbn [blank_doc aft bef chr].
    repeat split; auto.
    destruct (Nat.leb_spec i j), (Nat.leb_spec (S i) j), (Nat.ltb_spec j (i + S n)),
      (Nat.ltb_spec j (i + 1)), (Nat.ltb_spec j (S i + n)); cbn [andb]; auto; lia.
Qed.

(* The two kinds of insertions of a list of edits happen at different offsets *)
Definition edits_apart (B A : nat -> Prop) (es : list edit) : Prop :=
  forall e, In e es ->
    match e with
    | InsertBefore i _ => B i
    | InsertAfterToken i _ => A i
    | ReplaceText _ n _ => n <> 0
    end.
Lemma shows_edits (B A : nat -> Prop) (dis : forall i, B i -> A i -> False) es :
  forall D cs, edits_apart B A es ->
  (forall i, bef D i <> "" -> B i) -> (forall i, aft D i <> "" -> A i) ->
  shows D 0 cs -> shows (edits_doc es D) 0 (apply_edits es cs).
Proof.
  induction es as [|e es IH]; intros D cs Ap HB HA H; [exact H|].
  cbn [edits_doc fold_left]. unfold apply_edits. cbn [fold_left].
  assert (Ap' : edits_apart B A es) by (intros x Hx; apply Ap; right; exact Hx).
  pose proof (Ap e (or_introl eq_refl)) as He.
  apply IH; auto; clear IH.
  - intro i. destruct e; cbn [edit_doc bef]; auto. unfold set.
    destruct (Nat.eqb_spec i off); subst; auto.
  - intro i. destruct e; cbn [edit_doc aft]; auto. unfold set.
    destruct (Nat.eqb_spec i off); subst; auto.
  - destruct e as [i s|i s|i n s]; cbn [apply_edit].
    + apply (shows_update D); auto.
      * intros j Hj. cbn [edit_doc bef aft chr plus] in *. rewrite set_other by auto. auto.
      * cbn [edit_doc bef aft chr plus fst snd] in *. rewrite set_same.
        assert (Q : aft D i = "").
        { destruct (string_dec (aft D i) "") as [|N]; auto. destruct (dis i He (HA i N)). }
        rewrite Q. reflexivity.
    + apply (shows_update D); auto.
      * intros j Hj. cbn [edit_doc bef aft chr plus] in *. rewrite set_other by auto. auto.
      * cbn [edit_doc bef aft chr plus fst snd] in *. rewrite set_same.
        assert (Q : bef D i = "").
        { destruct (string_dec (bef D i) "") as [|N]; auto. destruct (dis i (HB i N) He). }
        rewrite Q, !sapp_nil_r. reflexivity.
    + apply (shows_update (blank_doc D i n)).
      * apply shows_blank. exact H.
      * intros j Hj. cbn [edit_doc blank_doc bef aft chr plus] in *. repeat split; auto.
        destruct (Nat.eqb_spec j i), (Nat.leb_spec i j), (Nat.ltb_spec i j), (Nat.ltb_spec j (i + n));
          cbn [andb]; auto; lia.
      * cbn [edit_doc blank_doc bef aft chr plus fst snd]. rewrite Nat.eqb_refl. reflexivity.
Qed.

(** * Rewritten files *)

Lemma edits_begin_end c o p id i s :
  (In (InsertBefore i s) (edits_at c o p id) -> In i (begins p)) /\
  (In (InsertAfterToken i s) (edits_at c o p id) -> In i (ends p)).
Proof.
  destruct p as [e|b|u|st]; cbn [edits_at begins ends].
  - cbn. split; intros [H|[H|[]]]; inversion H; auto.
  - destruct (c_logical c b).
    + unfold c_logical_edits. destruct (track o); cbn [negb when app In]; split; intro H;
        repeat (destruct H as [H|H]); try contradiction; inversion H; cbn; auto.
    + cbn. split; intro H; repeat (destruct H as [H|H]); try contradiction; inversion H; cbn; auto.
  - cbn. split; intro H; repeat (destruct H as [H|H]); try contradiction; inversion H; cbn; auto.
  - unfold stmt_edits. destruct (track o); cbn; split; intro H; repeat (destruct H as [H|H]);
      try contradiction; inversion H; cbn; auto.
Qed.
Lemma edits_replace c o p id i n s :
  In (ReplaceText i n s) (edits_at c o p id) -> n <> 0.
Proof.
  destruct p as [e|b|u|st]; cbn [edits_at].
  - cbn. intros [H|[H|[]]]; inversion H.
  - destruct (c_logical c b).
    + unfold c_logical_edits. destruct (track o); cbn [negb when app In]; intro H;
        repeat (destruct H as [H|H]); try contradiction; inversion H.
    + cbn. intro H; repeat (destruct H as [H|H]); try contradiction; inversion H.
      destruct (b_op b); discriminate.
  - cbn. intro H; repeat (destruct H as [H|H]); try contradiction; inversion H.
    destruct (u_op u); discriminate.
  - unfold stmt_edits. destruct (track o); cbn; intro H; repeat (destruct H as [H|H]);
      try contradiction; inversion H.
Qed.
Lemma place_edits_apart c o ps : forall id,
  edits_apart (fun i => In i (flat_map begins ps)) (fun i => In i (flat_map ends ps))
    (place_edits c o id ps).
Proof.
  induction ps as [|p ps IH]; intros id e H; [contradiction|].
  cbn [place_edits] in H. apply in_app_iff in H. cbn [flat_map]. destruct H as [H|H].
  - destruct e as [i s|i s|i n s].
    + apply in_app_iff. left. apply (edits_begin_end c o p id i s). exact H.
    + apply in_app_iff. left. apply (edits_begin_end c o p id i s). exact H.
    + exact (edits_replace _ _ _ _ _ _ _ H).
  - specialize (IH _ _ H). destruct e; try (apply in_app_iff; right); exact IH.
Qed.

Section File.
Variable L : lang.
Variable c : ctx.
Variable o : options.

Lemma app_nil_parts (s t : string) : s ++ t = "" -> s = "" /\ t = "".
Proof. destruct s, t; try discriminate; auto. Qed.

(* The cells, up to an offset before the tree and from there on *)
Lemma nested_cells pre1 pre2 (t : cst L) post :
  placed t (String.length (pre1 ++ pre2)) -> separated (places t) ->
  let cs := apply_edits (place_edits c o 0 (places t)) (cells_of (pre1 ++ pre2 ++ text t ++ post)) in
  render (firstn (String.length pre1) cs) = pre1 /\
  render (skipn (String.length pre1) cs) = pre2 ++ text (fst (mutate L c o t 0)) ++ post.
Proof.
  intros P Ap cs.
  set (src := pre1 ++ pre2 ++ text t ++ post) in *.
  assert (Fr : forall a x b, src = a ++ x ++ b -> fresh (doc_of src) (String.length a) x).
  { intros a x b ->. apply doc_fresh. reflexivity. }
  assert (Ft : fresh (doc_of src) (String.length (pre1 ++ pre2)) (text t)).
  { apply (Fr _ _ post). unfold src. rewrite sapp_assoc. reflexivity. }
  destruct (nested c o L t 0 _ (doc_of src) P Ft) as [[Q O] _].
  assert (Sh : shows (edits_doc (place_edits c o 0 (places t)) (doc_of src)) 0 cs).
  { apply (shows_edits (fun i => In i (flat_map begins (places t)))
             (fun i => In i (flat_map ends (places t)))).
    - intros i H1 H2. exact (Ap i H1 H2).
    - apply place_edits_apart.
    - intros i H. exfalso. apply H. reflexivity.
    - intros i H. exfalso. apply H. reflexivity.
    - exact (shows_start src ""). }
  remember (edits_doc (place_edits c o 0 (places t)) (doc_of src)) as D eqn:E. clear E.
  assert (Len : List.length cs = S (String.length src)).
  { unfold cs. rewrite apply_edits_length, cells_length. reflexivity. }
  clearbody cs. unfold size in *.
  assert (Ls : String.length src = String.length pre1 + (String.length pre2
               + (String.length (text t) + String.length post))).
  { unfold src. rewrite !length_app. reflexivity. }
  rewrite length_app in *.
  assert (Out : forall i, i <= String.length pre1 -> aft D i = "").
  { intros i Hi. destruct O as [_ O]. rewrite O by lia. reflexivity. }
  rewrite <- (firstn_skipn (String.length pre1) cs) in Sh.
  apply shows_app in Sh. destruct Sh as [S1 S2].
  rewrite firstn_length, Len in S2.
  replace (0 + Nat.min (String.length pre1) (S (String.length src)))
    with (String.length pre1) in S2 by lia.
  apply shows_render in S1, S2.
  rewrite firstn_length, Len in S1.
  replace (Nat.min (String.length pre1) (S (String.length src)))
    with (String.length pre1) in S1 by lia.
  rewrite skipn_length, Len in S2.
  rewrite !Out in S1 by lia. rewrite (Out (String.length pre1)) in S2 by lia. rewrite sapp_nil_r in S1. cbn [append] in S1, S2.
  split.
  - rewrite S1. rewrite (seg_outside _ _ _ _ _ _ O) by lia. apply fresh_seg.
    apply (Fr "" pre1 (pre2 ++ text t ++ post)). reflexivity.
  - replace (S (String.length src) - String.length pre1)
      with (String.length pre2 + (String.length (text t) + (String.length post + 1))) in S2 by lia.
    rewrite !seg_app in S2.
    rewrite Q in S2.
    rewrite (seg_outside _ _ _ _ (String.length pre1) (String.length pre2) O) in S2 by lia.
    rewrite (fresh_seg _ _ _ (Fr pre1 pre2 (text t ++ post) eq_refl)) in S2.
    rewrite (seg_outside _ _ _ _ _ (String.length post) O) in S2 by lia.
    rewrite <- !length_app in S2.
    rewrite (fresh_seg _ post) in S2.
    2:{ apply (Fr _ _ ""). unfold src. rewrite !sapp_assoc, sapp_nil_r. reflexivity. }
    cbn [seg] in S2. rewrite !length_app in S2.
    destruct O as [O1 O2].
    destruct (O1 (String.length pre1 + String.length pre2 + String.length (text t) + String.length post))
      as [Hb Hc]; [lia|]. rewrite Hb, Hc in S2. clear Hb Hc.
    rewrite (O2 (String.length pre1 + (String.length pre2 +
       (String.length (text t) + (String.length post + 1))))) in S2 by lia.
    rewrite (O2 (S _)) in S2 by lia.
    cbn [doc_of bef aft chr] in S2.
    assert (End : String.get (String.length pre1 + String.length pre2 + String.length (text t)
                    + String.length post) src = None).
    { replace (_ + String.length post) with (String.length src) by lia. clear. induction src; auto. }
    rewrite End, !sapp_nil_r in S2. exact S2.
Qed.

Lemma nested_rewrite pre (t : cst L) post ms first :
  placed t (String.length pre) -> separated (places t) -> map place_of ms = places t ->
  rewrite (pre ++ text t ++ post) (edits_from c o first first ms) =
  pre ++ text (fst (mutate L c o t 0)) ++ post.
Proof.
  intros P Ap M. rewrite edits_from_places, Nat.sub_diag, M by lia.
  exact (proj2 (nested_cells "" pre t post P Ap)).
Qed.
End File.
