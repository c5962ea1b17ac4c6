(* The functions that dredd makes are read, and do what their groups describe. *)
From Coq Require Import String Ascii List Arith NArith ZArith Bool Lia.
From Verif Require Import Base Clang Gen GenExpr GenBinary GenUnary GenStmt Mutation GenSpec
  ClashSpec TypeSpec CText FunText FunSpec GenProof SourceRangeProof TypeProof CTextProof
  FunProof FunProof2.
Import ListNotations.
Local Open Scope string_scope.

(** * Names *)

Notation wordy s := (string_forall word_char s).

Lemma dredd_word s : wordy s = true -> is_word ("__dredd_" ++ s) = true.
Proof. intros H. cbn. exact H. Qed.
Lemma dredd_new s : specifier ("__dredd_" ++ s) = false.
Proof. reflexivity. Qed.

Lemma wordy_type c t : wordy (space_to_underscore (ty_name c t)) = true.
Proof. destruct t; cbn [ty_name]; try destruct (prints_bool c); reflexivity. Qed.
Lemma wordy_volatile c t : wordy (space_to_underscore ("volatile " ++ ty_name c t)) = true.
Proof. destruct t; cbn [ty_name]; try destruct (prints_bool c); reflexivity. Qed.
Lemma wordy_volatile_none c t : wordy (space_to_underscore ("" ++ ty_name c t)) = true.
Proof. apply wordy_type. Qed.

Ltac words :=
  repeat (rewrite string_forall_app; apply andb_true_intro; split);
  repeat match goal with
  | |- context [if ?b then _ else _] => destruct b
  | |- context [match ?e with Some _ => _ | None => _ end] => destruct e
  end;
  try reflexivity; try apply wordy_type; try apply wordy_volatile; try apply wordy_volatile_none.

Lemma optimisation_wordy c e : wordy (optimisation_specifier c e) = true.
Proof. unfold optimisation_specifier. words. Qed.
Lemma constant_wordy s e : wordy s = true -> wordy (constant_suffix s e) = true.
Proof.
  intros H. unfold constant_suffix.
  repeat match goal with |- context [if ?b then _ else _] => destruct b end;
    rewrite ?string_forall_app, ?H; reflexivity.
Qed.

Lemma expr_name c opt e : exists s, expr_function_name c opt e = "__dredd_" ++ s /\ wordy s = true.
Proof.
  unfold expr_function_name. eexists ("replace_expr_" ++ _). split; [reflexivity|].
  repeat (rewrite string_forall_app; apply andb_true_intro; split); try apply wordy_type;
    try (destruct opt; [apply optimisation_wordy|reflexivity]); words.
Qed.
Lemma binary_name c opt b suffix : wordy suffix = true ->
  exists s, binary_function_name c opt b ++ suffix = "__dredd_" ++ s /\ wordy s = true.
Proof.
  intros H. unfold binary_function_name.
  eexists ("replace_binary_operator_" ++ _). split;
    [rewrite append_assoc; reflexivity|].
  rewrite !string_forall_app, H, wordy_type, !andb_true_iff.
  repeat split; try reflexivity.
  - destruct (b_op b); reflexivity.
  - destruct (is_assign (b_op b) && e_volatile (b_lhs b));
      [apply wordy_volatile|apply wordy_type].
  - destruct (opt && negb (is_assign (b_op b))); [|reflexivity].
    rewrite string_forall_app, !constant_wordy; reflexivity.
Qed.
Lemma unary_name c opt u : exists s, unary_function_name c opt u = "__dredd_" ++ s /\ wordy s = true.
Proof.
  unfold unary_function_name. eexists ("replace_unary_operator_" ++ _). split; [reflexivity|].
  rewrite !string_forall_app, wordy_type, !andb_true_iff. repeat split; try reflexivity.
  - destruct (u_op u); reflexivity.
  - words.
  - words.
Qed.

(** * Returned expressions *)

Lemma lines_usual {A} two b (l : list (A * rhs)) :
  (forall m, In m l -> usual two (snd m) = true) ->
  Forall (fun l => usual two (snd l) = true) (when b (number_from 0 (map snd l))).
Proof.
  intros H. apply Forall_forall. intros x I.
  assert (J : In (snd x) (map snd l)).
  { apply (in_lines _ b l). now apply in_map. }
  apply in_map_iff in J. destruct J as (m & <- & J). now apply H.
Qed.

Lemma expr_usual c opt e m : In m (expr_mutants c opt e) -> usual false (snd m) = true.
Proof.
  intros H. apply expr_mutants_meaning in H. destruct m as [a r]. cbn [fst snd] in *.
  destruct a; cbn in H; injection H as <-; try destruct (cpp c); reflexivity.
Qed.
Lemma binary_usual opt b m : In m (binary_mutants opt b) -> usual true (snd m) = true.
Proof.
  intros H. apply binary_mutants_meaning in H. destruct m as [a r]. cbn [fst snd] in *.
  destruct a; cbn in H; try discriminate H; injection H as <-; reflexivity.
Qed.
Lemma unary_usual opt u m : In m (unary_mutants opt u) -> usual false (snd m) = true.
Proof.
  intros H. apply unary_mutants_meaning in H. destruct m as [a r]. cbn [fst snd] in *.
  destruct a; cbn in H; try discriminate H; injection H as <-; reflexivity.
Qed.

(** * Well-formed functions *)

Definition nothing : param := Direct (ByValue TInt).
Definition expr_plain (c : ctx) (e : expr) : plain :=
  if e_lvalue e
  then if cpp c then ByReference (e_ty e) (e_volatile e) false
       else ByPointer (e_ty e) (e_volatile e) false
  else ByValue (e_ty e).
Definition expr_param (c : ctx) (e : expr) : param :=
  if cpp c && e_side_effects e then Delayed (expr_plain c e) else Direct (expr_plain c e).

Lemma input_type_plain c e : (e_lvalue e = true -> e_const e = false) ->
  input_type c e = plain_text c (expr_plain c e).
Proof.
  intros Cl. unfold input_type, cpp_type_modifiers, c_type_modifiers, expr_plain.
  destruct (e_lvalue e); [|destruct (cpp c); reflexivity].
  rewrite (Cl eq_refl). destruct (cpp c), (e_volatile e); reflexivity.
Qed.
Lemma wrap_param c b q : wrap_function b (plain_text c q) =
  param_text c (if b then Delayed q else Direct q).
Proof. destruct b; reflexivity. Qed.

Lemma expr_well_formed c o e : clang_expr e ->
  well_formed c false (ByValue (e_ty e)) (expr_param c e) nothing (expr_function c o e).
Proof.
  intros [_ Cl].
  assert (K : e_lvalue e = true -> e_const e = false).
  { intros L. specialize (Cl L). unfold can_mutate_lvalue in Cl.
    destruct (e_const e); [discriminate|reflexivity]. }
  destruct (expr_name c (optimise o) e) as (s & E & F).
  constructor; cbn [expr_function mf_result mf_params mf_access mf_name mf_lines mf_orig mf_close].
  - reflexivity.
  - rewrite input_type_plain by assumption. now rewrite wrap_param.
  - unfold expr_param, expr_plain. destruct (cpp c), (e_lvalue e), (e_side_effects e); reflexivity.
  - rewrite E. exact (dredd_word s F).
  - rewrite E. exact (dredd_new s).
  - apply lines_usual. apply expr_usual.
  - reflexivity.
  - now right.
Qed.

Definition binary_plain (c : ctx) (b : binary) : plain :=
  if is_assign (b_op b)
  then if cpp c then ByReference (e_ty (b_lhs b)) (e_volatile (b_lhs b)) false
       else ByPointer (e_ty (b_lhs b)) (e_volatile (b_lhs b)) false
  else ByValue (e_ty (b_lhs b)).
Definition binary_param (c : ctx) (b : binary) : param :=
  if lhs_delayed c b then Delayed (binary_plain c b) else Direct (binary_plain c b).
Definition binary_param2 (c : ctx) (b : binary) : param :=
  if rhs_delayed c b then Delayed (ByValue (e_ty (b_rhs b)))
  else Direct (ByValue (e_ty (b_rhs b))).
Definition binary_result (c : ctx) (b : binary) : plain :=
  if is_assign (b_op b) && cpp c then ByReference (b_ty b) (e_volatile (b_lhs b)) false
  else ByValue (b_ty b).

Lemma binary_well_formed c o b : b_op b <> Comma ->
  well_formed c true (binary_result c b) (binary_param c b) (binary_param2 c b)
    (binary_function c o b).
Proof.
  intros N. destruct (binary_name c (optimise o) b "" eq_refl) as (s & E & F).
  rewrite append_nil_r in E.
  constructor;
    cbn [binary_function mf_result mf_params mf_access mf_name mf_lines mf_orig mf_close].
  - unfold binary_result_type, binary_result.
    destruct (is_assign (b_op b) && cpp c); [|reflexivity].
    destruct (e_volatile (b_lhs b)); reflexivity.
  - unfold binary_rhs_type. change (ty_name c (e_ty (b_rhs b))) with
      (plain_text c (ByValue (e_ty (b_rhs b)))).
    replace (binary_lhs_type c b) with (plain_text c (binary_plain c b)).
    + now rewrite !wrap_param.
    + unfold binary_lhs_type, binary_plain.
      destruct (is_assign (b_op b)); [|reflexivity].
      destruct (cpp c), (e_volatile (b_lhs b)); reflexivity.
  - unfold binary_param, binary_param2, binary_plain, lhs_delayed, rhs_delayed.
    destruct (cpp c), (is_assign (b_op b)), (e_side_effects (b_lhs b)),
      (is_logical (b_op b)), (e_side_effects (b_rhs b)); reflexivity.
  - rewrite E. exact (dredd_word s F).
  - rewrite E. exact (dredd_new s).
  - apply lines_usual. apply binary_usual.
  - destruct (b_op b); try reflexivity. contradiction.
  - now right.
Qed.

Definition unary_result (c : ctx) (u : unary) : plain :=
  if cpp c && u_lvalue u then ByReference (u_ty u) (u_volatile u) false else ByValue (u_ty u).
Definition unary_param (c : ctx) (u : unary) : param :=
  if unary_delayed c u then Delayed (expr_plain c (u_sub u)) else Direct (expr_plain c (u_sub u)).

Lemma unary_well_formed c o u : clang_unary c u ->
  well_formed c false (unary_result c u) (unary_param c u) nothing (unary_function c o u).
Proof.
  intros C. destruct (unary_name c (optimise o) u) as (s & E & F).
  constructor;
    cbn [unary_function mf_result mf_params mf_access mf_name mf_lines mf_orig mf_close].
  - unfold unary_result_type, unary_result. destruct (cpp c) eqn:P; [|reflexivity].
    destruct (u_lvalue u) eqn:L; [|reflexivity].
    assert (K : u_const u = false).
    { unfold clang_unary in C. destruct (u_op u); intuition congruence. }
    rewrite K. destruct (u_volatile u); reflexivity.
  - unfold unary_input_type. rewrite input_type_plain.
    + now rewrite wrap_param.
    + unfold clang_unary in C. destruct (u_op u); intuition congruence.
  - unfold unary_param, unary_delayed, expr_plain.
    assert (K : e_lvalue (u_sub u) = is_incdec (u_op u)).
    { unfold clang_unary in C. destruct (u_op u); cbn; intuition congruence. }
    rewrite K. destruct (cpp c), (is_incdec (u_op u)), (u_side_effects u); reflexivity.
  - rewrite E. exact (dredd_word s F).
  - rewrite E. exact (dredd_new s).
  - apply lines_usual. apply unary_usual.
  - unfold clang_unary in C. destruct (u_op u); try reflexivity; contradiction.
  - now right.
Qed.

Lemma logical_well_formed c o b f : In f (c_logical_functions c o b) ->
  exists t, well_formed c false (ByValue t) (Direct (ByValue t)) nothing f.
Proof.
  intros H.
  assert (D : exists suffix t fast lines tr, wordy suffix = true /\
    Forall (fun l => usual false (snd l) = true) lines /\
    f = c_logical_fun (binary_function_name c (optimise o) b ++ suffix) (ty_name c t)
          fast lines tr).
  { unfold c_logical_functions in H. apply in_app_iff in H. destruct H as [H|[<-|[]]].
    - apply when_in in H. destruct H as [_ [<-|[<-|[]]]].
      + exists "_lhs", (e_ty (b_lhs b)). do 3 eexists. split; [reflexivity|].
        split; [|reflexivity]. repeat constructor. unfold c_logical_unit.
        destruct (bop_eqb (b_op b) LAnd); reflexivity.
      + exists "_rhs", (e_ty (b_rhs b)). do 3 eexists. split; [reflexivity|].
        split; [|reflexivity]. repeat constructor. unfold c_logical_unit.
        destruct (bop_eqb (b_op b) LAnd); reflexivity.
    - exists "_outer", (b_ty b). do 3 eexists. split; [reflexivity|].
      split; [|reflexivity]. destruct (track o); repeat constructor. }
  destruct D as (suffix & t & fast & lines & tr & S1 & L & ->).
  destruct (binary_name c (optimise o) b suffix S1) as (s & E & F).
  exists t. constructor; cbn [c_logical_fun mf_name mf_lines].
  - reflexivity.
  - reflexivity.
  - reflexivity.
  - rewrite E. exact (dredd_word s F).
  - rewrite E. exact (dredd_new s).
  - exact L.
  - reflexivity.
  - now left.
Qed.

(** * What they do *)

Lemma first_arg_tree c two result p1 p2 f :
  first_arg (definition c two result p1 p2 f) = access_tree (access_of p1) (name1 two).
Proof. destruct two, p1 as [[]|[]]; reflexivity. Qed.
Lemma second_arg_tree c result p1 p2 f :
  second_arg (definition c true result p1 p2 f) = access_tree (access_of p2) "arg2".
Proof. destruct p2 as [[]|[]]; reflexivity. Qed.

(* A function with one parameter does not mention a second one. *)
Lemma tree_used two a1 a2 b2 r : usual two r = true -> (two = true -> a2 = b2) ->
  tree a1 a2 r = tree a1 b2 r.
Proof.
  intros U E. destruct r as [| |o|o|o|o|l]; try reflexivity; cbn [usual] in U.
  - cbn. now apply E.
  - apply andb_prop in U. cbn [tree]. rewrite E by apply U. reflexivity.
Qed.
Lemma definition_tree c two result p1 p2 f r : usual two r = true ->
  let d := definition c two result p1 p2 f in
  tree (first_arg d) (second_arg d) r = rhs_tree two (access_of p1) (access_of p2) r.
Proof.
  intros U d. unfold rhs_tree, d. rewrite first_arg_tree. apply (tree_used two); [assumption|].
  intros ->. apply second_arg_tree.
Qed.

Section Behaviour.
Variables (some : bool) (enabled : nat -> bool) (id : nat).

Lemma behaves_if e t b : holds some enabled id e = Some b ->
  behaves some enabled id (CIf e t) = if b then behaves some enabled id t else Some ([], None).
Proof. intros H. cbn [behaves]. rewrite H. destruct b; reflexivity. Qed.
Lemma behaves_line two x y l : behaves some enabled id (line_stmt two x y l) =
  if enabled (id + fst l) then Some ([], Some (rhs_tree two x y (snd l))) else Some ([], None).
Proof.
  unfold line_stmt. erewrite behaves_if by reflexivity. rewrite Nnat.Nat2N.id. reflexivity.
Qed.
Lemma behaves_fast two x y r : behaves some enabled id (fast_stmt two x y r) =
  if some then Some ([], None) else Some ([], Some (rhs_tree two x y r)).
Proof. unfold fast_stmt. erewrite behaves_if by reflexivity. destruct some; reflexivity. Qed.
Lemma behaves_record k : behaves some enabled id (record_stmt k) = Some ([(id, k)], None).
Proof. unfold record_stmt. cbn [behaves]. rewrite Nnat.Nat2N.id. reflexivity. Qed.

Lemma behaves_seq a b : behaves some enabled id (CSeq a b) =
  match behaves some enabled id a with
  | Some (l, None) =>
      match behaves some enabled id b with
      | Some (l', r) => Some ((l ++ l')%list, r)
      | None => None
      end
  | x => x
  end.
Proof. reflexivity. Qed.

Fixpoint chosen_rhs (i : nat) (l : list rhs) (r : rhs) : rhs :=
  match l with [] => r | m :: l => if enabled i then m else chosen_rhs (S i) l r end.

Lemma behaves_lines two x y rs r : forall k,
  behaves some enabled id
    (fold_right (fun (p : piece) s => CSeq (snd p) s)
      (CSeq (CReturn (Some (rhs_tree two x y r))) CSkip)
      (map (fun l => (line_tokens two x y l, line_stmt two x y l)) (number_from k rs))) =
  Some ([], Some (rhs_tree two x y (chosen_rhs (id + k) rs r))).
Proof.
  induction rs as [|m rs IH]; intros k; cbn [number_from map fold_right snd chosen_rhs].
  - reflexivity.
  - rewrite behaves_seq, behaves_line. cbn [fst snd]. destruct (enabled (id + k)); [reflexivity|].
    rewrite IH, Nat.add_succ_r. reflexivity.
Qed.
Lemma chosen_off rs r : (forall i, enabled i = false) -> forall k, chosen_rhs k rs r = r.
Proof. intros H. induction rs as [|m rs IH]; intros k; cbn; [reflexivity|]. now rewrite H. Qed.
Lemma chosen_map {A} (meaning : A -> option rhs) (l : list (A * rhs)) r :
  (forall m, In m l -> meaning (fst m) = Some (snd m)) ->
  forall k, chosen enabled k (map meaning (map fst l)) (Some r) =
            Some (chosen_rhs k (map snd l) r).
Proof.
  induction l as [|m l IH]; intros H k; cbn; [reflexivity|].
  rewrite (H m) by (now left). rewrite IH by (intros; apply H; now right).
  destruct (enabled k); reflexivity.
Qed.
Lemma chosen_usual two rs r : Forall (fun r => usual two r = true) rs -> usual two r = true ->
  forall k, usual two (chosen_rhs k rs r) = true.
Proof.
  intros F U. induction F as [|m rs M F IH]; intros k; cbn; [assumption|].
  destruct (enabled k); auto.
Qed.

End Behaviour.

Lemma behaves_function some enabled id two p1 p2 f rs : (some = false -> forall i, enabled i = false) ->
  mf_lines f = number_from 0 rs -> mf_track f = None ->
  behaves some enabled id (body two p1 p2 f) =
  Some ([], Some (rhs_tree two (access_of p1) (access_of p2) (chosen_rhs enabled id rs (mf_orig f)))).
Proof.
  intros H L T. unfold body, pieces. rewrite L, T, app_nil_r.
  destruct (mf_fast f); cbn [app fold_right].
  - rewrite behaves_seq. cbn [snd]. rewrite behaves_fast. destruct some.
    + rewrite behaves_lines, Nat.add_0_r. reflexivity.
    + rewrite chosen_off by auto. reflexivity.
  - rewrite behaves_lines, Nat.add_0_r. reflexivity.
Qed.
Lemma behaves_tracking some enabled id two p1 p2 f n :
  mf_fast f = false -> mf_lines f = [] -> mf_track f = Some n ->
  behaves some enabled id (body two p1 p2 f) =
  Some ([(id, n)], Some (rhs_tree two (access_of p1) (access_of p2) (mf_orig f))).
Proof.
  intros F L T. unfold body, pieces. rewrite F, L, T. cbn [app map fold_right].
  rewrite behaves_seq. cbn [snd]. rewrite behaves_record. reflexivity.
Qed.
