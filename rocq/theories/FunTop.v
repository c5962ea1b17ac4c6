(* C68 *)
From Coq Require Import String Ascii List Arith NArith ZArith Bool Lia.
From Verif Require Import Base Clang Gen GenExpr GenBinary GenUnary GenStmt Mutation GenSpec
  ClashSpec TypeSpec CText FunText FunSpec GenProof TypeProof FunProof FunProof2 FunProof3.
Import ListNotations.
Local Open Scope string_scope.

(** * Functions for one expression or operator *)

Lemma does_tests {A} c track g id two result p1 p2 f (meaning : A -> option rhs)
  (l : list (A * rhs)) :
  well_formed c two result p1 p2 f ->
  (forall m, In m l -> meaning (fst m) = Some (snd m)) ->
  (forall m, In m l -> usual two (snd m) = true) ->
  meanings c g = map meaning (map fst l) -> original g = Some (mf_orig f) ->
  mf_fast f = negb track -> mf_lines f = when (negb track) (number_from 0 (map snd l)) ->
  mf_track f = (if track then Some (List.length l) else None) ->
  does c track g id (definition c two result p1 p2 f).
Proof.
  intros W M U G O F L T some enabled H. destruct track; cbn [negb when] in *.
  - cbn [definition fd_body]. rewrite (behaves_tracking _ _ _ _ _ _ _ _ F L T), G, O, !map_length.
    cbn [option_map]. rewrite definition_tree by apply W. reflexivity.
  - cbn [definition fd_body]. rewrite (behaves_function _ _ _ _ _ _ _ _ H L T), G, O.
    rewrite (chosen_map enabled meaning l) by assumption. cbn [option_map].
    rewrite definition_tree; [reflexivity|]. apply chosen_usual; [|apply W].
    apply Forall_map, Forall_forall. exact U.
Qed.

Lemma number_from_snd {A B} (h : A -> B) (l : list A) : forall k,
  map (fun x => h (snd x)) (number_from k l) = map h l.
Proof. induction l as [|x l IH]; intros k; cbn; [reflexivity|]. now rewrite IH. Qed.

Lemma mutation_does c o m first id :
  clang_node c m -> in_three c m = false ->
  let a := apply_mutation c o m first id in
  match m with
  | MutStmt _ _ => a_decls a = []
  | _ => exists two result p1 p2 f,
      a_decls a = [print_mfun f] /\ well_formed c two result p1 p2 f /\
      calls (a_edits a) (mf_name f) (id - first) /\
      does c (track o) (a_group a) (id - first) (definition c two result p1 p2 f)
  end.
Proof.
  destruct m as [e i|b i i1 i2|u i i1|s i]; cbn [clang_node in_three apply_mutation a_decls
    a_edits a_group]; intros C N.
  - exists false. do 4 eexists. split; [reflexivity|].
    split; [now apply expr_well_formed|]. split; [apply calls_expr|].
    eapply (does_tests c (track o) _ _ _ _ _ _ _ (expr_meaning c) (expr_mutants c (optimise o) e)).
    + now apply expr_well_formed.
    + apply expr_mutants_meaning.
    + apply expr_usual.
    + cbn [meanings]. apply number_from_snd.
    + reflexivity.
    + reflexivity.
    + reflexivity.
    + reflexivity.
  - destruct C as [C _]. unfold c_logical, binary_actions, c_logical. rewrite N.
    exists true. do 4 eexists. split; [reflexivity|].
    split; [now apply binary_well_formed|]. split; [apply calls_binary|].
    eapply (does_tests c (track o) _ _ _ _ _ _ _ bin_meaning (binary_mutants (optimise o) b)).
    + now apply binary_well_formed.
    + apply binary_mutants_meaning.
    + apply binary_usual.
    + cbn [meanings]. apply number_from_snd.
    + reflexivity.
    + reflexivity.
    + reflexivity.
    + reflexivity.
  - exists false. do 4 eexists. split; [reflexivity|].
    split; [now apply unary_well_formed|]. split; [apply calls_unary|].
    eapply (does_tests c (track o) _ _ _ _ _ _ _ un_meaning (unary_mutants (optimise o) u)).
    + now apply unary_well_formed.
    + apply unary_mutants_meaning.
    + apply unary_usual.
    + cbn [meanings]. apply number_from_snd.
    + cbn [original]. rewrite <- apply_uop_original. reflexivity.
    + reflexivity.
    + reflexivity.
    + reflexivity.
  - reflexivity.
Qed.

Lemma C68_text_lemma c o m first id :
  clang_node c m -> in_three c m = false -> (forall s i, m <> MutStmt s i) ->
  let a := apply_mutation c o m first id in
  exists d, read_functions (concat_strings (a_decls a)) = Some [d] /\
    calls (a_edits a) (fd_name d) (id - first) /\
    does c (track o) (a_group a) (id - first) d.
Proof.
  intros C N S a. pose proof (mutation_does c o m first id C N) as D. cbn zeta in D. fold a in D.
  assert (E : exists two result p1 p2 f,
      a_decls a = [print_mfun f] /\ well_formed c two result p1 p2 f /\
      calls (a_edits a) (mf_name f) (id - first) /\
      does c (track o) (a_group a) (id - first) (definition c two result p1 p2 f)).
  { destruct m as [e i|b i i1 i2|u i i1|s i]; try exact D. now contradiction (S s i). }
  destruct E as (two & result & p1 & p2 & f & E & W & K & B).
  exists (definition c two result p1 p2 f). split; [|now split].
  rewrite E. apply functions_read. constructor; [|constructor]. now apply function_read.
Qed.

(** * Three functions *)

Lemma logical_read c o b : exists tl tr tw,
  Forall2 read_as (map print_mfun (c_logical_functions c o b))
    (if track o
     then [definition c false (ByValue tw) (Direct (ByValue tw)) nothing
             (c_logical_outer_function c o b)]
     else [definition c false (ByValue tl) (Direct (ByValue tl)) nothing
             (c_logical_lhs_function c o b);
           definition c false (ByValue tr) (Direct (ByValue tr)) nothing
             (c_logical_rhs_function c o b);
           definition c false (ByValue tw) (Direct (ByValue tw)) nothing
             (c_logical_outer_function c o b)]).
Proof.
  assert (Out : In (c_logical_outer_function c o b) (c_logical_functions c o b)).
  { unfold c_logical_functions. apply in_app_iff. right. now left. }
  destruct (logical_well_formed c o b _ Out) as (tw & Ww).
  destruct (track o) eqn:T.
  - exists tw, tw, tw. unfold c_logical_functions. rewrite T. cbn [negb when app map].
    constructor; [now apply function_read|constructor].
  - assert (Inl : In (c_logical_lhs_function c o b) (c_logical_functions c o b)).
    { unfold c_logical_functions. rewrite T. now left. }
    assert (Inr : In (c_logical_rhs_function c o b) (c_logical_functions c o b)).
    { unfold c_logical_functions. rewrite T. right. now left. }
    destruct (logical_well_formed c o b _ Inl) as (tl & Wl).
    destruct (logical_well_formed c o b _ Inr) as (tr & Wr).
    exists tl, tr, tw. unfold c_logical_functions. rewrite T. cbn [negb when app map].
    repeat (constructor; [now apply function_read|]). constructor.
Qed.

Lemma lhs_makes some enabled id c o b t x : (some = false -> forall i, enabled i = false) ->
  makes some enabled id
    (definition c false (ByValue t) (Direct (ByValue t)) nothing (c_logical_lhs_function c o b)) x =
  Some (if enabled id then negb x
        else if enabled (id + 2) then bop_eqb (b_op b) LAnd else x).
Proof.
  intros H. unfold makes. cbn [definition fd_body]. unfold body, pieces.
  cbn [c_logical_lhs_function c_logical_fun mf_fast mf_lines mf_track mf_orig app map fold_right
    access_of nothing].
  rewrite behaves_seq. cbn [snd]. rewrite behaves_fast.
  destruct some; [|rewrite !H by reflexivity; reflexivity].
  rewrite behaves_seq. cbn [snd]. rewrite behaves_line. cbn [fst snd]. rewrite Nat.add_0_r.
  destruct (enabled id); [reflexivity|].
  rewrite behaves_seq. cbn [snd]. rewrite behaves_line. cbn [fst snd].
  destruct (enabled (id + 2)); [|reflexivity]. unfold c_logical_unit.
  destruct (bop_eqb (b_op b) LAnd); reflexivity.
Qed.
Lemma rhs_makes some enabled id c o b t x : (some = false -> forall i, enabled i = false) ->
  makes some enabled id
    (definition c false (ByValue t) (Direct (ByValue t)) nothing (c_logical_rhs_function c o b)) x =
  Some (if enabled id then negb x
        else if enabled (id + 1) then bop_eqb (b_op b) LAnd else x).
Proof.
  intros H. unfold makes. cbn [definition fd_body]. unfold body, pieces.
  cbn [c_logical_rhs_function c_logical_fun mf_fast mf_lines mf_track mf_orig app map fold_right
    access_of nothing].
  rewrite behaves_seq. cbn [snd]. rewrite behaves_fast.
  destruct some; [|rewrite !H by reflexivity; reflexivity].
  rewrite behaves_seq. cbn [snd]. rewrite behaves_line. cbn [fst snd]. rewrite Nat.add_0_r.
  destruct (enabled id); [reflexivity|].
  rewrite behaves_seq. cbn [snd]. rewrite behaves_line. cbn [fst snd].
  destruct (enabled (id + 1)); [|reflexivity]. unfold c_logical_unit.
  destruct (bop_eqb (b_op b) LAnd); reflexivity.
Qed.
Lemma outer_makes some enabled id c o b t x : track o = false ->
  makes some enabled id
    (definition c false (ByValue t) (Direct (ByValue t)) nothing
       (c_logical_outer_function c o b)) x =
  Some (if enabled id then negb x else x).
Proof.
  intros T. unfold makes. cbn [definition fd_body]. unfold body, pieces.
  cbn [c_logical_outer_function c_logical_fun mf_fast mf_lines mf_track mf_orig
    access_of nothing]. rewrite T. cbn [negb when app map fold_right].
  rewrite behaves_seq. cbn [snd]. rewrite behaves_line. cbn [fst snd]. rewrite Nat.add_0_r.
  destruct (enabled id); reflexivity.
Qed.

Lemma C68_three_lemma c o b i i1 i2 first id : clang_binary c b ->
  let m := MutBinary b i i1 i2 in
  in_three c m = true ->
  let a := apply_mutation c o m first id in
  if track o
  then exists d, read_functions (concat_strings (a_decls a)) = Some [d] /\
    surrounds (a_edits a) (b_range b) (fd_name d) (id - first) /\
    forall some enabled,
      behaves some enabled (id - first) (fd_body d) =
      Some ([(id - first, List.length (meanings c (a_group a)))], Some (first_arg d))
  else exists dl dr dw,
    read_functions (concat_strings (a_decls a)) = Some [dl; dr; dw] /\
    surrounds (a_edits a) (e_range (b_lhs b)) (fd_name dl) (id - first) /\
    surrounds (a_edits a) (e_range (b_rhs b)) (fd_name dr) (id - first) /\
    surrounds (a_edits a) (b_range b) (fd_name dw) (id - first) /\
    do_together c (a_group a) (id - first) dl dr dw.
Proof.
  intros C m N a. cbn [in_three m] in N.
  destruct (logical_read c o b) as (tl & tr & tw & R).
  assert (D : a_decls a = map print_mfun (c_logical_functions c o b)).
  { unfold a, m. cbn [apply_mutation a_decls]. unfold c_logical. rewrite N. reflexivity. }
  assert (G : a_group a = GroupReplaceBinary i i1 i2 (b_op b)
    (number_from id (c_logical_actions b))).
  { unfold a, m. cbn [apply_mutation a_group]. unfold binary_actions, c_logical. rewrite N.
    reflexivity. }
  assert (E : a_edits a = c_logical_edits c o b (id - first)).
  { unfold a, m. cbn [apply_mutation a_edits]. unfold c_logical. rewrite N. reflexivity. }
  rewrite D, G, E. clear a D G E. generalize (id - first) as k. intros k.
  destruct (track o) eqn:T; apply functions_read in R.
  - eexists. split; [exact R|]. split.
    + unfold surrounds, c_logical_edits. rewrite T. cbn [negb when app].
      cbn [definition fd_name c_logical_lhs_function c_logical_rhs_function c_logical_outer_function
      c_logical_fun mf_name]. rewrite !append_assoc.
      split; [left|right; left]; reflexivity.
    + intros some enabled. rewrite (first_arg_tree c false).
      cbn [definition fd_body]. rewrite (behaves_tracking _ _ _ _ _ _ _ 3); try reflexivity;
        cbn [c_logical_outer_function c_logical_fun mf_lines mf_track]; rewrite T; reflexivity.
  - do 3 eexists. split; [exact R|]. unfold surrounds, c_logical_edits. rewrite T.
    cbn [negb when app].
    cbn [definition fd_name c_logical_lhs_function c_logical_rhs_function c_logical_outer_function
      c_logical_fun mf_name]. rewrite !append_assoc.
    split; [split; [left|right; left]; reflexivity|].
    split; [split; [do 2 right; left|do 3 right; left]; reflexivity|].
    split; [split; [do 4 right; left|do 5 right; left]; reflexivity|].
    intros some enabled x y S1 One.
    rewrite lhs_makes, rhs_makes by assumption. cbn [bind_option].
    cbn [meanings original bind_option].
    apply andb_prop in N. destruct N as [_ N].
    replace (k + 2) with (S (S k)) by lia. replace (k + 1) with (S k) by lia.
    set (x' := if enabled k then _ else _). set (y' := if enabled k then _ else _).
    cbn [c_logical_actions number_from map snd bin_meaning chosen].
    assert (H01 : enabled k = true -> enabled (S k) = true -> False).
    { intros A B. specialize (One _ _ A B). lia. }
    assert (H02 : enabled k = true -> enabled (S (S k)) = true -> False).
    { intros A B. specialize (One _ _ A B). lia. }
    assert (H12 : enabled (S k) = true -> enabled (S (S k)) = true -> False).
    { intros A B. specialize (One _ _ A B). lia. }
    destruct (b_op b); try discriminate N; cbn [bop_eqb truth_of_meaning bind_option] in *;
      rewrite outer_makes by assumption; unfold x', y';
      destruct (enabled k), (enabled (S k)), (enabled (S (S k)));
      try (exfalso; now auto); destruct x, y; reflexivity.
Qed.

(** * All functions of a file *)

Lemma all_read c o m first id s : clang_node c m ->
  In s (a_decls (apply_mutation c o m first id)) -> exists d, read_as s d.
Proof.
  intros C I. destruct (in_three c m) eqn:N.
  - destruct m as [e i|b i i1 i2|u i i1|t i]; try discriminate N. cbn [in_three] in N.
    cbn [apply_mutation a_decls] in I. unfold c_logical in I. rewrite N in I.
    apply in_map_iff in I. destruct I as (f & <- & I).
    destruct (logical_well_formed _ _ _ _ I) as (t & W). eexists. exact (function_read _ _ _ _ _ _ W).
  - pose proof (mutation_does c o m first id C N) as D. cbn zeta in D.
    destruct m as [e i|b i i1 i2|u i i1|t i];
      [| | |rewrite D in I; contradiction];
      destruct D as (two & result & p1 & p2 & f & E & W & _); rewrite E in I;
      destruct I as [<-|[]]; eexists; exact (function_read _ _ _ _ _ _ W).
Qed.

Lemma read_one s d : read_as s d -> read_functions s = Some [d].
Proof.
  intros H. rewrite <- (append_nil_r s). apply (functions_read [s] [d]). now constructor.
Qed.

Lemma C68_together_lemma c o texts :
  (forall s, In s texts -> exists m first id,
     clang_node c m /\ In s (a_decls (apply_mutation c o m first id))) ->
  exists ds, read_functions (concat_strings texts) = Some ds /\
    Forall2 (fun s d => read_functions s = Some [d]) texts ds.
Proof.
  intros H.
  assert (E : exists ds, Forall2 read_as texts ds).
  { induction texts as [|s texts IH]; [exists []; constructor|].
    destruct IH as (ds & F); [intros; apply H; now right|].
    destruct (H s (or_introl eq_refl)) as (m & first & id & C & I).
    destruct (all_read _ _ _ _ _ _ C I) as (d & D). exists (d :: ds). now constructor. }
  destruct E as (ds & E). exists ds. split; [now apply functions_read|].
  clear H. induction E; constructor; [now apply read_one|assumption].
Qed.

(** * What a compiler accepts *)

Definition env (two : bool) (p1 p2 : param) : list (string * param) :=
  if two then [("arg1", p1); ("arg2", p2)] else [("arg", p1)].

Lemma operand_first two p1 p2 :
  operand_of (env two p1 p2) (access_tree (access_of p1) (name1 two)) = seen (access_of p1) p1.
Proof. destruct two, p1 as [[]|[]]; reflexivity. Qed.
Lemma operand_second p1 p2 :
  operand_of (env true p1 p2) (access_tree (access_of p2) "arg2") = seen (access_of p2) p2.
Proof. destruct p2 as [[]|[]]; reflexivity. Qed.

Lemma yields_tree c cpp17 two p1 p2 r : usual two r = true ->
  expr_yields c cpp17 (env two p1 p2) (rhs_tree two (access_of p1) (access_of p2) r) =
  body_yields c cpp17 (access_of p1, access_of p2) (if two then [p1; p2] else [p1]) r.
Proof.
  intros U.
  assert (A : exists a, access_tree (access_of p1) (name1 two) = a /\
    operand_of (env two p1 p2) a = seen (access_of p1) p1 /\
    (exists x, a = EVar x \/ a = EUn "*" (EVar x) \/ a = ECall0 (EVar x))).
  { eexists. split; [reflexivity|]. split; [apply operand_first|].
    exists (name1 two). destruct (access_of p1); cbn; auto. }
  destruct A as (a & Ea & Oa & xa & Sa).
  assert (S1 : match (if two then [p1; p2] else [p1]) with
               | p :: _ => seen (access_of p1) p | [] => None end = seen (access_of p1) p1)
    by (destruct two; reflexivity).
  unfold body_yields, rhs_tree. cbn [fst snd]. rewrite S1, Ea.
  destruct two.
  - assert (B : exists e2, access_tree (access_of p2) "arg2" = e2 /\
      operand_of (env true p1 p2) e2 = seen (access_of p2) p2 /\
      (exists x, e2 = EVar x \/ e2 = EUn "*" (EVar x) \/ e2 = ECall0 (EVar x))).
    { eexists. split; [reflexivity|]. split; [apply operand_second|].
      exists "arg2". destruct (access_of p2); cbn; auto. }
    destruct B as (e2 & Eb & Ob & xb & Sb). rewrite Eb.
    each_rhs r; try discriminate U;
      cbn [tree sign1 sign2 assigns literal negative expr_yields];
      destruct Sa as [->|[->| ->]]; destruct Sb as [->|[->| ->]];
      cbn [expr_yields]; rewrite ?Oa, ?Ob;
      cbn [prefix_operator postfix_operator infix_operator find sign1 sign2 applied_to];
      try reflexivity.
    all: destruct (seen (access_of p1) p1), (seen (access_of p2) p2); reflexivity.
  - each_rhs r; try discriminate U;
      cbn [tree sign1 sign2 assigns literal negative expr_yields];
      destruct Sa as [->|[->| ->]];
      cbn [expr_yields]; rewrite ?Oa;
      cbn [prefix_operator postfix_operator infix_operator find sign1 sign2 applied_to];
      try reflexivity.
    all: destruct (seen (access_of p1) p1); reflexivity.
Qed.
