(* C69: words in the edits; files *)
From Coq Require Import String Ascii List Arith NArith ZArith Bool Lia.
From Verif Require Import Base Clang Gen GenExpr GenBinary GenUnary GenStmt Mutation MutTree Rewriter
  PreludeText Run RunSpec ClashSpec TypeSpec CText FunText FunSpec NameSpec
  RewriterProof GenProof TypeProof CTextProof FunProof FunProof2 FunProof3 FunTop NameProof.
From Coq Require Import DecimalString.
Import ListNotations.
Local Open Scope string_scope.

(** * Words *)

Lemma words_from_sep c a b : word_char c = false -> forall w,
  words_from w (a ++ String c b) = (words_from w a ++ words_from "" b)%list.
Proof.
  intros N. induction a as [|x a IH]; intros w; cbn [append words_from app].
  - now rewrite N.
  - destruct (word_char x); [apply IH|]. cbn [app]. now rewrite IH.
Qed.
Lemma words_from_word s w : string_forall word_char s = true -> words_from w s = [w ++ s].
Proof.
  revert w. induction s as [|x s IH]; intros w H; cbn [words_from].
  - now rewrite sapp_nil_r.
  - cbn [string_forall] in H. apply andb_true_iff in H. destruct H as [X H]. rewrite X, IH by assumption.
    unfold snoc, char_string. now rewrite sapp_assoc.
Qed.

(* The reserved words of s are among those listed. *)
Definition only (l : list string) (s : string) : Prop :=
  forall w, In w (words_in s) -> reserved w = true -> In w l.
Lemma only_sep l c a b : word_char c = false -> only l a -> only l b -> only l (a ++ String c b).
Proof.
  intros N A B w I R. unfold words_in in I. rewrite (words_from_sep c) in I by assumption.
  apply in_app_iff in I. destruct I as [I|I]; [now apply A|now apply B].
Qed.
Lemma only_cons l c b : word_char c = false -> only l b -> only l (String c b).
Proof.
  intros N B. apply (only_sep l c "" b); try assumption.
  intros w [<-|[]] R. discriminate R.
Qed.
Lemma only_word l s : string_forall word_char s = true -> In s l -> only l s.
Proof.
  intros W I w J _. unfold words_in in J. rewrite words_from_word in J by assumption.
  destruct J as [<-|[]]. exact I.
Qed.
Lemma only_number l n : only l (string_of_nat n).
Proof.
  intros w J R. unfold words_in in J.
  assert (D : forall u, string_forall word_char (NilEmpty.string_of_uint u) = true)
    by (induction u; auto).
  unfold string_of_nat, string_of_N in J. rewrite words_from_word in J by apply D.
  destruct J as [<-|[]]. destruct (N.to_uint (N.of_nat n)); discriminate R.
Qed.
Lemma only_nil l : only l "".
Proof. intros w [<-|[]] R. discriminate R. Qed.
Lemma only_lit l s : forallb (fun w => negb (reserved w)) (words_in s) = true -> only l s.
Proof.
  intros H w I R. rewrite forallb_forall in H. specialize (H w I). now rewrite R in H.
Qed.
Lemma only_type l c t : only l (ty_name c t).
Proof. apply only_lit. unfold ty_name. destruct t; try reflexivity. destruct (prints_bool c); reflexivity. Qed.

(* A text after which another one starts anew *)
Definition closed_in (l : list string) (a : string) : Prop :=
  forall b, only l b -> only l (a ++ b).
Lemma closed_nil l : closed_in l "".
Proof. intros b B. exact B. Qed.
Lemma closed_app l a b : closed_in l a -> closed_in l b -> closed_in l (a ++ b).
Proof. intros A B s S. rewrite sapp_assoc. now apply A, B. Qed.
Lemma closed_only l a : closed_in l a -> only l a.
Proof. intros A. specialize (A "" (only_nil l)). now rewrite sapp_nil_r in A. Qed.
Fixpoint ends_apart (s : string) : bool :=
  match s with
  | EmptyString => false
  | String c EmptyString => negb (word_char c)
  | String _ s => ends_apart s
  end.
Lemma ends_apart_split s : ends_apart s = true ->
  exists a c, s = a ++ char_string c /\ word_char c = false.
Proof.
  induction s as [|x s IH]; [discriminate|]. destruct s as [|y s].
  - intros H. exists "", x. split; [reflexivity|]. cbn in H. destruct (word_char x); [discriminate|reflexivity].
  - intros H. destruct (IH H) as (a & c & E & N). exists (String x a), c. split; [now rewrite E|assumption].
Qed.
Lemma words_in_last a c : word_char c = false ->
  words_in (a ++ char_string c) = (words_in a ++ [""])%list.
Proof. intros N. apply (words_from_sep c a "" N ""). Qed.
Lemma closed_lit l s : ends_apart s = true ->
  forallb (fun w => negb (reserved w)) (words_in s) = true -> closed_in l s.
Proof.
  intros E H. destruct (ends_apart_split s E) as (a & c & -> & N).
  rewrite words_in_last, forallb_app in H by assumption. apply andb_true_iff in H.
  destruct H as [H _]. intros b B. rewrite sapp_assoc. cbn [char_string append].
  apply only_sep; [assumption|now apply only_lit|assumption].
Qed.
Definition begins_apart (s : string) : bool :=
  match s with EmptyString => false | String c _ => negb (word_char c) end.
Lemma only_then l a s : only l a -> begins_apart s = true -> only l s -> only l (a ++ s).
Proof.
  intros A E S. destruct s as [|c s]; [discriminate|]. cbn in E.
  assert (N : word_char c = false) by (destruct (word_char c); [discriminate|reflexivity]).
  apply only_sep; [assumption..|]. intros w I R. apply S; [|assumption].
  unfold words_in. cbn [words_from]. rewrite N. now right.
Qed.
Lemma closed_then l a s : only l a -> begins_apart s = true -> closed_in l s -> closed_in l (a ++ s).
Proof.
  intros A E S b B. rewrite sapp_assoc. apply only_then; [assumption| |now apply S].
  destruct s; [discriminate|exact E].
Qed.
Ltac closed_literal := apply closed_lit; reflexivity.

Lemma input_type_only l c e : only l (input_type c e).
Proof.
  unfold input_type, cpp_type_modifiers, c_type_modifiers.
  pose proof (only_type l c (e_ty e)) as T. cbv zeta.
  assert (A : only l (ty_name c (e_ty e) ++ "&")) by (apply only_then; [assumption|reflexivity|now apply only_lit]).
  assert (P : closed_in l (ty_name c (e_ty e) ++ "*")).
  { apply closed_then; [assumption|reflexivity|closed_literal]. }
  assert (V : closed_in l "volatile ") by closed_literal.
  assert (K : closed_in l "const ") by closed_literal.
  destruct (cpp c), (e_lvalue e), (e_volatile e), (e_const e); try assumption;
    try (now apply V); try (now apply K); try (now apply closed_only).
  - now apply V, closed_only.
  - now apply V, closed_only.
  - apply P, K, closed_only, P.
Qed.
Lemma lambda_closed l t : only l t -> closed_in l ("[&]() -> " ++ t ++ " { return ").
Proof.
  intros T. apply closed_app; [closed_literal|]. apply closed_then; [assumption|reflexivity|closed_literal].
Qed.
Lemma cast_closed l t : only l t -> closed_in l ("static_cast<" ++ t ++ ">(").
Proof.
  intros T. apply closed_app; [closed_literal|]. apply closed_then; [assumption|reflexivity|closed_literal].
Qed.
Lemma call_closed l f : string_forall word_char f = true -> In f l -> closed_in l (f ++ "(").
Proof.
  intros W I. apply closed_then; [now apply only_word|reflexivity|closed_literal].
Qed.
Lemma id_only l n : only l (", " ++ string_of_nat n ++ ")").
Proof.
  assert (C : closed_in l ", ") by closed_literal.
  apply C, only_then; [apply only_number|reflexivity|now apply only_lit].
Qed.
Lemma id_closed l n : closed_in l (", " ++ string_of_nat n ++ ")").
Proof.
  apply closed_app; [closed_literal|]. apply closed_then; [apply only_number|reflexivity|closed_literal].
Qed.

Ltac pieces_closed :=
  repeat first
    [ apply closed_app
    | match goal with
      | |- closed_in _ "" => apply closed_nil
      | |- closed_in _ (if ?b then _ else _) => destruct b
      | |- closed_in _ (match ?b with _ => _ end) => destruct b
      end
    | closed_literal ].

Definition words_known (l : list string) (es : list edit) : Prop :=
  forall e, In e es -> only l (edit_text e).

Lemma expr_prefix_only l c o e : string_forall word_char (expr_function_name c (optimise o) e) = true ->
  In (expr_function_name c (optimise o) e) l -> closed_in l (expr_prefix c o e).
Proof.
  intros W I. unfold expr_prefix.
  apply closed_app; [pieces_closed|]. apply closed_app.
  { destruct (e_init_list_cast e) as [t|]; [|apply closed_nil]. apply cast_closed, only_type. }
  rewrite <- sapp_assoc. apply closed_app; [now apply call_closed|]. apply closed_app.
  { destruct (cpp c && e_side_effects e); [|apply closed_nil].
    rewrite <- (sapp_assoc (input_type c e)), <- (sapp_assoc "[&]() -> ").
    apply closed_app; [apply lambda_closed, input_type_only|].
    destruct (e_cxx11_constant e); [apply closed_nil|apply cast_closed, input_type_only]. }
  apply closed_app; pieces_closed.
Qed.
Lemma expr_suffix_only l c e n : closed_in l (expr_suffix c e n).
Proof.
  unfold expr_suffix.
  apply closed_app; [pieces_closed|]. apply closed_app; [pieces_closed|]. apply closed_app; [pieces_closed|].
  rewrite <- (sapp_assoc (string_of_nat n)), <- (sapp_assoc ", ").
  apply closed_app; [apply id_closed|pieces_closed].
Qed.

Lemma stmt_known o s n : words_known (prelude_names o) (stmt_edits o s n).
Proof.
  intros e I. unfold stmt_edits, stmt_open, prelude_names in *.
  destruct (track o).
  - destruct I as [<-|[]]. cbn [edit_text].
    assert (C : closed_in ["__dredd_record_covered_mutants"]
      ("__dredd_record_covered_mutants" ++ "(")).
    { apply call_closed; [reflexivity|now left]. }
    apply (C (string_of_nat n ++ ", 1); ")).
    apply only_then; [apply only_number|reflexivity|now apply only_lit].
  - destruct I as [<-|[<-|[]]]; cbn [edit_text].
    + assert (A : closed_in ["__dredd_some_mutation_enabled"; "__dredd_enabled_mutation"] "if (!")
        by closed_literal.
      assert (C : closed_in ["__dredd_some_mutation_enabled"; "__dredd_enabled_mutation"]
        ("__dredd_enabled_mutation" ++ "(")).
      { apply call_closed; [reflexivity|right; now left]. }
      apply (A ("__dredd_enabled_mutation(" ++ string_of_nat n ++ ")) { ")).
      apply (C (string_of_nat n ++ ")) { ")).
      apply only_then; [apply only_number|reflexivity|now apply only_lit].
    + apply only_lit. unfold stmt_close.
      destruct (s_ext_comment s), (s_ext_semi s), (s_next_hash s); reflexivity.
Qed.

Lemma is_word_chars s : is_word s = true -> string_forall word_char s = true.
Proof.
  destruct s as [|x s]; [reflexivity|]. cbn. rewrite !andb_true_iff. tauto.
Qed.
Lemma only_incl l l' s : incl l l' -> only l s -> only l' s.
Proof. intros I O w J R. now apply I, O. Qed.

Lemma mutation_words c o m first id : clang_node c m ->
  words_known (prelude_names o ++ map mf_name (site_functions c o m))
    (a_edits (apply_mutation c o m first id)).
Proof.
  intros C.
  assert (N : forall f, In f (site_functions c o m) ->
    string_forall word_char (mf_name f) = true /\
    In (mf_name f) (prelude_names o ++ map mf_name (site_functions c o m))).
  { intros f I. split; [|apply in_app_iff; right; now apply in_map].
    destruct (function_known_read c o m f (wanted c o) C) as (d & _ & _ & W & _).
    - unfold all_known. apply forallb_forall. intros x J. now apply known_in.
    - exact I.
    - now apply is_word_chars. }
  assert (P : incl (prelude_names o) (prelude_names o ++ map mf_name (site_functions c o m))).
  { intros x I. apply in_app_iff. now left. }
  revert N P. generalize (prelude_names o ++ map mf_name (site_functions c o m))%list.
  destruct m as [e i|b i i1 i2|u i i1|s i]; cbn [apply_mutation a_edits site_functions].
  - intros l N _. destruct (N _ (or_introl eq_refl)) as [W I]. intros x [<-|[<-|[]]]; cbn [edit_text].
    + apply closed_only. now apply expr_prefix_only.
    + apply closed_only, expr_suffix_only.
  - destruct (c_logical c b) eqn:L.
    + intros l N _ x I. unfold c_logical_edits in I. cbv zeta in I. apply in_app_iff in I.
      assert (F : forall suffix, (In (binary_function_name c (optimise o) b ++ suffix)
           (map mf_name (c_logical_functions c o b))) ->
         only l (binary_function_name c (optimise o) b ++ (suffix ++ "("))).
      { intros suffix J. apply in_map_iff in J. destruct J as (f & E & J).
        destruct (N f J) as [W K]. rewrite E in W, K. rewrite <- sapp_assoc.
        apply closed_only. now apply call_closed. }
      destruct I as [I|[<-|[<-|[]]]].
      * apply when_in in I. destruct I as [T I].
        assert (Fl : In (c_logical_lhs_function c o b) (c_logical_functions c o b)).
        { unfold c_logical_functions. rewrite T. now left. }
        assert (Fr : In (c_logical_rhs_function c o b) (c_logical_functions c o b)).
        { unfold c_logical_functions. rewrite T. right. now left. }
        destruct I as [<-|[<-|[<-|[<-|[]]]]]; cbn [edit_text]; try apply id_only.
        -- apply (F "_lhs"), (in_map mf_name _ _ Fl).
        -- apply (F "_rhs"), (in_map mf_name _ _ Fr).
      * assert (Fo : In (c_logical_outer_function c o b) (c_logical_functions c o b)).
        { unfold c_logical_functions. apply in_app_iff. right. now left. }
        cbn [edit_text]. apply (F "_outer"), (in_map mf_name _ _ Fo).
      * apply id_only.
    + intros l N _. destruct (N _ (or_introl eq_refl)) as [W I]. cbn [binary_function mf_name] in W, I.
      assert (Lt : only l (binary_lhs_type c b)).
      { unfold binary_lhs_type. cbv zeta. destruct (is_assign (b_op b)); [|apply only_type].
        assert (V : closed_in l (if e_volatile (b_lhs b) then "volatile " else "")) by pieces_closed.
        apply V. apply only_then; [apply only_type|destruct (cpp c); reflexivity|].
        destruct (cpp c); now apply only_lit. }
      assert (Rt : only l (binary_rhs_type c b)) by apply only_type.
      assert (La : forall t, only l t ->
        closed_in l ("[&]() -> " ++ t ++ " { return static_cast<" ++ t ++ ">(")).
      { intros t T.
        change ("[&]() -> " ++ t ++ " { return static_cast<" ++ t ++ ">(")
          with ("[&]() -> " ++ t ++ (" { return " ++ ("static_cast<" ++ t ++ ">("))).
        apply closed_app; [closed_literal|]. apply closed_then; [assumption|reflexivity|].
        apply closed_app; [closed_literal|now apply cast_closed]. }
      unfold binary_edits. cbv zeta.
      intros x [<-|[<-|[<-|[<-|[<-|[]]]]]]; cbn [edit_text]; apply closed_only.
      * closed_literal.
      * rewrite <- (sapp_assoc (binary_function_name c (optimise o) b)).
        apply closed_app; [now apply call_closed|].
        destruct (lhs_delayed c b); [now apply La|pieces_closed].
      * pieces_closed.
      * destruct (rhs_delayed c b); [now apply La|apply closed_nil].
      * apply closed_app; [pieces_closed|apply id_closed].
  - intros l N _. destruct (N _ (or_introl eq_refl)) as [W I]. cbn [unary_function mf_name] in W, I.
    pose proof (input_type_only l c (u_sub u) : only l (unary_input_type c u)) as T.
    unfold unary_edits. cbv zeta.
    intros x [<-|[<-|[<-|[]]]]; cbn [edit_text].
    + apply only_nil.
    + rewrite <- (sapp_assoc (unary_function_name c (optimise o) u)). apply closed_only.
      apply closed_app; [now apply call_closed|]. apply closed_app; [|pieces_closed].
      destruct (unary_delayed c u); [|apply closed_nil].
      rewrite <- (sapp_assoc (unary_input_type c u)), <- (sapp_assoc "[&]() -> ").
      apply closed_app; [now apply lambda_closed|].
      destruct (negb (e_cxx11_constant (u_sub u))); [now apply cast_closed|apply closed_nil].
    + apply closed_only. apply closed_app; [pieces_closed|]. apply closed_app; [pieces_closed|].
      apply id_closed.
  - intros l _ P x I. apply (only_incl _ _ _ P). now apply (stmt_known o s (id - first)).
Qed.

(* The names of the functions are new. *)
Lemma site_function_name c o m f : In f (site_functions c o m) ->
  exists s, mf_name f = "__dredd_replace_" ++ s.
Proof.
  destruct m as [e i|b i i1 i2|u i i1|s i]; cbn [site_functions].
  - intros [<-|[]]. eexists. reflexivity.
  - destruct (c_logical c b).
    + intros I. unfold c_logical_functions in I. apply in_app_iff in I.
      destruct I as [I|[<-|[]]]; [|eexists; reflexivity].
      apply when_in in I. destruct I as [_ [<-|[<-|[]]]]; eexists; reflexivity.
    + intros [<-|[]]. eexists. reflexivity.
  - intros [<-|[]]. eexists. reflexivity.
  - contradiction.
Qed.

(** * The text before the prelude *)

Definition starts_at (off : nat) (e : edit) : Prop := off <= edit_offset e.

Lemma update_nth_firstn {A} (f : A -> A) n : forall k l, k <= n ->
  firstn k (update_nth n f l) = firstn k l.
Proof.
  induction n as [|n IH]; intros k l H.
  - replace k with 0 by lia. reflexivity.
  - destruct k as [|k]; [reflexivity|]. destruct l as [|x l]; [reflexivity|].
    cbn [update_nth firstn]. now rewrite IH by lia.
Qed.
Lemma blank_firstn len : forall off k cs, k <= off -> firstn k (blank off len cs) = firstn k cs.
Proof.
  induction len as [|len IH]; intros off k cs H; [reflexivity|].
  cbn [blank]. rewrite IH by lia. now apply update_nth_firstn.
Qed.
Lemma apply_edit_firstn k e cs : k <= edit_offset e -> firstn k (apply_edit e cs) = firstn k cs.
Proof.
  destruct e; cbn [edit_offset apply_edit]; intros H.
  - now apply update_nth_firstn.
  - now apply update_nth_firstn.
  - rewrite update_nth_firstn by assumption. now apply blank_firstn.
Qed.
Lemma apply_edits_firstn k es : Forall (starts_at k) es -> forall cs,
  firstn k (apply_edits es cs) = firstn k cs.
Proof.
  induction 1 as [|e es H _ IH]; intros cs; [reflexivity|].
  unfold apply_edits in *. cbn [fold_left]. rewrite IH. now apply apply_edit_firstn.
Qed.
Lemma render_firstn text : forall k, k <= String.length text ->
  render (firstn k (cells_of text)) = substring 0 k text.
Proof.
  induction text as [|x text IH]; intros [|k] H; try reflexivity; cbn [String.length] in H; [lia|].
  cbn [cells_of firstn]. unfold render in *. cbn [map concat_strings]. rewrite IH by lia. reflexivity.
Qed.
