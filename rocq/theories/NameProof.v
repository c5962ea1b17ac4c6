(* C69: directives, scopes and words *)
From Coq Require Import String Ascii List Arith NArith ZArith Bool Lia.
From Verif Require Import Base Clang Gen GenExpr GenBinary GenUnary GenStmt Mutation Rewriter
  PreludeText Run RunSpec ClashSpec TypeSpec CText FunText FunSpec NameSpec
  RewriterProof GenProof TypeProof CTextProof FunProof FunProof2 FunProof3 FunTop.
Import ListNotations.
Local Open Scope string_scope.

(** * Directives *)

Lemma lines_app a b : forall r, lines_from r (a ++ b) = lines_from (lines_from r a) b.
Proof. induction a as [|x a IH]; intros r; cbn; [reflexivity|apply IH]. Qed.

Definition inline (s : string) : Prop :=
  forall l t, lines_from {| found := l; place := InOtherLine |} (s ++ t) =
              lines_from {| found := l; place := InOtherLine |} t.
Lemma digits_inline s : string_forall is_digit s = true -> inline s.
Proof.
  intros H l t. induction s as [|x s IH]; [reflexivity|].
  cbn [string_forall] in H. apply andb_true_iff in H. destruct H as [H H'].
  cbn [append lines_from line_char place]. destruct (Ascii.eqb_spec x "010") as [->|_].
  - discriminate H.
  - now apply IH.
Qed.

Ltac lines_pieces :=
  repeat match goal with
  | H : inline ?s |- context [lines_from {| found := ?ts; place := InOtherLine |} (?s ++ ?t)] =>
      rewrite (H ts t)
  | |- context [lines_from ?r (String.append ?p ?t)] =>
      rewrite (lines_app p t r);
      let v := eval vm_compute in (lines_from r p) in change (lines_from r p) with v
  end.

Lemma number_digits n : string_forall is_digit (string_of_nat n) = true.
Proof. unfold string_of_nat, string_of_N. induction (N.to_uint (N.of_nat n)); auto. Qed.
Lemma number_inline n : inline (string_of_nat n).
Proof. apply digits_inline, number_digits. Qed.

Definition regular_cpp_directives : list string := Eval vm_compute in
  directives_of (prelude_start_comment ++ regular_prelude_cpp 0 0).
Definition tracking_cpp_directives : list string := Eval vm_compute in
  directives_of (prelude_start_comment ++ tracking_prelude_cpp 0 0).
Definition regular_c_directives : list string := Eval vm_compute in
  directives_of (prelude_start_comment ++ regular_prelude_c 0 0).
Definition tracking_c_directives : list string := Eval vm_compute in
  directives_of (prelude_start_comment ++ tracking_prelude_c 0 0).
Ltac directives_of_text n i :=
  unfold directives_of;
  pose proof (number_inline (words_required n)) as W; pose proof (number_inline n) as N;
  pose proof (number_inline i) as I;
  generalize dependent (string_of_nat (words_required n)); intros sw W;
  generalize dependent (string_of_nat n); intros sn N;
  generalize dependent (string_of_nat i); intros si I;
  lines_pieces; vm_compute; reflexivity.
Lemma regular_cpp_read i n :
  directives_of (prelude_start_comment ++ regular_prelude_cpp i n) = regular_cpp_directives.
Proof. unfold regular_prelude_cpp. directives_of_text n i. Qed.
Lemma tracking_cpp_read i n :
  directives_of (prelude_start_comment ++ tracking_prelude_cpp i n) = tracking_cpp_directives.
Proof. unfold tracking_prelude_cpp. directives_of_text n i. Qed.
Lemma regular_c_read i n :
  directives_of (prelude_start_comment ++ regular_prelude_c i n) = regular_c_directives.
Proof. unfold regular_prelude_c. directives_of_text n i. Qed.
Lemma tracking_c_read i n :
  directives_of (prelude_start_comment ++ tracking_prelude_c i n) = tracking_c_directives.
Proof. unfold tracking_prelude_c. directives_of_text n i. Qed.

(** * The preludes *)

Definition prelude_items (c : ctx) (o : options) (i n : nat) : list item :=
  match cpp c, track o with
  | true, false => cpp_items (N.of_nat (words_required n)) (N.of_nat i) (N.of_nat n)
  | true, true => tracking_cpp_items (N.of_nat i) (N.of_nat n)
  | false, false => c_items (N.of_nat (words_required n)) (N.of_nat i) (N.of_nat n)
  | false, true => tracking_c_items (N.of_nat i) (N.of_nat n)
  end.
Lemma prelude_parsed c o i n :
  parse_text (prelude_text c o i n) = Some (prelude_items c o i n).
Proof.
  unfold prelude_text, prelude_items. destruct (cpp c), (track o).
  - apply tracking_cpp_parsed.
  - apply cpp_parsed.
  - apply tracking_c_parsed.
  - apply c_parsed.
Qed.
Definition prelude_names (o : options) : list string :=
  if track o then ["__dredd_record_covered_mutants"]
  else ["__dredd_some_mutation_enabled"; "__dredd_enabled_mutation"].
Lemma prelude_item_names c o i n : map item_name (prelude_items c o i n) = prelude_names o.
Proof. unfold prelude_items, prelude_names. destruct (cpp c), (track o); reflexivity. Qed.

Definition prelude_directives (c : ctx) (o : options) : list string :=
  match cpp c, track o with
  | true, false => regular_cpp_directives
  | true, true => tracking_cpp_directives
  | false, false => regular_c_directives
  | false, true => tracking_c_directives
  end.
Lemma prelude_provided c o i n defined : provided (cpp c) defined (prelude_text c o i n) =
  let p := fold_left (directive defined) (prelude_directives c o)
             {| included := []; macros := []; conditions := [] |} in
  (flat_map (if cpp c then cpp_header else c_header) (included p) ++ macros p)%list.
Proof.
  unfold provided, preprocessed, prelude_text, prelude_directives.
  destruct (cpp c), (track o);
    rewrite ?regular_cpp_read, ?tracking_cpp_read, ?regular_c_read, ?tracking_c_read; reflexivity.
Qed.

Lemma preprocessed_cons defined d ds p :
  fold_left (directive defined) (d :: ds) p = fold_left (directive defined) ds (directive defined p d).
Proof. reflexivity. Qed.
Ltac preprocess defined :=
  repeat (rewrite preprocessed_cons;
    match goal with
    | |- context [directive defined ?p ?d] =>
        let v := eval vm_compute in (directive defined p d) in change (directive defined p d) with v
    end;
    try match goal with
        | |- context [(defined ?m, defined ?m)] => destruct (defined m)
        | |- context [negb false && defined ?m] => destruct (defined m)
        | |- context [(defined ?m, false || defined ?m)] => destruct (defined m)
        end);
  cbn [fold_left included macros].

Lemma prelude_known_c c o i n defined : cpp c = false ->
  items_known false (provided false defined (prelude_text c o i n)) (prelude_items c o i n) = true.
Proof.
  intros C. rewrite <- C at 2. rewrite prelude_provided. unfold prelude_directives, prelude_items.
  rewrite C. cbv zeta.
  generalize (N.of_nat (words_required n)), (N.of_nat i), (N.of_nat n). intros w j k.
  destruct (track o).
  - unfold tracking_c_directives. preprocess defined. vm_compute. reflexivity.
  - unfold regular_c_directives. preprocess defined; vm_compute; reflexivity.
Qed.

Definition missing : list string := ["std::getenv"; "size_t"; "uint64_t"].
Lemma prelude_known_cpp c o i n defined : cpp c = true ->
  items_known true (missing ++ provided true defined (prelude_text c o i n))
    (prelude_items c o i n) = true.
Proof.
  intros C. rewrite <- C at 2. rewrite prelude_provided. unfold prelude_directives, prelude_items.
  rewrite C. cbv zeta.
  generalize (N.of_nat (words_required n)), (N.of_nat i), (N.of_nat n). intros w j k.
  destruct (track o).
  - unfold tracking_cpp_directives. preprocess defined. vm_compute. reflexivity.
  - unfold regular_cpp_directives. preprocess defined; vm_compute; reflexivity.
Qed.
(* None of the three can be left out, in coverage mode not the first. *)
Lemma prelude_unknown_cpp c o i n defined x : cpp c = true ->
  In x (if track o then ["std::getenv"] else missing) ->
  items_known true
    (filter (fun y => negb (String.eqb x y)) missing
       ++ provided true defined (prelude_text c o i n)) (prelude_items c o i n) = false.
Proof.
  intros C I. rewrite <- C at 2. rewrite prelude_provided.
  unfold prelude_directives, prelude_items.
  rewrite C. cbv zeta.
  generalize (N.of_nat (words_required n)), (N.of_nat i), (N.of_nat n). intros w j k.
  destruct (track o).
  - destruct I as [<-|[]]. unfold tracking_cpp_directives. preprocess defined.
    vm_compute. reflexivity.
  - destruct I as [<-|[<-|[<-|[]]]]; unfold regular_cpp_directives; preprocess defined;
      vm_compute; reflexivity.
Qed.

(** * The functions *)

(* What they mention besides their parameters *)
Definition wanted (c : ctx) (o : options) : list string :=
  (prelude_names o ++ if cpp c then ["std::function"] else ["bool"; "true"; "false"])%list.
Definition all_known (names l : list string) : bool := forallb (known names) l.

Lemma known_in names x : known names x = true <-> In x names.
Proof.
  unfold known. rewrite existsb_exists. split.
  - intros (y & I & E). apply String.eqb_eq in E. now subst.
  - intros I. exists x. split; [assumption|apply String.eqb_refl].
Qed.
Lemma known_app a b x : known (a ++ b) x = known a x || known b x.
Proof. apply existsb_app. Qed.
Lemma all_known_in names l : all_known names l = true -> forall x, In x l -> known names x = true.
Proof. intros H. now apply forallb_forall. Qed.

Lemma wanted_provided c o i n defined :
  all_known (map item_name (prelude_items c o i n)
    ++ provided (cpp c) defined (prelude_text c o i n)) (wanted c o) = true.
Proof.
  rewrite prelude_item_names. rewrite prelude_provided. unfold prelude_directives, wanted, prelude_names.
  destruct (cpp c), (track o); cbv zeta.
  - unfold tracking_cpp_directives. preprocess defined. reflexivity.
  - unfold regular_cpp_directives. preprocess defined; reflexivity.
  - unfold tracking_c_directives. preprocess defined. reflexivity.
  - unfold regular_c_directives. preprocess defined; reflexivity.
Qed.

Lemma scope_pieces cpp names l s :
  Forall (fun p : piece => stmt_scope cpp names (snd p) = Some names) l ->
  stmt_scope cpp names (fold_right (fun p s => CSeq (snd p) s) s l) = stmt_scope cpp names s.
Proof.
  induction 1 as [|p l E _ IH]; [reflexivity|]. cbn [fold_right stmt_scope]. now rewrite E.
Qed.

Definition suits (c : ctx) (p : param) : bool :=
  match p with
  | Delayed (ByReference _ _ _) | Direct (ByReference _ _ _) | Delayed _ => cpp c
  | _ => true
  end.
Lemma plain_known c o names p : all_known names (wanted c o) = true ->
  suits c (Direct p) = true -> fty_known (cpp c) names (plain_type c p) = true.
Proof.
  intros K S. unfold wanted, all_known in K. rewrite forallb_app in K.
  apply andb_true_iff in K. destruct K as [_ K].
  assert (B : forall ws, fty_known (cpp c) names (FName ws) = true).
  { intros ws. cbn [fty_known]. destruct (cpp c); [reflexivity|]. cbn [orb].
    cbn [forallb] in K. apply andb_true_iff in K. destruct K as [-> _]. apply orb_true_r. }
  destruct p as [t|t v k|t v k]; cbn [plain_type suits] in *; [apply B|..].
  - cbn [fty_known]. rewrite S at 1. cbn [andb]. destruct v, k; apply B.
  - cbn [fty_known]. destruct v, k; apply B.
Qed.
Lemma param_known c o names p : all_known names (wanted c o) = true ->
  suits c p = true -> fty_known (cpp c) names (param_type c p) = true.
Proof.
  intros K S. destruct p as [p|p]; cbn [param_type]; [now apply (plain_known c o)|].
  assert (C : cpp c = true) by (destruct p; exact S).
  cbn [fty_known]. rewrite (plain_known c o); [|assumption|destruct p; try reflexivity; exact S].
  rewrite andb_true_r. unfold wanted in K. rewrite C in K. unfold all_known in K.
  rewrite forallb_app in K. apply andb_true_iff in K. destruct K as [_ K].
  cbn [forallb] in K. now rewrite andb_true_r in K.
Qed.

Lemma rhs_known c two names x y r : usual two r = true ->
  known names (name1 two) = true -> (two = true -> known names "arg2" = true) ->
  (cpp c = false -> known names "true" = true /\ known names "false" = true) ->
  expr_known (cpp c) names (rhs_tree two x y r) = true.
Proof.
  intros U A B C.
  assert (X : expr_known (cpp c) names (access_tree x (name1 two)) = true)
    by (destruct x; exact A).
  assert (Y : two = true -> expr_known (cpp c) names (access_tree y "arg2") = true)
    by (intros T; destruct y; exact (B T)).
  unfold rhs_tree. destruct r as [| |o|o|o|o|l]; cbn [tree expr_known].
  - exact X.
  - now apply Y.
  - exact X.
  - exact X.
  - exact X.
  - cbn [usual] in U. apply andb_true_iff in U. destruct U as [U _].
    destruct (assigns o); cbn [expr_known]; rewrite X, Y; auto.
  - destruct l as [z|z|b]; cbn [literal]; unfold negative; try (destruct (z <? 0)%Z; reflexivity).
    cbn [expr_known]. destruct (cpp c); [reflexivity|]. destruct b; now apply C.
Qed.

Lemma definition_known c o names two result p1 p2 f :
  well_formed c two result p1 p2 f -> all_known names (wanted c o) = true ->
  suits c (Direct result) = true -> suits c p1 = true -> suits c p2 = true ->
  (mf_fast f = true -> track o = false) -> (mf_lines f <> [] -> track o = false) ->
  (mf_track f <> None -> track o = true) ->
  function_known (cpp c) names (definition c two result p1 p2 f) = true.
Proof.
  intros W K R P1 P2 Fa Li Tr. unfold function_known.
  cbn [definition fd_result fd_params fd_body fd_name].
  rewrite (plain_known c o) by assumption. cbn [andb].
  assert (Ps : forallb (fun p => fty_known (cpp c) names (fst p)) (params c two p1 p2) = true).
  { unfold params. rewrite forallb_app. destruct two; cbn [forallb fst];
      rewrite ?(param_known c o) by assumption; cbn [andb];
      cbn [fty_known known existsb String.eqb]; destruct (cpp c); reflexivity. }
  rewrite Ps. cbn [andb].
  set (env := (map snd (params c two p1 p2) ++ mf_name f :: names)%list).
  assert (E1 : known env (name1 two) = true) by (unfold env; destruct two; reflexivity).
  assert (E2 : two = true -> known env "arg2" = true) by (unfold env; intros ->; reflexivity).
  assert (E3 : known env "local_mutation_id" = true) by (unfold env; destruct two; reflexivity).
  assert (E4 : forall x, In x (wanted c o) -> known env x = true).
  { intros x I. unfold env. rewrite known_app. apply orb_true_iff. right.
    cbn [known existsb]. apply orb_true_iff. right. exact (all_known_in _ _ K _ I). }
  assert (E5 : cpp c = false -> known env "true" = true /\ known env "false" = true).
  { intros C. split; apply E4; unfold wanted; rewrite C; apply in_app_iff; right; cbn; tauto. }
  assert (En : track o = false -> known env "__dredd_enabled_mutation" = true /\
                                  known env "__dredd_some_mutation_enabled" = true).
  { intros T. split; apply E4; unfold wanted, prelude_names; rewrite T; apply in_app_iff; left;
      cbn; tauto. }
  assert (Rec : track o = true -> known env "__dredd_record_covered_mutants" = true).
  { intros T. apply E4. unfold wanted, prelude_names. rewrite T. apply in_app_iff. left. now left. }
  clearbody env. unfold in_scope, body.
  assert (Rh : forall r, usual two r = true ->
    expr_known (cpp c) env (rhs_tree two (fst (mf_access f)) (snd (mf_access f)) r) = true).
  { intros r U. now apply rhs_known. }
  assert (Rh' : forall r, usual two r = true ->
    expr_known (cpp c) env (rhs_tree two (access_of p1) (access_of p2) r) = true).
  { intros r U. now apply rhs_known. }
  rewrite scope_pieces.
  - cbn [stmt_scope opt_known]. rewrite Rh' by apply W. reflexivity.
  - unfold pieces. rewrite !Forall_app. split; [|split].
    + destruct (mf_fast f) eqn:Ef; constructor; [|constructor].
      cbn [snd fast_stmt stmt_scope expr_known opt_known].
      destruct (En (Fa eq_refl)) as [_ ->]. rewrite Rh' by apply W. reflexivity.
    + apply Forall_map, Forall_forall. intros l I. cbn [snd line_stmt stmt_scope expr_known opt_known].
      destruct En as [-> _].
      { apply Li. intros E. rewrite E in I. contradiction. }
      rewrite E3. cbn [andb]. rewrite Rh'; [reflexivity|].
      pose proof (wf_lines _ _ _ _ _ _ W) as L. rewrite Forall_forall in L. now apply L.
    + destruct (mf_track f); constructor; [|constructor].
      unfold record_stmt. cbn [snd stmt_scope expr_known]. rewrite E3, Rec by (now apply Tr). reflexivity.
Qed.

(* Every function that a mutation needs *)
Lemma when_nil {A} b (l : list A) : when b l <> [] -> b = true.
Proof. destruct b; [reflexivity|]. intros H. now contradiction H. Qed.
Lemma function_known_read c o m f names :
  clang_node c m -> all_known names (wanted c o) = true -> In f (site_functions c o m) ->
  exists d, read_as (print_mfun f) d /\ fd_name d = mf_name f /\
    is_word (mf_name f) = true /\
    function_known (cpp c) names d = true.
Proof.
  intros C K I.
  assert (Sp : forall e, suits c (Direct (expr_plain c e)) = true).
  { intros e. unfold expr_plain. destruct (e_lvalue e), (cpp c) eqn:P; cbn [suits]; auto. }
  assert (Sd : forall e, cpp c = true -> suits c (Delayed (expr_plain c e)) = true).
  { intros e P. unfold expr_plain. rewrite P. destruct (e_lvalue e); exact P. }
  assert (Tr : negb (track o) = true -> track o = false) by (destruct (track o); auto).
  destruct m as [e i|b i i1 i2|u i i1|t i]; cbn [site_functions] in I;
    cbn [clang_node] in C.
  - destruct I as [<-|[]]. pose proof (expr_well_formed c o e C) as W.
    eexists. split; [exact (function_read _ _ _ _ _ _ W)|].
    split; [reflexivity|]. split; [apply W|].
    apply (definition_known c o); try assumption; try reflexivity.
    + unfold expr_param. destruct (cpp c) eqn:P; cbn [andb]; [destruct (e_side_effects e)|]; auto.
    + cbn [expr_function mf_lines]. intros H. apply when_nil in H. auto.
    + cbn [expr_function mf_track]. destruct (track o); congruence.
  - destruct (c_logical c b) eqn:L.
    + destruct (logical_well_formed _ _ _ _ I) as (t & W).
      eexists. split; [exact (function_read _ _ _ _ _ _ W)|].
      split; [reflexivity|]. split; [apply W|].
      apply (definition_known c o); try assumption; try reflexivity;
        unfold c_logical_functions in I; apply in_app_iff in I;
        destruct I as [I|[<-|[]]];
        try (apply when_in in I; destruct I as [T I]; apply Tr in T);
        try (intros _; exact T);
        try (destruct I as [<-|[<-|[]]]; intros H; now contradiction H);
        cbn [c_logical_outer_function c_logical_fun mf_fast mf_lines mf_track].
      * discriminate.
      * intros H. apply when_nil in H. auto.
      * destruct (track o); congruence.
    + destruct C as [C _]. destruct I as [<-|[]]. pose proof (binary_well_formed c o b C) as W.
      eexists. split; [exact (function_read _ _ _ _ _ _ W)|].
      split; [reflexivity|]. split; [apply W|].
      assert (Sb : suits c (Direct (binary_plain c b)) = true).
      { unfold binary_plain. destruct (is_assign (b_op b)), (cpp c) eqn:P; cbn [suits]; auto. }
      apply (definition_known c o); try assumption.
      * unfold binary_result. destruct (is_assign (b_op b)), (cpp c) eqn:P; cbn [suits andb]; auto.
      * unfold binary_param. destruct (lhs_delayed c b) eqn:D; [|assumption].
        assert (P : cpp c = true) by (unfold lhs_delayed in D; destruct (cpp c); [reflexivity|discriminate D]).
        destruct (binary_plain c b); exact P.
      * unfold binary_param2. destruct (rhs_delayed c b) eqn:D; [|reflexivity].
        unfold rhs_delayed in D. destruct (cpp c) eqn:P; [exact P|discriminate D].
      * cbn [binary_function mf_lines]. intros H. apply when_nil in H. auto.
      * cbn [binary_function mf_track]. destruct (track o); congruence.
  - destruct I as [<-|[]]. pose proof (unary_well_formed c o u C) as W.
    eexists. split; [exact (function_read _ _ _ _ _ _ W)|].
    split; [reflexivity|]. split; [apply W|].
    apply (definition_known c o); try assumption; try reflexivity.
    + unfold unary_result. destruct (cpp c) eqn:P; [destruct (u_lvalue u)|]; cbn [andb suits]; auto.
    + unfold unary_param. destruct (unary_delayed c u) eqn:D; [|apply Sp]. apply Sd.
      unfold unary_delayed in D. destruct (cpp c); [reflexivity|discriminate D].
    + cbn [unary_function mf_lines]. intros H. apply when_nil in H. auto.
    + cbn [unary_function mf_track]. destruct (track o); congruence.
  - contradiction.
Qed.
