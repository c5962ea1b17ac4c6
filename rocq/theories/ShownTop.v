From Coq Require Import String Ascii List NArith ZArith Bool Arith Lia.
From Verif Require Import Base Clang Gen GenExpr GenBinary GenUnary Mutation GenSpec SourceRange
  MutTree TreeSpec Run RunSpec QueryText Query QuerySpec QueryProof SourceRangeProof ShownSpec ShownProof.
Import ListNotations.
Local Open Scope string_scope.
Local Open Scope list_scope.

(** * Texts of bare characters *)

Definition word_or_dot (t : token) : bool := match t with Word _ => true | Sign s => String.eqb s "." end.
Fixpoint bare_mode (m : mode) : bool :=
  match m with
  | Between | InWord _ | InNumber _ | Bad => true
  | InSign s => String.eqb s "."
  | Splice m => bare_mode m
  | _ => false
  end.
Definition bare_state (st : lexer) : bool := forallb word_or_dot (fst st) && bare_mode (snd st).
Lemma bare_begin c ts : existsb (Ascii.eqb c) bare_chars = true -> forallb word_or_dot ts = true ->
  bare_state (begin ts c) = true.
Proof.
  intros B F. apply existsb_exists in B as (x & I & Q). apply Ascii.eqb_eq in Q as ->.
  cbn in I. repeat (destruct I as [<-|I]; [unfold bare_state; cbn; now rewrite F|]). destruct I.
Qed.
Lemma bare_next c st : existsb (Ascii.eqb c) bare_chars = true -> bare_state st = true ->
  bare_state (next_char st c) = true.
Proof.
  intros B F. destruct st as [ts m]. apply andb_true_iff in F as [F G]. cbn [fst snd] in F, G.
  destruct m; cbn [next_char bare_mode] in *; try discriminate.
  - now apply bare_begin.
  - destruct (_ || _). { unfold bare_state. cbn. now rewrite F. }
    destruct (Ascii.eqb c "\"). { unfold bare_state. cbn. now rewrite F. }
    now apply bare_begin.
  - destruct (_ || _). { unfold bare_state. cbn. now rewrite F. }
    destruct (Ascii.eqb c "\"). { unfold bare_state. cbn. now rewrite F. }
    now apply bare_begin.
  - apply String.eqb_eq in G as ->. change (String.eqb "." "/") with false. cbn [andb].
    destruct (_ && _). { unfold bare_state. cbn. now rewrite F. }
    destruct (sign (snoc "." c)) eqn:S. { cbn in S. rewrite ?andb_false_r in S. discriminate. }
    destruct (Ascii.eqb c "\"). { unfold bare_state. cbn. now rewrite F. }
    now apply bare_begin.
  - destruct (Ascii.eqb c "010"); unfold bare_state; cbn [fst snd bare_mode]; rewrite F; auto.
  - unfold bare_state. cbn. now rewrite F.
Qed.
Lemma bare_scan s st :
  forallb (fun c => existsb (Ascii.eqb c) bare_chars) (list_ascii_of_string s) = true ->
  bare_state st = true -> bare_state (scan st s) = true.
Proof.
  revert st. induction s as [|c s IH]; intros st B F; auto. cbn [list_ascii_of_string forallb] in B.
  apply andb_true_iff in B as [A B]. cbn [scan]. apply IH; auto. now apply bare_next.
Qed.
Lemma bare_tokens s ts :
  forallb (fun c => existsb (Ascii.eqb c) bare_chars) (list_ascii_of_string s) = true ->
  tokens_of s = Some ts -> forallb word_or_dot ts = true.
Proof.
  intros B T. unfold tokens_of in T. pose proof (bare_scan s ([], Between) B eq_refl) as K.
  destruct (scan ([], Between) s) as [t m]. apply andb_true_iff in K as [F G]. cbn [fst snd] in F, G.
  assert (R : forall l, forallb word_or_dot l = true -> forallb word_or_dot (rev l) = true).
  { intros l L. rewrite forallb_forall in *. intros x I. apply L. now apply in_rev. }
  unfold finished in T. cbn [fst snd] in T. destruct m; try discriminate; injection T as <-; apply (R (_ :: _)) || apply R; cbn; auto.
  cbn in G. now rewrite G.
Qed.

Lemma some_eq A (x y : A) : Some x = Some y -> x = y.
Proof. now intros [= ->]. Qed.

Section Language.
Variable cxx : bool.

(** * Operands *)

Lemma operand_read T e : reads_as cxx T e -> clear cxx T ->
  exists ts, tokens_of (operand_text T) = Some ts /\
    forall more f r, suffixes cxx e more f r -> unary cxx (ts ++ more) f r.
Proof.
  intros (ts & L & X) C. unfold operand_text.
  destruct (list_ascii_of_string T) eqn:A.
  { destruct T; [|discriminate]. cbn in L. injection L as <-.
    apply (proj1 (all_start cxx)) in X. discriminate. }
  rewrite <- A. destruct (forallb _ (list_ascii_of_string T)) eqn:B.
  - exists ts. split; auto. apply bare_operand; auto.
    destruct C as [C|C]. { unfold clear in C. congruence. }
    specialize (C _ L). pose proof (bare_tokens _ _ B L) as F. clear - C F.
    induction ts as [|t ts IH]; auto. cbn [existsb forallb] in *. apply orb_false_iff in C as [C1 C2].
    apply andb_true_iff in F as [F1 F2]. rewrite (IH C2 F2), andb_true_r.
    destruct t; auto. cbn in *. now apply negb_false_iff in C1.
  - exists (Sign "(" :: ts ++ [Sign ")"]). split.
    + unfold tokens_of. cbn [append scan next_char]. change (begin [] "(") with ([Sign "("], Between).
      rewrite scan_app. cbn [scan]. erewrite scan_end; eauto; [|reflexivity]. unfold finished. cbn [fst snd].
      now rewrite !rev_app_distr, rev_involutive.
    + intros more f r S. cbn [app]. rewrite <- app_assoc. cbn [app].
      eapply unary_postfix; eauto. apply primary_paren. apply (proj1 (closed cxx more) _ _ _ _ X).
Qed.

(* Blanks *)
Lemma scan_indentation i ts : scan (ts, Between) (indentation i) = (ts, Between).
Proof.
  unfold indentation. destruct (Nat.eqb _ _); auto. induction (pred _); auto.
Qed.
Lemma indented i s : tokens_of (indentation i ++ s)%string = tokens_of s.
Proof. unfold tokens_of. now rewrite scan_app, scan_indentation. Qed.

(* A sign and the separator behind it *)
Definition separator (sep : string) : Prop := sep = " " \/ sep = nl.
Lemma scan_bop o sep ts : separator sep ->
  scan (ts, Between) (bop_str o ++ sep)%string = (Sign (bop_str o) :: ts, Between).
Proof. intros [-> | ->]; destruct o; reflexivity. Qed.
Definition uop_token (o : uop) : token :=
  match o with UExtension => Word (uop_str o) | _ => Sign (uop_str o) end.
Lemma scan_uop o ts : scan (ts, Between) (uop_str o ++ " ")%string = (uop_token o :: ts, Between).
Proof. destruct o; reflexivity. Qed.
Lemma tokens_end_sep s ts sep ts0 : tokens_of s = Some ts -> separator sep ->
  scan (ts0, Between) (s ++ sep)%string = (rev ts ++ ts0, Between).
Proof.
  intros T [-> | ->]; rewrite scan_app; unfold nl; cbn [scan]; now rewrite (scan_end s ts ts0 _ [] T).
Qed.
Lemma tokens_from s ts ts0 : tokens_of s = Some ts ->
  finished (scan (ts0, Between) s) = Some (rev ts0 ++ ts).
Proof.
  intro T. rewrite (scan_more ts0 s []). unfold tokens_of in T.
  destruct (scan ([], Between) s) as [t m]. unfold finished in *. cbn [fst snd] in *.
  destruct m; try discriminate; injection T as <-; cbn [rev]; rewrite ?rev_app_distr, ?app_assoc; reflexivity.
Qed.

Definition post_ok (r : rhs) : bool :=
  match r with RPost o => named ["++"; "--"] (uop_str o) | RLit (LInt z) | RLit (LFloat z) => existsb (Z.eqb z) [0; 1; -1]%Z | _ => true end.

Lemma alone e : suffixes cxx e [] e [].
Proof. now apply no_suffix. Qed.
Lemma whole ts e : unary cxx ts e [] -> expression cxx 0 ts e [].
Proof. intro U. econstructor; eauto. now apply no_operator. Qed.

Lemma read_pre i o T e : reads_as cxx T e -> clear cxx T ->
  reads_as cxx (indentation i ++ uop_str o ++ " " ++ operand_text T) (Pre (uop_str o) e).
Proof.
  intros R C. destruct (operand_read T e R C) as (ts & L & U).
  exists (uop_token o :: ts). split.
  - rewrite indented. unfold tokens_of.
    replace (uop_str o ++ " " ++ operand_text T)%string with ((uop_str o ++ " ") ++ operand_text T)%string
      by (clear; destruct o; reflexivity).
    rewrite scan_app, scan_uop. rewrite (tokens_from _ _ _ L). reflexivity.
  - apply whole. specialize (U [] e [] (alone e)). rewrite app_nil_r in U.
    apply unary_prefix; auto; destruct o; reflexivity.
Qed.
Lemma read_post i o T e : named ["++"; "--"] (uop_str o) = true -> reads_as cxx T e -> clear cxx T ->
  reads_as cxx (indentation i ++ operand_text T ++ " " ++ uop_str o) (Post e (uop_str o)).
Proof.
  intros O R C. destruct (operand_read T e R C) as (ts & L & U).
  exists (ts ++ [Sign (uop_str o)]). split.
  - rewrite indented. unfold tokens_of. rewrite scan_app.
    change (" " ++ uop_str o)%string with (String " " (uop_str o)). cbn [scan].
    erewrite scan_end; eauto; [|reflexivity].
    rewrite (tokens_from (uop_str o) [Sign (uop_str o)]).
    + cbn [app]. now rewrite app_nil_r, rev_involutive.
    + clear - O. destruct o; try discriminate; reflexivity.
  - apply whole. apply U. apply suffix_step; auto. apply alone.
Qed.
Lemma read_bin i j o sep T1 T2 e1 e2 : separator sep ->
  reads_as cxx T1 e1 -> clear cxx T1 -> reads_as cxx T2 e2 -> clear cxx T2 ->
  reads_as cxx (indentation i ++ operand_text T1 ++ sep ++ bop_str o ++ sep ++ indentation j
                ++ operand_text T2) (Bin (bop_str o) e1 e2).
Proof.
  intros S R1 C1 R2 C2. destruct (operand_read T1 e1 R1 C1) as (ts1 & L1 & U1).
  destruct (operand_read T2 e2 R2 C2) as (ts2 & L2 & U2).
  exists (ts1 ++ Sign (bop_str o) :: ts2). split.
  - rewrite indented. unfold tokens_of.
    replace (operand_text T1 ++ sep ++ bop_str o ++ sep ++ indentation j ++ operand_text T2)%string
      with ((operand_text T1 ++ sep) ++ (bop_str o ++ sep) ++ indentation j ++ operand_text T2)%string.
    2:{ now rewrite !app_assoc_s. }
    rewrite scan_app, (tokens_end_sep _ _ _ _ L1 S), scan_app, (scan_bop _ _ _ S), scan_app, scan_indentation.
    rewrite (tokens_from _ _ _ L2). cbn [rev]. rewrite app_nil_r, rev_involutive, <- app_assoc. reflexivity.
  - specialize (U1 (Sign (bop_str o) :: ts2) e1 (Sign (bop_str o) :: ts2)).
    specialize (U2 [] e2 [] (alone e2)). rewrite app_nil_r in U2.
    econstructor. { apply U1. apply no_suffix. destruct o; reflexivity. }
    destruct (is_assign o) eqn:A.
    + apply assignment with (o := bop_str o) (r := e2) (ts1 := []); auto.
      * destruct o; try discriminate; reflexivity.
      * econstructor; eauto. now apply no_operator.
      * now apply no_operator.
    + assert (K : exists k, infix cxx (Sign (bop_str o)) = Some (bop_str o, k) /\ k <> 1 /\ k <> 2).
      { destruct o; try discriminate; eexists; (split; [cbv; reflexivity|split; discriminate]). }
      destruct K as (k & I & K1 & K2).
      apply left_operator with (o := bop_str o) (k := k) (r := e2) (ts1 := []); auto; try lia.
      * econstructor; eauto. now apply no_operator.
      * now apply no_operator.
Qed.
Lemma read_lit r : match r with RLit _ => post_ok r = true | _ => False end ->
  forall e1 e2, match r with RLit l => reads_as cxx (print_lit l) (mutated_expression r e1 e2) | _ => True end.
Proof.
  assert (W : forall w, plain_word cxx w = true -> expression cxx 0 [Word w] (Atom w) []).
  { intros w P. apply whole. eapply unary_postfix. { apply primary_word; auto. } apply alone. }
  assert (M : forall w, plain_word cxx w = true -> expression cxx 0 [Sign "-"; Word w] (Pre "-" (Atom w)) []).
  { intros w P. apply whole. apply unary_prefix; auto. eapply unary_postfix. { apply primary_word; auto. } apply alone. }
  intros O e1 e2. destruct r as [| | | | | |l]; auto. destruct l as [z|z|b]; cbn [post_ok] in O.
  - cbn [existsb] in O. repeat (apply orb_true_iff in O as [O|O]; [apply Z.eqb_eq in O as ->|]); try discriminate;
    (eexists; split; [reflexivity|]); (apply W || apply M); destruct cxx; reflexivity.
  - cbn [existsb] in O. repeat (apply orb_true_iff in O as [O|O]; [apply Z.eqb_eq in O as ->|]); try discriminate;
    (eexists; split; [reflexivity|]); (apply W || apply M); destruct cxx; reflexivity.
  - destruct b; (eexists; split; [reflexivity|]); apply W; destruct cxx; reflexivity.
Qed.

Definition operand_ok T e r := reads_as cxx T e /\ (has_operator r = true -> clear cxx T).
Lemma phrase_reads r T1 i T2 j sep e1 e2 : post_ok r = true ->
  (has_first r = true -> operand_ok T1 e1 r) -> (has_second r = true -> operand_ok T2 e2 r) ->
  match r with RBin _ => separator sep | _ => True end ->
  reads_as cxx (phrase T1 (indentation i) T2 (indentation j) sep r) (mutated_expression r e1 e2).
Proof.
  intros O A B D. destruct r; cbn [phrase mutated_expression has_first has_second] in *;
    try (destruct (A eq_refl) as [R1 C1]); try (destruct (B eq_refl) as [R2 C2]).
  - destruct R1 as (ts & L & X). exists ts. now rewrite indented.
  - destruct R2 as (ts & L & X). exists ts. now rewrite indented.
  - apply read_pre; auto.
  - apply read_post; auto.
  - apply read_pre; auto.
  - apply read_bin; auto.
  - exact (read_lit (RLit l) O e1 e2).
Qed.

Lemma post_expr a r : expr_meaning cpp_literals a = Some r ->
  post_ok r = true /\ has_second r = false.
Proof. destruct a; cbn; intros [= <-]; auto. Qed.
Lemma post_un a r : un_meaning a = Some r -> post_ok r = true /\ has_second r = false.
Proof. destruct a; cbn; intros [= <-]; auto. Qed.
Lemma post_bin a r : bin_meaning a = Some r -> post_ok r = true.
Proof. destruct a; cbn; intros [= <-]; auto. Qed.

Definition nowhere : loc_info :=
  {| start_line := 0; start_column := 0; end_line := 0; end_column := 0; snippet := "" |}.
Lemma shown_lemma source g k s : group_phrase source g k = Some s -> shown_well cxx source g k s.
Proof.
  unfold group_phrase, shown_well. destruct g; auto.
  - intros P id a e r N M A. rewrite N, M in P. cbn [option_map] in P. apply some_eq in P as <-.
    destruct (post_expr a r M) as [O D].
    apply (phrase_reads r _ info "" nowhere "" e e O A); [intro; congruence|]. destruct r; auto; discriminate.
  - intros P id a e1 e2 r N M A B. rewrite N, M in P. cbn [option_map] in P. apply some_eq in P as <-.
    pose proof (post_bin a r M) as O.
    apply (phrase_reads r _ info_lhs _ info_rhs _ e1 e2 O A B).
    destruct r; auto. destruct (Nat.eqb _ _); [now left|now right].
  - intros P id a e r N M A. rewrite N, M in P. cbn [option_map] in P. apply some_eq in P as <-.
    destruct (post_un a r M) as [O D].
    apply (phrase_reads r _ info_sub "" nowhere "" e e O A); [intro; congruence|]. destruct r; auto; discriminate.
Qed.
End Language.

Lemma shown_in_run cxx o fs original id :
  id < rs_id (run o true fs) ->
  exists n ns p g k f u m s,
    In (n, ns) (rs_info (run o true fs)) /\ In p ns /\ In g (p_groups p) /\
    nth_error (group_ids g) k = Some id /\
    In f (distinct [] fs) /\ f_name f = n /\ f_unit f = Some u /\
    In m (post (ui_tree u)) /\ describes_group (ui_ctx u) (optimise o) m g /\
    show_info (rs_info (run o true fs)) original id = Shown s /\
    shown_well cxx (original n) g k s.
Proof.
  intro H. destruct (C36_show_lemma o fs original id H) as (n & ns & p & g & k & f & u & m & s & R).
  decompose [and] R. exists n, ns, p, g, k, f, u, m, s. repeat (split; [assumption|]). now apply shown_lemma.
Qed.
