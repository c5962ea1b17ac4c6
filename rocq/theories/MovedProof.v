(* Proofs for PropsMoved.v *)
From Coq Require Import String Ascii List Bool Arith Lia NArith DecimalString.
From Verif Require Import Base Clang Gen GenExpr GenBinary GenUnary GenStmt Mutation NestSpec RewriterProof
  GrammarSpec GrammarProof MovedSpec.
Import ListNotations.
Local Open Scope string_scope.

(* There is no bracket in the text. *)
Fixpoint plain (s : string) : bool :=
  match s with
  | EmptyString => true
  | String a s => negb (Ascii.eqb a "[") && plain s
  end.

Lemma plain_app s t : plain (s ++ t) = plain s && plain t.
Proof. induction s as [|a s IH]; cbn; [reflexivity|]. rewrite IH. now rewrite andb_assoc. Qed.

Lemma plain_contains s t : contains s ("[" ++ t) -> plain s = false.
Proof.
  intros (a & b & ->). rewrite plain_app. cbn. apply andb_false_r.
Qed.

Lemma plain_word s : word s -> plain s = true.
Proof.
  unfold word. induction s as [|a s IH]; intros W; [reflexivity|]. cbn. rewrite IH.
  - rewrite andb_true_r. destruct (Ascii.eqb_spec a "["); [|reflexivity]. subst a.
    discriminate (W "["%char (or_introl eq_refl)).
  - intros x I. apply W. now right.
Qed.
Lemma plain_identifier s : identifier s -> plain s = true.
Proof. intros [_ W]. exact (plain_word s W). Qed.

Lemma plain_if (b : bool) s t : plain s = true -> plain t = true ->
  plain (if b then s else t) = true.
Proof. destruct b; auto. Qed.
Lemma plain_type c t : plain (ty_name c t) = true.
Proof. destruct t; cbn; try reflexivity. destruct (prints_bool c); reflexivity. Qed.

Lemma contains_at a t b : contains (a ++ t ++ b) t.
Proof. exists a, b. reflexivity. Qed.
Lemma contains_after s t x : contains s t -> contains (x ++ s) t.
Proof. intros (a & b & ->). exists (x ++ a), b. now rewrite sapp_assoc. Qed.
Lemma contains_here t b : contains (t ++ b) t.
Proof. exists "", b. reflexivity. Qed.

Lemma plain_uint d : plain (NilEmpty.string_of_uint d) = true.
Proof. induction d; cbn; auto. Qed.
Lemma plain_number n : plain (string_of_nat n) = true.
Proof.
  apply plain_uint.
Qed.

Lemma plain_expr c o e : plain (expr_function_name c o e) = true.
Proof. apply plain_identifier, expr_identifier. Qed.
Ltac plains := rewrite ?plain_app, ?plain_expr, ?plain_type; cbn [andb];
  repeat match goal with |- context [plain (if ?b then _ else _)] => destruct b end; reflexivity.

Lemma plain_binary c o b : plain (binary_function_name c o b) = true.
Proof.
  apply plain_identifier. rewrite <- (sapp_nil_r (binary_function_name c o b)).
  apply binary_identifier. intros a [].
Qed.

Lemma moved_exact c o m first id off :
  opens_function (a_edits (apply_mutation c o m first id)) off <-> In off (moved c m).
Proof.
  unfold opens_function, moved. split.
  - intros (s & I & C). apply plain_contains in C.
    destruct m as [e i|b i il ir|u i is|st i]; cbn [apply_mutation a_edits] in I.
    + destruct I as [I|[I|[]]]; [|discriminate]. injection I as <- <-. revert C.
      unfold expr_prefix. rewrite !plain_app.
      destruct (cpp c); [|cbn [andb negb orb]; intros C; exfalso; revert C; apply eq_true_false_abs].
      * destruct (e_side_effects e); [left; reflexivity|]. cbn [andb negb].
        intros C. exfalso. revert C. apply eq_true_false_abs.
        destruct (e_init_list_cast e), (e_binop e) as [[]|]; plains.
      * destruct (e_init_list_cast e), (e_binop e) as [[]|]; plains.
    + destruct (c_logical c b) eqn:L.
      * unfold c_logical_edits, c_logical in *. apply andb_prop in L as [L _].
        apply negb_true_iff in L. rewrite L. exfalso.
        rewrite !in_app_iff in I.
        assert (P := plain_binary c (optimise o) b).
        assert (Q : forall x, plain x = true -> plain (binary_function_name c (optimise o) b ++ x) = true)
          by (intros x X; rewrite plain_app, P; exact X).
        destruct (track o); cbn in I;
          repeat (destruct I as [I|I]; try contradiction; try discriminate);
          injection I as <- <-; revert C; apply eq_true_false_abs, Q; reflexivity.
      * unfold binary_edits in I. cbn zeta in I.
        set (name := binary_function_name c (optimise o) b) in *.
        assert (P : plain name = true) by apply plain_binary. clearbody name.
        destruct I as [I|[I|[I|[I|[I|[]]]]]]; try discriminate; injection I as <- <-; revert C.
        -- unfold lhs_delayed. destruct (cpp c); [|cbn [andb negb orb]].
           ++ cbn [andb]. destruct (e_side_effects (b_lhs b)); [left; reflexivity|].
              cbn [negb andb]. rewrite !plain_app, P. discriminate.
           ++ rewrite !plain_app, P. destruct (is_assign (b_op b)); discriminate.
        -- unfold rhs_delayed. destruct (cpp c); cbn [andb]; [|discriminate].
           intros C. apply in_app_iff. right.
           destruct (e_side_effects (b_rhs b)); [left; reflexivity|].
           destruct (b_op b); cbn in *; try discriminate; left; reflexivity.
    + unfold unary_edits in I. cbn zeta in I.
      set (name := unary_function_name c (optimise o) u) in *.
      assert (P : plain name = true) by apply plain_identifier, unary_identifier. clearbody name.
      destruct I as [I|[I|[I|[]]]]; try discriminate. injection I as <- <-. revert C.
      rewrite !plain_app. unfold unary_delayed. destruct (cpp c); cbn [andb negb].
      * destruct (u_side_effects u); [left; reflexivity|].
        rewrite P. discriminate.
      * rewrite P.
        destruct (is_incdec (u_op u)); discriminate.
    + exfalso. unfold stmt_edits, stmt_open in I. destruct I as [I|I].
      * assert (E : plain s = true); [|congruence]. pose proof (plain_number (id - first)) as N.
        set (n := string_of_nat (id - first)) in *. clearbody n.
        destruct (track o); injection I as _ <-; cbn; rewrite plain_app, N; reflexivity.
      * destruct (track o); cbn in I; [contradiction|]. destruct I as [I|[]]. discriminate.
  - destruct (cpp c) eqn:X; [|intros []]. intros I.
    destruct m as [e i|b i il ir|u i is|st i]; cbn [apply_mutation a_edits].
    + destruct (e_side_effects e) eqn:E; [|destruct I]. destruct I as [<-|[]].
      eexists. split; [left; reflexivity|]. unfold expr_prefix. rewrite X, E. cbn [andb].
      do 4 apply contains_after. rewrite !sapp_assoc. apply contains_here.
    + assert (L : c_logical c b = false) by (unfold c_logical; rewrite X; reflexivity).
      rewrite L. unfold binary_edits. cbn zeta.
      apply in_app_iff in I as [I|I].
      * destruct (e_side_effects (b_lhs b)) eqn:E; [|destruct I]. destruct I as [<-|[]].
        eexists. split; [right; left; reflexivity|]. unfold lhs_delayed. rewrite X, E. cbn [andb].
        do 2 apply contains_after. apply contains_here.
      * assert (R : rhs_delayed c b = true /\ r_begin (e_range (b_rhs b)) = off).
        { unfold rhs_delayed. rewrite X. destruct (e_side_effects (b_rhs b)).
          - destruct I as [<-|[]]. rewrite orb_true_r. auto.
          - destruct (b_op b); cbn in *; try contradiction; destruct I as [<-|[]]; auto. }
        destruct R as [R <-]. eexists. split; [do 3 right; left; reflexivity|]. rewrite R.
        apply contains_here.
    + destruct (u_side_effects u) eqn:E; [|destruct I]. destruct I as [<-|[]].
      eexists. split; [right; left; reflexivity|]. unfold unary_delayed. rewrite X, E. cbn [andb].
      do 2 apply contains_after. rewrite !sapp_assoc. apply contains_here.
    + destruct I.
Qed.
