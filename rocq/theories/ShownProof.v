From Coq Require Import String Ascii List NArith ZArith Bool Arith Lia.
From Verif Require Import Base Clang Gen GenExpr GenBinary GenUnary Mutation GenSpec SourceRange
  QueryText Query QuerySpec ShownSpec.
Import ListNotations.
Local Open Scope string_scope.
Local Open Scope list_scope.

Scheme expression_ind2 := Minimality for expression Sort Prop
  with operators_ind2 := Minimality for operators Sort Prop
  with unary_ind2 := Minimality for unary Sort Prop
  with primary_ind2 := Minimality for primary Sort Prop
  with suffixes_ind2 := Minimality for suffixes Sort Prop.
Combined Scheme reading_ind from expression_ind2, operators_ind2, unary_ind2, primary_ind2, suffixes_ind2.

Section Grammar.
Variable cxx : bool.
Notation expression := (expression cxx).
Notation operators := (operators cxx).
Notation unary := (unary cxx).
Notation primary := (primary cxx).
Notation suffixes := (suffixes cxx).

(** * What an expression begins with *)

Definition starts (ts : list token) : bool :=
  match ts with
  | t :: _ => match prefix cxx t with
              | Some _ => true
              | None => match t with Word w => plain_word cxx w | Sign s => String.eqb s "(" end
              end
  | [] => false
  end.
Lemma all_start :
  (forall n ts e rest, expression n ts e rest -> starts ts = true) /\
  (forall n l ts e rest, operators n l ts e rest -> True) /\
  (forall ts e rest, unary ts e rest -> starts ts = true) /\
  (forall ts e rest, primary ts e rest -> starts ts = true) /\
  (forall a ts e rest, suffixes a ts e rest -> True).
Proof.
  apply reading_ind; intros; auto; cbn [starts]; try (rewrite H; reflexivity); try reflexivity.
  rewrite H. destruct (prefix cxx (Word w)); reflexivity.
Qed.
Lemma prefix_type w : named type_words w = true -> prefix cxx (Word w) = None /\ plain_word cxx w = false.
Proof.
  intro H. apply existsb_exists in H as (x & I & Q). apply String.eqb_eq in Q as ->.
  unfold plain_word, respelt, prefix, respelt, word_signs. destruct cxx; cbn in I;
  repeat (destruct I as [<-|I]; [split; reflexivity|]); destruct I.
Qed.
Lemma start_no_type ts : starts ts = true -> begins_type ts = false.
Proof.
  destruct ts as [|[w|s] ts]; auto. cbn [starts begins_type]. intro S.
  destruct (named type_words w) eqn:N; auto. destruct (prefix_type w N) as [P Q]. rewrite P, Q in S. discriminate.
Qed.
Lemma start_not s ts : starts (Sign s :: ts) = true -> named [")"; "]"; ":"; "."; "->"; "["] s = false.
Proof.
  cbn. destruct (named [")"; "]"; ":"; "."; "->"; "["] s) eqn:N; auto.
  apply existsb_exists in N as (x & I & Q). apply String.eqb_eq in Q as ->. cbn in I.
  repeat (destruct I as [<-|I]; [discriminate|]); destruct I.
Qed.

(** * There is one reading *)

Lemma same_type ty ty' ts ts' : forallb no_parenthesis ty = true -> forallb no_parenthesis ty' = true ->
  ty ++ Sign ")" :: ts = ty' ++ Sign ")" :: ts' -> ty = ty' /\ ts = ts'.
Proof.
  revert ty'. induction ty as [|t ty IH]; intros [|t' ty'] F F' Q; cbn in *.
  - injection Q as ->. auto.
  - injection Q as <- _. discriminate.
  - injection Q as -> _. discriminate.
  - injection Q as <- Q. apply andb_true_iff in F as [_ F]. apply andb_true_iff in F' as [_ F'].
    destruct (IH _ F F' Q) as [-> ->]. auto.
Qed.
Lemma paren_no_prefix : prefix cxx (Sign "(") = None.
Proof. reflexivity. Qed.
Lemma plain_no_prefix w : plain_word cxx w = true -> prefix cxx (Word w) = None.
Proof.
  unfold plain_word, prefix. destruct (named word_prefixes w); [discriminate|].
  destruct (respelt cxx w); auto. rewrite andb_false_r. discriminate.
Qed.

Lemma paren_cases ts e rest : expression 0 ts e rest -> begins_type ts = false.
Proof. intro X. apply start_no_type. eapply (proj1 all_start). exact X. Qed.
Lemma begins_type_app ty ts : begins_type ty = true -> begins_type (ty ++ ts)%list = true.
Proof. destruct ty as [|[w|x] ty]; cbn; auto; discriminate. Qed.

Ltac same I :=
  try match goal with K : match infix ?c ?t with _ => _ end |- _ => rewrite I in K end;
  try match goal with K : infix ?c ?t = Some _ |- _ =>
    lazymatch K with I => fail | _ => rewrite I in K; first [discriminate K | injection K; intros; subst] end end.

Lemma one_reading :
  (forall n ts e rest, expression n ts e rest ->
     forall e' rest', expression n ts e' rest' -> e = e' /\ rest = rest') /\
  (forall n l ts e rest, operators n l ts e rest ->
     forall e' rest', operators n l ts e' rest' -> e = e' /\ rest = rest') /\
  (forall ts e rest, unary ts e rest ->
     forall e' rest', unary ts e' rest' -> e = e' /\ rest = rest') /\
  (forall ts e rest, primary ts e rest ->
     forall e' rest', primary ts e' rest' -> e = e' /\ rest = rest') /\
  (forall a ts e rest, suffixes a ts e rest ->
     forall e' rest', suffixes a ts e' rest' -> e = e' /\ rest = rest').
Proof.
  destruct all_start as (SE & _ & SU & SP & _).
  apply reading_ind.
  - intros n ts l r e rest U IU O IO e' rest' X. inversion X; subst.
    destruct (IU _ _ H) as [<- <-]. auto.
  - intros n l ts Hs e' rest' X. inversion X; subst; auto; rewrite H in Hs; lia.
  - intros n l t o k ts r ts1 e rest I Le N1 N2 Ex IE O IO e' rest' X. clear Ex O. inversion X; subst; same I; try lia.
    match goal with K : expression (S _) _ _ _ |- _ => destruct (IE _ _ K) as [<- <-] end. auto.
  - intros n l t o ts r ts1 e rest I Le Ex IE O IO e' rest' X. clear Ex O. inversion X; subst; same I; try lia.
    match goal with K : expression 1 _ _ _ |- _ => destruct (IE _ _ K) as [<- <-] end. auto.
  - intros n l t o ts a ts1 b ts2 e rest I Le Ea IEa Eb IEb O IO e' rest' X. clear Ea Eb O. inversion X; subst; same I; try lia.
    match goal with K : expression 0 _ _ _ |- _ => destruct (IEa _ _ K) as [<- Q] end. injection Q as <-.
    match goal with K : expression 1 _ _ _ |- _ => destruct (IEb _ _ K) as [<- <-] end. auto.
  - intros t o ts e rest P A U IU e' rest' X. clear U. inversion X; subst.
    + match goal with K : prefix cxx t = _ |- _ => rewrite P in K; injection K as <- end.
      match goal with K : unary ts _ _ |- _ => destruct (IU _ _ K) as [<- <-] end. auto.
    + congruence.
    + discriminate P.
    + match goal with K : primary (t :: ts) _ _ |- _ => inversion K; subst end.
      * erewrite plain_no_prefix in P by eassumption. discriminate.
      * discriminate P.
  - intros t o ty ts P A F e' rest' X. inversion X; subst.
    + congruence.
    + match goal with K : prefix cxx t = _ |- _ => rewrite P in K; injection K as <- end.
      match goal with K : (_ ++ _ = _ ++ _)%list |- _ => apply same_type in K; auto; destruct K as [-> ->] end. auto.
    + discriminate P.
    + match goal with K : primary (t :: _) _ _ |- _ => inversion K; subst end.
      * erewrite plain_no_prefix in P by eassumption. discriminate.
      * discriminate P.
  - intros ty ts e rest B F U IU e' rest' X. clear U. inversion X; subst.
    + discriminate.
    + discriminate.
    + match goal with K : (_ ++ _ = _ ++ _)%list |- _ => apply same_type in K; auto; destruct K as [-> ->] end.
      match goal with K : unary ts _ _ |- _ => destruct (IU _ _ K) as [<- <-] end. auto.
    + match goal with K : primary _ _ _ |- _ => inversion K; subst end.
      match goal with K : expression _ _ _ _ |- _ => apply paren_cases in K end.
      rewrite begins_type_app in *; auto; discriminate.
  - intros ts a r e rest P IP S IS e' rest' X. inversion X; subst.
    + inversion P; subst.
      * match goal with K : plain_word _ _ = _ |- _ => apply plain_no_prefix in K end. congruence.
      * discriminate.
    + inversion P; subst.
      * match goal with K : plain_word _ _ = _ |- _ => apply plain_no_prefix in K end. congruence.
      * discriminate.
    + inversion P; subst.
      match goal with K : expression _ _ _ _ |- _ => apply paren_cases in K end.
      rewrite begins_type_app in *; auto; discriminate.
    + match goal with K : primary ts _ _ |- _ => destruct (IP _ _ K) as [<- <-] end. auto.
  - intros w rest P e' rest' X. inversion X; subst. auto.
  - intros ts e rest Ex IE e' rest' X. inversion X; subst.
    match goal with K : expression _ _ _ _ |- _ => destruct (IE _ _ K) as [<- Q] end.
    injection Q as <-. auto.
  - intros a ts H e' rest' X.
    inversion X; subst; auto; try discriminate; cbn in H;
      match goal with K : named _ ?o = true |- _ =>
        cbn in K; repeat (destruct (String.eqb o _); [discriminate|]); discriminate end.
  - intros a o x ts e rest No P S IS e' rest' X.
    inversion X; subst; try discriminate.
    + match goal with K : match _ with _ => _ end |- _ => idtac | K : suffix _ = false |- _ =>
        cbn in K; cbn in No; repeat (destruct (String.eqb o _); [discriminate|]); discriminate end.
    + auto.
    + match goal with K : named _ _ = true, L : named _ _ = true |- _ =>
        cbn in K, L end.
      destruct (String.eqb_spec o "."); [subst; discriminate|].
      destruct (String.eqb_spec o "->"); [subst; discriminate|]. discriminate.
  - intros a ts i ts1 e rest Ex IE S IS e' rest' X. inversion X; subst; try discriminate.
    match goal with K : expression _ _ _ _ |- _ => destruct (IE _ _ K) as [<- Q] end.
    injection Q as <-. auto.
  - intros a ts e rest S IS e' rest' X. inversion X; subst; try discriminate; auto.
    match goal with K : expression _ _ _ _ |- _ => apply SE in K end. discriminate.
  - intros a ts i ts1 e rest Ex IE S IS e' rest' X. inversion X; subst; try discriminate.
    + apply SE in Ex. discriminate.
    + match goal with K : expression _ _ _ _ |- _ => destruct (IE _ _ K) as [<- Q] end.
      injection Q as <-. auto.
  - intros a o ts e rest No S IS e' rest' X. clear S.
    inversion X; subst; auto.
    all: cbn in No.
    all: try match goal with K : suffix _ = false |- _ => cbn in K end.
    all: try match goal with K : named _ _ = true |- _ => cbn in K end.
    all: try discriminate.
    all: try (repeat (destruct (String.eqb _ _); [discriminate|]); discriminate).
    all: destruct (String.eqb_spec o "++"); [subst; discriminate|].
    all: destruct (String.eqb_spec o "--"); [subst; discriminate|]; discriminate.
Qed.

Lemma reads_once s e e' : reads_as cxx s e -> reads_as cxx s e' -> e = e'.
Proof.
  intros (ts & T & E) (ts' & T' & E'). rewrite T in T'. injection T' as <-.
  eapply (proj1 one_reading); eassumption.
Qed.

(** * A parenthesis ends an expression *)

Lemma applied_to_type_app t ts more :
  applied_to_type t (ts ++ Sign ")" :: more) = applied_to_type t ts.
Proof. destruct t; auto. destruct ts as [|[x|x] ts]; auto; destruct ts; auto; cbn; now rewrite ?andb_false_r. Qed.

Lemma closed more :
  (forall n ts e rest, expression n ts e rest ->
     expression n (ts ++ Sign ")" :: more) e (rest ++ Sign ")" :: more)) /\
  (forall n l ts e rest, operators n l ts e rest ->
     operators n l (ts ++ Sign ")" :: more) e (rest ++ Sign ")" :: more)) /\
  (forall ts e rest, unary ts e rest ->
     unary (ts ++ Sign ")" :: more) e (rest ++ Sign ")" :: more)) /\
  (forall ts e rest, primary ts e rest ->
     primary (ts ++ Sign ")" :: more) e (rest ++ Sign ")" :: more)) /\
  (forall a ts e rest, suffixes a ts e rest ->
     suffixes a (ts ++ Sign ")" :: more) e (rest ++ Sign ")" :: more)).
Proof.
  apply reading_ind; intros; cbn [app] in *.
  - econstructor; eauto.
  - apply no_operator. destruct ts; cbn; auto.
  - eapply left_operator; eauto.
  - eapply assignment; eauto.
  - eapply conditional; eauto.
  - apply unary_prefix; auto. now rewrite applied_to_type_app.
  - rewrite <- app_assoc. cbn [app]. apply unary_of_type; auto.
    etransitivity; [|exact H0]. destruct t; auto. cbn [applied_to_type begins_cast]. f_equal. destruct ty as [|[x|x] ty]; reflexivity.
  - rewrite <- app_assoc. cbn [app]. apply unary_cast; auto.
  - eapply unary_postfix; eauto.
  - now apply primary_word.
  - now apply primary_paren.
  - apply no_suffix. destruct ts; cbn; auto.
  - apply suffix_member; auto.
  - eapply suffix_index; eauto.
  - apply suffix_call_nothing; auto.
  - eapply suffix_call; eauto.
  - apply suffix_step; auto.
Qed.

(** * Words and dots *)

Definition bare_token (t : token) : bool :=
  match t with Word w => plain_word cxx w | Sign s => String.eqb s "." end.
Lemma bare_suffixes a ts e rest : suffixes a ts e rest -> forallb bare_token ts = true ->
  forallb bare_token rest = true /\
  (rest = [] -> forall more f r, suffixes e more f r -> suffixes a (ts ++ more) f r).
Proof.
  induction 1; intro F; cbn [app] in *; try discriminate.
  - split; auto. intros ->. auto.
  - cbn [forallb] in F. apply andb_true_iff in F as [_ F]. apply andb_true_iff in F as [_ F].
    destruct (IHsuffixes F) as [A B]. split; auto. intros Q more f r S. apply suffix_member; auto.
  - cbn [forallb bare_token] in F. apply andb_true_iff in F as [F _]. apply String.eqb_eq in F as ->. discriminate.
Qed.
Lemma bare_no_prefix t : bare_token t = true -> prefix cxx t = None.
Proof.
  destruct t; cbn [bare_token]. apply plain_no_prefix. intro F. apply String.eqb_eq in F as ->. reflexivity.
Qed.
Lemma bare_no_infix t : bare_token t = true -> infix cxx t = None.
Proof.
  destruct t; cbn [bare_token].
  - unfold plain_word, infix, operator. destruct (respelt cxx s); auto. rewrite andb_false_r. discriminate.
  - intro F. apply String.eqb_eq in F as ->. reflexivity.
Qed.
Lemma bare_operand ts e : expression 0 ts e [] -> forallb bare_token ts = true ->
  forall more f r, suffixes e more f r -> unary (ts ++ more) f r.
Proof.
  intros X F more f r S. inversion X; subst.
  match goal with K : unary _ _ _ |- _ => inversion K; subst end.
  - cbn [forallb] in F. apply andb_true_iff in F as [F _]. apply bare_no_prefix in F. congruence.
  - cbn [forallb] in F. apply andb_true_iff in F as [F _]. apply bare_no_prefix in F. congruence.
  - discriminate F.
  - match goal with K : primary _ _ _ |- _ => inversion K; subst end; [|discriminate F].
    cbn [forallb] in F. apply andb_true_iff in F as [_ F].
    match goal with K : suffixes _ _ _ _, L : operators _ _ _ _ _ |- _ =>
      destruct (bare_suffixes _ _ _ _ K F) as [A B]; inversion L; subst end.
    + cbn [app]. eapply unary_postfix. { now apply primary_word. } eapply B; eauto.
    + cbn [forallb] in A. apply andb_true_iff in A as [A _]. apply bare_no_infix in A. congruence.
    + cbn [forallb] in A. apply andb_true_iff in A as [A _]. apply bare_no_infix in A. congruence.
    + cbn [forallb] in A. apply andb_true_iff in A as [A _]. apply bare_no_infix in A. congruence.
Qed.
End Grammar.

(** * Scanning *)

Lemma scan_app a b st : scan st (a ++ b)%string = scan (scan st a) b.
Proof. revert st. induction a as [|c a IH]; intro st; cbn; auto. Qed.
Lemma begin_more ts0 ts c : begin (ts ++ ts0) c = (fst (begin ts c) ++ ts0, snd (begin ts c)).
Proof.
  unfold begin.
  repeat match goal with |- context [if ?b then _ else _] => destruct b; [reflexivity|] end. reflexivity.
Qed.
Lemma next_more ts0 ts m c :
  next_char (ts ++ ts0, m) c = (fst (next_char (ts, m) c) ++ ts0, snd (next_char (ts, m) c)).
Proof.
  destruct m; cbn [next_char]; try apply begin_more;
  repeat match goal with |- context [if ?b then _ else _] => destruct b; [reflexivity|] end;
  try reflexivity; apply (begin_more ts0 (_ :: ts)).
Qed.
Lemma scan_more ts0 s ts m :
  scan (ts ++ ts0, m) s = (fst (scan (ts, m) s) ++ ts0, snd (scan (ts, m) s)).
Proof.
  revert ts m. induction s as [|c s IH]; intros ts m; cbn [scan]; auto.
  rewrite next_more. rewrite IH. now destruct (next_char (ts, m) c).
Qed.

(* Characters that end what has been read so far *)
Definition ends (c : ascii) : option (list token) :=
  if Ascii.eqb c ")" then Some [Sign ")"]
  else if Ascii.eqb c " " || Ascii.eqb c "010" then Some [] else None.
Lemma snoc_last s c d : last (list_ascii_of_string (snoc s c)) d = c.
Proof.
  unfold snoc. induction s as [|x s IH]; auto. cbn [String.append list_ascii_of_string last].
  destruct (list_ascii_of_string (s ++ String c "")) eqn:Q; auto. destruct s; discriminate.
Qed.
Lemma sign_ends s c l : ends c = Some l -> sign (snoc s c) = false.
Proof.
  intro E. destruct (sign (snoc s c)) eqn:S; auto. apply existsb_exists in S as (x & I & Q).
  apply String.eqb_eq in Q. pose proof (snoc_last s c "x"%char) as L. rewrite Q in L. clear Q.
  exfalso. cbn in I. rewrite <- L in E. clear L.
  repeat (destruct I as [<-|I]; [discriminate E|]). destruct I.
Qed.
Lemma begin_ends c l ts : ends c = Some l -> begin ts c = (l ++ ts, Between).
Proof.
  unfold ends. destruct (Ascii.eqb_spec c ")"); [intros [= <-]; subst; reflexivity|].
  destruct (Ascii.eqb_spec c " "); [intros [= <-]; subst; reflexivity|].
  destruct (Ascii.eqb_spec c "010"); [intros [= <-]; subst; reflexivity|]. discriminate.
Qed.
Lemma ends_char c l : ends c = Some l ->
  is_alnum c = false /\ is_digit c = false /\ existsb (Ascii.eqb c) ["_"; "."; "+"; "-"; "\"; "/"; "*"]%char = false.
Proof.
  unfold ends. destruct (Ascii.eqb_spec c ")"); [subst; repeat split; reflexivity|].
  destruct (Ascii.eqb_spec c " "); [subst; repeat split; reflexivity|].
  destruct (Ascii.eqb_spec c "010"); [subst; repeat split; reflexivity|]. discriminate.
Qed.
Lemma scan_end s ts ts0 c l : tokens_of s = Some ts -> ends c = Some l ->
  next_char (scan (ts0, Between) s) c = (l ++ rev ts ++ ts0, Between).
Proof.
  intros T E. rewrite (scan_more ts0 s []). unfold tokens_of in T.
  destruct (scan ([], Between) s) as [t m]. unfold finished in T. cbn [fst snd] in *.
  destruct (ends_char c l E) as (A & D & O). cbn [existsb] in O.
  repeat match goal with K : orb _ _ = false |- _ => apply orb_false_iff in K as [? K] end.
  destruct m; try discriminate; injection T as <-; rewrite ?rev_app_distr, ?rev_involutive; cbn [next_char].
  - now apply begin_ends.
  - rewrite A, H, H3. cbn [orb]. rewrite (begin_ends c l _ E). cbn [rev]. rewrite ?rev_app_distr, ?rev_involutive. reflexivity.
  - rewrite A, H, H0, H1, H2, H3. cbn [orb andb]. rewrite (begin_ends c l _ E). cbn [rev]. rewrite ?rev_app_distr, ?rev_involutive. reflexivity.
  - rewrite D, H4, H5, (sign_ends _ _ _ E), H3, !andb_false_r. rewrite (begin_ends c l _ E). cbn [rev]. rewrite ?rev_app_distr, ?rev_involutive. reflexivity.
Qed.
