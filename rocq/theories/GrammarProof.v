(* Mutated trees follow the grammar. *)
From Coq Require Import String Ascii List Bool Arith Lia.
From Verif Require Import Base Clang Gen GenExpr GenBinary GenUnary GenStmt RewriterProof Lang Cst
  NestSpec SimMutate GrammarSpec.
Import ListNotations.
Local Open Scope string_scope.

Lemma below_refl a : below a a.
Proof. destruct a; cbn; auto. Qed.
Lemma primary_clause : below (Prec 0) Clause.
Proof. cbn. lia. Qed.
Lemma below_trans a b d : below a b -> below b d -> below a d.
Proof. destruct a, b, d; cbn; auto; try contradiction; lia. Qed.

(** * Names *)

Definition word (s : string) : Prop := forall a, In a (list_ascii_of_string s) -> alnum a = true.
Lemma word_app s t : word s -> word t -> word (s ++ t).
Proof.
  unfold word. intros A B. induction s as [|x s IH]; [exact B|]. cbn. intros a [<-|I].
  - apply A. now left.
  - apply IH; auto. intros y Y. apply A. now right.
Qed.
Definition wordb (s : string) : bool := forallb alnum (list_ascii_of_string s).
Lemma word_b s : wordb s = true -> word s.
Proof. unfold wordb, word. rewrite forallb_forall. auto. Qed.
Lemma word_if (b : bool) s t : word s -> word t -> word (if b then s else t).
Proof. destruct b; auto. Qed.
Lemma word_ty c t : word (space_to_underscore (ty_name c t)).
Proof. apply word_b. destruct t; cbn [ty_name]; try (vm_compute; reflexivity).
  destruct (prints_bool c); vm_compute; reflexivity. Qed.
Ltac words := repeat first [apply word_app | apply word_if | apply word_ty | (apply word_b; vm_compute; reflexivity)].

Lemma identifier_dredd s : word s -> identifier ("__dredd_" ++ s).
Proof.
  intro W. split; [split; [reflexivity|cbn; lia]|].
  apply word_app; [apply word_b; reflexivity|exact W].
Qed.
Lemma word_optimisation c e : word (optimisation_specifier c e).
Proof. unfold optimisation_specifier. repeat match goal with |- context [if ?b then _ else _] => destruct b end; words. Qed.
Lemma word_constant s e : word s -> word (constant_suffix s e).
Proof. intro W. unfold constant_suffix. repeat (destruct (_ || _)); words; auto. Qed.
Lemma expr_identifier c o e : identifier (expr_function_name c o e).
Proof.
  unfold expr_function_name. change "__dredd_replace_expr_" with ("__dredd_" ++ "replace_expr_").
  rewrite sapp_assoc. apply identifier_dredd.
  repeat apply word_app; try apply word_if; try apply word_optimisation; words.
Qed.
Lemma binary_identifier c o b s : word s -> identifier (binary_function_name c o b ++ s).
Proof.
  intro W. unfold binary_function_name.
  change "__dredd_replace_binary_operator_" with ("__dredd_" ++ "replace_binary_operator_").
  rewrite !sapp_assoc. apply identifier_dredd.
  repeat apply word_app; auto; try (apply word_b; reflexivity); try apply word_ty.
  - apply word_b. destruct (b_op b); reflexivity.
  - destruct (is_assign (b_op b) && e_volatile (b_lhs b)); [|apply word_ty].
    apply word_b. destruct (e_ty (b_lhs b)); cbn [ty_name]; try reflexivity.
    destruct (prints_bool c); reflexivity.
  - destruct (o && negb (is_assign (b_op b))); [|apply word_b; reflexivity].
    apply word_app; apply word_constant; apply word_b; reflexivity.
Qed.
Lemma unary_identifier c o u : identifier (unary_function_name c o u).
Proof.
  unfold unary_function_name.
  change "__dredd_replace_unary_operator_" with ("__dredd_" ++ "replace_unary_operator_").
  rewrite !sapp_assoc. apply identifier_dredd. words.
  apply word_b. destruct (u_op u); reflexivity.
Qed.
Lemma input_type_name c e : cpp c = true -> type_name (input_type c e).
Proof.
  intro C. unfold input_type. rewrite C. unfold cpp_type_modifiers.
  destruct (e_lvalue e); [|constructor].
  destruct (e_volatile e); [apply volatile_type|destruct (e_const e); [apply const_type|]];
    apply reference_type; constructor.
Qed.
Lemma lhs_type_name c b : cpp c = true -> type_name (binary_lhs_type c b).
Proof.
  intro C. unfold binary_lhs_type. rewrite C. destruct (is_assign (b_op b)); [|constructor].
  destruct (e_volatile (b_lhs b)); [apply volatile_type|]; apply reference_type; constructor.
Qed.

Section Fits.
Variable white : string -> Prop.
Variable rule : list piece -> cat -> Prop.
Variable c : ctx.
Variable o : options.
Variable L : lang.
Hypothesis white_nothing : white "".
Hypothesis white_space : white " ".
Hypothesis white_line : white nl.
Notation derivable := (derivable white rule (cpp c)).
Notation arguments := (arguments white rule (cpp c)).
Notation fits := (fits white rule (cpp c) L).
Notation fill := (fill white rule (cpp c) L).
Notation careful := (careful white rule c o L).

Lemma fits_below a b t : fits a t -> below a b -> fits b t.
Proof.
  intro F. revert b. induction F; intros d B.
  - eapply f_val; [eapply d_below; eauto|auto].
  - eapply f_node; [eapply d_below; eauto|auto].
  - apply f_expr; [eapply below_trans; eauto|auto].
  - apply f_bin; auto. eapply below_trans; eauto.
  - apply f_pre; auto. eapply below_trans; eauto.
  - apply f_post; auto. eapply below_trans; eauto.
  - apply f_stmt; auto. eapply below_trans; eauto.
  - apply f_unfinished; auto. eapply below_trans; eauto.
Qed.

(* Nodes with one and two children *)
Lemma fits_one k a h z p d t : derivable d p -> merge p = (a, [(h, z)]) -> fits h t ->
  fits d (CNode k [(a, t)] z).
Proof.
  intros D M F. eapply f_node; [exact D|]. rewrite M. cbn. constructor; [exact F|constructor].
Qed.
Lemma fits_two k a h z h' z' p d t t' : derivable d p -> merge p = (a, [(h, z); (h', z')]) ->
  fits h t -> fits h' t' -> fits d (CNode k [(a, t); (z, t')] z').
Proof.
  intros D M F F'. eapply f_node; [exact D|]. rewrite M. cbn.
  constructor; [exact F|]. constructor; [exact F'|constructor].
Qed.

Lemma sapp_nil s : s ++ "" = s.
Proof. induction s as [|a s IH]; cbn; congruence. Qed.
Ltac merged := cbn [merge fst snd app]; rewrite ?sapp_assoc, ?sapp_nil; cbn [append]; try reflexivity.

(* Templates *)
Lemma last_argument p id : derivable Clause p ->
  arguments (p ++ [T ","; T " "; T (string_of_nat id)]).
Proof.
  intro D. change [T ","; T " "; T (string_of_nat id)] with (T "," :: [T " "; T (string_of_nat id)]).
  apply more_arguments; [exact D|]. apply one_argument. apply d_before; auto.
  apply (d_below _ _ _ (Prec 0)); [cbn; lia|]. apply d_number.
Qed.
Lemma call_one f p id : identifier f -> derivable Clause p ->
  derivable (Prec 1) (T f :: T "(" :: p ++ [T ","; T " "; T (string_of_nat id); T ")"]).
Proof.
  intros I D. replace (p ++ _)%list with
    ((p ++ [T ","; T " "; T (string_of_nat id)]) ++ [T ")"])%list
    by (rewrite <- app_assoc; reflexivity).
  apply d_call; [exact I|]. now apply last_argument.
Qed.
Lemma call_two f p q id : identifier f -> derivable Clause p -> derivable Clause q ->
  derivable (Prec 1)
    (T f :: T "(" :: p ++ T "," :: q ++ [T ","; T " "; T (string_of_nat id); T ")"]).
Proof.
  intros I D E. replace (p ++ _)%list with
    ((p ++ T "," :: q ++ [T ","; T " "; T (string_of_nat id)]) ++ [T ")"])%list
    by (rewrite <- !app_assoc; cbn; rewrite <- !app_assoc; reflexivity).
  apply d_call; [exact I|]. apply more_arguments; [exact D|]. now apply last_argument.
Qed.

Lemma fits_call1 f id before a after d : identifier (mf_name f) -> white before -> white after ->
  fits Clause a -> below (Prec 1) d -> fits d (call1 L f id before a after).
Proof.
  intros I W W' F B. unfold call1.
  eapply (fits_one _ _ _ _ (T before :: T (mf_name f) :: T "(" :: ([H Clause] ++ [T after]) ++
    [T ","; T " "; T (string_of_nat id); T ")"])); [| |exact F].
  - eapply d_below; [exact B|]. apply d_before; auto. apply call_one; auto.
    apply d_after; auto. constructor.
  - merged.
Qed.

(* A lambda that returns its argument, with a cast or without *)
Lemma lambda_template t cast p : cpp c = true -> type_name t -> derivable Expression p ->
  derivable (Prec 0)
    (T "[&]() -> " :: T t :: T " { return " ::
     (if cast : bool then T "static_cast<" :: T t :: T ">(" :: p ++ [T ")"] else p) ++ [T "; }"]).
Proof.
  intros C N D. apply d_lambda; auto. destruct cast; [|exact D].
  apply (d_below _ _ _ (Prec 1)); [cbn; unfold assignment; lia|]. now apply d_cast.
Qed.
Lemma fits_lambda t a d : cpp c = true -> type_name t -> fits Expression a -> below (Prec 0) d ->
  fits d (lambda L t a).
Proof.
  intros C N F B. unfold lambda.
  eapply (fits_one _ _ _ _ _ d a (d_below _ _ _ _ _ _ B
    (lambda_template t true [H Expression] C N (d_hole _ _ _ _)))); [|exact F].
  merged.
Qed.

Lemma fits_clause n sub : n <= assignment -> fits (Prec n) sub -> fits Clause sub.
Proof. intros N F. eapply fits_below; [exact F|exact N]. Qed.
Lemma fits_expression n sub : n <= assignment -> fits (Prec n) sub -> fits Expression sub.
Proof. intros N F. eapply fits_below; [exact F|exact N]. Qed.

(* &(x) *)
Lemma fits_address k before sub after : white before -> white after -> fits Expression sub ->
  fits Clause (CNode k [("&(" ++ before, sub)] (after ++ ")")).
Proof.
  intros W W' F.
  eapply (fits_one k _ _ _ (T "&" :: (T "(" :: (T before :: [H Expression] ++ [T after]) ++ [T ")"])));
    [| |exact F].
  - apply (d_below _ _ _ (Prec 2)); [cbn; unfold assignment; lia|]. apply d_address.
    apply (d_below _ _ _ (Prec 0)); [cbn; lia|]. apply d_paren. apply d_before; auto.
    apply d_after; auto. constructor.
  - merged.
Qed.

(* Expressions *)
Lemma fits_mutated_expr e id sub d :
  (cpp c = true \/ e_init_list_cast e = None) ->
  fits (Prec assignment) sub \/
  fits Expression sub /\
  (e_binop e = Some Comma \/ cpp c = true /\ e_side_effects e = true \/
   cpp c = false /\ e_lvalue e = true) ->
  below (Prec 1) d -> fits d (mutated_expr L c o e id sub).
Proof.
  intros I A B.
  assert (N : identifier (mf_name (expr_function c o e))) by apply expr_identifier.
  assert (FE : fits Expression sub).
  { destruct A as [A|[A _]]; auto. eapply fits_expression; [|exact A]. auto. }
  set (paren := match e_binop e with Some Comma => true | _ => false end).
  set (lp := if paren then "(" else ""). set (rp := if paren then ")" else "").
  (* what the parentheses make of it *)
  assert (PE : forall p, derivable Expression p ->
    derivable Expression (if paren then T "(" :: p ++ [T ")"] else p)).
  { intros p D. destruct paren; [|exact D].
    apply (d_below _ _ _ (Prec 0)); [cbn; unfold assignment; lia|]. now apply d_paren. }
  assert (Call : forall before d, white before -> below (Prec 1) d -> fits d
    (if cpp c && e_side_effects e then
      let t := input_type c e in
      let cast := negb (e_cxx11_constant e) in
      call1 L (expr_function c o e) id before
        (CNode (KLambda t)
           [("[&]() -> " ++ t ++ " { return "
             ++ (if cast then "static_cast<" ++ t ++ ">(" else "") ++ lp, sub)]
           (rp ++ (if cast then ")" else "") ++ "; }")) ""
    else if negb (cpp c) && e_lvalue e then
      call1 L (expr_function c o e) id before (CNode KAddr [("&(" ++ lp, sub)] (rp ++ ")")) ""
    else
      CNode (KM (expr_function c o e) id) [(before ++ mf_name (expr_function c o e) ++ "(" ++ lp, sub)]
        (rp ++ ", " ++ string_of_nat id ++ ")"))).
  { intros before d' W B'. destruct (cpp c && e_side_effects e) eqn:D1.
    - apply andb_true_iff in D1 as [C S]. cbv zeta.
      apply fits_call1; auto.
      pose proof (lambda_template (input_type c e) (negb (e_cxx11_constant e)) _ C
        (input_type_name c e C) (PE _ (d_hole _ _ _ Expression))) as D.
      eapply (fits_one _ _ _ _ _ Clause sub (d_below _ _ _ _ _ _ primary_clause D)); [|exact FE].
      unfold lp, rp. destruct (negb (e_cxx11_constant e)), paren; merged.
    - destruct (negb (cpp c) && e_lvalue e) eqn:D2.
      + apply fits_call1; auto. unfold lp, rp. destruct paren.
        * eapply (fits_one _ _ _ _ (T "&" :: (T "(" :: (T "(" :: [H Expression] ++ [T ")"]) ++ [T ")"])));
            [| |exact FE].
          -- apply (d_below _ _ _ (Prec 2)); [cbn; unfold assignment; lia|]. apply d_address.
             apply (d_below _ _ _ (Prec 0)); [cbn; lia|]. apply d_paren.
             apply (d_below _ _ _ (Prec 0)); [cbn; lia|]. apply d_paren. constructor.
          -- merged.
        * exact (fits_address KAddr "" sub "" white_nothing white_nothing FE).
      + assert (AC : paren = true \/ fits Clause sub).
        { destruct A as [A|[_ [E|[[C S]|[C V]]]]].
          - right. eapply fits_clause; [|exact A]. auto.
          - left. unfold paren. now rewrite E.
          - rewrite C, S in D1. discriminate.
          - rewrite C, V in D2. discriminate. }
        assert (Q : exists h, fits h sub /\
          derivable Clause (if paren then T "(" :: [H h] ++ [T ")"] else [H h])).
        { destruct paren.
          - exists Expression. split; [exact FE|].
            apply (d_below _ _ _ (Prec 0)); [cbn; lia|]. apply d_paren. constructor.
          - exists Clause. destruct AC; [discriminate|]. split; [auto|constructor]. }
        destruct Q as (h & F & D).
        eapply (fits_one _ _ _ _ _ d' sub (d_below _ _ _ _ _ _ B'
          (d_before _ _ _ _ before _ W (call_one _ _ id N D)))); [|exact F].
        unfold lp, rp. destruct paren; merged. }
  unfold mutated_expr. fold paren. fold lp. fold rp.
  destruct (e_init_list_cast e) as [t|].
  - destruct I as [C|I]; [|discriminate].
    set (space := if e_preceded_by_ident e then " " else "").
    assert (WS : white space) by (unfold space; destruct (e_preceded_by_ident e); auto).
    eapply (fits_one _ _ _ _ (T space :: (T "static_cast<" :: T (ty_name c t) :: T ">(" ::
      [H Expression] ++ [T ")"]))); [| |apply (Call "" Expression); auto; cbn; unfold assignment; lia].
    + eapply d_below; [exact B|]. apply d_before; auto. apply d_cast; auto; constructor.
    + merged.
  - apply Call; auto. destruct (e_preceded_by_ident e); auto.
Qed.

(* Binary operators *)
Lemma left_below b : b_op b <> Comma -> below (left_operand (b_op b)) (Prec assignment).
Proof. unfold left_operand. destruct (b_op b); cbn; unfold assignment; intro; try lia; congruence. Qed.
Lemma operation_below b : b_op b <> Comma -> below (Prec 1) (operation (b_op b)).
Proof. destruct (b_op b); cbn; unfold assignment; intro; try lia; congruence. Qed.
Lemma right_clause b : b_op b <> Comma -> below (right_operand (cpp c) (b_op b)) Clause.
Proof. unfold right_operand. destruct (b_op b), (cpp c); cbn; unfold assignment; intro; try lia; congruence. Qed.

Lemma fits_mutated_binary b id l w1 w2 r d : b_op b <> Comma -> white w1 -> white w2 ->
  fits (left_operand (b_op b)) l -> fits (right_operand (cpp c) (b_op b)) r ->
  (cpp c = true -> e_side_effects (b_rhs b) = true -> fits Expression r) ->
  below (Prec 1) d ->
  fits d (mutated_binary L c o b id l w1 w2 r).
Proof.
  intros NC W1 W2 F G R B. unfold mutated_binary.
  assert (N : identifier (mf_name (binary_function c o b))).
  { pose proof (binary_identifier c (optimise o) b "" (word_b "" eq_refl)) as I.
    rewrite sapp_nil in I. exact I. }
  assert (FL : fits (Prec assignment) l) by (eapply fits_below; [exact F|now apply left_below]).
  assert (FE : fits Expression l) by (eapply fits_expression; [|exact FL]; auto).
  set (l' := if lhs_delayed c b then _ else _). set (r' := if rhs_delayed c b then _ else r).
  assert (L' : fits Clause l').
  { unfold l'. destruct (lhs_delayed c b) eqn:D.
    - apply andb_true_iff in D as [C _]. apply fits_lambda; auto.
      + now apply lhs_type_name.
      + cbn. lia.
    - destruct (negb (cpp c) && is_assign (b_op b)).
      + exact (fits_address KAddr "" l "" white_nothing white_nothing FE).
      + eapply fits_clause; [|exact FL]. auto. }
  assert (R' : fits Clause r').
  { unfold r'. destruct (rhs_delayed c b) eqn:D.
    - apply andb_true_iff in D as [C S]. apply fits_lambda; auto.
      + unfold binary_rhs_type. constructor.
      + destruct (is_logical (b_op b)) eqn:Lo.
        * eapply fits_below; [exact G|]. unfold right_operand.
          destruct (b_op b); try discriminate; cbn; unfold assignment; lia.
        * apply R; auto.
      + cbn. lia.
    - eapply fits_below; [exact G|now apply right_clause]. }
  eapply (fits_two _ _ _ _ _ _ (T (mf_name (binary_function c o b)) :: T "(" ::
    ([H Clause] ++ [T w1]) ++ T "," :: (T w2 :: [H Clause]) ++
    [T ","; T " "; T (string_of_nat id); T ")"])); [| |exact L'|exact R'].
  - eapply d_below; [exact B|]. apply call_two; auto.
    + apply d_after; auto. constructor.
    + apply d_before; auto. constructor.
  - merged.
Qed.

Lemma fits_mutated_c_logical b id l w1 w2 r d : c_logical c b = true -> white w1 -> white w2 ->
  fits (left_operand (b_op b)) l -> fits (right_operand (cpp c) (b_op b)) r ->
  below (Prec 1) d ->
  fits d (mutated_c_logical L c o b id l w1 w2 r).
Proof.
  intros Lo W1 W2 F G B. unfold c_logical in Lo. apply andb_true_iff in Lo as [C Lo].
  assert (NC : b_op b <> Comma) by (intro E; rewrite E in Lo; discriminate).
  assert (FL : fits Clause l).
  { eapply (fits_clause assignment); auto. eapply fits_below; [exact F|now apply left_below]. }
  assert (FR : fits Clause r) by (eapply fits_below; [exact G|now apply right_clause]).
  unfold mutated_c_logical. apply fits_call1; auto.
  { exact (binary_identifier c (optimise o) b "_outer" (word_b "_outer" eq_refl)). }
  apply f_bin; auto.
  - destruct (track o); auto. apply fits_call1; auto.
    + exact (binary_identifier c (optimise o) b "_lhs" (word_b "_lhs" eq_refl)).
    + unfold left_operand. destruct (b_op b); try discriminate; cbn; lia.
  - destruct (track o); auto. apply fits_call1; auto.
    + exact (binary_identifier c (optimise o) b "_rhs" (word_b "_rhs" eq_refl)).
    + unfold right_operand. destruct (b_op b); try discriminate; cbn; lia.
  - destruct (b_op b); try discriminate; cbn; unfold assignment; lia.
Qed.

(* Unary operators *)
Lemma fits_mutated_unary u id w sub d : white w -> fits (Prec 3) sub -> below (Prec 1) d ->
  fits d (mutated_unary L c o u id w sub).
Proof.
  intros W F B. unfold mutated_unary.
  assert (N : identifier (mf_name (unary_function c o u))) by apply unary_identifier.
  assert (FE : fits Expression sub) by (eapply fits_expression; [|exact F]; unfold assignment; lia).
  set (before := if is_prefix (u_op u) then w else "").
  set (after := if is_prefix (u_op u) then "" else w).
  assert (WB : white before) by (unfold before; destruct (is_prefix (u_op u)); auto).
  assert (WA : white after) by (unfold after; destruct (is_prefix (u_op u)); auto).
  assert (E : forall h, derivable h (T before :: [H h] ++ [T after])).
  { intro h. apply d_before; auto. apply d_after; auto. constructor. }
  unfold unary_delayed. destruct (cpp c && u_side_effects u) eqn:D1.
  - apply andb_true_iff in D1 as [C S]. apply fits_call1; auto.
    pose proof (lambda_template (unary_input_type c u) (negb (e_cxx11_constant (u_sub u))) _ C
      (input_type_name c (u_sub u) C) (E Expression)) as D.
    eapply (fits_one _ _ _ _ _ Clause sub (d_below _ _ _ _ _ _ primary_clause D)); [|exact FE].
    destruct (negb (e_cxx11_constant (u_sub u))); merged.
  - destruct (negb (cpp c) && is_incdec (u_op u)).
    + apply fits_call1; auto. apply fits_address; auto.
    + eapply (fits_one _ _ _ _ _ d sub (d_below _ _ _ _ _ _ B (call_one _ _ id N (E Clause)))).
      * merged.
      * eapply fits_clause; [|exact F]. unfold assignment; lia.
Qed.

(* Statements *)
Lemma enabled_template id : derivable Expression
  [T "!"; T "__dredd_enabled_mutation"; T "("; T (string_of_nat id); T ")"].
Proof.
  apply (d_below _ _ _ (Prec 2)); [cbn; unfold assignment; lia|]. apply d_not.
  apply (d_below _ _ _ (Prec 1)); [cbn; lia|].
  apply (d_call _ _ _ "__dredd_enabled_mutation" [T (string_of_nat id)]).
  - apply (identifier_dredd "enabled_mutation"), word_b. reflexivity.
  - apply one_argument. apply (d_below _ _ _ (Prec 0)); [cbn; lia|]. apply d_number.
Qed.
Lemma record_template id : derivable Statement
  ([T "__dredd_record_covered_mutants"; T "("; T (string_of_nat id); T ","; T " "; T "1"; T ")"] ++
   [T ";"]).
Proof.
  apply d_finish. apply (d_below _ _ _ (Prec 1)); [cbn; unfold assignment; lia|].
  apply (d_call _ _ _ "__dredd_record_covered_mutants"
           ([T (string_of_nat id)] ++ T "," :: [T " "; T "1"])).
  - apply (identifier_dredd "record_covered_mutants"), word_b. reflexivity.
  - apply more_arguments.
    + apply (d_below _ _ _ (Prec 0)); [cbn; lia|]. apply d_number.
    + apply one_argument. apply d_before; auto.
      apply (d_below _ _ _ (Prec 0)); [cbn; lia|]. exact (d_number _ _ _ 1).
Qed.

Lemma fits_mutated_stmt s id sub h d : fits h sub ->
  (h = Statement /\ below Items d \/
   h = Unfinished /\ below Open d /\ (track o = true \/ s_ext_semi s = false /\ s_next_hash s = true)) ->
  fits d (mutated_stmt L o s id sub).
Proof.
  intros F Hh. unfold mutated_stmt, stmt_open, stmt_close.
  destruct (track o) eqn:Tr.
  - (* a statement for coverage *)
    assert (R : derivable Items
      (([T "__dredd_record_covered_mutants"; T "("; T (string_of_nat id); T ","; T " "; T "1"; T ")"] ++
       [T ";"]) ++ [T " "])).
    { apply d_after; auto. apply (d_below _ _ _ Statement); [exact Logic.I|]. apply record_template. }
    assert (D : derivable d
      ((([T "__dredd_record_covered_mutants"; T "("; T (string_of_nat id); T ","; T " "; T "1"; T ")"] ++
       [T ";"]) ++ [T " "]) ++ [H h])).
    { destruct Hh as [[-> B]|[-> [B _]]].
      - eapply d_below; [exact B|]. apply d_items; auto.
        apply (d_below _ _ _ Statement); [exact Logic.I|]. constructor.
      - eapply d_below; [exact B|]. apply d_open; auto.
        apply (d_below _ _ _ Unfinished); [exact Logic.I|]. constructor. }
    eapply (fits_one _ _ _ _ _ d sub D); [|exact F]. merged.
  - set (line := if s_ext_comment s && negb (s_ext_semi s) then nl else "").
    assert (WL : white line) by (unfold line; destruct (_ && _); auto).
    set (end_ := if negb (s_ext_semi s) && s_next_hash s then [T ";"; T " "] else []).
    assert (B : derivable Items (T " " :: (([H h] ++ [T line]) ++ end_) ++ [T " "])).
    { apply d_before; auto. apply d_after; auto.
      assert (Hl : forall k, below h k -> derivable k ([H h] ++ [T line])).
      { intros k Bk. eapply d_below; [exact Bk|]. apply d_after; auto. constructor. }
      unfold end_. destruct (negb (s_ext_semi s) && s_next_hash s) eqn:E.
      - change [T ";"; T " "] with ([T ";"] ++ [T " "])%list. rewrite app_assoc.
        apply d_after; auto. apply d_end. apply Hl.
        destruct Hh as [[-> _]|[-> _]]; exact Logic.I.
      - rewrite app_nil_r. apply Hl. destruct Hh as [[-> _]|[-> [_ [Q|[Q1 Q2]]]]].
        + exact Logic.I.
        + discriminate.
        + rewrite Q1, Q2 in E. discriminate. }
    assert (Bd : below Statement d).
    { destruct Hh as [[_ B']|[_ [B' _]]]; (eapply below_trans; [|exact B']); exact Logic.I. }
    eapply (fits_one _ _ _ _ _ d sub (d_below _ _ _ _ _ _ Bd (d_if _ _ _ _ _ (enabled_template id) B)));
      [|exact F].
    unfold end_. destruct (negb (s_ext_semi s) && s_next_hash s); merged.
Qed.

(** * Trees *)

Lemma fill_mutated ps :
  Forall (fun p => forall id d, fits d (snd p) -> careful (snd p) ->
    fits d (fst (mutate L c o (snd p) id))) ps ->
  forall s hs last id, fill s hs ps last ->
  fold_right (fun p P => careful (snd p) /\ P) True ps ->
  fill s hs (fst (mutate_all L c o ps id)) last.
Proof.
  induction 1 as [|[s0 p] ps Hp F IH]; intros s hs last id Fi Ca.
  - inversion Fi; subst. constructor.
  - inversion Fi as [|s1 h t s' hs' ps' last' Ft Fr]; subst. destruct Ca as [C1 C2].
    cbn [mutate_all snd] in *. specialize (Hp id h Ft C1).
    destruct (mutate L c o p id) as [p' id1]. cbn [fst] in Hp.
    specialize (IH s' hs' last id1 Fr C2). destruct (mutate_all L c o ps id1) as [ps' id2].
    cbn [fst] in *. constructor; auto.
Qed.

Lemma mutated_fits t : forall id d, fits d t -> careful t -> fits d (fst (mutate L c o t id)).
Proof.
  induction t as [s v|k ps last IH|e sub IH|b l w1 w2 r IHl IHr|u w sub IH|s sub IH]
    using cst_induction; intros id d F Ca.
  - exact F.
  - rewrite mutate_node. cbn [fst]. inversion F; subst. eapply f_node; [eassumption|].
    apply fill_mutated; auto.
  - cbn [mutate]. destruct Ca as [Ca [I A]]. inversion F as [| |e' sub' d' B Fs| | | | |]; subst.
    assert (Q : forall k, fits k sub -> fits k (fst (mutate L c o sub id))) by auto.
    destruct (mutate L c o sub id) as [sub' id1]. cbn [fst] in *.
    apply fits_mutated_expr; auto. destruct A as [A|[A A']]; auto.
  - cbn [mutate]. destruct Ca as (C1 & C2 & NC & S).
    inversion F as [| | |b' l' w1' w2' r' d' W1 W2 Fl Fr B| | | |]; subst.
    pose proof (IHl id _ Fl C1) as Fl'. destruct (mutate L c o l id) as [l' id1]. cbn [fst] in *.
    pose proof (IHr id1 _ Fr C2) as Fr'. assert (Qr := IHr id1 Expression).
    destruct (mutate L c o r id1) as [r' id2]. cbn [fst] in *.
    assert (Bd : below (Prec 1) d) by (eapply below_trans; [|exact B]; now apply operation_below).
    destruct (c_logical c b) eqn:Lo.
    + apply fits_mutated_c_logical; auto.
    + apply fits_mutated_binary; auto.
  - cbn [mutate]. cbn [GrammarSpec.careful] in Ca.
    inversion F as [| | | |u' w' sub' d' P W Fs B|u' w' sub' d' P W Fs B| |]; subst.
    + pose proof (IH id _ Fs Ca) as Q. destruct (mutate L c o sub id) as [sub' id1]. cbn [fst] in *.
      apply fits_mutated_unary; auto. eapply below_trans; [|exact B]. cbn. lia.
    + pose proof (IH id _ Fs Ca) as Q. destruct (mutate L c o sub id) as [sub' id1]. cbn [fst] in *.
      apply fits_mutated_unary; auto. eapply fits_below; [exact Q|]. cbn. lia.
  - cbn [mutate]. destruct Ca as [Ca S].
    assert (Q : forall k, fits k sub -> fits k (fst (mutate L c o sub id))) by auto.
    destruct (mutate L c o sub id) as [sub' id1]. cbn [fst] in *.
    inversion F as [| | | | | |s' sub'' d' Fs B|s' sub'' d' Fs B]; subst.
    + eapply fits_mutated_stmt; [exact (Q _ Fs)|]. left. auto.
    + destruct S as [S|S].
      * eapply fits_mutated_stmt; [exact (Q _ S)|]. left. split; auto.
        eapply below_trans; [|exact B]. exact Logic.I.
      * eapply fits_mutated_stmt; [exact (Q _ Fs)|]. right. auto.
Qed.
End Fits.
