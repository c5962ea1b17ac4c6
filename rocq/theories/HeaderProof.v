(* C72: the directives of written files. *)
From Coq Require Import String Ascii List Arith NArith ZArith Bool Lia.
From Coq Require Import DecimalString.
From Verif Require Import Base Clang Gen GenExpr GenBinary GenUnary GenStmt Mutation MutTree TreeSpec
  Rewriter RewriterProof PreludeText Run RunSpec RunProof RunProof2 CText FunText NameSpec NameProof
  LineSpec LineProof LineTop HeaderSpec.
Import ListNotations.
Local Open Scope string_scope.

(** * Where # occurs *)

Fixpoint hashes (s : string) : nat :=
  match s with
  | EmptyString => 0
  | String c s => (if Ascii.eqb c hash then 1 else 0) + hashes s
  end.
Lemma hashes_app a b : hashes (a ++ b) = hashes a + hashes b.
Proof. induction a as [|c a IH]; [reflexivity|]. cbn [append hashes]. rewrite IH. lia. Qed.

Lemma hashes_type c t : hashes (ty_name c t) = 0.
Proof. destruct t; cbn; try reflexivity. destruct (prints_bool c); reflexivity. Qed.
Lemma hashes_underscore s : hashes (space_to_underscore s) = hashes s.
Proof.
  unfold space_to_underscore. induction s as [|x s IH]; [reflexivity|]. cbn [map_string hashes].
  rewrite IH. destruct (Ascii.eqb_spec x " ") as [->|N]; reflexivity.
Qed.
Lemma hashes_number n : hashes (string_of_nat n) = 0.
Proof. unfold string_of_nat, string_of_N. induction (N.to_uint (N.of_nat n)); auto. Qed.

Ltac hflat :=
  repeat (rewrite hashes_app || rewrite hashes_type || rewrite hashes_underscore
          || rewrite hashes_number);
  repeat match goal with
         | |- context [if ?b then _ else _] => destruct b
         | |- context [match ?x with Some _ => _ | None => _ end] => destruct x
         | |- context [match ?x with Comma => _ | _ => _ end] => destruct x
         end;
  repeat (rewrite hashes_app || rewrite hashes_type || rewrite hashes_underscore
          || rewrite hashes_number);
  try reflexivity.

Lemma hashes_expr_name c b e : hashes (expr_function_name c b e) = 0.
Proof. unfold expr_function_name, optimisation_specifier. hflat. Qed.
Lemma hashes_bop_name x : hashes (bop_name x) = 0.
Proof. destruct x; reflexivity. Qed.
Lemma hashes_uop_name x : hashes (uop_name x) = 0.
Proof. destruct x; reflexivity. Qed.
Lemma hashes_suffix s e : hashes s = 0 -> hashes (constant_suffix s e) = 0.
Proof. intros H. unfold constant_suffix. hflat; rewrite H; reflexivity. Qed.
Lemma hashes_binary_name c b x : hashes (binary_function_name c b x) = 0.
Proof.
  unfold binary_function_name. rewrite !hashes_app, hashes_bop_name. 
  destruct (b && negb (is_assign (b_op x))); rewrite ?hashes_app, ?hashes_suffix by reflexivity; hflat.
Qed.
Lemma hashes_unary_name c b x : hashes (unary_function_name c b x) = 0.
Proof. unfold unary_function_name. cbv zeta. rewrite !hashes_app, hashes_uop_name. hflat. Qed.
Lemma hashes_input c e : hashes (input_type c e) = 0.
Proof. unfold input_type, cpp_type_modifiers, c_type_modifiers. hflat. Qed.
Lemma hashes_lhs c b : hashes (binary_lhs_type c b) = 0.
Proof. unfold binary_lhs_type. hflat. Qed.
Lemma hashes_prefix c o e : hashes (expr_prefix c o e) = 0.
Proof.
  unfold expr_prefix. rewrite !hashes_app, hashes_expr_name.
  destruct (e_binop e) as [[]|], (e_init_list_cast e), (cpp c && e_side_effects e), (e_cxx11_constant e);
    rewrite ?hashes_app, ?hashes_input; hflat.
Qed.
Lemma hashes_expr_suffix c e n : hashes (expr_suffix c e n) = 0.
Proof.
  unfold expr_suffix. rewrite !hashes_app, hashes_number.
  destruct (e_binop e) as [[]|]; hflat.
Qed.

Lemma binary_hashless c o b id : forall e, In e (binary_edits c o b id) -> hashes (inserted_text e) = 0.
Proof.
  intros e H. unfold binary_edits in H. cbn [In] in H.
  destruct H as [<-|[<-|[<-|[<-|[<-|[]]]]]]; cbn [inserted_text]; rewrite ?hashes_app, ?hashes_binary_name;
    destruct (lhs_delayed c b), (rhs_delayed c b), (negb (cpp c) && is_assign (b_op b));
    unfold binary_rhs_type;
    rewrite ?hashes_app, ?hashes_lhs, ?hashes_type, ?hashes_number; reflexivity.
Qed.
Lemma unary_hashless c o u id : forall e, In e (unary_edits c o u id) -> hashes (inserted_text e) = 0.
Proof.
  intros e H. unfold unary_edits in H. cbn [In] in H.
  destruct H as [<-|[<-|[<-|[]]]]; cbn [inserted_text]; unfold unary_input_type;
    rewrite ?hashes_app, ?hashes_unary_name;
    destruct (unary_delayed c u), (e_cxx11_constant (u_sub u)), (negb (cpp c) && is_incdec (u_op u));
    cbn [negb]; rewrite ?hashes_app, ?hashes_input, ?hashes_number; reflexivity.
Qed.
Lemma logical_hashless c o b id : forall e, In e (c_logical_edits c o b id) -> hashes (inserted_text e) = 0.
Proof.
  intros e H. unfold c_logical_edits in H. cbv zeta in H. apply in_app_iff in H.
  assert (E : exists k s, (e = InsertBefore k (binary_function_name c (optimise o) b ++ s) /\ hashes s = 0)
                         \/ e = InsertAfterToken k (", " ++ string_of_nat id ++ ")")).
  { destruct (track o); cbn [negb when In] in H;
      repeat (destruct H as [H|H]; try contradiction); subst;
      try (eexists; exists ""; right; reflexivity);
      eexists; eexists; left; (split; [reflexivity|reflexivity]). }
  destruct E as (k & s & [(-> & N)| ->]); cbn [inserted_text]; rewrite !hashes_app;
    rewrite ?hashes_binary_name, ?hashes_number, ?N; reflexivity.
Qed.
Lemma expr_hashless c o b id : forall e, In e (expr_edits c o b id) -> hashes (inserted_text e) = 0.
Proof.
  intros e [<-|[<-|[]]]; cbn [inserted_text]; [apply hashes_prefix|apply hashes_expr_suffix].
Qed.


Lemma stmt_hashless o s id : forall e, In e (stmt_edits o s id) -> hashes (inserted_text e) = 0.
Proof.
  unfold stmt_edits, stmt_open, stmt_close. intros e H.
  destruct (track o); cbn [In] in H; repeat (destruct H as [<-|H]; [cbn [inserted_text];
    rewrite ?hashes_app, ?hashes_number; try reflexivity|]); try contradiction.
  destruct (s_ext_comment s), (s_ext_semi s), (s_next_hash s); reflexivity.
Qed.
Lemma site_hashless c o m first id e : In e (a_edits (apply_mutation c o m first id)) ->
  hashes (inserted_text e) = 0.
Proof.
  destruct m as [x i|b i il ir|u i is|s i]; cbn [apply_mutation a_edits].
  - apply expr_hashless.
  - destruct (c_logical c b); [apply logical_hashless|apply binary_hashless].
  - apply unary_hashless.
  - apply stmt_hashless.
Qed.

Lemma hashes_Z z : hashes (string_of_Z z) = 0.
Proof.
  assert (N : forall n, hashes (string_of_N n) = 0)
    by (intros n; unfold string_of_N; induction (N.to_uint n); auto).
  destruct z as [|p|p]; [reflexivity|exact (N (Npos p))|exact (N (Npos p))].
Qed.
Lemma hashes_lit l : hashes (print_lit l) = 0.
Proof. destruct l as [z|z|[]]; cbn [print_lit]; rewrite ?hashes_app, ?hashes_Z; reflexivity. Qed.
Lemma hashes_uop x : hashes (uop_str x) = 0.
Proof. destruct x; reflexivity. Qed.
Lemma hashes_bop x : hashes (bop_str x) = 0.
Proof. destruct x; reflexivity. Qed.
Lemma hashes_access a s : hashes s = 0 -> hashes (print_access a s) = 0.
Proof. intros H. destruct a; cbn [print_access]; rewrite ?hashes_app, ?H; reflexivity. Qed.
Definition hashless_fun (f : mfun) : Prop :=
  hashes (mf_result f) = 0 /\ hashes (mf_name f) = 0 /\
  (forall p, In p (mf_params f) -> hashes (fst p) = 0 /\ hashes (snd p) = 0) /\
  hashes (mf_close f) = 0.
Lemma hashes_arg f i : hashless_fun f -> hashes (arg_name f i) = 0.
Proof.
  intros (_ & _ & P & _). unfold arg_name. destruct (nth_error (mf_params f) i) as [[t n]|] eqn:E; [|reflexivity].
  apply nth_error_In in E. now apply P in E.
Qed.
Lemma hashes_rhs f r : hashless_fun f -> hashes (print_rhs f r) = 0.
Proof.
  intros H. pose proof (hashes_arg f 0 H). pose proof (hashes_arg f 1 H). unfold print_rhs.
  destruct r; rewrite ?hashes_app, ?hashes_access, ?hashes_uop, ?hashes_bop, ?hashes_lit by assumption; reflexivity.
Qed.
Lemma hashes_concat l : (forall s, In s l -> hashes s = 0) -> hashes (concat_strings l) = 0.
Proof.
  induction l as [|s l IH]; intros H; [reflexivity|]. cbn [concat_strings]. rewrite hashes_app, H by now left.
  apply IH. intros; apply H; now right.
Qed.
Lemma hashes_mfun f : hashless_fun f -> hashes (print_mfun f) = 0.
Proof.
  intros H. pose proof H as (R & N & P & C).
  unfold print_mfun, print_header, print_fast, print_track, print_params.
  rewrite !hashes_app, R, N, C, hashes_rhs by assumption.
  rewrite !hashes_concat.
  - destruct (mf_fast f), (mf_track f); rewrite ?hashes_app, ?hashes_number, ?hashes_rhs by assumption; reflexivity.
  - intros s I. apply in_map_iff in I. destruct I as (l & <- & _). unfold print_line.
    rewrite !hashes_app, hashes_number, hashes_rhs by assumption. reflexivity.
  - intros s I. apply in_map_iff in I. destruct I as (p & <- & I). apply P in I. destruct I as [A B].
    rewrite !hashes_app, A, B. reflexivity.
Qed.
Lemma hashes_wrap b t : hashes t = 0 -> hashes (wrap_function b t) = 0.
Proof. intros H. unfold wrap_function. destruct b; rewrite ?hashes_app, H; reflexivity. Qed.
Lemma site_fun_hashless c o m g : In g (site_functions c o m) -> hashes (print_mfun g) = 0.
Proof.
  intros H. apply hashes_mfun. destruct m as [x i|b i il ir|u i is|s i]; cbn [site_functions] in H.
  - destruct H as [<-|[]]. split; [apply hashes_type|]. split; [apply hashes_expr_name|]. split; [|reflexivity].
    intros p [<-|[]]. split; [apply hashes_wrap, hashes_input|reflexivity].
  - destruct (c_logical c b).
    + assert (F : forall n t x y z, hashes n = 0 -> hashes t = 0 -> hashless_fun (c_logical_fun n t x y z)).
      { intros n t x y z A B. split; [exact B|]. split; [exact A|]. split; [|reflexivity].
        intros p [<-|[]]. split; [exact B|reflexivity]. }
      unfold c_logical_functions in H.
      destruct (track o); cbn [negb when In app] in H;
      repeat (destruct H as [<-|H]; [apply F; [rewrite hashes_app, hashes_binary_name; reflexivity|apply hashes_type]|]);
      contradiction.
    + destruct H as [<-|[]]. split; [|split; [apply hashes_binary_name|split; [|reflexivity]]].
      * cbn [binary_function mf_result]. unfold binary_result_type. hflat.
      * intros p [<-|[<-|[]]]; (split; [apply hashes_wrap; [apply hashes_lhs || apply hashes_type]|reflexivity]).
  - destruct H as [<-|[]]. split; [|split; [apply hashes_unary_name|split; [|reflexivity]]].
    + cbn [unary_function mf_result]. unfold unary_result_type. hflat.
    + intros p [<-|[]]. split; [apply hashes_wrap, hashes_input|reflexivity].
  - contradiction.
Qed.
