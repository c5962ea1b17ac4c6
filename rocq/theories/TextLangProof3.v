(* The calls in a mutated file are resolved to the functions that were meant. *)
From Coq Require Import String Ascii List Arith NArith ZArith Bool Lia.
From Verif Require Import Base Clang Gen GenExpr GenBinary GenUnary GenStmt Mutation GenSpec
  RunSpec ClashSpec ClashProof TypeSpec CText FunText FunSpec GenProof CTextProof FunProof
  FunProof2 FunProof3 FunTop.
From Verif Require Import NestSpec Lang Cst SimSpec SimRel SimProof SimMutate TextLang TextLangProof
  TextLangProof2.
Import ListNotations.
Local Open Scope string_scope.

(** * Symbols *)

Lemma symbol_inj : forall l l' n n', symbol l n = symbol l' n' -> l = l' /\ n = n'.
Proof.
  induction l as [|a l IH]; intros [|b l'] n n' E.
  - split; [reflexivity|]. unfold symbol in E. cbn in E. injection E as E. exact E.
  - destruct b; discriminate E.
  - destruct a; discriminate E.
  - assert (X : a = b /\ symbol l n = symbol l' n').
    { unfold symbol, shape_text in *. cbn [map concat_strings] in E.
      destruct a, b; cbn in E; try discriminate E; injection E as E; auto. }
    destruct X as [-> X]. destruct (IH _ _ _ X) as [-> ->]. auto.
Qed.

(** * The functions of a mutation *)

Definition described (c : ctx) (f : mfun) (two : bool) (result : plain) (p1 p2 : param) : Prop :=
  FunProof2.well_formed c two result p1 p2 f /\ sane p1 /\ sane p2 /\
  (plain_sane result /\ passing_of result <> ByPointer) /\
  (mf_fast f = true -> mf_track f = None).
Definition shape_of (two : bool) (p1 p2 : param) : list bool :=
  let delayed p := match p with TypeSpec.Delayed _ => true | TypeSpec.Direct _ => false end in
  if two then [delayed p1; delayed p2; false] else [delayed p1; false].

Lemma definition_symbol c f two result p1 p2 :
  symbol_of (definition c two result p1 p2 f) = symbol (shape_of two p1 p2) (mf_name f).
Proof.
  assert (D : forall p, is_function (param_type c p) =
    match p with TypeSpec.Delayed _ => true | TypeSpec.Direct _ => false end).
  { intros [q|q]; [|reflexivity]. destruct q as [t|t [] []|t [] []]; reflexivity. }
  unfold symbol_of, definition, params. cbn [fd_params fd_name].
  destruct two; cbn [app map fst]; rewrite !D; reflexivity.
Qed.

Lemma expr_described c o e : clang_expr e ->
  described c (expr_function c o e) false (TypeSpec.ByValue (e_ty e)) (expr_param c e) nothing.
Proof.
  intros H. split; [now apply expr_well_formed|].
  split; [|split; [exact I|split; [split; [exact I|discriminate]|]]].
  - unfold expr_param, expr_plain.
    destruct (cpp c), (e_side_effects e), (e_lvalue e); cbn; auto; split; auto; discriminate.
  - cbn [expr_function mf_fast mf_track]. destruct (track o); [discriminate|reflexivity].
Qed.
Lemma binary_described c o b : b_op b <> Comma ->
  described c (binary_function c o b) true (binary_result c b) (binary_param c b)
    (binary_param2 c b).
Proof.
  intros H. split; [now apply binary_well_formed|].
  split; [|split; [|split; [split|]]].
  - unfold binary_param, binary_plain, lhs_delayed.
    destruct (cpp c), (is_assign (b_op b)), (e_side_effects (b_lhs b)); cbn; auto;
      split; auto; discriminate.
  - unfold binary_param2. destruct (rhs_delayed c b); cbn; auto; split; auto; discriminate.
  - unfold binary_result. destruct (is_assign (b_op b) && cpp c); cbn; auto.
  - unfold binary_result. destruct (is_assign (b_op b) && cpp c); discriminate.
  - cbn [binary_function mf_fast mf_track]. destruct (track o); [discriminate|reflexivity].
Qed.
Lemma unary_described c o u : clang_unary c u ->
  described c (unary_function c o u) false (unary_result c u) (unary_param c u) nothing.
Proof.
  intros H. split; [now apply unary_well_formed|].
  split; [|split; [exact I|split; [split|]]].
  - unfold unary_param, expr_plain, unary_delayed.
    destruct (cpp c), (e_lvalue (u_sub u)), (u_side_effects u); cbn; auto;
      split; auto; discriminate.
  - unfold unary_result. destruct (cpp c && u_lvalue u); cbn; auto.
  - unfold unary_result. destruct (cpp c && u_lvalue u); discriminate.
  - cbn [unary_function mf_fast mf_track]. destruct (track o); [discriminate|reflexivity].
Qed.
Lemma logical_described c o b f : In f (c_logical_functions c o b) ->
  exists t, described c f false (TypeSpec.ByValue t) (TypeSpec.Direct (TypeSpec.ByValue t)) nothing.
Proof.
  intros H. destruct (logical_well_formed c o b f H) as (t & W). exists t. split; [assumption|].
  split; [exact I|]. split; [exact I|]. split; [split; [exact I|discriminate]|].
  unfold c_logical_functions in H. apply in_app_iff in H. destruct H as [H|[<-|[]]].
  - apply when_in in H. destruct H as [_ [<-|[<-|[]]]]; reflexivity.
  - discriminate.
Qed.

Lemma site_described c o m f : clang_node c m -> In f (site_functions c o m) ->
  exists two result p1 p2, described c f two result p1 p2.
Proof.
  destruct m as [e r|b r r1 r2|u r r1|s r]; cbn [clang_node site_functions]; intros C H.
  - destruct H as [<-|[]]. do 4 eexists. apply expr_described. assumption.
  - destruct (c_logical c b).
    + destruct (logical_described _ _ _ _ H) as (t & D). eauto 6.
    + destruct H as [<-|[]]. do 4 eexists. apply binary_described. apply C.
  - destruct H as [<-|[]]. do 4 eexists. apply unary_described. assumption.
  - contradiction.
Qed.


(** * Functions with the same symbol *)

(* Which parameters are std::functions *)
Definition site_shape (c : ctx) (m : mutation) : list bool :=
  match m with
  | MutExpr e _ => [cpp c && e_side_effects e]
  | MutBinary b _ _ _ => if c_logical c b then [false] else [lhs_delayed c b; rhs_delayed c b]
  | MutUnary u _ _ => [unary_delayed c u]
  | MutStmt _ _ => []
  end.

Lemma shape_of_site c o m f two result p1 p2 : clang_node c m -> In f (site_functions c o m) ->
  described c f two result p1 p2 -> shape_of two p1 p2 = (site_shape c m ++ [false])%list.
Proof.
  intros C H [W _]. pose proof (wf_params _ _ _ _ _ _ W) as P.
  (* the types tell *)
  set (delays := String.prefix "std::function").
  assert (D : forall p, delays (param_text c p) =
    match p with TypeSpec.Delayed _ => true | TypeSpec.Direct _ => false end).
  { intros [q|q]; [|reflexivity]. clear. destruct c as [? pb ? ?].
    destruct q as [t|t [] []|t [] []]; destruct t; destruct pb; reflexivity. }
  assert (E : shape_of two p1 p2 = (map (fun p => delays (fst p)) (mf_params f) ++ [false])%list).
  { rewrite P. destruct two; cbn [map fst app]; rewrite !D; reflexivity. }
  rewrite E. f_equal. clear E P W.
  destruct m as [e r|b r r1 r2|u r r1|s r]; cbn [clang_node site_functions site_shape] in *.
  - destruct H as [<-|[]].
    rewrite (wf_params _ _ _ _ _ _ (expr_well_formed c o e C)). cbn [map fst]. rewrite D.
    unfold expr_param. destruct (cpp c && e_side_effects e); reflexivity.
  - destruct (c_logical c b).
    + destruct (logical_well_formed _ _ _ _ H) as (t & W).
      rewrite (wf_params _ _ _ _ _ _ W). cbn [map fst]. rewrite D. reflexivity.
    + destruct H as [<-|[]].
      rewrite (wf_params _ _ _ _ _ _ (binary_well_formed c o b (proj1 C))). cbn [map fst].
      rewrite !D. unfold binary_param, binary_param2.
      destruct (lhs_delayed c b), (rhs_delayed c b); reflexivity.
  - destruct H as [<-|[]].
    rewrite (wf_params _ _ _ _ _ _ (unary_well_formed c o u C)). cbn [map fst]. rewrite D.
    unfold unary_param. destruct (unary_delayed c u); reflexivity.
  - contradiction.
Qed.

Lemma shape_same c o m m' f f' : clang_node c m -> clang_node c m' ->
  In f (site_functions c o m) -> In f' (site_functions c o m') ->
  mf_name f = mf_name f' -> site_shape c m = site_shape c m' -> same_function c f f'.
Proof.
  intros W W' H H' E Sh. split; [assumption|]. intros Cp.
  assert (NL : forall b, c_logical c b = false).
  { intros b. unfold c_logical. rewrite Cp. reflexivity. }
  pose proof E as E0.
  destruct (site_prefix _ _ _ _ H) as (s & Es). destruct (site_prefix _ _ _ _ H') as (s' & Es').
  rewrite Es, Es' in E.
  destruct m as [e|b|u|], m' as [e'|b'|u'|]; cbn [site_functions site_shape] in H, H', Sh;
    rewrite ?NL in *; try contradiction; try (exfalso; discriminate E);
    cbn [clang_node] in W, W'; destruct H as [<-|[]], H' as [<-|[]].
  - cbn [expr_function mf_name mf_params map fst] in *.
    rewrite !expr_function_name_key in E0. apply expr_name_inj in E0.
    destruct E0 as (PL & K). unfold ClashProof.place_of in PL. inversion PL as [[V L T]].
    injection Sh as ->. do 2 f_equal.
    unfold input_type, cpp_type_modifiers, c_type_modifiers. rewrite T, <- L.
    destruct (e_lvalue e) eqn:LV; [|reflexivity].
    destruct W as (_ & M), W' as (_ & M'). rewrite <- L in *. cbn [andb] in V.
    specialize (M LV). specialize (M' eq_refl). unfold can_mutate_lvalue in M, M'.
    destruct (e_const e); [discriminate M|]. destruct (e_const e'); [discriminate M'|].
    rewrite V. reflexivity.
  - cbn [binary_function mf_name mf_params map fst] in *. injection Sh as -> ->.
    destruct (same_name_same_binary c (optimise o) b b' 0 0 W W') as (S & _); auto with arith.
    { simpl. rewrite !RewriterProof.sapp_nil_r. exact E0. }
    destruct (same_binary_types _ _ _ _ S) as (_ & -> & ->). reflexivity.
  - cbn [unary_function mf_name mf_params map fst] in *. injection Sh as ->. do 2 f_equal.
    rewrite !unary_function_name_key in E0.
    apply unary_name_inj in E0; [|eapply clang_unary_op; eauto ..].
    destruct E0 as (O & V & TK). apply pair_equal_spec in TK. destruct TK as (T & K).
    unfold unary_input_type, input_type, cpp_type_modifiers, c_type_modifiers.
    unfold clang_unary in W, W'. rewrite <- O in W'.
    destruct (u_op u); try contradiction;
      repeat match goal with H : _ /\ _ |- _ => destruct H end;
      repeat match goal with
             | H : e_lvalue (u_sub ?x) = _ |- _ => rewrite H in *
             | H : e_const (u_sub ?x) = _ |- _ => rewrite H in *
             end; cbn [andb] in *; rewrite ?T, ?V, ?andb_false_r; auto.
Qed.

(** * Resolution *)

(* What the functions of a file are read as *)
Definition reading (c : ctx) (o : options) (ms : list mutation) (s : string) (d : fdef) : Prop :=
  exists m f two result p1 p2, In m ms /\ In f (site_functions c o m) /\ s = print_mfun f /\
    described c f two result p1 p2 /\ d = definition c two result p1 p2 f.

Lemma reading_read c o ms s d : reading c o ms s d -> read_as s d.
Proof.
  intros (m & f & two & result & p1 & p2 & _ & _ & -> & [W _] & ->). now apply function_read.
Qed.
Lemma readings c o ms l : (forall m, In m ms -> clang_node c m) ->
  (forall s, In s l -> exists m g, In m ms /\ In g (site_functions c o m) /\ s = print_mfun g) ->
  exists ds, Forall2 (reading c o ms) l ds.
Proof.
  intros C H. induction l as [|s l IH]; [exists []; constructor|].
  destruct IH as (ds & F); [intros; apply H; now right|].
  destruct (H s (or_introl eq_refl)) as (m & g & Hm & Hg & E).
  destruct (site_described c o m g (C m Hm) Hg) as (two & result & p1 & p2 & D).
  exists (definition c two result p1 p2 g :: ds). constructor; [|assumption].
  exists m, g, two, result, p1, p2. auto 6.
Qed.

Lemma same_symbol c o ms s d s' d' : (forall m, In m ms -> clang_node c m) ->
  reading c o ms s d -> reading c o ms s' d' -> symbol_of d = symbol_of d' -> s = s'.
Proof.
  intros C (m & f & two & result & p1 & p2 & Hm & Hf & -> & D & ->)
    (m' & f' & two' & result' & p1' & p2' & Hm' & Hf' & -> & D' & ->) E.
  rewrite !definition_symbol in E. apply symbol_inj in E. destruct E as [Sh Na].
  rewrite (shape_of_site c o m f two result p1 p2) in Sh by auto.
  rewrite (shape_of_site c o m' f' two' result' p1' p2') in Sh by auto.
  apply app_inj_tail in Sh. destruct Sh as [Sh _]. f_equal.
  apply (no_clash c o m m'); auto. apply (shape_same c o m m'); auto.
Qed.

Lemma only_one c o ms l ds s d : (forall m, In m ms -> clang_node c m) ->
  Forall2 (reading c o ms) l ds -> NoDup l -> In (s, d) (combine l ds) ->
  resolved ds (symbol_of d) = Some d.
Proof.
  intros C F N H.
  assert (X : filter (fun d' => String.eqb (symbol_of d') (symbol_of d)) ds = [d]).
  { assert (R : reading c o ms s d).
    { clear N. revert H. induction F as [|s1 d1 l ds R F IH]; cbn; [contradiction|].
      intros [E|H]; [|auto]. injection E as -> ->. assumption. }
    assert (No : forall l ds, Forall2 (reading c o ms) l ds -> ~ In s l ->
      filter (fun d' => String.eqb (symbol_of d') (symbol_of d)) ds = []).
    { clear - C R. induction 1 as [|s1 d1 l ds R1 F IH]; intros Ns; [reflexivity|]. cbn.
      destruct (String.eqb_spec (symbol_of d1) (symbol_of d)) as [E|E].
      - exfalso. apply Ns. left. eapply same_symbol; eassumption.
      - apply IH. intros I. apply Ns. now right. }
    induction F as [|s1 d1 l ds R1 F IH]; cbn in H; [contradiction|].
    inversion N as [|? ? N1 N2]; subst. cbn. destruct H as [E|H].
    - injection E as -> ->. rewrite String.eqb_refl. f_equal. eapply No; eassumption.
    - destruct (String.eqb_spec (symbol_of d1) (symbol_of d)) as [E|E].
      + exfalso. apply N1. replace s1 with s by (eapply same_symbol; eauto).
        eapply in_combine_l. eassumption.
      + apply IH; assumption. }
  unfold resolved. rewrite X. reflexivity.
Qed.

Lemma combine_ex {A B} (l : list A) (ds : list B) P s : Forall2 P l ds -> In s l ->
  exists d, In (s, d) (combine l ds) /\ P s d.
Proof.
  induction 1 as [|a b l ds H F IH]; cbn; [contradiction|]. intros [<-|I].
  - eauto.
  - destruct (IH I) as (d & D). exists d. intuition.
Qed.

Lemma reads_described c o ms l ds f two result p1 p2 :
  (forall m, In m ms -> clang_node c m) ->
  Forall2 (reading c o ms) l ds -> NoDup l -> In (print_mfun f) l ->
  described c f two result p1 p2 ->
  reads c ds f (definition c two result p1 p2 f) two result p1 p2.
Proof.
  intros C F N I D.
  destruct (combine_ex _ _ _ _ F I) as (d & Hd & R).
  assert (E : d = definition c two result p1 p2 f).
  { pose proof (read_one _ _ (reading_read _ _ _ _ _ R)) as A.
    pose proof (read_one _ _ (function_read _ _ _ _ _ _ (proj1 D))) as A'. congruence. }
  pose proof (only_one c o ms l ds _ d C F N Hd) as Q. rewrite E in Q.
  destruct D as (W & S1 & S2 & S3 & S4). constructor; auto.
Qed.

Lemma all_places_read c o ms l ds x :
  (forall m, In m ms -> clang_node c m) ->
  (forall m g, In m ms -> In g (site_functions c o m) -> In (print_mfun g) l) ->
  Forall2 (reading c o ms) l ds -> NoDup l ->
  In x (map NestSpec.place_of ms) -> place_reads c o ds x.
Proof.
  intros C A F N H. apply in_map_iff in H. destruct H as (m & <- & Hm).
  pose proof (C m Hm) as Cm. pose proof (fun g => A m g Hm) as Am.
  assert (Rd := fun f two result p1 p2 => reads_described c o ms l ds f two result p1 p2 C F N).
  destruct m as [e r|b r r1 r2|u r r1|s r]; cbn [NestSpec.place_of place_reads clang_node site_functions] in *.
  - eexists. apply Rd; [apply Am; now left|]. now apply expr_described.
  - destruct (c_logical c b).
    + intros f Hf. destruct (logical_described _ _ _ _ Hf) as (t & D).
      eexists. exists t. apply Rd; [now apply Am|exact D].
    + eexists. apply Rd; [apply Am; now left|]. apply binary_described. apply Cm.
  - split; [assumption|]. eexists. apply Rd; [apply Am; now left|]. now apply unary_described.
  - exact I.
Qed.
