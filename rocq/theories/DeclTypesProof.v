(* Proofs for C84. *)
From Coq Require Import String List NArith ZArith Arith Bool.
From Verif Require Import Base ConstRewrite ConstSpec ConstProof DeclTypes DeclTypesSpec.
Import ListNotations.
Local Open Scope list_scope.

Fixpoint saved_args (args : list targ) : list constant :=
  match args with
  | [] => []
  | ArgExpr e :: args => e :: saved_args args
  | ArgType t :: args => saved t ++ saved_args args
  | ArgOther :: args => saved_args args
  end.
Lemma saved_template args : saved (TyTemplate args) = saved_args args.
Proof. induction args as [|[e|t|] args IH]; simpl in *; congruence. Qed.

Lemma saved_args_in args x : In x (saved_args args) <->
  In (ArgExpr x) args \/ exists t, In (ArgType t) args /\ In x (saved t).
Proof.
  induction args as [|[e|t|] args IH]; simpl.
  - firstorder.
  - rewrite IH. split.
    + intros [->|[H|(t & H & I)]]; eauto.
    + intros [[E|H]|(t & [E|H] & I)]; try discriminate; eauto. injection E as ->. auto.
  - rewrite in_app_iff, IH. split.
    + intros [H|[H|(u & H & I)]]; eauto.
    + intros [[E|H]|(u & [E|H] & I)]; try discriminate; eauto. injection E as ->. auto.
  - rewrite IH. split.
    + intros [H|(t & H & I)]; eauto.
    + intros [[E|H]|(t & [E|H] & I)]; try discriminate; eauto.
Qed.

Lemma saved_needed : forall t x, In x (saved t) -> needs t x.
Proof.
  fix IH 1. intros [|args|e t|t|t] x; try (intros []).
  - rewrite saved_template, saved_args_in. intros [H|H]; [constructor; exact H|].
    assert (G : forall args', (exists t, In (ArgType t) args' /\ In x (saved t)) ->
              exists t, In (ArgType t) args' /\ needs t x).
    { clear - IH. fix IA 1. intros [|a args'] (t & I & S); [destruct I|].
      destruct a as [e|u|].
      - destruct I as [I|I]; [discriminate|].
        destruct (IA args' (ex_intro _ t (conj I S))) as (v & Iv & Nv). exists v. simpl. auto.
      - destruct I as [I|I].
        + injection I as E. exists u. split; [left; reflexivity|]. apply IH. rewrite E. exact S.
        + destruct (IA args' (ex_intro _ t (conj I S))) as (v & Iv & Nv). exists v. simpl. auto.
      - destruct I as [I|I]; [discriminate|].
        destruct (IA args' (ex_intro _ t (conj I S))) as (v & Iv & Nv). exists v. simpl. auto. }
    destruct (G args H) as (t & I & N). eapply needs_inside; eauto.
  - simpl. intros H. constructor. apply IH. exact H.
Qed.

Lemma saved_all t : templates t -> forall x, needs t x -> In x (saved t).
Proof.
  induction 1 as [t P|args _ IH|t _ IH]; intros x N.
  - destruct (P x N).
  - rewrite saved_template, saved_args_in. inversion N; subst; eauto.
  - inversion N; subst. simpl. auto.
Qed.

Lemma sizes_needed t : forall e, In e (sizes t) -> exists p, needs t (p, e).
Proof.
  induction t as [| |[p c] t IH| |]; simpl; intros e []; subst.
  - exists p. constructor.
  - destruct (IH e H) as [q N]. exists q. constructor. exact N.
Qed.

Lemma sizes_all t : arrays t -> forall x, needs t x -> In (snd x) (sizes t).
Proof.
  induction 1 as [t P|e t _ IH]; intros x N; [destruct (P x N)|].
  inversion N; subst; simpl; auto.
Qed.

Lemma arrays_array_type t : arrays t -> forall x, needs t x -> is_constant_array t = true.
Proof. destruct 1 as [t P|e t _]; intros x N; [destruct (P x N)|reflexivity]. Qed.

Lemma rewrite_sizes_in es b l s : In (b, l, s) (rewrite_array_sizes es) <->
  exists e v, In e es /\ ce_value e = Some v /\ ce_range e = Some (b, l) /\
    s = print_uint64 (limited_value v).
Proof.
  induction es as [|e es IH]; simpl; [firstorder|].
  rewrite in_app_iff, IH. split.
  - intros [H|(e' & v & I & H)]; [|eauto 6].
    destruct (ce_value e) as [v|] eqn:V; [|destruct H].
    unfold rewrite_to_constant in H. destruct (ce_range e) as [[b' l']|] eqn:R; [|destruct H].
    destruct H as [H|[]]. injection H as <- <- <-. eauto 8.
  - intros (e' & v & [<-|I] & V & R & E); [|eauto 8].
    left. rewrite V. unfold rewrite_to_constant. rewrite R, E. left. reflexivity.
Qed.

Lemma arguments_needed ds x : In x (flat_map arguments_of ds) ->
  exists d, In d ds /\ needs (type_of d) x.
Proof.
  intros H. apply in_flat_map in H. destruct H as (d & I & H). exists d. split; [exact I|].
  destruct d; simpl in *; try contradiction. apply saved_needed. exact H.
Qed.

Lemma arguments_in ds b l s : good_constants ds ->
  (In (b, l, s) (rewrite_arguments [] (flat_map arguments_of ds)) <->
   exists p e v n, In (p, e) (flat_map arguments_of ds) /\ ~ In p [] /\
     ce_range e = Some (b, l) /\ ce_value e = Some v /\
     s = print_uint64 n /\ literal s = Some n /\ Z.of_N n = integer v).
Proof.
  intros [G1 G2]. apply arguments_lemma.
  - intros p e e' H H'. destruct (arguments_needed _ _ H) as (d & I & N).
    destruct (arguments_needed _ _ H') as (d' & I' & N'). eauto.
  - intros p e v H V. destruct (arguments_needed _ _ H) as (d & I & N). eauto.
Qed.

(* C84 *)
Lemma replaced_lemma ds d x : good_constants ds -> In d ds ->
  match d with
  | DeclVar t => templates t \/ arrays t
  | DeclField t => arrays t
  | _ => False
  end ->
  needs (type_of d) x -> replaced x (rewrites ds).
Proof.
  intros G I H N b l v R V. destruct x as [p e]. simpl in R, V.
  destruct (proj2 G d p e v I N V) as [W B].
  assert (A : forall t, d = DeclVar t \/ d = DeclField t -> arrays t -> needs t (p, e) ->
    exists s n, In (b, l, s) (rewrites ds) /\ literal s = Some n /\ Z.of_N n = integer v).
  { intros t D A Nt. destruct (nonneg_lemma v W B) as (n & L & E).
    exists (print_uint64 (limited_value v)), n. split; [|auto].
    unfold rewrites. apply in_or_app. left. apply in_flat_map. exists d. split; [exact I|].
    apply rewrite_sizes_in. exists e, v. split; [|auto].
    pose proof (arrays_array_type t A _ Nt) as T. pose proof (sizes_all t A _ Nt) as S.
    destruct D as [->| ->]; simpl; rewrite T; exact S. }
  destruct d as [t|t|t|t]; try contradiction; simpl in N.
  - destruct H as [H|H]; [|apply (A t); auto].
    destruct (nonneg_lemma v W B) as (n & L & E).
    assert (S : In (b, l, print_uint64 n) (rewrite_arguments [] (flat_map arguments_of ds))).
    { apply arguments_in; [exact G|]. exists p, e, v, n.
      repeat split; auto; [|apply literal_print].
      apply in_flat_map. exists (DeclVar t). split; [exact I|]. apply saved_all; auto. }
    exists (print_uint64 n), n. split; [|split; [apply literal_print|exact E]].
    unfold rewrites. apply in_or_app. right. exact S.
  - apply (A t); auto.
Qed.

(* Nothing else is replaced *)
Lemma only_constants_lemma ds b l s : good_constants ds -> In (b, l, s) (rewrites ds) ->
  exists d x v n, In d ds /\ needs (type_of d) x /\ ce_range (snd x) = Some (b, l) /\
    ce_value (snd x) = Some v /\ literal s = Some n /\ Z.of_N n = integer v.
Proof.
  intros G H. unfold rewrites in H. apply in_app_or in H. destruct H as [H|H].
  - apply in_flat_map in H. destruct H as (d & I & H).
    apply rewrite_sizes_in in H. destruct H as (e & v & Ie & V & R & ->).
    assert (N : exists p, needs (type_of d) (p, e)).
    { destruct d as [t|t|t|t]; simpl in Ie; try contradiction;
        destruct (is_constant_array t); try contradiction; apply sizes_needed; exact Ie. }
    destruct N as [p N]. destruct (proj2 G d p e v I N V) as [W B].
    destruct (nonneg_lemma v W B) as (n & L & E).
    exists d, (p, e), v, n. auto 8.
  - apply arguments_in in H; [|exact G].
    destruct H as (p & e & v & n & Ie & _ & R & V & _ & L & E).
    destruct (arguments_needed _ _ Ie) as (d & I & N).
    exists d, (p, e), v, n. auto 8.
Qed.

(* Constants of types that occur several times are replaced once *)
Lemma rewrite_arguments_once args : 
  (forall p p' e e' r, In (p, e) args -> In (p', e') args -> ce_range e = Some r ->
     ce_range e' = Some r -> p = p') ->
  forall already, NoDup (map fst (rewrite_arguments already args)) /\
    forall r, In r (map fst (rewrite_arguments already args)) ->
      exists p e, In (p, e) args /\ ~ In p already /\ ce_range e = Some r.
Proof.
  induction args as [|[p e] args IH]; intros D already; simpl.
  { split; [constructor|intros r []]. }
  assert (D' : forall p p' e e' r, In (p, e) args -> In (p', e') args -> ce_range e = Some r ->
     ce_range e' = Some r -> p = p') by (intros; eapply D; simpl; eauto).
  destruct (existsb (Nat.eqb p) already) eqn:X.
  { destruct (IH D' already) as [N S]. split; [exact N|]. intros r I.
    destruct (S r I) as (q & e' & I' & H). exists q, e'. simpl. auto. }
  assert (F : ~ In p already).
  { intros I. enough (existsb (Nat.eqb p) already = true) by congruence.
    apply existsb_exists. exists p. split; [exact I|apply Nat.eqb_refl]. }
  destruct (IH D' (p :: already)) as [N S].
  assert (S' : forall r, In r (map fst (rewrite_arguments (p :: already) args)) ->
    exists q e', In (q, e') ((p, e) :: args) /\ ~ In q already /\ ce_range e' = Some r).
  { intros r I. destruct (S r I) as (q & e' & I' & Q & R). exists q, e'. simpl in *.
    split; [auto|]. split; [intros Y; apply Q; auto|exact R]. }
  destruct (ce_value e) as [v|]; [|split; [exact N|exact S']].
  unfold rewrite_to_constant. destruct (ce_range e) as [[b l]|] eqn:R; [|split; [exact N|exact S']].
  simpl. split.
  - constructor; [|exact N]. intros I. destruct (S _ I) as (q & e' & I' & Q & R').
    apply Q. left. eapply D; simpl; eauto.
  - intros r [<-|I]; [|auto]. exists p, e. auto.
Qed.

Lemma templates_no_array t : templates t -> is_constant_array t = false.
Proof.
  induction 1 as [t P|args _ _|t _ IH]; [|reflexivity|exact IH].
  assert (H : forall t, is_constant_array t = true -> exists x, needs t x).
  { clear. induction t as [| |e t _|t IH|]; simpl; try discriminate; intros H.
    - exists e. constructor.
    - destruct (IH H) as [x N]. exists x. constructor. exact N. }
  destruct (is_constant_array t) eqn:E; [|reflexivity].
  destruct (H t E) as [x N]. destruct (P x N).
Qed.

Lemma once_lemma ds :
  (forall d, In d ds -> exists t, d = DeclVar t /\ templates t) ->
  (forall d d' p p' e e' r, In d ds -> In d' ds -> needs (type_of d) (p, e) ->
     needs (type_of d') (p', e') -> ce_range e = Some r -> ce_range e' = Some r -> p = p') ->
  NoDup (map fst (rewrites ds)).
Proof.
  intros T D. unfold rewrites.
  replace (flat_map (fun d => rewrite_array_sizes (sizes_of d)) ds)
    with (@nil (nat * nat * string)).
  - simpl. apply rewrite_arguments_once. intros p p' e e' r H H' R R'.
    destruct (arguments_needed _ _ H) as (d & I & N).
    destruct (arguments_needed _ _ H') as (d' & I' & N'). eauto.
  - clear D. induction ds as [|d ds IH]; [reflexivity|]. simpl.
    destruct (T d (or_introl eq_refl)) as (t & -> & Tt). simpl.
    rewrite (templates_no_array t Tt). simpl. apply IH. intros d' I. apply T. right. exact I.
Qed.
