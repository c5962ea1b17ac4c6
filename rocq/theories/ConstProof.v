(* Proofs about constant rewriting. *)
From Coq Require Import String Ascii List NArith ZArith Bool Lia DecimalString DecimalFacts
  DecimalN DecimalPos.
From Verif Require Import ConstRewrite ConstSpec.
Import ListNotations.
Local Open Scope N_scope.

Fixpoint value_from (acc : N) (d : Decimal.uint) : N :=
  match d with
  | Decimal.Nil => acc
  | Decimal.D0 d => value_from (acc * 10 + 0) d
  | Decimal.D1 d => value_from (acc * 10 + 1) d
  | Decimal.D2 d => value_from (acc * 10 + 2) d
  | Decimal.D3 d => value_from (acc * 10 + 3) d
  | Decimal.D4 d => value_from (acc * 10 + 4) d
  | Decimal.D5 d => value_from (acc * 10 + 5) d
  | Decimal.D6 d => value_from (acc * 10 + 6) d
  | Decimal.D7 d => value_from (acc * 10 + 7) d
  | Decimal.D8 d => value_from (acc * 10 + 8) d
  | Decimal.D9 d => value_from (acc * 10 + 9) d
  end.

Lemma digits_string d : forall acc,
  digits 10 acc (NilEmpty.string_of_uint d) = Some (value_from acc d).
Proof. induction d; intros acc; auto; apply IHd. Qed.

Lemma value_from_acc d : forall p,
  value_from (Npos p) d = Npos (Pos.of_uint_acc d p).
Proof.
  induction d; intros p; auto; cbn [value_from Pos.of_uint_acc];
    rewrite <- IHd; f_equal; lia.
Qed.

Lemma value_from_0 d : value_from 0 d = Pos.of_uint d.
Proof.
  induction d; auto; cbn [value_from Pos.of_uint]; try exact (value_from_acc d _).
Qed.

Lemma literal_print n : literal (print_uint64 n) = Some n.
Proof.
  unfold print_uint64.
  assert (U : N.to_uint n = Decimal.unorm (N.to_uint n)).
  { rewrite <- DecimalN.Unsigned.to_of. now rewrite DecimalN.Unsigned.of_to. }
  assert (V : value_from 0 (N.to_uint n) = n).
  { rewrite value_from_0. exact (DecimalN.Unsigned.of_to n). }
  unfold Decimal.unorm in U.
  destruct (Decimal.nzhead (N.to_uint n)) as [|d|d|d|d|d|d|d|d|d|d] eqn:H;
    rewrite U in *.
  { cbn in *. now rewrite <- V. }
  { exfalso. exact (nzhead_nonzero _ _ H). }
  all: cbn [NilZero.string_of_uint NilEmpty.string_of_uint literal].
  all: rewrite <- V;
    match type of V with value_from 0 ?d = _ => exact (digits_string d 0) end.
Qed.

Lemma limited_small a : ap_bits a < 2 ^ 64 -> limited_value a = ap_bits a.
Proof.
  intros H. unfold limited_value, uint64_max.
  destruct (N.ltb_spec 18446744073709551615 (ap_bits a)); auto.
  change (2 ^ 64) with 18446744073709551616 in H. lia.
Qed.

Lemma pow_le a b : a <= b -> 2 ^ a <= 2 ^ b.
Proof. intros. apply N.pow_le_mono_r; lia. Qed.

Lemma bits_nonneg a : well_formed a -> (0 <= integer a)%Z -> integer a = Z.of_N (ap_bits a).
Proof.
  unfold well_formed, integer. intros [_ H] I. destruct (ap_unsigned a); auto.
  destruct (_ <? _); auto. exfalso.
  assert (Z.of_N (ap_bits a) < 2 ^ Z.of_N (ap_width a))%Z; [|lia].
  replace (2 ^ Z.of_N (ap_width a))%Z with (Z.of_N (2 ^ ap_width a)); [lia|].
  now rewrite N2Z.inj_pow.
Qed.

Lemma nonneg_lemma a :
  well_formed a -> (0 <= integer a < 2 ^ 64)%Z ->
  exists n, literal (print_uint64 (limited_value a)) = Some n /\ Z.of_N n = integer a.
Proof.
  intros W I. rewrite literal_print. eexists. split; [reflexivity|].
  rewrite limited_small, <- bits_nonneg; auto; try lia.
  apply bits_nonneg in W; [|lia]. rewrite W in I.
  change (2 ^ 64)%Z with (Z.of_N (2 ^ 64)) in I. lia.
Qed.

Lemma negative_lemma a :
  well_formed a -> ap_width a <= 64 -> (integer a < 0)%Z ->
  exists n, literal (print_uint64 (limited_value a)) = Some n /\
    Z.of_N n = (2 ^ Z.of_N (ap_width a) + integer a)%Z /\ Z.of_N n <> integer a.
Proof.
  intros [W0 W] L I. rewrite literal_print. eexists. split; [reflexivity|].
  rewrite limited_small by (pose proof (pow_le _ _ L); lia).
  unfold integer in *. destruct (ap_unsigned a); [lia|].
  destruct (_ <? _); lia.
Qed.

Lemma array_lemma sizes :
  Forall (fun e => exists v, ce_value e = Some v /\ well_formed v /\
    ap_unsigned v = true /\ ap_width v <= 64) sizes ->
  forall b l s, In (b, l, s) (rewrite_array_sizes sizes) <->
    exists e v n, In e sizes /\ ce_range e = Some (b, l) /\ ce_value e = Some v /\
    s = print_uint64 n /\ literal s = Some n /\ Z.of_N n = integer v.
Proof.
  intros F b l s. induction F as [|e sizes (v & V & W & U & L) F IH].
  - simpl. split; [tauto|]. intros (? & ? & ? & [] & _).
  - cbn [rewrite_array_sizes]. rewrite V, in_app_iff, IH. clear IH. split.
    + intros [H|(e' & v' & n & I & R)]; [|exists e', v', n; split; [now right|exact R]].
      unfold rewrite_to_constant in H. destruct (ce_range e) as [[b' l']|] eqn:R; [|destruct H].
      destruct H as [H|[]]. injection H as <- <- <-.
      exists e, v, (limited_value v). rewrite literal_print. repeat split; auto.
      * now left.
      * unfold integer. rewrite U. f_equal. apply limited_small. destruct W.
        pose proof (pow_le _ _ L). lia.
    + intros (e' & v' & n & [<-|I] & R & V' & S & Lt & Z).
      * left. unfold rewrite_to_constant. rewrite R. left. subst s. repeat f_equal.
        rewrite V in V'. injection V' as <-. unfold integer in Z. rewrite U in Z.
        rewrite limited_small; [lia|]. destruct W. pose proof (pow_le _ _ L). lia.
      * right. exists e', v', n. repeat split; auto.
Qed.

(* The first occurrence of each pointer. *)
Lemma arguments_lemma args : forall already,
  (forall p e e', In (p, e) args -> In (p, e') args -> e = e') ->
  (forall p e v, In (p, e) args -> ce_value e = Some v ->
     well_formed v /\ (0 <= integer v < 2 ^ 64)%Z) ->
  forall b l s, In (b, l, s) (rewrite_arguments already args) <->
    exists p e v n, In (p, e) args /\ ~ In p already /\
    ce_range e = Some (b, l) /\ ce_value e = Some v /\
  s = print_uint64 n /\ literal s = Some n /\ Z.of_N n = integer v.
Proof.
  induction args as [|[p e] args IH]; intros already P W b l s.
  { simpl. split; [tauto|]. intros (? & ? & ? & ? & [] & _). }
  assert (P' : forall q e e', In (q, e) args -> In (q, e') args -> e = e')
    by (intros; eapply P; right; eauto).
  assert (W' : forall q e v, In (q, e) args -> ce_value e = Some v ->
     well_formed v /\ (0 <= integer v < 2 ^ 64)%Z)
    by (intros; eapply W; [right|]; eauto).
  cbn [rewrite_arguments]. destruct (existsb (Nat.eqb p) already) eqn:E.
  - rewrite (IH already P' W'). apply existsb_exists in E. destruct E as (p' & I & E).
    apply Nat.eqb_eq in E. subst p'. split.
    + intros (q & e' & v & n & H & R). exists q, e', v, n. split; [now right|exact R].
    + intros (q & e' & v & n & [H|H] & N & R).
      * injection H as <- <-. contradiction.
      * exists q, e', v, n. auto.
  - assert (NI : ~ In p already).
    { intros I. rewrite <- not_true_iff_false in E. apply E, existsb_exists.
      exists p. split; auto. apply Nat.eqb_refl. }
    rewrite in_app_iff, (IH (p :: already) P' W'). split.
    + intros [H|(q & e' & v & n & H & N & R)].
      * destruct (ce_value e) as [v|] eqn:V; [|destruct H].
        unfold rewrite_to_constant in H.
        destruct (ce_range e) as [[b' l']|] eqn:R; [|destruct H].
        destruct H as [H|[]]. injection H as <- <- <-.
        exists p, e, v, (limited_value v). destruct (W p e v (or_introl eq_refl) V) as [Wf I].
        destruct (nonneg_lemma v Wf I) as (n & A & B).
        rewrite A. rewrite literal_print in A. injection A as <-.
        repeat split; auto. now left.
      * exists q, e', v, n. split; [now right|]. split; auto. intros I. apply N. now right.
    + intros (q & e' & v & n & H & N & R & V & S & L & Z).
      destruct (Nat.eq_dec q p) as [->|D].
      * assert (e' = e) as -> by (eapply P; [exact H|now left]). left. rewrite V.
        unfold rewrite_to_constant. rewrite R. left. subst s. repeat f_equal.
        destruct (W p e v (or_introl eq_refl) V) as [Wf I].
        destruct (nonneg_lemma v Wf I) as (m & A & B).
        rewrite literal_print in A. injection A as <-. lia.
      * destruct H as [H|H]; [injection H as <- <-; congruence|].
        right. exists q, e', v, n. repeat split; auto. intros [->|I]; auto.
Qed.
