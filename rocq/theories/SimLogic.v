(* The values of the second and third mutant of && and || in C. *)
From Coq Require Import String List ZArith Bool Lia.
From Verif Require Import Base Clang Gen GenExpr GenBinary GenUnary GenStmt Mutation GenSpec
  Lang Cst SimSpec LangRun.
Import ListNotations.

Section Logic.
Variable L : lang.
Variable R : runtime.
Variable c : ctx.
Variable bodies : string -> option (tm L).
Variable cpp17 : bool.
Notation tm := (tm L).
Notation steps := (steps L R c bodies cpp17).
Notation finishes := (finishes L R c bodies cpp17).

(* Executions of a construct that evaluates its first operand and then does something. *)
Lemma first_then e k rest x y :
  evaluated k 0 = true -> rest = [] \/ (forall i, evaluated k (S i) = false) ->
  (forall a : tm, final (N k (a :: rest)) = false) ->
  steps e x y -> forall m d a, x = (m, d, N k (a :: rest)) ->
  (exists m' d' a', y = (m', d', N k (a' :: rest)) /\ steps (child_env k e) (m, d, a) (m', d', a')) \/
  (exists m1 d1 a1 z, steps (child_env k e) (m, d, a) (m1, d1, a1) /\ final a1 = true /\
     head L R c bodies e m1 d1 k (a1 :: rest) = Some z /\ steps e z y).
Proof.
  intros E0 Er Nf S. induction S as [x|m0 d0 t0 x1 y S1 S2 IH]; intros m d a Q.
  - subst x. left. exists m, d, a. split; auto. constructor.
  - injection Q as -> -> ->. inversion S1 as [k' args F Ev Q1 Q2|k' pre b post o Ev T A1 A2 S Q1 Q2]; subst.
    + right. exists m, d, a, x1. repeat split; auto; try constructor.
      apply (Ev 0 a); auto.
    + assert (pre = []) as ->.
      { destruct pre as [|p pre]; auto. cbn in H. injection H as -> H. destruct Er as [->|Er].
        - destruct pre; discriminate.
        - cbn in Ev. rewrite Er in Ev. discriminate. }
      cbn in H. injection H as -> ->. destruct o as [[[m1 d1] a1]|]; [|discriminate].
      cbn in Q2. injection Q2 as <-. destruct (IH _ _ _ eq_refl) as [(m' & d' & a' & -> & St)|(m2 & d2 & a2 & z & St & F & Hd & St2)].
      * left. exists m', d', a'. split; auto. econstructor; eauto.
      * right. exists m2, d2, a2, z. repeat split; auto. econstructor; eauto.
Qed.

(* The end of an execution. *)
Definition ends e m d (t : tm) m' d' (r : tm) : Prop :=
  steps e (m, d, t) (m', d', r) /\ final r = true.

Lemma ends_first e k rest m d a m' d' r :
  evaluated k 0 = true -> rest = [] \/ (forall i, evaluated k (S i) = false) ->
  (forall a : tm, final (N k (a :: rest)) = false) ->
  ends e m d (N k (a :: rest)) m' d' r ->
  exists m1 d1 a1 m2 d2 t2, ends (child_env k e) m d a m1 d1 a1 /\
    head L R c bodies e m1 d1 k (a1 :: rest) = Some (m2, d2, t2) /\ ends e m2 d2 t2 m' d' r.
Proof.
  intros E0 Er Nf (St & F).
  destruct (first_then e k rest _ _ E0 Er Nf St m d a eq_refl)
    as [(m1 & d1 & a1 & Q & _)|(m1 & d1 & a1 & [[m2 d2] t2] & S1 & F1 & Hd & S2)].
  - injection Q as -> -> ->. rewrite Nf in F. discriminate.
  - exists m1, d1, a1, m2, d2, t2. unfold ends. repeat split; auto.
Qed.

Lemma ends_value e m d v m' d' r : ends e m d (RV v) m' d' r -> m' = m /\ d' = d /\ r = RV v.
Proof.
  intros (St & _). inversion St as [|? ? ? ? ? S1 S2]; subst; auto. inversion S1.
Qed.

(* A conversion: the value is one of that type. *)
Lemma ends_at e T m d x m' d' r : ends e m d (N (KAt T) [x]) m' d' r ->
  exists v, r = RV (conv L T v) /\ ends e m d x m' d' (RV v).
Proof.
  intro H. destruct (ends_first e (KAt T) [] m d x m' d' r) as (m1 & d1 & a1 & m2 & d2 & t2 & S1 & Hd & S2);
    auto. cbn in Hd. destruct a1 as [v|l|k args]; try discriminate.
  injection Hd as <- <- <-. apply ends_value in S2 as (-> & -> & ->). eauto.
Qed.
Lemma ends_comma e m d x v m' d' r : ends e m d (N KComma [x; RV v]) m' d' r ->
  r = RV v /\ exists w, ends e m d x m' d' w.
Proof.
  intro H. destruct (ends_first e KComma [RV v] m d x m' d' r) as (m1 & d1 & a1 & m2 & d2 & t2 & S1 & Hd & S2);
    auto. cbn in Hd. destruct (is_result a1); [|discriminate]. injection Hd as <- <- <-.
  apply ends_value in S2 as (-> & -> & ->). eauto.
Qed.
Lemma ends_truth e m d x m' d' r : ends e m d (N KTruth [x]) m' d' r ->
  exists v, r = RV (boolean L (truth L v)) /\ ends e m d x m' d' (RV v).
Proof.
  intro H. destruct (ends_first e KTruth [] m d x m' d' r) as (m1 & d1 & a1 & m2 & d2 & t2 & S1 & Hd & S2);
    auto. cbn in Hd. destruct a1 as [v|l|k args]; try discriminate.
  injection Hd as <- <- <-. apply ends_value in S2 as (-> & -> & ->). eauto.
Qed.
(* && and ||: the left operand, and then the right one if it decides. *)
Lemma ends_logic e o m d x y m' d' r : ends e m d (N (KLogic o) [x; y]) m' d' r ->
  exists v m1 d1, ends e m d x m1 d1 (RV v) /\
    if Bool.eqb (truth L v) (bop_eqb o LAnd)
    then exists w, r = RV (boolean L (truth L w)) /\ ends e m1 d1 y m' d' (RV w)
    else m' = m1 /\ r = RV (boolean L (truth L v)).
Proof.
  intro H. destruct (ends_first e (KLogic o) [y] m d x m' d' r) as (m1 & d1 & a1 & m2 & d2 & t2 & S1 & Hd & S2);
    auto. cbn in Hd. destruct a1 as [v|l|k args]; try discriminate.
  exists v, m1, d1. split; auto.
  destruct (Bool.eqb (truth L v) (bop_eqb o LAnd)); injection Hd as <- <- <-.
  - apply ends_truth. exact S2.
  - apply ends_value in S2 as (-> & -> & ->). auto.
Qed.

Variable b : binary.
Variable E : nat -> bool.
Variable id : nat.
Hypothesis Logical : is_logical (b_op b) = true.
Hypothesis First : E id = false.

Lemma neutral_truth t : truth L (conv L t (literal L (LInt (match b_op b with LAnd => 1 | _ => 0 end)))) =
  bop_eqb (b_op b) LAnd.
Proof.
  destruct (b_op b); try discriminate Logical.
  - exact (truth_literal L t true).
  - exact (truth_literal L t false).
Qed.

Lemma second_lemma e m d x y m' r : E (S id) = true -> E (S (S id)) = false ->
  finishes e m d (c_logical_with_rest L c E b id x y) m' r ->
  exists v m1 d1, steps e (m, d, N (KAt (e_ty (b_lhs b))) [x]) (m1, d1, RV v) /\
    r = RV (conv L (b_ty b) (boolean L (truth L v))) /\
    if Bool.eqb (truth L v) (bop_eqb (b_op b) LAnd)
    then exists w, finishes e m1 d1 (N (KAt (e_ty (b_rhs b))) [y]) m' w
    else m' = m1.
Proof.
  unfold c_logical_with_rest. rewrite First. intros -> -> (d' & H).
  apply ends_at in H as (u & -> & H). apply ends_logic in H as (v & m1 & d1 & [S1 _] & H).
  exists v, m1, d1. split; auto. destruct (Bool.eqb (truth L v) (bop_eqb (b_op b) LAnd)) eqn:Q.
  - destruct H as (w & Qw & H). injection Qw as ->. apply eqb_prop in Q.
    apply ends_at in H as (w' & Qw & H). injection Qw as ->.
    apply ends_comma in H as (Qw & w & H). injection Qw as ->.
    rewrite neutral_truth, <- Q. split; auto. exists w, d'. exact H.
  - destruct H as [-> Qu]. injection Qu as ->. auto.
Qed.
Lemma third_lemma e m d x y m' r : E (S id) = false -> E (S (S id)) = true ->
  finishes e m d (c_logical_with_rest L c E b id x y) m' r ->
  exists w m1 d1 v, steps e (m, d, N (KAt (e_ty (b_lhs b))) [x]) (m1, d1, w) /\ final w = true /\
    finishes e m1 d1 (N (KAt (e_ty (b_rhs b))) [y]) m' (RV v) /\
    r = RV (conv L (b_ty b) (boolean L (truth L v))).
Proof.
  unfold c_logical_with_rest. rewrite First. intros -> -> (d' & H).
  apply ends_at in H as (u & -> & H). apply ends_logic in H as (v & m1 & d1 & H1 & H).
  apply ends_at in H1 as (v' & Qv & H1). injection Qv as ->.
  apply ends_comma in H1 as (Qv & w & [S1 F1]). injection Qv as ->.
  rewrite neutral_truth, eqb_reflx in H. destruct H as (y' & Qu & H). injection Qu as ->.
  exists w, m1, d1, y'. repeat split; auto. exists d'. exact H.
Qed.
End Logic.
