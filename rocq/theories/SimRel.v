(* The relation between the states of the mutated program and those of the program that it
   is to behave like, and its elementary properties. *)
From Coq Require Import String List ZArith Bool Lia.
From Verif Require Import Base Clang Gen GenExpr GenBinary GenUnary GenStmt Mutation GenSpec
  Lang Cst SimSpec.
Import ListNotations.

Lemma tm_induction (L : lang) (P : tm L -> Prop) :
  (forall v, P (RV v)) -> (forall l, P (RL l)) ->
  (forall k args, Forall P args -> P (N k args)) -> forall t, P t.
Proof.
  intros V O K. fix IH 1. intros [v|l|k args]; [apply V|apply O|].
  apply K. induction args; constructor; auto.
Qed.

Section Rel.
Variable L : lang.
Variable c : ctx.
Variable R : runtime.
Variable E : nat -> bool.
Variable num : limits.      (* bounds of queried and recorded ids *)
Variable Inv : rt_state R -> Prop.
Hypothesis W : working R E num Inv.
Variable bt bs : string -> option (tm L).
Variable cpp17 : bool.

Notation tm := (tm L).
Notation step_t := (step L R c bt cpp17).
Notation step_s := (step L R c bs cpp17).

(** * Choice of the operation *)

Definition chosen (f : mfun) (id : nat) : rhs :=
  match find (fun l => E (id + fst l)) (mf_lines f) with
  | Some l => snd l
  | None => mf_orig f
  end.
Definition ids_ok (f : mfun) (id : nat) : Prop :=
  (forall l, In l (mf_lines f) ->
     id + fst l < lim_queried num /\ lim_file num (id + fst l) = lim_file num id) /\
  (forall n, mf_track f = Some n ->
     0 < n /\ id + n <= lim_recorded num /\ lim_file num (id + (n - 1)) = lim_file num id).

Lemma first_test_ok lines id d :
  Inv d -> (forall l, In l lines ->
     id + fst l < lim_queried num /\ lim_file num (id + fst l) = lim_file num id) ->
  exists d', first_test R lines id d =
             Some (d', option_map snd (find (fun l => E (id + fst l)) lines)) /\ Inv d'.
Proof.
  revert d. induction lines as [|[k r] lines IH]; intros d I B; cbn [first_test find].
  - exists d. auto.
  - destruct (working_query _ _ _ _ W d (id + k) I) as (d1 & Q & I1).
    { apply (B (k, r)). left. reflexivity. }
    rewrite Q. cbn [fst]. destruct (E (id + k)).
    + exists d1. auto.
    + destruct (IH d1 I1) as (d2 & T & I2); [intros l Hl; apply B; right; exact Hl|].
      exists d2. auto.
Qed.

Lemma call_mutator_ok f id args d :
  Inv d -> ids_ok f id ->
  exists d', call_mutator L R c f id args d =
             Some (d', mutator_body L c f args (chosen f id)) /\ Inv d'.
Proof.
  intros I [B T]. unfold call_mutator, tested, chosen.
  assert (Rec : forall d, Inv d -> exists d', recorded_call R f id d = Some d' /\ Inv d').
  { intros d1 I1. unfold recorded_call. destruct (mf_track f) as [n|] eqn:Tr; eauto.
    destruct (T n eq_refl) as (T1 & T2 & T3). apply (working_record _ _ _ _ W); auto. }
  destruct (mf_fast f && negb (rt_flag R id d)) eqn:F.
  - apply andb_true_iff in F as [_ F]. apply negb_true_iff in F.
    assert (find (fun l => E (id + fst l)) (mf_lines f) = None) as ->.
    { destruct (find _ _) as [l|] eqn:Fi; auto. apply find_some in Fi as [Hl Fi].
      rewrite (working_flag _ _ _ _ W d id I F _ (proj1 (B l Hl)) (proj2 (B l Hl))) in Fi. discriminate. }
    destruct (Rec d I) as (d' & -> & I'). eauto.
  - destruct (first_test_ok (mf_lines f) id d I B) as (d1 & -> & I1).
    destruct (find _ _) as [l|]; cbn [option_map]; eauto.
    destruct (Rec d1 I1) as (d' & -> & I'). eauto.
Qed.

(** * The relation *)

Definition typed (T : ty) (s : tm) : Prop :=
  (exists a, s = N (KAt T) [a]) \/ (exists v, s = RV v /\ conv L T v = v).
Definition placed (s : tm) : Prop :=
  (exists a, s = N KLv [a]) \/ (exists l, s = RL l).

Definition settled (T : ty) (w : val L) : Prop :=
  conv L T w = w \/ exists b, w = boolean L b.

Lemma settled_truth T w : settled T w -> truth L (conv L T w) = truth L w.
Proof.
  intros [->|[b ->]]; auto. rewrite truth_converted, truth_boolean. reflexivity.
Qed.
Lemma settled_conv T w : settled T (conv L T w).
Proof. left. apply conv_idempotent. Qed.

(* Terms without calls, loops and statements. *)
Fixpoint calm (t : tm) : bool :=
  match t with
  | RV _ | RL _ => true
  | N k args =>
      match k with
      | KVar _ | KLoad | KDeref | KAddr | KField _ | KAt _ | KLv | KUn _ | KIncDec _ | KBin _
      | KLogic _ | KTruth | KAssign _ | KCond | KComma | KM _ _ | KLambda _ | KWrong => true
      | _ => false
      end && forallb calm args
  end.

(* Functions from a value of a type to the same type. *)
Definition unit_fun (f : mfun) (T : ty) : Prop :=
  exists p, mf_params f = [p] /\ declared c (fst p) = Some (Direct ByValue T) /\
            declared c (mf_result f) = Some (Direct ByValue T) /\ fst (mf_access f) = AVal.

(* The operation suits the value categories of the operands and the result. *)
Definition fits_op (r : rhs) (lv1 : bool) : bool :=
  match r with
  | RArg1 | RArg2 | RLit _ => true
  | RPre o | RPreParen o => negb (is_incdec (as_prefix o)) || lv1
  | RPost o => is_incdec o && lv1
  | RBin o => negb (bop_eqb o Comma) && (negb (is_assign o) || lv1)
  end.
Definition fits (result : string) (r : rhs) (lv1 lv2 : bool) : bool :=
  fits_op r lv1 &&
  match declared c result with
  | Some (Direct ByValue _) => true
  | Some (Direct ByReference _) => fst (expression L c r (lv1, skip) (lv2, skip))
  | _ => false
  end.

(* The operand that comes second from C++17 on is delayed. *)
Definition in_order (r : rhs) (a1 a2 : access) : Prop :=
  match r with
  | RBin o => (is_assign o = true -> a1 = ALam) /\
              ((o = Shl \/ o = Shr) -> a2 = ALam)
  | _ => True
  end.
(* An operand, and another one that is evaluated as well. *)
Definition with_rest (delayed : bool) (x rest : operand L) : operand L :=
  (fst x, if delayed then N KComma [snd rest; snd x] else N KFirst [snd x; snd rest]).
Definition is_delayed (a : access) : bool := match a with ALam => true | _ => false end.

Definition dual (o : bop) : bop := match o with LAnd => LOr | _ => LAnd end.

(* Same: the states agree.  Ptr: a pointer to what the other is an l-value for.
   Opp, Neg: the opposite truth value.  Const: a constant truth value. *)
Inductive tag := Same | Ptr | Opp (T : ty) | Neg (T : ty) | Const (T : ty) (b : bool).

Definition relatable (k : kind L) : bool :=
  match k with
  | KM _ _ | KLambda _ | KRemovable _ | KRecord _ _ => false
  | _ => true
  end.

Inductive rel : tag -> tm -> tm -> Prop :=
| rel_rv v : rel Same (RV v) (RV v)
| rel_rl l : rel Same (RL l) (RL l)
| rel_n k ts ss : relatable k = true -> Forall2 (rel Same) ts ss -> rel Same (N k ts) (N k ss)
| rel_at T t s : typed T s -> rel Same t s -> rel Same (N (KAt T) [t]) s
| rel_deref l : rel Same (N KDeref [RV (pointer L l)]) (RL l)
| rel_same f id T t s :
    unit_fun f T -> chosen f id = RArg1 -> ids_ok f id -> typed T s -> rel Same t s ->
    rel Same (N (KM f id) [t]) s
| rel_call1 f id p t x r :
    mf_params f = [p] -> chosen f id = r -> ids_ok f id ->
    fits (mf_result f) r (fst x) false = true -> uses2 r = false ->
    arg (fst p) (fst (mf_access f)) (uses1 r) t x ->
    rel Same (N (KM f id) [t]) (returned L c (mf_result f) (expression L c r x no_operand))
| rel_call2 f id p1 p2 t1 t2 x1 x2 r :
    mf_params f = [p1; p2] -> chosen f id = r -> ids_ok f id ->
    fits (mf_result f) r (fst x1) (fst x2) = true ->
    (forall o, r = RBin o -> is_logical o = true -> snd (mf_access f) = ALam) ->
    (cpp17 = true -> in_order r (fst (mf_access f)) (snd (mf_access f))) ->
    arg (fst p1) (fst (mf_access f)) (uses1 r) t1 x1 ->
    arg (fst p2) (snd (mf_access f)) (uses2 r) t2 x2 ->
    rel Same (N (KM f id) [t1; t2]) (returned L c (mf_result f) (expression L c r x1 x2))
(* calls in which operands are evaluated that the operation does not need *)
| rel_rest1 f id p t x l :
    mf_params f = [p] -> chosen f id = RLit l -> ids_ok f id ->
    fits (mf_result f) (RLit l) (fst x) false = true ->
    arg (fst p) (fst (mf_access f)) true t x -> fst (mf_access f) <> ALam ->
    rel Same (N (KM f id) [t])
      (returned L c (mf_result f) (false, N KComma [snd x; RV (literal L l)]))
| rel_rest_right f id p1 p2 t1 t2 x1 x2 :
    mf_params f = [p1; p2] -> chosen f id = RArg1 -> ids_ok f id ->
    fits (mf_result f) RArg1 (fst x1) (fst x2) = true ->
    arg (fst p1) (fst (mf_access f)) true t1 x1 ->
    arg (fst p2) (snd (mf_access f)) true t2 x2 -> snd (mf_access f) <> ALam ->
    rel Same (N (KM f id) [t1; t2])
      (returned L c (mf_result f) (with_rest (is_delayed (fst (mf_access f))) x1 x2))
| rel_rest_left f id p1 p2 t1 t2 x1 x2 :
    mf_params f = [p1; p2] -> chosen f id = RArg2 -> ids_ok f id ->
    fits (mf_result f) RArg2 (fst x1) (fst x2) = true ->
    arg (fst p1) (fst (mf_access f)) true t1 x1 ->
    arg (fst p2) (snd (mf_access f)) true t2 x2 -> fst (mf_access f) <> ALam ->
    rel Same (N (KM f id) [t1; t2])
      (returned L c (mf_result f) (with_rest (is_delayed (snd (mf_access f))) x2 x1))
| rel_keep id t s : E id = false -> id < lim_queried num -> rel Same t s -> rel Same (N (KRemovable id) [t]) s
| rel_drop id t : E id = true -> id < lim_queried num -> rel Same (N (KRemovable id) [t]) skip
| rel_record id n t s :
    0 < n -> id + n <= lim_recorded num -> lim_file num (id + (n - 1)) = lim_file num id -> rel Same t s -> rel Same (N (KRecord id n) [t]) s
(* && and || in C, second and third mutant *)
| rel_left o T t r s :
    is_logical o = true -> rel Same t s -> active r = false ->
    rel (Const T (bop_eqb o LAnd)) r (RV (boolean L (bop_eqb o LAnd))) ->
    rel Same (N (KLogic o) [t; r]) (N KTruth [s])
| rel_right o T l t s :
    is_logical o = true -> rel Same t s ->
    rel (Const T (bop_eqb o LAnd)) l (RV (boolean L (bop_eqb o LAnd))) ->
    rel Same (N (KLogic o) [l; t]) (N KTruth [s])
| rel_truth T t b : rel (Const T b) t (RV (boolean L b)) ->
    rel Same (N KTruth [t]) (RV (boolean L b))
(* first mutant *)
| rel_not_not f id T t s :
    unit_fun f T -> chosen f id = RPre LNot -> ids_ok f id -> rel (Opp T) t s ->
    rel Same (N (KM f id) [t]) (N (KAt T) [s])
| rel_not w b : truth L w = negb b -> rel Same (N (KUn LNot) [RV w]) (RV (boolean L b))
(* Ptr *)
| ptr_addr t s : rel Same t s -> rel Ptr (N KAddr [t]) (N KLv [s])
| ptr_done l : rel Ptr (RV (pointer L l)) (RL l)
(* Opp *)
| opp_val T w b : settled T w -> truth L w = negb b -> rel (Opp T) (RV w) (RV (boolean L b))
| opp_conv T t s : rel (Opp T) t s -> rel (Opp T) (N (KAt T) [t]) s
| opp_logic T o T1 T2 t1 t2 s1 s2 :
    is_logical o = true -> rel (Neg T1) t1 s1 -> rel (Neg T2) t2 s2 ->
    rel (Opp T) (N (KLogic o) [t1; t2]) (N (KLogic (dual o)) [s1; s2])
| opp_truth T T1 t s : rel (Neg T1) t s -> rel (Opp T) (N KTruth [t]) (N KTruth [s])
(* Neg *)
| neg_val T w v : settled T w -> truth L w = negb (truth L v) -> rel (Neg T) (RV w) (RV v)
| neg_conv T t s : rel (Neg T) t s -> rel (Neg T) (N (KAt T) [t]) s
| neg_un T v : rel (Neg T) (N (KUn LNot) [RV v]) (RV v)
| neg_call f id T t s :
    unit_fun f T -> chosen f id = RPre LNot -> ids_ok f id -> typed T s -> rel Same t s ->
    rel (Neg T) (N (KM f id) [t]) s
(* Const *)
| const_val T w b : settled T w -> truth L w = b -> rel (Const T b) (RV w) (RV (boolean L b))
| const_conv T t b s : rel (Const T b) t s -> rel (Const T b) (N (KAt T) [t]) s
| const_lit T b :
    rel (Const T b) (N (KAt T) [RV (literal L (LInt (if b : bool then 1 else 0)))])
      (RV (boolean L b))
| const_call f id T b t s :
    unit_fun f T -> chosen f id = RLit (LInt (if b : bool then 1 else 0)) -> ids_ok f id ->
    typed T s -> rel Same t s -> calm t = true -> harmless L c R bs cpp17 s ->
    rel (Const T b) (N (KM f id) [t]) (RV (boolean L b))
with arg : string -> access -> bool -> tm -> operand L -> Prop :=
| arg_val p T u t s :
    declared c p = Some (Direct ByValue T) -> typed T s -> rel Same t s ->
    u = true \/ (calm t = true /\ harmless L c R bs cpp17 s) -> arg p AVal u t (false, s)
| arg_ref p T u t s :
    declared c p = Some (Direct ByReference T) -> placed s -> rel Same t s ->
    u = true \/ (calm t = true /\ harmless L c R bs cpp17 s) -> arg p AVal u t (true, s)
| arg_ptr p T u t s :
    declared c p = Some (Direct ByPointer T) -> rel Ptr t s ->
    u = true \/ (calm t = true /\ harmless L c R bs cpp17 s) -> arg p APtr u t (true, s)
| arg_lam_val p T u w t s :
    declared c p = Some (Delayed ByValue T) -> rel Same t s -> active s = false ->
    arg p ALam u (N (KLambda w) [t]) (false, s)
| arg_lam_ref p T u w t s :
    declared c p = Some (Delayed ByReference T) -> rel Same t s -> active s = false ->
    arg p ALam u (N (KLambda w) [t]) (true, s).

(** * Finished states *)

Lemma final_same t s : rel Same t s -> final t = true -> s = t.
Proof.
  intros Hr F. destruct t as [v|l|k ts].
  - inversion Hr; subst; reflexivity.
  - inversion Hr; subst; reflexivity.
  - destruct k; try discriminate.
    all: inversion Hr; subst; try discriminate; clear Hr.
    all: match goal with H : Forall2 _ _ _ |- _ => inversion H; subst end;
      try discriminate; auto.
    all: match goal with H : Forall2 _ _ _, H0 : Forall2 _ (_ :: _) _ |- _ => clear H0;
           inversion H; subst end;
      try discriminate; auto.
    cbn in F. destruct x; try discriminate;
      match goal with H : rel Same _ _ |- _ => inversion H; subst; reflexivity end.
Qed.

(* Final terms of the mutated program that occur as operands. *)
Lemma typed_final T t s : typed T s -> rel Same t s -> final t = true ->
  exists v, t = RV v /\ s = RV v /\ conv L T v = v.
Proof.
  intros Ty Hr F. pose proof (final_same _ _ Hr F) as ->.
  destruct Ty as [[a ->]|(v & -> & C)]; [discriminate|eauto].
Qed.
Lemma placed_final t s : placed s -> rel Same t s -> final t = true ->
  exists l, t = RL l /\ s = RL l.
Proof.
  intros Ty Hr F. pose proof (final_same _ _ Hr F) as ->.
  destruct Ty as [[a ->]|(l & ->)]; [discriminate|eauto].
Qed.

(** * Steps *)

Lemma put_put (x : outcome L R) f g : put L R (put L R x f) g = put L R x (fun a => g (f a)).
Proof. destruct x as [[[m d] t]|]; reflexivity. Qed.

Section OneProgram.
Variable bodies : string -> option tm.
Notation stp := (step L R c bodies cpp17).

Lemma step_one e m d k a x :
  evaluated k 0 = true -> (forall e', k <> KInCall e') ->
  stp e m d a x -> stp e m d (N k [a]) (put L R x (fun a => N k [a])).
Proof.
  intros Ev NC S. apply (step_operand L R c bodies cpp17 e m d k [] a []); auto.
  { unfold its_turn. destruct cpp17; auto. destruct k as [| | | | | | | | |[]| | |[]| | | | | | | | | | | | | | | | | | | | | | |]; auto. }
  replace (child_env k e) with e; auto.
  destruct k; auto. destruct (NC e0 eq_refl).
Qed.
Lemma step_first e m d k a b x :
  evaluated k 0 = true -> (forall e', k <> KInCall e') -> active b = false ->
  its_turn cpp17 k [] [b] = true ->
  stp e m d a x -> stp e m d (N k [a; b]) (put L R x (fun a => N k [a; b])).
Proof.
  intros Ev NC A Tn S. apply (step_operand L R c bodies cpp17 e m d k [] a [b]); auto.
  - cbn. rewrite A. reflexivity.
  - replace (child_env k e) with e; auto. destruct k; auto. destruct (NC e0 eq_refl).
Qed.
Lemma step_second e m d k a b x :
  evaluated k 1 = true -> (forall e', k <> KInCall e') -> active a = false ->
  its_turn cpp17 k [a] [] = true ->
  stp e m d b x -> stp e m d (N k [a; b]) (put L R x (fun b => N k [a; b])).
Proof.
  intros Ev NC A Tn S. apply (step_operand L R c bodies cpp17 e m d k [a] b []); auto.
  - cbn. rewrite A. reflexivity.
  - replace (child_env k e) with e; auto. destruct k; auto. destruct (NC e0 eq_refl).
Qed.

Lemma step_rvalue e m d lv a x :
  stp e m d a x ->
  stp e m d (rvalue (lv, a)) (put L R x (fun a => rvalue (lv, a))).
Proof.
  intro S. destruct lv; cbn.
  - apply step_one; auto. discriminate.
  - destruct x as [[[m' d'] t]|]; exact S.
Qed.

Lemma active_rvalue x : active (rvalue (L:=L) x) = active (snd x).
Proof. destruct x as [[|] t]; cbn; auto. apply orb_false_r. Qed.

Lemma expression_category r x1 x2 y1 y2 :
  fst x1 = fst y1 -> fst x2 = fst y2 ->
  fst (expression L c r x1 x2) = fst (expression L c r y1 y2).
Proof.
  intros H1 H2. destruct r as [| |o|o|o|o|l]; cbn; auto;
    unfold unary_expression;
    repeat match goal with |- context [if ?b then _ else _] => destruct b end; auto.
Qed.

Lemma lvalue_of x : fst x = true -> lvalue (L:=L) x = snd x.
Proof. destruct x as [[|] t]; cbn; congruence. Qed.

Lemma turn_logic o pre post : its_turn (L:=L) cpp17 (KLogic o) pre post = true.
Proof. unfold its_turn. destruct cpp17; reflexivity. Qed.
Lemma turn_first o post : its_turn (L:=L) cpp17 (KBin o) [] post = true.
Proof. unfold its_turn. destruct cpp17, o; reflexivity. Qed.
Lemma turn_second o pre : its_turn (L:=L) cpp17 (KAssign o) pre [] = true.
Proof. unfold its_turn. destruct cpp17; reflexivity. Qed.
Lemma turn_assign o pre post : cpp17 = false -> its_turn (L:=L) cpp17 (KAssign o) pre post = true.
Proof. intros ->. reflexivity. Qed.
Lemma turn_bin o pre post : (cpp17 = true -> o <> Shl /\ o <> Shr) ->
  its_turn (L:=L) cpp17 (KBin o) pre post = true.
Proof.
  unfold its_turn. destruct cpp17; auto. intro H. destruct (H eq_refl), o; auto; congruence.
Qed.

(* Evaluating an operand inside the operation. *)
Lemma step_expression1 e m d r lv a x2 x :
  uses1 r = true ->
  fits_op r lv = true ->
  (match r with RBin _ => active (snd x2) = false | _ => True end) ->
  (cpp17 = true -> match r with RBin o => is_assign o = false | _ => True end) ->
  stp e m d a x ->
  stp e m d (snd (expression L c r (lv, a) x2))
    (put L R x (fun a => snd (expression L c r (lv, a) x2))).
Proof.
  intros U F A Sq S. unfold fits_op in F.
  assert (Id : forall y : outcome L R, put L R y (fun a => a) = y)
    by (intros [[[? ?] ?]|]; reflexivity).
  assert (Un : forall o, negb (is_incdec o) || lv = true ->
    stp e m d (snd (unary_expression L c o (lv, a)))
      (put L R x (fun a => snd (unary_expression L c o (lv, a))))).
  { intros o Fo. unfold unary_expression. destruct (is_incdec o) eqn:I; cbn [snd].
    - cbn in Fo. subst lv. cbn. apply step_one; auto. discriminate.
    - rewrite <- (put_put x (fun a => rvalue (lv, a)) (fun a => N (KUn o) [a])).
      apply step_one; [reflexivity|discriminate|]. apply step_rvalue. exact S. }
  destruct r as [| |o|o|o|o|l]; cbn [expression snd]; try discriminate.
  - rewrite Id. exact S.
  - apply Un. exact F.
  - apply andb_true_iff in F as [-> ->]. cbn. apply step_one; auto. discriminate.
  - apply Un. exact F.
  - apply andb_true_iff in F as [C F]. apply negb_true_iff in C.
    destruct (is_logical o); [|destruct (is_assign o) eqn:As; [|rewrite C]]; cbn [snd].
    + rewrite <- (put_put x (fun a => rvalue (lv, a)) (fun a => N (KLogic o) [a; rvalue x2])).
      apply step_first; [reflexivity|discriminate|rewrite active_rvalue; exact A|apply turn_logic|].
      apply step_rvalue. exact S.
    + cbn in F. subst lv. cbn. apply step_first; auto; [discriminate| |].
      * rewrite active_rvalue. exact A.
      * apply turn_assign. destruct cpp17; auto.
    + rewrite <- (put_put x (fun a => rvalue (lv, a)) (fun a => N (KBin o) [a; rvalue x2])).
      apply step_first; [reflexivity|discriminate|rewrite active_rvalue; exact A|apply turn_first|].
      apply step_rvalue. exact S.
Qed.

Lemma active_lvalue x : active (lvalue (L:=L) x) = true -> active (snd x) = true.
Proof. destruct x as [[|] t]; cbn; congruence. Qed.

Lemma step_expression2 e m d r x1 lv a x :
  uses2 r = true ->
  (match r with RBin o => negb (bop_eqb o Comma) = true | _ => True end) ->
  (match r with RBin _ => active (snd x1) = false | _ => True end) ->
  (cpp17 = true -> match r with RBin o => o <> Shl /\ o <> Shr | _ => True end) ->
  stp e m d a x ->
  stp e m d (snd (expression L c r x1 (lv, a)))
    (put L R x (fun a => snd (expression L c r x1 (lv, a)))).
Proof.
  intros U F A Sq S.
  assert (Id : forall y : outcome L R, put L R y (fun a => a) = y)
    by (intros [[[? ?] ?]|]; reflexivity).
  destruct r as [| |o|o|o|o|l]; cbn [expression snd]; try discriminate.
  - rewrite Id. exact S.
  - cbn in U. apply negb_true_iff in U. rewrite U. apply negb_true_iff in F.
    destruct (is_assign o); [|rewrite F]; cbn [snd].
    + rewrite <- (put_put x (fun a => rvalue (lv, a)) (fun a => N (KAssign o) [lvalue x1; a])).
      apply step_second; [reflexivity|discriminate| |apply turn_second|apply step_rvalue; exact S].
      destruct (active (lvalue x1)) eqn:Al; auto. apply active_lvalue in Al. congruence.
    + rewrite <- (put_put x (fun a => rvalue (lv, a)) (fun a => N (KBin o) [rvalue x1; a])).
      apply step_second; [reflexivity|discriminate|rewrite active_rvalue; exact A|apply turn_bin; exact Sq|].
      apply step_rvalue. exact S.
Qed.

Lemma step_returned e m d res (f : tm -> operand L) a x :
  (forall a a', fst (f a) = fst (f a')) ->
  match declared c res with
  | Some (Direct ByValue _) => True
  | Some (Direct ByReference _) => fst (f a) = true
  | _ => False
  end ->
  stp e m d (snd (f a)) (put L R x (fun a => snd (f a))) ->
  stp e m d (returned L c res (f a)) (put L R x (fun a => returned L c res (f a))).
Proof.
  intros Fst D S. unfold returned. destruct (declared c res) as [[[| |] T|]|]; try tauto.
  - assert (Rv : stp e m d (rvalue (f a)) (put L R x (fun a => rvalue (f a)))).
    { pose proof (step_rvalue e m d (fst (f a)) (snd (f a)) _ S) as Q.
      rewrite put_put in Q. rewrite <- surjective_pairing in Q.
      replace (put L R x (fun a0 => rvalue (f a0)))
        with (put L R x (fun a0 => rvalue (fst (f a), snd (f a0)))); auto.
      destruct x as [[[? ?] t]|]; auto. cbn. rewrite (Fst a t), <- surjective_pairing.
      reflexivity. }
    rewrite <- (put_put x (fun a => rvalue (f a)) (fun a => N (KAt T) [a])).
    apply step_one; auto. discriminate.
  - rewrite lvalue_of; auto.
    replace (put L R x (fun a0 => lvalue (f a0))) with (put L R x (fun a0 => snd (f a0))); auto.
    destruct x as [[[? ?] t]|]; auto. cbn. rewrite lvalue_of; auto. rewrite (Fst t a). auto.
Qed.

Lemma typed_step T s e m d m' d' s' :
  typed T s -> stp e m d s (Some (m', d', s')) -> typed T s'.
Proof.
  intros [[a ->]|(v & -> & C)] S; [|inversion S].
  inversion S; subst.
  - cbn in *. destruct a as [v|l|]; try discriminate. right.
    match goal with H : Some _ = Some _ |- _ => injection H as <- <- <- end.
    eexists. split; [reflexivity|apply conv_idempotent].
  - match goal with H : pre ++ _ :: _ = _ |- _ => rename H into Q end.
    destruct pre as [|y pre]; [|destruct pre; discriminate].
    injection Q as -> ->. destruct o as [[[? ?] t]|]; try discriminate.
    cbn in *. left. match goal with H : Some _ = Some _ |- _ => injection H as <- <- <- end.
    eauto.
Qed.
Lemma placed_step s e m d m' d' s' :
  placed s -> stp e m d s (Some (m', d', s')) -> placed s'.
Proof.
  intros [[a ->]|(v & ->)] S; [|inversion S].
  inversion S; subst.
  - cbn in *. destruct a as [v|l|]; try discriminate. right.
    match goal with H : Some _ = Some _ |- _ => injection H as <- <- <- end. eauto.
  - match goal with H : pre ++ _ :: _ = _ |- _ => rename H into Q end.
    destruct pre as [|y pre]; [|destruct pre; discriminate].
    injection Q as -> ->. destruct o as [[[? ?] t]|]; try discriminate.
    cbn in *. left. match goal with H : Some _ = Some _ |- _ => injection H as <- <- <- end.
    eauto.
Qed.
End OneProgram.

(** * Calls in progress *)

Lemma active_unary_expression o x :
  active (snd (unary_expression L c o x)) = true -> active (snd x) = true.
Proof.
  unfold unary_expression. destruct (is_incdec o); cbn; rewrite orb_false_r; intro A.
  - apply active_lvalue. exact A.
  - rewrite active_rvalue in A. exact A.
Qed.
Lemma active_expression r x1 x2 :
  active (snd (expression L c r x1 x2)) = true ->
  active (snd x1) = true \/ active (snd x2) = true.
Proof.
  destruct r as [| |o|o|o|o|l]; cbn [expression]; auto.
  - intro A. left. eapply active_unary_expression. exact A.
  - destruct (is_incdec o); [|discriminate]. cbn. rewrite orb_false_r. intro A. left.
    apply active_lvalue. exact A.
  - intro A. left. eapply active_unary_expression. exact A.
  - destruct (is_logical o); [|destruct (is_assign o); [|destruct (bop_eqb o Comma)]];
      cbn [snd]; try discriminate; cbn; rewrite orb_false_r; intro A;
      apply orb_true_iff in A as [A|A]; rewrite ?active_rvalue in A; auto.
    left. apply active_lvalue. exact A.
  - discriminate.
Qed.
Lemma active_returned res x :
  active (returned L c res x) = true -> active (snd x) = true.
Proof.
  unfold returned. destruct (declared c res) as [[[| |] T|]|]; try discriminate.
  - cbn. rewrite orb_false_r, active_rvalue. auto.
  - apply active_lvalue.
Qed.

Lemma active_with_rest delayed x rest :
  active (snd (with_rest delayed x rest)) = true ->
  active (snd x) = true \/ active (snd rest) = true.
Proof.
  unfold with_rest. destruct delayed; cbn; rewrite orb_false_r; intro A;
    apply orb_true_iff in A; tauto.
Qed.

Lemma active_rel t : forall g s, rel g t s -> active s = true -> active t = true.
Proof.
  induction t as [v|l|k ts IH] using tm_induction; intros g s Hr A.
  - inversion Hr; subst; discriminate.
  - inversion Hr; subst; discriminate.
  - assert (Arg : forall p a u t x, In t ts -> arg p a u t x -> active (snd x) = true ->
                  active t = true).
    { intros p a u t x I Ha Ax. rewrite Forall_forall in IH.
      inversion Ha; subst; cbn in *; try congruence; eapply IH; eauto. }
    rewrite Forall_forall in IH.
    inversion Hr; subst; try discriminate.
    + (* rel_n *)
      match goal with H : Forall2 _ _ _ |- _ => rename H into F end.
      assert (Ex : existsb active ss = true -> existsb active ts = true).
      { clear - F IH. induction F as [|t s ts ss Hts F IHF]; auto. cbn. intro A.
        apply orb_true_iff in A as [A|A].
        - erewrite IH; eauto. left. reflexivity.
        - rewrite IHF; auto using orb_true_r. intros x Hx. apply IH. right. exact Hx. }
      destruct k; cbn in *; auto.
    + cbn. erewrite IH; eauto. left. reflexivity.
    + cbn. erewrite IH; eauto. left. reflexivity.
    + apply active_returned in A. apply active_expression in A as [A|A]; [|discriminate].
      cbn. rewrite (Arg (fst p) (fst (mf_access f)) (uses1 (chosen f id)) t x);
        auto. left. reflexivity.
    + apply active_returned in A. apply active_expression in A as [A|A]; cbn.
      * rewrite (Arg _ _ _ t1 x1 (or_introl eq_refl) ltac:(eassumption) A). reflexivity.
      * rewrite (Arg _ _ _ t2 x2 (or_intror (or_introl eq_refl)) ltac:(eassumption) A).
        apply orb_true_r.
    + apply active_returned in A. cbn in A. rewrite orb_false_r in A. cbn.
      rewrite (Arg _ _ _ t x (or_introl eq_refl) ltac:(eassumption) A). reflexivity.
    + apply active_returned, active_with_rest in A as [A|A]; cbn.
      * rewrite (Arg _ _ _ t1 x1 (or_introl eq_refl) ltac:(eassumption) A). reflexivity.
      * rewrite (Arg _ _ _ t2 x2 (or_intror (or_introl eq_refl)) ltac:(eassumption) A).
        apply orb_true_r.
    + apply active_returned, active_with_rest in A as [A|A]; cbn.
      * rewrite (Arg _ _ _ t2 x2 (or_intror (or_introl eq_refl)) ltac:(eassumption) A).
        apply orb_true_r.
      * rewrite (Arg _ _ _ t1 x1 (or_introl eq_refl) ltac:(eassumption) A). reflexivity.
    + cbn. erewrite IH; eauto. left. reflexivity.
    + cbn. erewrite IH; eauto. left. reflexivity.
    + cbn in A |- *. rewrite orb_false_r in A. rewrite (IH t (or_introl eq_refl) _ _ ltac:(eassumption) A). reflexivity.
    + cbn in A |- *. rewrite orb_false_r in A.
      rewrite (IH t (or_intror (or_introl eq_refl)) _ _ ltac:(eassumption) A). rewrite orb_true_r. reflexivity.
    + cbn in A |- *. rewrite orb_false_r in A.
      rewrite (IH t (or_introl eq_refl) _ _ ltac:(eassumption) A). reflexivity.
    + cbn in A |- *. rewrite orb_false_r in A.
      rewrite (IH t (or_introl eq_refl) _ _ ltac:(eassumption) A). reflexivity.
    + cbn. rewrite (IH t (or_introl eq_refl) _ _ ltac:(eassumption) A). reflexivity.
    + cbn in A |- *. rewrite orb_false_r in A. apply orb_true_iff in A as [A|A].
      * rewrite (IH t1 (or_introl eq_refl) _ _ ltac:(eassumption) A). reflexivity.
      * rewrite (IH t2 (or_intror (or_introl eq_refl)) _ _ ltac:(eassumption) A). apply orb_true_r.
    + cbn in A |- *. rewrite orb_false_r in A.
      rewrite (IH t (or_introl eq_refl) _ _ ltac:(eassumption) A). reflexivity.
    + cbn. rewrite (IH t (or_introl eq_refl) _ _ ltac:(eassumption) A). reflexivity.
    + cbn. rewrite (IH t (or_introl eq_refl) _ _ ltac:(eassumption) A). reflexivity.
    + cbn. rewrite (IH t (or_introl eq_refl) _ _ ltac:(eassumption) A). reflexivity.
Qed.

Lemma active_arg p a u t x : arg p a u t x -> active t = false -> active (snd x) = false.
Proof.
  intros Ha A. destruct (active (snd x)) eqn:X; auto. exfalso.
  inversion Ha; subst; cbn in *; try congruence;
    match goal with H : rel _ t _ |- _ => rewrite (active_rel _ _ _ H X) in A end;
    discriminate.
Qed.
End Rel.
