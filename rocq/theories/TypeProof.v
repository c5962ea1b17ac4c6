(* Proofs about the types of generated functions. *)
From Coq Require Import String Ascii List ZArith Bool Lia.
From Verif Require Import Base Clang Gen GenExpr GenBinary GenUnary GenStmt Mutation Sites
  ClashSpec TypeSpec.
Import ListNotations.

(* The text of a parameter's type determines it. *)
Definition all_ty : list ty :=
  [TBool; TChar; TSChar; TUChar; TWChar; TChar8; TChar16; TChar32; TShort; TUShort; TInt;
   TUInt; TLong; TULong; TLongLong; TULongLong; TInt128; TUInt128; THalf; TFloat16;
   TBFloat16; TFloat; TDouble; TLongDouble; TFloat128; TIbm128].
Definition all_plain : list plain :=
  flat_map (fun t => ByValue t ::
    flat_map (fun v => flat_map (fun k => [ByReference t v k; ByPointer t v k]) [true; false])
      [true; false]) all_ty.
Definition all_param : list param := map Direct all_plain ++ map Delayed all_plain.

Fixpoint distinct (l : list string) : bool :=
  match l with
  | [] => true
  | s :: l => negb (existsb (String.eqb s) l) && distinct l
  end.

Lemma distinct_sound {A} (f : A -> string) l :
  distinct (map f l) = true -> forall x y, In x l -> In y l -> f x = f y -> x = y.
Proof.
  induction l as [|a l IH]; simpl; [contradiction|]. intros H x y.
  apply andb_prop in H. destruct H as [H1 H2]. apply negb_true_iff in H1.
  assert (N : forall z, In z l -> f z <> f a).
  { intros z Hz E. assert (T : existsb (String.eqb (f a)) (map f l) = true).
    { apply existsb_exists. exists (f z). split; [apply in_map, Hz|]. apply String.eqb_eq.
      congruence. }
    congruence. }
  intros [-> | Hx] [-> | Hy] E; auto.
  - exfalso. eapply N; eauto.
  - exfalso. eapply N; eauto.
Qed.

Lemma all_param_complete p : In p all_param.
Proof.
  assert (P : forall q, In q all_plain).
  { intros q. unfold all_plain. apply in_flat_map.
    assert (T : forall t, In t all_ty) by (destruct t; cbn; tauto).
    destruct q as [t|t v k|t v k]; exists t; (split; [apply T|]);
      [left; reflexivity | right | right];
      destruct v, k; cbn; tauto. }
  unfold all_param. apply in_or_app. destruct p as [q|q]; [left|right]; apply in_map, P.
Qed.

Lemma param_text_determines c p q : param_text c p = param_text c q -> p = q.
Proof.
  apply (distinct_sound (param_text c) all_param);
    [|apply all_param_complete|apply all_param_complete].
  destruct c as [a [|] b d]; vm_compute; reflexivity.
Qed.

Lemma in_number_from {A} (x : A) l k : In x (map snd (number_from k l)) <-> In x l.
Proof. revert k. induction l as [|y l IH]; intros k; simpl; [tauto|]. rewrite IH. tauto. Qed.
Lemma in_when {A} (x : A) b l : In x (when b l) <-> b = true /\ In x l.
Proof. destruct b; simpl; intuition discriminate. Qed.
Lemma map_when {A B} (f : A -> B) b l : map f (when b l) = when b (map f l).
Proof. destruct b; reflexivity. Qed.

Lemma in_lines {A} (r : rhs) b (l : list (A * rhs)) :
  In r (map snd (when b (number_from 0 (map snd l)))) -> In r (map snd l).
Proof. rewrite map_when, in_when, in_number_from. tauto. Qed.

(** Expressions *)

Lemma returns_value y t : y <> Rejected -> returns (ByValue t) y.
Proof. intros H. destruct y; simpl; auto. Qed.

Lemma expr_compiles c cpp17 o e w :
  clang_expr e -> is_xvalue w = false -> consistent e w ->
  the_object w <> VectorElement -> (cpp c = false -> the_object w <> RegisterVariable) ->
  compiles c cpp17 (expr_function c o e)
    ([expr_operand e w], expr_operand e w, is_converted e).
Proof.
  intros [Cb Cl] X K V R. unfold compiles.
  set (q := if e_lvalue e
            then if cpp c then ByReference (e_ty e) (e_volatile e) false
                 else ByPointer (e_ty e) (e_volatile e) false
            else ByValue (e_ty e)).
  set (p := if cpp c && e_side_effects e then Delayed q else Direct q).
  exists [p], (ByValue (e_ty e)).
  assert (L : e_lvalue e = true ->
              e_const e = false /\ e_ty e <> TBool /\ e_bitfield e = false /\
              e_cast_parent_lvalue e = Some false).
  { intros l. specialize (Cl l). unfold can_mutate_lvalue in Cl.
    destruct (e_const e); [discriminate|]. destruct (e_ty e) eqn:T; try discriminate;
    destruct (e_bitfield e); try discriminate;
    destruct (e_cast_parent_lvalue e) as [[|]|]; try discriminate;
    repeat split; congruence. }
  assert (S : forall t, input_type c e = t -> t = plain_text c q).
  { intros t <-. unfold input_type, cpp_type_modifiers, c_type_modifiers, q.
    destruct (e_lvalue e); [|destruct (cpp c); reflexivity].
    destruct (L eq_refl) as (-> & _). destruct (cpp c), (e_volatile e); reflexivity. }
  split; [|split; [|split; [|split]]].
  - cbn [expr_function mf_params map fst]. rewrite (S _ eq_refl). unfold p, wrap_function.
    destruct (cpp c && e_side_effects e); reflexivity.
  - reflexivity.
  - constructor; [|constructor].
    assert (Q : accepts_plain c q (expr_operand e w)).
    { unfold q, expr_operand. destruct (e_lvalue e) eqn:l; [|exact Logic.I].
      destruct (L eq_refl) as (k & _ & bf & _).
      assert (the_object w <> BitField).
      { intros B. destruct K as [_ K]. rewrite K in bf; [discriminate | auto]. }
      rewrite k. destruct (cpp c) eqn:C; cbn; unfold implies; auto 10. }
    unfold p. destruct (cpp c) eqn:C; cbn [andb]; [|exact Q].
    destruct (e_side_effects e); [split; [exact C|exact Q]|exact Q].
  - intros r Hr. apply returns_value. unfold returned in Hr. cbn [expr_function mf_orig] in Hr.
    assert (X1 : exists x, seen (fst (mf_access (expr_function c o e))) p = Some x /\
                 operand_ty x = e_ty e /\ (e_lvalue e = true -> modifiable x = true)).
    { unfold p, q. cbn [expr_function mf_access fst].
      destruct (cpp c), (e_lvalue e), (e_side_effects e); cbn; eauto. }
    destruct X1 as (x & Hx & Tx & Mx). cbn [body_yields]. unfold body_yields.
    rewrite Hx. cbn zeta.
    destruct Hr as [<- | Hr]; [destruct x; cbn; discriminate|].
    apply in_lines in Hr. unfold expr_mutants, lvalue_insertions, nonlvalue_insertions,
      constant_replacements, boolean_replacements, integer_replacements,
      float_replacements in Hr.
    rewrite !map_app, !in_app_iff in Hr.
    destruct (e_lvalue e) eqn:l; cbn [negb orb] in Hr.
    + destruct (L eq_refl) as (_ & nb & _). rewrite (Cl eq_refl) in Hr. cbn in Hr.
      assert (NB : is_bool (operand_ty x) = false)
        by (rewrite Tx; destruct (e_ty e); try reflexivity; congruence).
      specialize (Mx eq_refl).
      assert (S1 : forall u, u = PreInc \/ u = PreDec ->
                   unary_yields c cpp17 u x <> Rejected).
      { intros u Hu. destruct x as [t v [|] ob|t|t]; try discriminate.
        cbn in NB. destruct Hu as [-> | ->]; cbn; rewrite NB, andb_false_r; cbn;
          destruct (cpp c); discriminate. }
      destruct Hr as [[[<- | [<- | []]] | []] | []]; apply S1; auto.
    + cbn [map] in Hr. clear L S.
      rewrite !map_app, !map_when, !in_app_iff, !in_when in Hr.
      repeat match goal with
             | H : _ \/ _ |- _ => destruct H as [H|H]
             | H : _ /\ _ |- _ => destruct H as [? H]
             | H : In _ [] |- _ => destruct H
             end;
      rewrite ?map_app, ?map_when, ?in_app_iff, ?in_when in *;
      repeat match goal with
             | H : _ \/ _ |- _ => destruct H as [H|H]
             | H : _ /\ _ |- _ => destruct H as [? H]
             | H : In _ [] |- _ => destruct H
             | H : False |- _ => destruct H
             end;
      cbn [map snd In] in Hr;
      repeat match goal with
             | H : _ \/ _ |- _ => destruct H as [H|H]
             | H : False |- _ => destruct H
             end; subst r; try discriminate.
      * cbn. rewrite Tx. unfold is_integer in *. destruct (is_float (e_ty e)); discriminate.
      * destruct (cpp c); discriminate.
      * destruct (cpp c); discriminate.
  - unfold expr_operand, is_converted. destruct (e_lvalue e).
    + destruct (L eq_refl) as (_ & _ & _ & ->). right. split; reflexivity.
    + rewrite X. reflexivity.
Qed.

(** Binary operators *)

Lemma operand_ty_expr e w : operand_ty (expr_operand e w) = e_ty e.
Proof. unfold expr_operand. destruct (e_lvalue e), (is_xvalue w); reflexivity. Qed.

Lemma needs_integers_assign o : needs_integers o = true -> is_assign o = true ->
  In o [RemAssign; ShlAssign; ShrAssign; AndAssign; XorAssign; OrAssign].
Proof. destruct o; cbn; try discriminate; tauto. Qed.

(* A replacement operator does not need integers unless there are integers. *)
Lemma replacement_operands opt b o :
  In o (replacement_ops opt b) ->
  (needs_integers (b_op b) = true ->
   is_float (e_ty (b_lhs b)) || is_float (e_ty (b_rhs b)) = false) ->
  needs_integers o && (is_float (e_ty (b_lhs b)) || is_float (e_ty (b_rhs b))) = false /\
  is_assign o = is_assign (b_op b).
Proof.
  unfold replacement_ops. rewrite filter_In. intros [C P] H.
  rewrite !negb_orb, !andb_true_iff, !negb_true_iff, negb_false_iff in P.
  destruct P as [[_ V] _]. unfold valid_op in V.
  apply negb_true_iff, andb_false_iff in V.
  unfold candidate_ops in C.
  destruct (is_float (e_ty (b_lhs b)) || is_float (e_ty (b_rhs b))) eqn:F;
    [|rewrite andb_false_r].
  - rewrite andb_true_r. destruct V as [V|V]; [discriminate|].
    destruct (b_op b) eqn:B;
      try (specialize (H eq_refl); discriminate);
      cbn in C; try contradiction; destruct (is_bool (e_ty (b_lhs b))); cbn in C;
      repeat (destruct C as [<- | C]; [cbn in V |- *; split; congruence|]); destruct C.
  - split; [reflexivity|].
    destruct (b_op b) eqn:B; cbn in C; try contradiction;
      destruct (is_bool (e_ty (b_lhs b))); cbn in C;
      repeat (destruct C as [<- | C]; [reflexivity|]); destruct C.
Qed.

Lemma yields_not_rejected c o x y :
  needs_integers o && (is_float (operand_ty x) || is_float (operand_ty y)) = false ->
  (is_assign o = true -> modifiable x = true) ->
  binary_yields c o x y =
  if is_assign o then
    match x with
    | Place t v _ _ => if cpp c then AtPlace t v false else Number
    | _ => Rejected
    end
  else Number.
Proof.
  intros N M. unfold binary_yields. rewrite N. destruct (is_assign o); [|reflexivity].
  specialize (M eq_refl). destruct x as [t v [|] ob|t|t]; try discriminate. reflexivity.
Qed.

Lemma binary_compiles c cpp17 o b il i1 i2 w :
  clang_binary c b -> is_site (optimise o) (MutBinary b il i1 i2) ->
  consistent (b_lhs b) w ->
  the_object w <> VectorElement -> (cpp c = false -> the_object w <> RegisterVariable) ->
  original_accepted c cpp17 (MutBinary b il i1 i2) w ->
  c_logical c b = false ->
  compiles c cpp17 (binary_function c o b)
    ([expr_operand (b_lhs b) w; expr_operand (b_rhs b) ordinary], binary_operand c b, false).
Proof.
  intros [NC T] Si K V R A CL. cbn [is_site original_accepted] in *.
  assert (F : needs_integers (b_op b) = true ->
              is_float (e_ty (b_lhs b)) || is_float (e_ty (b_rhs b)) = false).
  { intros N. unfold binary_yields in A. rewrite !operand_ty_expr, N in A. cbn [andb] in A.
    destruct (is_float (e_ty (b_lhs b)) || is_float (e_ty (b_rhs b)));
      [contradict A|]; reflexivity. }
  set (asg := is_assign (b_op b)).
  assert (L : asg = true ->
              e_lvalue (b_lhs b) = true /\ e_const (b_lhs b) = false /\
              the_object w <> BitField).
  { intros G. unfold binary_yields in A. fold asg in A. rewrite G in A.
    destruct (needs_integers (b_op b) && _); [contradict A; reflexivity|].
    unfold expr_operand in A. destruct (e_lvalue (b_lhs b)) eqn:l;
      [|destruct (is_xvalue w); contradict A; reflexivity].
    split; [reflexivity|]. destruct (e_const (b_lhs b)); [contradict A; reflexivity|].
    split; [reflexivity|]. intros B. unfold binary_site in Si. fold asg in Si.
    rewrite G in Si. destruct K as [_ K]. rewrite K in Si by auto. discriminate. }
  assert (NR : asg = true -> is_relational (b_op b) || is_logical (b_op b) = false)
    by (unfold asg; destruct (b_op b); try discriminate; reflexivity).
  set (v := e_volatile (b_lhs b)). set (lt := e_ty (b_lhs b)).
  set (q := if asg then if cpp c then ByReference lt v false else ByPointer lt v false
            else ByValue lt).
  set (p1 := if lhs_delayed c b then Delayed q else Direct q).
  set (p2 := if rhs_delayed c b then Delayed (ByValue (e_ty (b_rhs b)))
             else Direct (ByValue (e_ty (b_rhs b)))).
  set (res := if asg && cpp c then ByReference (b_ty b) v false else ByValue (b_ty b)).
  exists [p1; p2], res.
  split; [|split; [|split; [|split]]].
  - cbn [binary_function mf_params map fst]. unfold p1, p2, wrap_function, q.
    unfold binary_lhs_type, binary_rhs_type. fold asg v lt.
    destruct (lhs_delayed c b), (rhs_delayed c b), asg, (cpp c), v; reflexivity.
  - cbn [binary_function mf_result]. unfold binary_result_type, res. fold asg v.
    destruct asg, (cpp c), v; reflexivity.
  - assert (Q : accepts_plain c q (expr_operand (b_lhs b) w)).
    { unfold q. destruct asg; [|exact Logic.I]. destruct (L eq_refl) as (l & k & nb).
      unfold expr_operand. rewrite l, k. fold lt v.
      destruct (cpp c) eqn:C; cbn; unfold implies; auto 10. }
    constructor; [|constructor; [|constructor]].
    + unfold p1, lhs_delayed. destruct (cpp c) eqn:C; cbn [andb]; [|exact Q].
      destruct (e_side_effects (b_lhs b)); [split; [exact C|exact Q]|exact Q].
    + unfold p2, rhs_delayed. destruct (cpp c) eqn:C; cbn [andb]; [|exact Logic.I].
      destruct (is_logical (b_op b) || e_side_effects (b_rhs b));
        [split; [exact C|]|]; exact Logic.I.
  - assert (X1 : exists x, seen (fst (mf_access (binary_function c o b))) p1 = Some x /\
                 operand_ty x = lt /\
                 (asg = true -> exists ob, x = Place lt v false ob)).
    { unfold p1, q. cbn [binary_function mf_access fst]. unfold lhs_delayed. fold asg.
      destruct (cpp c), asg, (e_side_effects (b_lhs b)); cbn;
        (eexists; split; [reflexivity|]; split; [reflexivity|]; try discriminate; eauto). }
    assert (Y1 : exists y, seen (snd (mf_access (binary_function c o b))) p2 = Some y /\
                 operand_ty y = e_ty (b_rhs b)).
    { unfold p2. cbn [binary_function mf_access snd]. destruct (rhs_delayed c b); cbn; eauto. }
    destruct X1 as (x & Hx & Tx & Mx). destruct Y1 as (y & Hy & Ty).
    assert (Op : forall o', needs_integers o' &&
                   (is_float (e_ty (b_lhs b)) || is_float (e_ty (b_rhs b))) = false ->
                 is_assign o' = asg -> returns res (binary_yields c o' x y)).
    { intros o' N As. rewrite yields_not_rejected.
      - rewrite As. unfold res. destruct asg; [|exact Logic.I].
        destruct (Mx eq_refl) as (ob & ->). destruct (cpp c); [|exact Logic.I].
        cbn. rewrite T.
        rewrite NR by reflexivity. unfold implies. auto.
      - rewrite Tx, Ty. exact N.
      - intros G. rewrite As in G. destruct (Mx G) as (ob & ->). reflexivity. }
    intros r Hr. unfold returned in Hr. cbn [binary_function mf_orig] in Hr.
    unfold body_yields. rewrite Hx, Hy. cbn zeta. destruct Hr as [<- | Hr].
    + apply Op; [|reflexivity].
      destruct (needs_integers (b_op b)); [rewrite F by reflexivity|]; reflexivity.
    + apply in_lines in Hr. unfold binary_mutants in Hr. rewrite map_app, in_app_iff in Hr.
      destruct Hr as [Hr|Hr].
      * unfold operator_replacements in Hr. rewrite map_map in Hr. cbn [snd] in Hr.
        apply in_map_iff in Hr. destruct Hr as (o' & <- & Ho).
        destruct (replacement_operands _ _ _ Ho F) as [N As]. apply Op; [exact N|exact As].
      * unfold argument_replacements in Hr. fold asg in Hr.
        destruct (optimise o && is_relational (b_op b)); [destruct Hr|].
        destruct asg; [destruct Hr|]. unfold res. cbn [andb].
        rewrite map_app, !map_when, in_app_iff, !in_when in Hr. cbn [map snd In] in Hr.
        destruct Hr as [[_ [<- | []]] | [_ [<- | []]]]; apply returns_value;
          [destruct x | destruct y]; discriminate.
  - unfold binary_operand, res. fold asg v. destruct (asg && cpp c); [left|]; reflexivity.
Qed.

(** && and || in C *)

Lemma logical_helper_compiles c cpp17 name t b1 lines tr x :
  operand_ty x = t -> (forall s, x <> Expiring s) ->
  (forall r, In r (map snd lines) -> r = RPre LNot \/ exists z, r = RLit (LInt z)) ->
  compiles c cpp17 (c_logical_fun name (ty_name c t) b1 lines tr) ([x], x, true).
Proof.
  intros T X H. exists [Direct (ByValue t)], (ByValue t).
  split; [reflexivity|]. split; [reflexivity|]. split; [|split].
  - constructor; [exact Logic.I|constructor].
  - intros r [<- | Hr]; [exact Logic.I|].
    destruct (H r Hr) as [-> | (z & ->)]; exact Logic.I.
  - destruct x as [s v k ob|s|s]; cbn in *; [right; split; congruence | | congruence].
    apply (X s). reflexivity.
Qed.

Lemma logical_compiles c cpp17 o b w :
  clang_binary c b -> is_xvalue w = false -> c_logical c b = true ->
  Forall2 (compiles c cpp17) (c_logical_functions c o b)
    ((if track o then []
      else [([expr_operand (b_lhs b) w], expr_operand (b_lhs b) w, true);
            ([expr_operand (b_rhs b) ordinary], expr_operand (b_rhs b) ordinary, true)])
     ++ [([binary_operand c b], binary_operand c b, true)]).
Proof.
  intros [NC T] X CL.
  assert (E : forall e w', is_xvalue w' = false -> forall s, expr_operand e w' <> Expiring s).
  { intros e w' X' s. unfold expr_operand. rewrite X'. destruct (e_lvalue e); discriminate. }
  assert (O : compiles c cpp17 (c_logical_outer_function c o b)
                ([binary_operand c b], binary_operand c b, true)).
  { apply logical_helper_compiles.
    - unfold binary_operand. destruct (is_assign (b_op b) && cpp c); reflexivity.
    - unfold binary_operand. destruct (is_assign (b_op b) && cpp c); discriminate.
    - intros r. rewrite map_when, in_when. cbn. intros [_ [<- | []]]. auto. }
  unfold c_logical_functions. destruct (track o) eqn:Tr; cbn [negb when app].
  - constructor; [exact O|constructor].
  - constructor; [|constructor; [|constructor; [exact O|constructor]]].
    + apply logical_helper_compiles;
        [apply operand_ty_expr | auto |].
      cbn. intros r [<- | [<- | []]]; eauto.
    + apply logical_helper_compiles;
        [apply operand_ty_expr | apply E; reflexivity |].
      cbn. intros r [<- | [<- | []]]; eauto.
Qed.

(** Unary operators *)

Lemma unary_compiles c cpp17 o u i i' w :
  clang_unary c u -> is_site (optimise o) (MutUnary u i i') ->
  consistent (u_sub u) w ->
  the_object w <> VectorElement -> (cpp c = false -> the_object w <> RegisterVariable) ->
  original_accepted c cpp17 (MutUnary u i i') w ->
  (cpp c = true -> ~ steps_bool (MutUnary u i i')) ->
  compiles c cpp17 (unary_function c o u)
    ([expr_operand (u_sub u) w], unary_operand u, false).
Proof.
  intros CU Si K V R A NB. cbn [is_site original_accepted steps_bool] in *.
  set (e := u_sub u) in *. set (step := is_incdec (u_op u)).
  assert (L : step = true ->
              e_lvalue e = true /\ e_const e = false /\ u_ty u = e_ty e /\
              (the_object w <> BitField)).
  { intros G. assert (B : e_lvalue e = true -> the_object w <> BitField).
    { intros l B. unfold unary_site in Si. fold e in Si. fold step in Si. rewrite G in Si.
      destruct K as [_ K]. rewrite K in Si by auto.
      destruct (negb true); [discriminate|]. destruct (uop_eqb (u_op u) Plus); discriminate. }
    unfold clang_unary in CU. fold e in CU. unfold step in G.
    destruct (u_op u); try discriminate; destruct CU as (l & k & t & _); auto. }
  assert (N : step = false -> e_lvalue e = false /\ u_lvalue u = false).
  { intros G. unfold clang_unary in CU. fold e in CU. unfold step in G.
    destruct (u_op u); try discriminate; try contradiction; tauto. }
  assert (NB' : step = true -> cpp c && is_bool (e_ty e) = false).
  { intros G. destruct (cpp c); [|reflexivity]. specialize (NB eq_refl). fold step in NB.
    destruct (e_ty e) eqn:Te; try reflexivity. exfalso. apply NB. auto. }
  assert (UL : u_lvalue u = true ->
               step = true /\ cpp c = true /\ u_volatile u = e_volatile e /\
               u_const u = false /\ (u_op u = PreInc \/ u_op u = PreDec)).
  { intros l. unfold clang_unary in CU. fold e in CU. unfold step.
    destruct (u_op u); try contradiction;
      repeat match goal with H : _ /\ _ |- _ => destruct H end; try congruence;
      repeat split; auto; congruence. }
  set (v := e_volatile e).
  set (q := if step then if cpp c then ByReference (e_ty e) v false
                         else ByPointer (e_ty e) v false
            else ByValue (e_ty e)).
  set (p := if unary_delayed c u then Delayed q else Direct q).
  set (res := if u_lvalue u then ByReference (u_ty u) v false else ByValue (u_ty u)).
  exists [p], res.
  assert (Q : accepts_plain c q (expr_operand e w)).
  { unfold q. destruct step; [|exact Logic.I]. destruct (L eq_refl) as (l & k & _ & nb).
    unfold expr_operand. rewrite l, k. fold v.
    destruct (cpp c) eqn:C; cbn; unfold implies; auto 10. }
  split; [|split; [|split; [|split]]].
  - cbn [unary_function mf_params map fst]. unfold p, wrap_function.
    assert (unary_input_type c u = plain_text c q) as ->.
    { unfold unary_input_type, input_type, q, cpp_type_modifiers, c_type_modifiers.
      fold e. fold v. destruct step.
      - destruct (L eq_refl) as (-> & -> & _). destruct (cpp c), v; reflexivity.
      - destruct (N eq_refl) as (-> & _). destruct (cpp c); reflexivity. }
    destruct (unary_delayed c u); reflexivity.
  - cbn [unary_function mf_result]. unfold unary_result_type, res.
    destruct (u_lvalue u) eqn:l; [|rewrite andb_false_r; reflexivity].
    destruct (UL eq_refl) as (_ & -> & -> & -> & _). fold v. destruct v; reflexivity.
  - constructor; [|constructor]. unfold p, unary_delayed.
    destruct (cpp c) eqn:C; cbn [andb]; [|exact Q].
    destruct (u_side_effects u); [split; [exact C|exact Q]|exact Q].
  - assert (X1 : exists x, seen (fst (mf_access (unary_function c o u))) p = Some x /\
                 operand_ty x = e_ty e /\
                 (step = true -> exists ob, x = Place (e_ty e) v false ob)).
    { unfold p, q. cbn [unary_function mf_access fst]. unfold unary_delayed. fold step.
      destruct (cpp c), step, (u_side_effects u); cbn;
        (eexists; split; [reflexivity|]; split; [reflexivity|]; try discriminate; eauto). }
    destruct X1 as (x & Hx & Tx & Mx).
    assert (Res : forall y, y <> Rejected ->
              (u_lvalue u = true -> y = AtPlace (e_ty e) v false) -> returns res y).
    { intros y Ny Ly. unfold res. destruct (u_lvalue u) eqn:l; [|apply returns_value, Ny].
      rewrite (Ly eq_refl). destruct (UL eq_refl) as (G & _).
      destruct (L G) as (_ & _ & -> & _). cbn. unfold implies. auto. }
    assert (Stepped : forall o', is_incdec o' = true -> step = true ->
              unary_yields c cpp17 o' x <> Rejected /\
              (o' = PreInc \/ o' = PreDec -> u_lvalue u = true ->
               unary_yields c cpp17 o' x = AtPlace (e_ty e) v false)).
    { intros o' I' G. destruct (Mx G) as (ob & ->). specialize (NB' G).
      unfold unary_yields, modifiable. cbn [operand_ty negb]. rewrite NB'.
      split.
      - destruct o'; try discriminate; cbn; destruct (cpp c); discriminate.
      - intros P l. destruct (UL l) as (_ & -> & _). destruct P as [-> | ->]; reflexivity. }
    intros r Hr. unfold returned in Hr. cbn [unary_function mf_orig] in Hr.
    unfold body_yields. rewrite Hx. cbn zeta.
    assert (Op : forall o', (is_incdec o' = true -> step = true) ->
              (u_lvalue u = true -> o' = PreInc \/ o' = PreDec) ->
              (o' = Not -> is_float (e_ty e) = false) -> o' <> UExtension ->
              returns res
                match apply_uop o' with
                | RPre o => match o with
                            | PostInc | PostDec => Rejected
                            | _ => unary_yields c cpp17 o x
                            end
                | RPost o => match o with
                             | PostInc | PostDec => unary_yields c cpp17 o x
                             | _ => Rejected
                             end
                | _ => Rejected
                end).
    { intros o' I' P' F' U'.
      assert (Ny : unary_yields c cpp17 o' x <> Rejected).
      { destruct (is_incdec o') eqn:In'; [apply Stepped; auto|].
        destruct o'; try discriminate; try contradiction; cbn; rewrite ?Tx, ?F' by reflexivity;
          discriminate. }
      assert (Ly : u_lvalue u = true ->
                   unary_yields c cpp17 o' x = AtPlace (e_ty e) v false).
      { intros l. destruct (UL l) as (G & _). apply Stepped; auto.
        destruct (P' l) as [-> | ->]; reflexivity. }
      destruct o'; cbn [apply_uop is_prefix uop_eqb]; apply (Res _ Ny Ly). }
    destruct Hr as [<- | Hr].
    + assert (T : returns res (body_yields c cpp17 (mf_access (unary_function c o u)) [p]
                                 (apply_uop (u_op u)))); [|].
      { unfold body_yields. rewrite Hx. cbn zeta.
        specialize (Op (u_op u)). destruct (u_op u) eqn:U; apply Op; auto; try discriminate;
          try (intros l; destruct (UL l) as (_ & _ & _ & _ & P); intuition discriminate).
        intros _. unfold unary_yields in A. rewrite operand_ty_expr in A.
        destruct (is_float (e_ty e)); [contradict A|]; reflexivity. }
      unfold body_yields in T. rewrite Hx in T. exact T.
    + apply in_lines in Hr. unfold unary_mutants in Hr. rewrite map_app, in_app_iff in Hr.
      destruct Hr as [Hr|Hr].
      * rewrite map_map in Hr. cbn [snd] in Hr. apply in_map_iff in Hr.
        destruct Hr as (o' & <- & Ho). unfold replacement_uops in Ho. rewrite filter_In in Ho.
        destruct Ho as [Ca P]. rewrite !negb_orb, !andb_true_iff, !negb_true_iff,
          negb_false_iff in P. destruct P as [[_ Va] _]. unfold valid_uop in Va. fold e in Va.
        assert (T : returns res (body_yields c cpp17 (mf_access (unary_function c o u)) [p]
                                   (apply_uop o'))).
        { assert (I' : is_incdec o' = true -> step = true).
          { intros I'. rewrite I', andb_true_r in Va.
            destruct (e_lvalue e) eqn:l; [|discriminate]. destruct step; [reflexivity|].
            destruct (N eq_refl). congruence. }
          assert (P' : u_lvalue u = true -> o' = PreInc \/ o' = PreDec).
          { intros l. rewrite l in Va.
            destruct (uop_eqb o' PreInc || uop_eqb o' PreDec) eqn:Q0;
              [destruct o'; try discriminate; auto|].
            cbn [negb andb] in Va.
            repeat match type of Va with
                   | (if ?b then _ else _) = true => destruct b; [discriminate|]
                   end. discriminate. }
          assert (F' : o' = Not -> is_float (e_ty e) = false).
          { intros ->. destruct (is_float (e_ty e)); [|reflexivity]. cbn in Va.
            repeat match type of Va with
                   | (if ?b then _ else _) = true => destruct b; [discriminate|]
                   end. discriminate. }
          assert (U' : o' <> UExtension)
            by (intros ->; cbn in Ca; intuition discriminate).
          specialize (Op o' I' P' F' U'). unfold body_yields. rewrite Hx. cbn zeta.
          destruct o'; exact Op. }
        unfold body_yields in T. rewrite Hx in T. exact T.
      * rewrite map_when, in_when in Hr. destruct Hr as [_ [<- | []]].
        apply Res.
        -- destruct x; discriminate.
        -- intros l. destruct (UL l) as (G & _). destruct (Mx G) as (ob & ->). reflexivity.
  - unfold unary_operand, res. destruct (u_lvalue u) eqn:l; [|reflexivity].
    destruct (UL eq_refl) as (_ & _ & -> & -> & _). left. reflexivity.
Qed.

(** How arguments are passed *)

Lemma append_assoc (a b d : string) : ((a ++ b) ++ d = a ++ b ++ d)%string.
Proof. induction a as [|x a IH]; simpl; [reflexivity|]. now rewrite IH. Qed.
Lemma append_nil_r (a : string) : (a ++ "" = a)%string.
Proof. induction a as [|x a IH]; simpl; [reflexivity|]. now rewrite IH. Qed.

Lemma star c t v : ends_with_star (qualified c t v false ++ "*") = true.
Proof. destruct c as [a [|] b d], t, v; reflexivity. Qed.

Lemma expr_passed c o e n :
  clang_expr e -> passed c (expr_edits c o e n) (expr_function c o e) n.
Proof.
  intros [_ Cl].
  set (q := if e_lvalue e
            then if cpp c then ByReference (e_ty e) (e_volatile e) false
                 else ByPointer (e_ty e) (e_volatile e) false
            else ByValue (e_ty e)).
  assert (S : input_type c e = plain_text c q).
  { unfold input_type, cpp_type_modifiers, c_type_modifiers, q.
    destruct (e_lvalue e); [|destruct (cpp c); reflexivity].
    specialize (Cl eq_refl). unfold can_mutate_lvalue in Cl.
    destruct (e_const e); [discriminate|].
    destruct (cpp c), (e_volatile e); reflexivity. }
  exists [if cpp c && e_side_effects e then Delayed q else Direct q]. split.
  - cbn [expr_function mf_params map fst]. rewrite S. unfold wrap_function.
    destruct (cpp c && e_side_effects e); reflexivity.
  - exists (r_begin (e_range e)),
      ((if e_preceded_by_ident e then " " else "")
       ++ match e_init_list_cast e with
          | Some t => "static_cast<" ++ ty_name c t ++ ">("
          | None => ""
          end)%string,
      (r_end (e_range e)),
      (match e_init_list_cast e with Some _ => ")" | None => "" end)%string,
      (negb (e_cxx11_constant e)),
      (match e_binop e with Some Comma => true | _ => false end).
    cbn [expr_function mf_name]. unfold expr_edits, expr_prefix, expr_suffix.
    assert (Am : ((if cpp c && e_side_effects e
         then "[&]() -> " ++ input_type c e ++ " { return "
              ++ (if e_cxx11_constant e then "" else "static_cast<" ++ input_type c e ++ ">(")
         else "")
        ++ (if negb (cpp c) && e_lvalue e && ends_with_star (input_type c e)
            then "&(" else "")
        ++ (match e_binop e with Some Comma => "(" | _ => "" end))%string
       = opening c (if cpp c && e_side_effects e then Delayed q else Direct q)
           (negb (e_cxx11_constant e))
           (match e_binop e with Some Comma => true | _ => false end)).
    { rewrite S. unfold opening, q.
      destruct (cpp c), (e_lvalue e), (e_side_effects e); cbn [negb andb];
        unfold plain_text; rewrite ?star;
        destruct (e_cxx11_constant e); cbn [negb];
        rewrite ?append_assoc; destruct (e_binop e) as [[]|]; reflexivity. }
    assert (Az : ((match e_binop e with Some Comma => ")" | _ => "" end)
        ++ (if negb (cpp c) && e_lvalue e && ends_with_star (input_type c e)
            then ")" else "")
        ++ (if cpp c && e_side_effects e
            then (if e_cxx11_constant e then "" else ")") ++ "; }" else ""))%string
       = closing (if cpp c && e_side_effects e then Delayed q else Direct q)
           (negb (e_cxx11_constant e))
           (match e_binop e with Some Comma => true | _ => false end)).
    { rewrite S. unfold closing, q.
      destruct (cpp c), (e_lvalue e), (e_side_effects e); cbn [negb andb];
        unfold plain_text; rewrite ?star;
        destruct (e_cxx11_constant e); cbn [negb];
        destruct (e_binop e) as [[]|]; reflexivity. }
    split; [|split].
    + left. f_equal. rewrite Am, !append_assoc. reflexivity.
    + right. left. f_equal. rewrite <- Az, !append_assoc. reflexivity.
    + destruct (e_init_list_cast e); auto.
Qed.

Lemma unary_passed c o u n :
  clang_unary c u -> passed c (unary_edits c o u n) (unary_function c o u) n.
Proof.
  intros CU. set (e := u_sub u). set (step := is_incdec (u_op u)).
  set (q := if step then if cpp c then ByReference (e_ty e) (e_volatile e) false
                         else ByPointer (e_ty e) (e_volatile e) false
            else ByValue (e_ty e)).
  assert (S : unary_input_type c u = plain_text c q).
  { unfold unary_input_type, input_type, cpp_type_modifiers, c_type_modifiers, q, step.
    unfold clang_unary in CU. fold e in CU |- *.
    destruct (u_op u); try contradiction; cbn [is_incdec];
      repeat match goal with H : _ /\ _ |- _ => destruct H end;
      repeat match goal with H : e_lvalue e = _ |- _ => rewrite H; clear H end;
      repeat match goal with H : e_const e = _ |- _ => rewrite H; clear H end;
      destruct (cpp c), (e_volatile e); reflexivity. }
  exists [if unary_delayed c u then Delayed q else Direct q]. split.
  - cbn [unary_function mf_params map fst]. rewrite S. unfold wrap_function.
    destruct (unary_delayed c u); reflexivity.
  - exists (r_begin (u_range u)), ""%string, (r_end (u_range u)), ""%string,
      (negb (e_cxx11_constant e)), false.
    cbn [unary_function mf_name]. unfold unary_edits. cbn zeta. rewrite S. fold e step.
    split; [|split; [|auto]].
    + right. left. f_equal. cbn [append]. do 2 f_equal. cbn [append]. f_equal.
      unfold opening, q, unary_delayed.
      destruct (cpp c), step, (u_side_effects u), (e_cxx11_constant e);
        cbn [negb andb append]; rewrite ?append_nil_r; reflexivity.
    + right. right. left. f_equal. unfold closing, q, unary_delayed.
      destruct (cpp c), step, (u_side_effects u), (e_cxx11_constant e);
        cbn [negb andb append]; rewrite ?append_nil_r; reflexivity.
Qed.

Lemma binary_passed c o b n :
  passed c (binary_edits c o b n) (binary_function c o b) n.
Proof.
  set (asg := is_assign (b_op b)).
  set (v := e_volatile (b_lhs b)). set (lt := e_ty (b_lhs b)).
  set (q := if asg then if cpp c then ByReference lt v false else ByPointer lt v false
            else ByValue lt).
  set (p1 := if lhs_delayed c b then Delayed q else Direct q).
  set (p2 := if rhs_delayed c b then Delayed (ByValue (e_ty (b_rhs b)))
             else Direct (ByValue (e_ty (b_rhs b)))).
  assert (S : binary_lhs_type c b = plain_text c q).
  { unfold binary_lhs_type, q. fold asg v lt. destruct asg, (cpp c), v; reflexivity. }
  exists [p1; p2]. split.
  - cbn [binary_function mf_params map fst]. rewrite S. unfold p1, p2, wrap_function.
    destruct (lhs_delayed c b), (rhs_delayed c b); reflexivity.
  - exists (r_begin (e_range (b_lhs b))), (r_end (e_range (b_lhs b))),
      (r_begin (e_range (b_rhs b))), (r_end (e_range (b_rhs b))), true, true.
    cbn [binary_function mf_name]. unfold binary_edits. cbn zeta. rewrite S. fold asg.
    split; [|split; [|split; [|split]]].
    + right. left. f_equal. f_equal. cbn [append]. f_equal.
      unfold opening, p1, q, lhs_delayed.
      destruct (cpp c), asg, (e_side_effects (b_lhs b));
        cbn [negb andb]; rewrite ?append_nil_r; reflexivity.
    + do 2 right. left. f_equal. unfold closing, p1, q, lhs_delayed.
      destruct (cpp c), asg, (e_side_effects (b_lhs b)); reflexivity.
    + do 3 right. left. f_equal. unfold opening, p2.
      destruct (rhs_delayed c b); cbn [negb andb]; rewrite ?append_nil_r; reflexivity.
    + do 4 right. left. f_equal. unfold closing, p2.
      destruct (rhs_delayed c b); reflexivity.
    + do 2 eexists. left. reflexivity.
Qed.

Lemma logical_passed c o b n f :
  In f (c_logical_functions c o b) -> passed c (c_logical_edits c o b n) f n.
Proof.
  unfold c_logical_functions, c_logical_edits, c_logical_lhs_function,
    c_logical_rhs_function, c_logical_outer_function.
  generalize (binary_function_name c (optimise o) b). intros name.
  destruct (track o); cbn [negb when app].
  - intros [<- | []]. exists [Direct (ByValue (b_ty b))]. split; [reflexivity|].
    exists (r_begin (b_range b)), ""%string, (r_end (b_range b)), ""%string, false, false.
    cbn. rewrite append_assoc. auto.
  - intros [<- | [<- | [<- | []]]];
      [exists [Direct (ByValue (e_ty (b_lhs b)))]
      |exists [Direct (ByValue (e_ty (b_rhs b)))]
      |exists [Direct (ByValue (b_ty b))]]; (split; [reflexivity|]);
      [exists (r_begin (e_range (b_lhs b))), ""%string, (r_end (e_range (b_lhs b)))
      |exists (r_begin (e_range (b_rhs b))), ""%string, (r_end (e_range (b_rhs b)))
      |exists (r_begin (b_range b)), ""%string, (r_end (b_range b))];
      exists ""%string, false, false; cbn; rewrite append_assoc; auto 10.
Qed.

Lemma Forall2_in_l {A B} (P : A -> B -> Prop) (Q : A -> Prop) l l' :
  Forall2 P l l' -> (forall x, In x l -> Q x) -> Forall2 (fun x y => P x y /\ Q x) l l'.
Proof.
  induction 1; intros H'; constructor.
  - split; [assumption|]. apply H'. left. reflexivity.
  - apply IHForall2. intros z Hz. apply H'. right. exact Hz.
Qed.

Lemma Forall2_weaken {A B} (P Q : A -> B -> Prop) l l' :
  (forall x y, P x y -> Q x y) -> Forall2 P l l' -> Forall2 Q l l'.
Proof. induction 2; constructor; auto. Qed.

Lemma Forall2_map_l {A B C} (P : A -> B -> Prop) (g : C -> A) l l' :
  Forall2 (fun x y => P (g x) y) l l' -> Forall2 P (map g l) l'.
Proof. induction 1; simpl; constructor; assumption. Qed.

Lemma mutation_compiles c cpp17 o m first id w :
  clang_node c m -> is_site (optimise o) m ->
  is_xvalue w = false -> the_object w <> VectorElement ->
  (cpp c = false -> the_object w <> RegisterVariable) ->
  (forall e, first_operand m = Some e -> consistent e w) ->
  original_accepted c cpp17 m w ->
  (cpp c = true -> ~ steps_bool m) ->
  let a := apply_mutation c o m first id in
  Forall2 (fun d k => exists f, d = print_mfun f /\ compiles c cpp17 f k /\
                                passed c (a_edits a) f (id - first))
    (a_decls a) (calls_of c o m w).
Proof.
  intros CN Si X V R K A NB. destruct m as [e i|b i i1 i2|u i i1|s i];
    cbn [apply_mutation a_decls a_edits calls_of clang_node first_operand] in *.
  - constructor; [|constructor]. eexists. split; [reflexivity|].
    split; [apply expr_compiles; auto | apply expr_passed, CN].
  - change (negb (cpp c) && is_logical (b_op b)) with (c_logical c b).
    destruct (c_logical c b) eqn:CL.
    + apply Forall2_map_l.
      eapply Forall2_weaken; [|apply Forall2_in_l; [apply logical_compiles; auto|]].
      * intros f k [H P]. exists f. split; [reflexivity|]. split; [exact H|exact P].
      * intros f Hf. apply logical_passed, Hf.
    + constructor; [|constructor]. eexists. split; [reflexivity|].
      split; [eapply binary_compiles; eauto | apply binary_passed].
  - constructor; [|constructor]. eexists. split; [reflexivity|].
    split; [eapply unary_compiles; eauto | apply unary_passed, CN].
  - constructor.
Qed.

(* A function and a call that are not accepted *)
Lemma not_compiles c cpp17 f ps args replaced converted :
  map fst (mf_params f) = map (param_text c) ps ->
  (forall result, mf_result f = plain_text c result ->
     Forall2 (accepts c) ps args ->
     (forall r, In r (returned f) ->
        returns result (body_yields c cpp17 (mf_access f) ps r)) ->
     stands_for result replaced converted -> False) ->
  ~ compiles c cpp17 f (args, replaced, converted).
Proof.
  intros P H (ps' & result & P' & Re & Ac & Bo & St).
  assert (ps' = ps) as ->; [|eapply H; eauto].
  rewrite P in P'. clear -P'. revert ps' P'. induction ps as [|p ps IH]; intros [|p' ps'];
    simpl; try discriminate; [reflexivity|]. intros E. injection E. intros E2 E1.
  apply param_text_determines in E1. subst p'. f_equal. apply IH. exact E2.
Qed.
