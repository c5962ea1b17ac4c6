(* Names of generated functions determine their text. *)
From Coq Require Import String Ascii List Arith ZArith Bool Lia.
From Verif Require Import Base Clang Gen GenExpr GenBinary GenUnary GenStmt Mutation MutTree
  TreeSpec Rewriter PreludeText Run RunSpec RunProof RunProof2 RewriterProof Lang ClashSpec.
Import ListNotations.
Local Open Scope string_scope.

(** * Words that can be told apart *)

Fixpoint strip (a b : string) : option string :=
  match a, b with
  | EmptyString, _ => Some b
  | String x a, String y b => if Ascii.eqb x y then strip a b else None
  | String _ _, EmptyString => None
  end.

Lemma strip_app a b : strip a (a ++ b) = Some b.
Proof. induction a; simpl; auto. rewrite Ascii.eqb_refl; auto. Qed.
Lemma strip_some a b r : strip a b = Some r -> b = a ++ r.
Proof.
  revert b. induction a as [|x a IH]; intros [|y b]; simpl; try congruence.
  destruct (Ascii.eqb_spec x y); [subst; intros E; f_equal; auto | congruence].
Qed.

Lemma app_inv_l (a b c : string) : a ++ b = a ++ c -> b = c.
Proof. induction a; simpl; auto. intros E; inversion E; auto. Qed.

(* If two concatenations are equal, one first part is a prefix of the other. *)
Lemma prefixes a b x y : a ++ x = b ++ y ->
  (exists r, b = a ++ r /\ x = r ++ y) \/ (exists r, a = b ++ r /\ y = r ++ x).
Proof.
  revert b. induction a as [|c a IH]; intros b; simpl.
  - intros E. left. exists b. auto.
  - destruct b as [|d b]; simpl.
    + intros E. right. exists (String c a). split; auto.
    + intros E. inversion E; subst. destruct (IH b H1) as [(r & -> & ->)|(r & -> & ->)];
        [left|right]; exists r; auto.
Qed.

Lemma slength a b : String.length (a ++ b) = String.length a + String.length b.
Proof. induction a; simpl; auto. Qed.

Definition all_pairs {A B} (p : A -> B -> bool) (l : list A) (l' : list B) : bool :=
  forallb (fun a => forallb (p a) l') l.
Lemma all_pairs_in {A B} (p : A -> B -> bool) l l' a b :
  all_pairs p l l' = true -> In a l -> In b l' -> p a b = true.
Proof.
  unfold all_pairs. intros H Ha Hb. rewrite forallb_forall in H.
  specialize (H a Ha). rewrite forallb_forall in H. auto.
Qed.

(* No word is a proper prefix of another one. *)
Definition prefix_free (l : list string) : bool :=
  all_pairs (fun a b => match strip a b with Some (String _ _) => false | _ => true end) l l.
Lemma prefix_free_inj l a b x y : prefix_free l = true -> In a l -> In b l ->
  a ++ x = b ++ y -> a = b /\ x = y.
Proof.
  intros P Ha Hb E.
  destruct (prefixes _ _ _ _ E) as [(r & -> & ->)|(r & -> & ->)].
  - pose proof (all_pairs_in _ _ _ _ _ P Ha Hb) as Q. cbv beta in Q. rewrite strip_app in Q.
    destruct r; [|congruence]. rewrite sapp_nil_r. auto.
  - pose proof (all_pairs_in _ _ _ _ _ P Hb Ha) as Q. cbv beta in Q. rewrite strip_app in Q.
    destruct r; [|congruence]. rewrite sapp_nil_r. auto.
Qed.

(* The words may be prefixes of each other, but not by the beginning of one of the endings. *)
Definition endings_free (l ends : list string) : bool :=
  all_pairs (fun a b =>
    match strip a b with
    | Some (String _ _ as r) =>
        forallb (fun e => match strip r e with Some _ => false | None => true end) ends
    | _ => true
    end) l l.
Lemma endings_inj l ends a b x y : endings_free l ends = true -> In a l -> In b l ->
  In x ends -> In y ends -> a ++ x = b ++ y -> a = b /\ x = y.
Proof.
  intros P Ha Hb Hx Hy E.
  destruct (prefixes _ _ _ _ E) as [(r & -> & ->)|(r & -> & ->)].
  - pose proof (all_pairs_in _ _ _ _ _ P Ha Hb) as Q. cbv beta in Q. rewrite strip_app in Q.
    destruct r; [rewrite sapp_nil_r; auto|]. rewrite forallb_forall in Q.
    specialize (Q _ Hx). rewrite strip_app in Q. congruence.
  - pose proof (all_pairs_in _ _ _ _ _ P Hb Ha) as Q. cbv beta in Q. rewrite strip_app in Q.
    destruct r; [rewrite sapp_nil_r; auto|]. rewrite forallb_forall in Q.
    specialize (Q _ Hy). rewrite strip_app in Q. congruence.
Qed.

(* A table of words indexed by keys. *)
Definition table_inj {K} (eqb : K -> K -> bool) (keys : list K) (word : K -> string) : bool :=
  all_pairs (fun k k' => implb (String.eqb (word k) (word k')) (eqb k k')) keys keys.
Lemma table_inj_spec {K} (eqb : K -> K -> bool) keys word k k' :
  (forall a b, eqb a b = true -> a = b) -> table_inj eqb keys word = true ->
  In k keys -> In k' keys -> word k = word k' -> k = k'.
Proof.
  intros S T H H' E. pose proof (all_pairs_in _ _ _ _ _ T H H') as Q. cbv beta in Q.
  rewrite E, String.eqb_refl in Q. auto.
Qed.

(** * Types *)

Lemma ty_eqb_eq a b : ty_eqb a b = true -> a = b.
Proof. unfold ty_eqb. destruct (ty_eq_dec a b); congruence. Qed.
Lemma all_types_in t : In t all_types.
Proof. destruct t; unfold all_types; simpl; tauto. Qed.

Definition written_type (c : ctx) (t : ty) : string := space_to_underscore (ty_name c t).

Lemma written_type_inj c t t' : written_type c t = written_type c t' -> t = t'.
Proof.
  apply (table_inj_spec ty_eqb all_types (written_type c));
    auto using ty_eqb_eq, all_types_in.
  unfold written_type, ty_name. destruct (prints_bool c); vm_compute; reflexivity.
Qed.

(* A delayed parameter has another type. *)
Lemma wrap_function_inj d d' t : wrap_function d t = wrap_function d' t -> d = d'.
Proof.
  assert (L : forall s, s <> "std::function<" ++ s ++ "()>").
  { intros s E. apply (f_equal String.length) in E. rewrite !slength in E.
    simpl in E. lia. }
  destruct d, d'; simpl; auto; intros E; exfalso; [symmetry in E|]; apply (L t); exact E.
Qed.

(** * Classes of constants *)

Inductive kconst := KNone | KZero | KOne | KMinusOne.
Definition kconst_eqb (a b : kconst) : bool :=
  match a, b with
  | KNone, KNone | KZero, KZero | KOne, KOne | KMinusOne, KMinusOne => true
  | _, _ => false
  end.
Definition all_kconst : list kconst := [KNone; KZero; KOne; KMinusOne].
Lemma kconst_eqb_eq a b : kconst_eqb a b = true -> a = b.
Proof. destruct a, b; simpl; congruence. Qed.
Lemma all_kconst_in k : In k all_kconst.
Proof. destruct k; simpl; tauto. Qed.

Definition classify (e : expr) : kconst :=
  if equivalent_to e 0 then KZero
  else if equivalent_to e 1 then KOne
  else if equivalent_to e (-1) then KMinusOne else KNone.

Lemma equivalent_to_unique e k k' :
  In k [0; 1; -1]%Z -> In k' [0; 1; -1]%Z ->
  equivalent_to e k = true -> equivalent_to e k' = true -> k = k'.
Proof.
  unfold equivalent_to, equivalent_to_int, equivalent_to_float, is_integer.
  destruct (is_float (e_ty e)); simpl.
  - destruct (e_float e) as [v|]; [|congruence].
    intros [<-|[<-|[<-|[]]]] [<-|[<-|[<-|[]]]]; destruct v; simpl; congruence.
  - rewrite !orb_false_r. destruct (e_int e) as [v|]; [|congruence].
    intros _ _ H H'. apply Z.eqb_eq in H, H'. congruence.
Qed.

Lemma classify_spec e :
  equivalent_to e 0 = kconst_eqb (classify e) KZero /\
  equivalent_to e 1 = kconst_eqb (classify e) KOne /\
  equivalent_to e (-1) = kconst_eqb (classify e) KMinusOne.
Proof.
  pose proof (equivalent_to_unique e) as U. unfold classify.
  destruct (equivalent_to e 0) eqn:E0; [|destruct (equivalent_to e 1) eqn:E1;
    [|destruct (equivalent_to e (-1)) eqn:E2]]; simpl; repeat split; auto.
  - destruct (equivalent_to e 1) eqn:E1; auto.
    assert (0 = 1)%Z by (apply U; simpl; auto). discriminate.
  - destruct (equivalent_to e (-1)) eqn:E1; auto.
    assert (0 = -1)%Z by (apply U; simpl; auto). discriminate.
  - destruct (equivalent_to e (-1)) eqn:E2; auto.
    assert (1 = -1)%Z by (apply U; simpl; auto). discriminate.
Qed.

(* Comparisons with the constants, written as in the code. *)
Lemma classify_or e :
  (equivalent_to_int e 0 || equivalent_to_float e 0 = kconst_eqb (classify e) KZero) /\
  (equivalent_to_int e 1 || equivalent_to_float e 1 = kconst_eqb (classify e) KOne) /\
  (equivalent_to_int e (-1) || equivalent_to_float e (-1) =
     kconst_eqb (classify e) KMinusOne).
Proof. exact (classify_spec e). Qed.

Definition class_word (k : kconst) : string :=
  match k with KNone => "" | KZero => "_zero" | KOne => "_one" | KMinusOne => "_minus_one" end.

(** * Binary operators *)

(* What the name of a binary operator's function is made of.  The last component tells the
   three functions for && and || in C apart. *)
Definition binary_key : Type := (kconst * kconst) * nat.
Definition tail_word (n : nat) : string :=
  match n with 0 => "" | 1 => "_lhs" | 2 => "_rhs" | _ => "_outer" end.
Definition side_word (side : string) (k : kconst) : string :=
  match k with KNone => "" | _ => side ++ class_word k end.
Definition key_word (k : binary_key) : string :=
  (side_word "_rhs" (fst (fst k)) ++ side_word "_lhs" (snd (fst k))) ++ tail_word (snd k).
Definition all_keys : list binary_key :=
  flat_map (fun r => flat_map (fun l => map (fun n => ((r, l), n)) [0; 1; 2; 3]) all_kconst)
    all_kconst.
Definition key_eqb (a b : binary_key) : bool :=
  kconst_eqb (fst (fst a)) (fst (fst b)) && kconst_eqb (snd (fst a)) (snd (fst b)) &&
  Nat.eqb (snd a) (snd b).
Lemma key_eqb_eq a b : key_eqb a b = true -> a = b.
Proof.
  destruct a as [[r l] n], b as [[r' l'] n']. unfold key_eqb; cbn [fst snd]. intros H.
  apply andb_prop in H. destruct H as (H & N). apply andb_prop in H. destruct H as (R & L).
  apply kconst_eqb_eq in R, L. apply Nat.eqb_eq in N. congruence.
Qed.
Lemma all_keys_in r l n : n < 4 -> In ((r, l), n) all_keys.
Proof.
  intros H. destruct n as [|[|[|[|n]]]]; try lia; destruct r, l; unfold all_keys; simpl; tauto.
Qed.

Definition all_ops : list bop :=
  [Mul; Div; Rem; Add; Sub; Shl; Shr; LT; GT; LE; GE; EQ; NE; And; Xor; Or; LAnd; LOr; Assign;
   MulAssign; DivAssign; RemAssign; AddAssign; SubAssign; ShlAssign; ShrAssign; AndAssign;
   XorAssign; OrAssign].
Lemma all_ops_in o : o <> Comma -> In o all_ops.
Proof. destruct o; unfold all_ops; simpl; tauto. Qed.
Lemma bop_eqb_eq a b : bop_eqb a b = true -> a = b.
Proof. unfold bop_eqb. destruct (bop_eq_dec a b); congruence. Qed.

Definition op_word (o : bop) : string := bop_name o ++ "_arg1_".
Definition left_word (c : ctx) (k : bool * ty) : string :=
  space_to_underscore ((if fst k then "volatile " else "") ++ ty_name c (snd k)) ++ "_arg2_".
Definition all_left : list (bool * ty) :=
  flat_map (fun t => [(true, t); (false, t)]) all_types.
Definition left_eqb (a b : bool * ty) : bool :=
  Bool.eqb (fst a) (fst b) && ty_eqb (snd a) (snd b).
Lemma left_eqb_eq a b : left_eqb a b = true -> a = b.
Proof.
  destruct a, b. unfold left_eqb; cbn [fst snd]. intros H. apply andb_prop in H.
  destruct H as (V & T). apply Bool.eqb_prop in V. apply ty_eqb_eq in T. congruence.
Qed.
Lemma all_left_in k : In k all_left.
Proof.
  destruct k as [v t]. unfold all_left. apply in_flat_map. exists t.
  split; [apply all_types_in|]. destruct v; simpl; auto.
Qed.

Definition binary_name (c : ctx) (o : bop) (k : bool * ty) (t : ty) (r : binary_key)
  : string :=
  "__dredd_replace_binary_operator_"
  ++ (op_word o ++ (left_word c k ++ (written_type c t ++ key_word r))).

Lemma op_words_free : prefix_free (map op_word all_ops) = true.
Proof. vm_compute. reflexivity. Qed.
Lemma op_word_inj o o' : op_word o = op_word o' -> o <> Comma -> o' <> Comma -> o = o'.
Proof.
  intros E H H'. revert E.
  apply (table_inj_spec bop_eqb all_ops op_word); auto using bop_eqb_eq, all_ops_in.
Qed.
Lemma left_words_free c : prefix_free (map (left_word c) all_left) = true.
Proof. unfold left_word, ty_name. destruct (prints_bool c); vm_compute; reflexivity. Qed.
Lemma left_word_inj c k k' : left_word c k = left_word c k' -> k = k'.
Proof.
  apply (table_inj_spec left_eqb all_left (left_word c)); auto using left_eqb_eq, all_left_in.
  unfold left_word, ty_name. destruct (prints_bool c); vm_compute; reflexivity.
Qed.
Lemma type_endings c :
  endings_free (map (written_type c) all_types) (map key_word all_keys) = true.
Proof. unfold written_type, ty_name. destruct (prints_bool c); vm_compute; reflexivity. Qed.
Lemma key_word_inj k k' : In k all_keys -> In k' all_keys -> key_word k = key_word k' ->
  k = k'.
Proof.
  intros H H'. apply (table_inj_spec key_eqb all_keys key_word); auto using key_eqb_eq.
Qed.

Lemma binary_name_inj c o k t r o' k' t' r' :
  o <> Comma -> o' <> Comma -> In r all_keys -> In r' all_keys ->
  binary_name c o k t r = binary_name c o' k' t' r' ->
  o = o' /\ k = k' /\ t = t' /\ r = r'.
Proof.
  intros Ho Ho' Hr Hr' E. unfold binary_name in E. apply app_inv_l in E.
  destruct (prefix_free_inj _ _ _ _ _ op_words_free
              (in_map _ _ _ (all_ops_in _ Ho)) (in_map _ _ _ (all_ops_in _ Ho')) E)
    as (E1 & E2).
  destruct (prefix_free_inj _ _ _ _ _ (left_words_free c)
              (in_map _ _ _ (all_left_in k)) (in_map _ _ _ (all_left_in k')) E2)
    as (E3 & E4).
  destruct (endings_inj _ _ _ _ _ _ (type_endings c)
              (in_map _ _ _ (all_types_in t)) (in_map _ _ _ (all_types_in t'))
              (in_map _ _ _ Hr) (in_map _ _ _ Hr') E4) as (E5 & E6).
  repeat split.
  - exact (op_word_inj _ _ E1 Ho Ho').
  - exact (left_word_inj _ _ _ E3).
  - exact (written_type_inj _ _ _ E5).
  - exact (key_word_inj _ _ Hr Hr' E6).
Qed.

Lemma constant_suffix_word side e : constant_suffix side e = side_word side (classify e).
Proof.
  unfold constant_suffix. destruct (classify_or e) as (-> & -> & ->).
  destruct (classify e); reflexivity.
Qed.

Definition left_key (b : binary) : bool * ty :=
  (is_assign (b_op b) && e_volatile (b_lhs b), e_ty (b_lhs b)).
Definition name_key (opt : bool) (b : binary) (n : nat) : binary_key :=
  (if opt && negb (is_assign (b_op b)) then (classify (b_rhs b), classify (b_lhs b))
   else (KNone, KNone), n).
Lemma name_key_in opt b n : n < 4 -> In (name_key opt b n) all_keys.
Proof. intros H. unfold name_key. destruct (_ && _); apply all_keys_in; auto. Qed.

Lemma binary_function_name_key c opt b n :
  binary_function_name c opt b ++ tail_word n =
  binary_name c (b_op b) (left_key b) (e_ty (b_rhs b)) (name_key opt b n).
Proof.
  unfold binary_function_name, binary_name, op_word, left_word, left_key, written_type,
    key_word, name_key.
  rewrite !constant_suffix_word.
  destruct (opt && negb (is_assign (b_op b))); cbn [fst snd side_word];
    rewrite ?sapp_assoc; reflexivity.
Qed.

(* Everything about a binary node that its function depends on, apart from how the operands
   are passed. *)
Definition same_binary (c : ctx) (opt : bool) (b b' : binary) : Prop :=
  b_op b = b_op b' /\ b_ty b = b_ty b' /\
  e_ty (b_lhs b) = e_ty (b_lhs b') /\ e_ty (b_rhs b) = e_ty (b_rhs b') /\
  (is_assign (b_op b) && e_volatile (b_lhs b) = is_assign (b_op b') && e_volatile (b_lhs b')) /\
  (opt && negb (is_assign (b_op b)) = true ->
   classify (b_lhs b) = classify (b_lhs b') /\ classify (b_rhs b) = classify (b_rhs b')).

Lemma same_name_same_binary c opt b b' n n' :
  clang_binary c b -> clang_binary c b' -> n < 4 -> n' < 4 ->
  binary_function_name c opt b ++ tail_word n = binary_function_name c opt b' ++ tail_word n' ->
  same_binary c opt b b' /\ n = n'.
Proof.
  intros (H & T) (H' & T') Hn Hn' E. rewrite !binary_function_name_key in E.
  apply binary_name_inj in E; auto using name_key_in.
  destruct E as (Eo & Ek & Et & Er). unfold left_key in Ek. unfold name_key in Er.
  apply pair_equal_spec in Ek. destruct Ek as (V & L).
  apply pair_equal_spec in Er. destruct Er as (K & N).
  split; [|exact N]. unfold same_binary. repeat apply conj; auto.
  - rewrite T, T', Eo, L. reflexivity.
  - intros O. rewrite <- Eo in K. rewrite O in K. inversion K. auto.
Qed.

Lemma filter_ext_in {A} (f g : A -> bool) l :
  (forall a, In a l -> f a = g a) -> filter f l = filter g l.
Proof.
  induction l as [|a l IH]; simpl; auto. intros H. rewrite (H a (or_introl eq_refl)), IH; auto.
Qed.

Lemma same_binary_mutants c opt b b' :
  same_binary c opt b b' -> binary_mutants opt b = binary_mutants opt b'.
Proof.
  intros (Eo & _ & L & R & _ & K). unfold binary_mutants. f_equal.
  - unfold operator_replacements. f_equal. unfold replacement_ops.
    assert (C : candidate_ops b = candidate_ops b').
    { unfold candidate_ops. rewrite Eo, L. reflexivity. }
    rewrite C. apply filter_ext_in. intros o Ho. f_equal. rewrite Eo. f_equal.
    + f_equal. unfold valid_op. rewrite L, R. reflexivity.
    + destruct opt; [|reflexivity]. cbn [andb] in *. unfold redundant_op.
      assert (B : redundant_boolean_op b o = redundant_boolean_op b' o).
      { unfold redundant_boolean_op. rewrite Eo. reflexivity. }
      rewrite B. destruct (redundant_boolean_op b' o); [reflexivity|].
      destruct (is_assign (b_op b)) eqn:A.
      * (* assignments are only replaced by assignments *)
        assert (In o assignment_ops).
        { unfold candidate_ops in Ho. rewrite <- Eo in Ho.
          destruct (b_op b); simpl in A; try discriminate A;
            simpl in Ho; rewrite ?andb_false_r in Ho; simpl in Ho; exact Ho. }
        unfold redundant_arithmetic_op.
        simpl in H. repeat (destruct H as [<-|H]); [..|contradiction];
          cbn [bop_eqb]; rewrite ?andb_false_r; reflexivity.
      * destruct (K eq_refl) as (KL & KR). unfold redundant_arithmetic_op.
        destruct (classify_spec (b_lhs b)) as (-> & -> & _).
        destruct (classify_spec (b_rhs b)) as (-> & -> & _).
        destruct (classify_spec (b_lhs b')) as (-> & -> & _).
        destruct (classify_spec (b_rhs b')) as (-> & -> & _).
        rewrite KL, KR. reflexivity.
  - unfold argument_replacements. rewrite Eo.
    destruct (opt && is_relational (b_op b')); [reflexivity|].
    destruct (is_assign (b_op b')) eqn:A; [reflexivity|].
    destruct opt; [|reflexivity]. rewrite Eo, A in K. destruct (K eq_refl) as (KL & KR).
    assert (U : forall e, unit_constant e = negb (kconst_eqb (classify e) KNone)).
    { intros e. unfold unit_constant. destruct (classify_or e) as (Z0 & Z1 & Z2).
      rewrite Z0. rewrite <- !orb_assoc. rewrite (orb_assoc (equivalent_to_int e 1)), Z1, Z2.
      destruct (classify e); reflexivity. }
    rewrite !U, KL, KR. reflexivity.
Qed.

Lemma same_binary_types c opt b b' : same_binary c opt b b' ->
  binary_result_type c b = binary_result_type c b' /\
  binary_lhs_type c b = binary_lhs_type c b' /\ binary_rhs_type c b = binary_rhs_type c b'.
Proof.
  intros (Eo & T & L & R & V & _).
  unfold binary_result_type, binary_lhs_type, binary_rhs_type. rewrite <- Eo, T, L, R.
  rewrite <- Eo in V. destruct (is_assign (b_op b)); simpl in *; rewrite ?V; auto.
Qed.

Lemma binary_same c o b b' :
  clang_binary c b -> clang_binary c b' ->
  same_function c (binary_function c o b) (binary_function c o b') ->
  binary_function c o b = binary_function c o b'.
Proof.
  intros W W' (N & P). cbn [mf_name binary_function] in N.
  destruct (same_name_same_binary c (optimise o) b b' 0 0 W W') as (S & _); auto with arith.
  { simpl. rewrite !sapp_nil_r. exact N. }
  destruct (same_binary_types _ _ _ _ S) as (TR & TL & TRR).
  assert (D : lhs_delayed c b = lhs_delayed c b' /\ rhs_delayed c b = rhs_delayed c b').
  { destruct (cpp c) eqn:C.
    - specialize (P eq_refl). cbn [mf_params binary_function map fst] in P.
      rewrite TL, TRR in P. inversion P as [[P1 P2]].
      split; eapply wrap_function_inj; eassumption.
    - unfold lhs_delayed, rhs_delayed. rewrite C. auto. }
  destruct D as (DL & DR). unfold binary_function.
  rewrite TR, N, TL, TRR, DL, DR, (same_binary_mutants _ _ _ _ S).
  destruct S as (-> & _). reflexivity.
Qed.

Lemma c_logical_same c o b b' f f' :
  clang_binary c b -> clang_binary c b' ->
  In f (c_logical_functions c o b) -> In f' (c_logical_functions c o b') ->
  mf_name f = mf_name f' -> f = f'.
Proof.
  intros W W' H H' E.
  assert (X : forall b f, In f (c_logical_functions c o b) -> exists n, n < 4 /\ n <> 0 /\
    mf_name f = binary_function_name c (optimise o) b ++ tail_word n /\
    f = match n with
        | 1 => c_logical_lhs_function c o b
        | 2 => c_logical_rhs_function c o b
        | _ => c_logical_outer_function c o b
        end).
  { intros b0 f0 I. unfold c_logical_functions in I.
    destruct (negb (track o)); simpl in I;
      repeat match type of I with _ \/ _ => destruct I as [<-|I] | False => contradiction end;
      first [exists 1; repeat split; auto with arith; discriminate
            |exists 2; repeat split; auto with arith; discriminate
            |exists 3; repeat split; auto with arith; discriminate]. }
  destruct (X _ _ H) as (n & Hn & _ & Nn & ->).
  destruct (X _ _ H') as (n' & Hn' & _ & Nn' & ->).
  rewrite Nn, Nn' in E.
  destruct (same_name_same_binary c (optimise o) b b' n n' W W' Hn Hn' E) as (S & <-).
  apply (f_equal (fun s => s)) in E.
  assert (EN : binary_function_name c (optimise o) b = binary_function_name c (optimise o) b').
  { clear - E. revert E. generalize (binary_function_name c (optimise o) b),
      (binary_function_name c (optimise o) b'), (tail_word n). intros s s' t E.
    assert (L : String.length s = String.length s').
    { apply (f_equal String.length) in E. rewrite !slength in E. lia. }
    revert s' E L. induction s as [|x s IH]; intros [|y s']; simpl; intros E L;
      try discriminate; auto. inversion E. f_equal; auto. }
  destruct S as (Eo & T & TL & TR & _).
  destruct n as [|[|[|n]]]; unfold c_logical_outer_function, c_logical_lhs_function,
    c_logical_rhs_function, c_logical_unit; rewrite EN, ?T, ?TL, ?TR, ?Eo; reflexivity.
Qed.

(** * Unary operators *)

Definition unary_ops : list uop := [Minus; Not; PreDec; PostDec; PreInc; PostInc; LNot].
Definition head_word (k : uop * bool) : string :=
  (uop_name (fst k) ++ (if snd k then "_volatile" else "")) ++ "_".
Definition all_heads : list (uop * bool) :=
  flat_map (fun o => [(o, true); (o, false)]) unary_ops.
Definition head_eqb (a b : uop * bool) : bool :=
  uop_eqb (fst a) (fst b) && Bool.eqb (snd a) (snd b).
Lemma head_eqb_eq a b : head_eqb a b = true -> a = b.
Proof.
  destruct a as [o v], b as [o' v']. unfold head_eqb; cbn [fst snd]. intros H.
  apply andb_prop in H. destruct H as (O & V). apply Bool.eqb_prop in V.
  unfold uop_eqb in O. destruct (uop_eq_dec o o'); congruence.
Qed.
Lemma all_heads_in o v : In o unary_ops -> In (o, v) all_heads.
Proof.
  intros H. unfold all_heads. apply in_flat_map. exists o. split; [exact H|].
  destruct v; simpl; auto.
Qed.

Definition typed_class (c : ctx) (k : ty * kconst) : string :=
  written_type c (fst k) ++ class_word (snd k).
Definition all_typed : list (ty * kconst) :=
  flat_map (fun t => map (fun k => (t, k)) all_kconst) all_types.
Lemma all_typed_in t k : In (t, k) all_typed.
Proof.
  unfold all_typed. apply in_flat_map. exists t. split; [apply all_types_in|].
  apply in_map, all_kconst_in.
Qed.

Definition unary_name (c : ctx) (h : uop * bool) (k : ty * kconst) : string :=
  "__dredd_replace_unary_operator_" ++ (head_word h ++ typed_class c k).

Lemma heads_free c :
  endings_free (map head_word all_heads) (map (typed_class c) all_typed) = true.
Proof.
  unfold typed_class, written_type, ty_name. destruct (prints_bool c); vm_compute; reflexivity.
Qed.
Lemma class_endings c :
  endings_free (map (written_type c) all_types) (map class_word all_kconst) = true.
Proof. unfold written_type, ty_name. destruct (prints_bool c); vm_compute; reflexivity. Qed.

Lemma unary_name_inj c o v k o' v' k' :
  In o unary_ops -> In o' unary_ops ->
  unary_name c (o, v) k = unary_name c (o', v') k' -> o = o' /\ v = v' /\ k = k'.
Proof.
  intros H H' E. unfold unary_name in E. apply app_inv_l in E.
  destruct k as [t k], k' as [t' k'].
  destruct (endings_inj _ _ _ _ _ _ (heads_free c)
              (in_map _ _ _ (all_heads_in _ v H)) (in_map _ _ _ (all_heads_in _ v' H'))
              (in_map _ _ _ (all_typed_in t k)) (in_map _ _ _ (all_typed_in t' k')) E)
    as (E1 & E2).
  assert (EH : (o, v) = (o', v')).
  { apply (table_inj_spec head_eqb all_heads head_word); auto using head_eqb_eq, all_heads_in. }
  destruct (endings_inj _ _ _ _ _ _ (class_endings c)
              (in_map _ _ _ (all_types_in t)) (in_map _ _ _ (all_types_in t'))
              (in_map _ _ _ (all_kconst_in k)) (in_map _ _ _ (all_kconst_in k')) E2)
    as (E3 & E4).
  apply written_type_inj in E3. apply pair_equal_spec in EH. destruct EH.
  assert (k = k').
  { apply (table_inj_spec kconst_eqb all_kconst class_word);
      auto using kconst_eqb_eq, all_kconst_in. }
  subst. auto.
Qed.

Definition unary_class (opt : bool) (u : unary) : kconst :=
  if opt then classify (u_sub u) else KNone.
Lemma unary_function_name_key c opt u :
  unary_function_name c opt u =
  unary_name c (u_op u, e_lvalue (u_sub u) && e_volatile (u_sub u))
    (e_ty (u_sub u), unary_class opt u).
Proof.
  unfold unary_function_name, unary_name, head_word, typed_class, written_type, unary_class.
  cbn [fst snd]. rewrite ?sapp_assoc. repeat (apply f_equal2; [reflexivity|]).
  destruct opt; [|reflexivity].
  destruct (classify_or (u_sub u)) as (-> & -> & ->). destruct (classify (u_sub u)); reflexivity.
Qed.

Lemma clang_unary_op c u : clang_unary c u -> In (u_op u) unary_ops.
Proof. unfold clang_unary. destruct (u_op u); simpl; tauto. Qed.

Lemma unary_mutants_same opt u u' :
  u_op u = u_op u' -> e_lvalue (u_sub u) = e_lvalue (u_sub u') -> u_lvalue u = u_lvalue u' ->
  e_ty (u_sub u) = e_ty (u_sub u') -> unary_class opt u = unary_class opt u' ->
  unary_mutants opt u = unary_mutants opt u'.
Proof.
  intros O L UL T K. unfold unary_mutants. f_equal.
  - f_equal. unfold replacement_uops. apply filter_ext_in. intros o _. f_equal. rewrite O.
    f_equal.
    + f_equal. unfold valid_uop. rewrite O, L, UL, T. reflexivity.
    + destruct opt; [|reflexivity]. cbn [andb]. unfold unary_class in K. unfold redundant_uop.
      assert (G : forall e, equivalent_to_int e 0 || equivalent_to_float e 0 ||
                  equivalent_to_int e 1 || equivalent_to_float e 1 =
                  kconst_eqb (classify e) KZero || kconst_eqb (classify e) KOne).
      { intros e. rewrite <- !orb_assoc. rewrite (orb_assoc (equivalent_to_int e 0)).
        destruct (classify_or e) as (-> & -> & _). reflexivity. }
      rewrite !G. destruct (classify_or (u_sub u)) as (_ & _ & ->).
      destruct (classify_or (u_sub u')) as (_ & _ & ->). rewrite K. reflexivity.
  - unfold self_inverse. rewrite O. reflexivity.
Qed.

Lemma unary_same c o u u' :
  clang_unary c u -> clang_unary c u' ->
  same_function c (unary_function c o u) (unary_function c o u') ->
  unary_function c o u = unary_function c o u'.
Proof.
  intros W W' (N & P). cbn [mf_name unary_function] in N.
  pose proof N as E. rewrite !unary_function_name_key in E.
  apply unary_name_inj in E; [|eapply clang_unary_op; eauto ..].
  destruct E as (O & V & TK). apply pair_equal_spec in TK. destruct TK as (T & K).
  assert (X : e_lvalue (u_sub u) = e_lvalue (u_sub u') /\ u_ty u = u_ty u' /\
              u_lvalue u = u_lvalue u' /\
              unary_input_type c u = unary_input_type c u' /\
              unary_result_type c u = unary_result_type c u').
  { unfold unary_input_type, unary_result_type, input_type, cpp_type_modifiers,
      c_type_modifiers. unfold clang_unary in W, W'. rewrite <- O in W'.
    destruct (u_op u); try contradiction;
      repeat match goal with H : _ /\ _ |- _ => destruct H end;
      repeat match goal with
             | H : e_lvalue (u_sub ?x) = _ |- _ => rewrite H in *
             | H : u_lvalue ?x = _ |- _ => rewrite H in *
             | H : e_const (u_sub ?x) = _ |- _ => rewrite H in *
             | H : u_const ?x = _ |- _ => rewrite H in *
             | H : u_volatile ?x = _ |- _ => rewrite H in *
             | H : u_ty ?x = _ |- _ => rewrite H in *
             end; cbn [andb] in *; rewrite ?T, ?V, ?andb_false_r; auto. }
  destruct X as (L & UT & UL & I & R).
  assert (D : unary_delayed c u = unary_delayed c u').
  { destruct (cpp c) eqn:C.
    - specialize (P eq_refl). cbn [mf_params unary_function map fst] in P.
      rewrite I in P. inversion P as [P1]. eapply wrap_function_inj; eassumption.
    - unfold unary_delayed. rewrite C. reflexivity. }
  unfold unary_function. rewrite R, N, I, D.
  rewrite (unary_mutants_same (optimise o) u u'); auto. rewrite O. reflexivity.
Qed.

(** * Expressions *)

Inductive nconst := NConst | NClass (k : kconst).
Inductive vconst := VNone | VTrue | VFalse.
Record expr_key := {
  k_num : nconst; k_truth : vconst; k_operand : bool; k_true : bool; k_false : bool
}.
Definition num_word (n : nconst) : string :=
  match n with NConst => "_constant" | NClass k => class_word k end.
Definition truth_word (v : vconst) : string :=
  match v with VNone => "" | VTrue => "_true" | VFalse => "_false" end.
Definition expr_key_word (k : expr_key) : string :=
  num_word (k_num k) ++ truth_word (k_truth k)
  ++ (if k_operand k then "_before_logical_operator_argument" else "")
  ++ (if k_true k then "_omit_true" else "") ++ (if k_false k then "_omit_false" else "").

Definition all_nums : list nconst := NConst :: map NClass all_kconst.
Definition all_truths : list vconst := [VNone; VTrue; VFalse].
Definition all_bools : list bool := [true; false].
Definition all_expr_keys : list expr_key :=
  flat_map (fun n => flat_map (fun v => flat_map (fun a => flat_map (fun b => map (fun d =>
    Build_expr_key n v a b d) all_bools) all_bools) all_bools) all_truths) all_nums.
Lemma all_expr_keys_in k : In k all_expr_keys.
Proof.
  destruct k as [n v a b d]. unfold all_expr_keys.
  apply in_flat_map. exists n. split; [destruct n as [|[]]; simpl; tauto|].
  apply in_flat_map. exists v. split; [destruct v; simpl; tauto|].
  apply in_flat_map. exists a. split; [destruct a; simpl; tauto|].
  apply in_flat_map. exists b. split; [destruct b; simpl; tauto|].
  apply in_map_iff. exists d. split; [reflexivity|destruct d; simpl; tauto].
Qed.
Definition expr_key_eq_dec (a b : expr_key) : {a = b} + {a <> b}.
Proof. repeat decide equality. Defined.
Definition expr_key_eqb (a b : expr_key) : bool := if expr_key_eq_dec a b then true else false.
Lemma expr_key_eqb_eq a b : expr_key_eqb a b = true -> a = b.
Proof. unfold expr_key_eqb. destruct (expr_key_eq_dec a b); congruence. Qed.

Lemma expr_key_word_inj k k' : expr_key_word k = expr_key_word k' -> k = k'.
Proof.
  apply (table_inj_spec expr_key_eqb all_expr_keys expr_key_word);
    auto using expr_key_eqb_eq, all_expr_keys_in.
Qed.

(* Volatile l-values, other l-values, r-values *)
Definition place_word (c : ctx) (k : (bool * bool) * ty) : string :=
  (if fst (fst k) then "volatile_" else "") ++ written_type c (snd k)
  ++ (if snd (fst k) then "_lvalue" else "").
Definition all_places : list ((bool * bool) * ty) :=
  flat_map (fun t => flat_map (fun v => map (fun l => ((v, l), t)) all_bools) all_bools)
    all_types.
Lemma all_places_in k : In k all_places.
Proof.
  destruct k as [[v l] t]. unfold all_places.
  apply in_flat_map. exists t. split; [apply all_types_in|].
  apply in_flat_map. exists v. split; [destruct v; simpl; tauto|].
  apply in_map_iff. exists l. split; [reflexivity|destruct l; simpl; tauto].
Qed.
Definition place_eqb (a b : (bool * bool) * ty) : bool :=
  Bool.eqb (fst (fst a)) (fst (fst b)) && Bool.eqb (snd (fst a)) (snd (fst b)) &&
  ty_eqb (snd a) (snd b).
Lemma place_eqb_eq a b : place_eqb a b = true -> a = b.
Proof.
  destruct a as [[v l] t], b as [[v' l'] t']. unfold place_eqb; cbn [fst snd]. intros H.
  apply andb_prop in H. destruct H as (H & T). apply andb_prop in H. destruct H as (V & L).
  apply Bool.eqb_prop in V, L. apply ty_eqb_eq in T. congruence.
Qed.

Definition expr_name (c : ctx) (p : (bool * bool) * ty) (k : expr_key) : string :=
  "__dredd_replace_expr_" ++ (place_word c p ++ expr_key_word k).
Lemma places_free c :
  endings_free (map (place_word c) all_places) (map expr_key_word all_expr_keys) = true.
Proof.
  unfold place_word, written_type, ty_name. destruct (prints_bool c); vm_compute; reflexivity.
Qed.
Lemma expr_name_inj c p k p' k' : expr_name c p k = expr_name c p' k' -> p = p' /\ k = k'.
Proof.
  intros E. unfold expr_name in E. apply app_inv_l in E.
  destruct (endings_inj _ _ _ _ _ _ (places_free c)
              (in_map _ _ _ (all_places_in p)) (in_map _ _ _ (all_places_in p'))
              (in_map _ _ _ (all_expr_keys_in k)) (in_map _ _ _ (all_expr_keys_in k')) E)
    as (E1 & E2).
  split; [|apply expr_key_word_inj; exact E2]. revert E1.
  apply (table_inj_spec place_eqb all_places (place_word c));
    auto using place_eqb_eq, all_places_in.
  unfold place_word, written_type, ty_name. destruct (prints_bool c); vm_compute; reflexivity.
Qed.

Definition num_of (e : expr) : nconst :=
  if (is_integer (e_ty e) && negb (is_bool (e_ty e))) || is_float (e_ty e) then
    match classify e with
    | KNone => match e_int e with Some _ => NConst | None => NClass KNone end
    | k => NClass k
    end
  else NClass KNone.
Definition truth_of (e : expr) : vconst :=
  if is_bool (e_ty e) then
    match e_boolval e with Some true => VTrue | Some false => VFalse | None => VNone end
  else VNone.
Definition key_of (c : ctx) (e : expr) : expr_key :=
  {| k_num := num_of e; k_truth := truth_of e;
     k_operand := redundant_before_logical_operand c e;
     k_true := boolean_replacement_redundant c e true;
     k_false := boolean_replacement_redundant c e false |}.
Definition no_key : expr_key :=
  {| k_num := NClass KNone; k_truth := VNone; k_operand := false; k_true := false;
     k_false := false |}.

Lemma specifier_word c e : optimisation_specifier c e = expr_key_word (key_of c e).
Proof.
  unfold optimisation_specifier, expr_key_word, key_of, num_of, truth_of.
  cbn [k_num k_truth k_operand k_true k_false].
  destruct (classify_or e) as (-> & -> & ->).
  apply f_equal2; [|apply f_equal2; [|reflexivity]].
  - destruct (_ || _); [|reflexivity]. destruct (classify e); try reflexivity.
    destruct (e_int e); reflexivity.
  - unfold equivalent_to_bool. destruct (is_bool (e_ty e)); [|reflexivity].
    destruct (e_boolval e) as [[]|]; reflexivity.
Qed.

Definition place_of (e : expr) : (bool * bool) * ty :=
  ((e_lvalue e && e_volatile e, e_lvalue e), e_ty e).
Lemma expr_function_name_key c opt e :
  expr_function_name c opt e =
  expr_name c (place_of e) (if opt then key_of c e else no_key).
Proof.
  unfold expr_function_name, expr_name, place_word, place_of, written_type. cbn [fst snd].
  rewrite ?sapp_assoc. repeat (apply f_equal2; [reflexivity|]).
  destruct opt; [apply specifier_word|reflexivity].
Qed.

(* The conditions of the optimiser in terms of the key *)
Definition is_class (k : kconst) (n : nconst) : bool :=
  match n with NConst => false | NClass k' => kconst_eqb k k' end.

Lemma num_of_spec e : is_bool (e_ty e) = false ->
  (forall k z, In (k, z) [(KZero, 0); (KOne, 1); (KMinusOne, -1)]%Z ->
     equivalent_to_int e z = is_integer (e_ty e) && is_class k (num_of e) /\
     equivalent_to_float e z = is_float (e_ty e) && is_class k (num_of e)) /\
  (is_integer (e_ty e) = true ->
     match e_int e with Some _ => true | None => false end =
     negb (is_class KNone (num_of e))).
Proof.
  intros B. unfold num_of. rewrite B.
  assert (G : is_integer (e_ty e) && negb false || is_float (e_ty e) = true).
  { unfold is_integer. destruct (is_float (e_ty e)); reflexivity. }
  rewrite G. destruct (classify_or e) as (C0 & C1 & C2).
  assert (I : forall z, is_integer (e_ty e) = false -> equivalent_to_int e z = false)
    by (intros z H; unfold equivalent_to_int; rewrite H; reflexivity).
  assert (F : forall z, is_float (e_ty e) = false -> equivalent_to_float e z = false)
    by (intros z H; unfold equivalent_to_float; rewrite H; reflexivity).
  assert (CK : forall k, is_class k (match classify e with
              | KNone => match e_int e with Some _ => NConst | None => NClass KNone end
              | KZero => NClass KZero | KOne => NClass KOne | KMinusOne => NClass KMinusOne
              end) = kconst_eqb (classify e) k \/ k = KNone).
  { intros k. destruct k; auto; left; destruct (classify e); simpl; auto;
      destruct (e_int e); reflexivity. }
  split.
  - intros k z H.
    assert (E : equivalent_to_int e z || equivalent_to_float e z = kconst_eqb (classify e) k).
    { simpl in H. destruct H as [H|[H|[H|[]]]]; inversion H; subst; assumption. }
    destruct (CK k) as [-> | ->];
      [|simpl in H; destruct H as [H|[H|[H|[]]]]; inversion H].
    unfold is_integer in *. destruct (is_float (e_ty e)) eqn:FT; cbn [negb andb] in *.
    + rewrite (I z eq_refl) in *. auto.
    + rewrite (F z eq_refl) in *. rewrite orb_false_r in E. auto.
  - intros IT. destruct (classify e) eqn:CL.
    + destruct (e_int e); reflexivity.
    + rewrite F, orb_false_r in C0 by (unfold is_integer in IT; destruct (is_float (e_ty e)); auto).
      unfold equivalent_to_int in C0. destruct (e_int e); [reflexivity|].
      rewrite andb_false_r in C0. discriminate.
    + rewrite F, orb_false_r in C1 by (unfold is_integer in IT; destruct (is_float (e_ty e)); auto).
      unfold equivalent_to_int in C1. destruct (e_int e); [reflexivity|].
      rewrite andb_false_r in C1. discriminate.
    + rewrite F, orb_false_r in C2 by (unfold is_integer in IT; destruct (is_float (e_ty e)); auto).
      unfold equivalent_to_int in C2. destruct (e_int e); [reflexivity|].
      rewrite andb_false_r in C2. discriminate.
Qed.

Lemma before_binary_key c e :
  redundant_before_binary c e =
  boolean_replacement_redundant c e true || boolean_replacement_redundant c e false.
Proof.
  unfold redundant_before_binary, boolean_replacement_redundant.
  destruct (e_binop e) as [[]|]; try reflexivity; destruct (cpp c); reflexivity.
Qed.

Lemma expr_mutants_same c opt e e' :
  clang_expr e -> clang_expr e' ->
  e_ty e = e_ty e' -> e_lvalue e = e_lvalue e' ->
  (opt = true -> key_of c e = key_of c e') ->
  expr_mutants c opt e = expr_mutants c opt e'.
Proof.
  intros (B & M) (B' & M') T L K.
  unfold expr_mutants, lvalue_insertions, nonlvalue_insertions, constant_replacements.
  rewrite <- L in *. destruct (e_lvalue e) eqn:LV.
  { rewrite (M eq_refl), (M' eq_refl). reflexivity. }
  cbn [negb orb].
  unfold boolean_replacements, integer_replacements, float_replacements.
  rewrite <- T in *.
  destruct opt; [|reflexivity]. cbn [negb orb].
  specialize (K eq_refl). unfold key_of in K. inversion K as [[K1 K2 K3 K4 K5]].
  unfold redundant_insertion. rewrite !before_binary_key, K3, K4, K5.
  destruct (is_bool (e_ty e)) eqn:BT.
  - assert (TB : e_ty e = TBool) by (destruct (e_ty e); simpl in BT; congruence).
    unfold truth_of in K2. rewrite <- T, BT in K2. rewrite TB. cbn [is_bool is_integer is_float is_signed negb orb andb when].
    unfold equivalent_to_bool, redundant_lnot. rewrite <- T, BT. cbn [andb].
    assert (X : forall x, (e_ty x = TBool -> e_int x <> None -> e_boolval x <> None) ->
      e_ty x = TBool ->
      (if match e_boolval x with Some _ => true | None => false end then true
       else match e_int x with Some _ => true | None => false end) =
      match e_boolval x with Some _ => true | None => false end).
    { intros x HB HT. destruct (e_boolval x); [reflexivity|].
      destruct (e_int x); [|reflexivity]. exfalso. apply (HB HT); congruence. }
    rewrite (X e B TB), (X e' (fun _ => B' TB) (eq_trans (eq_sym T) TB)).
    destruct (e_boolval e) as [[]|], (e_boolval e') as [[]|]; try discriminate K2; reflexivity.
  - destruct (num_of_spec e BT) as (NE & NI).
    destruct (num_of_spec e') as (NE' & NI'); [rewrite <- T; exact BT|].
    rewrite <- T in NE', NI'. rewrite <- K1 in NE', NI'.
    unfold redundant_lnot, redundant_minus, redundant_not. rewrite <- T, BT. cbn [andb when orb].
    destruct (NE KZero 0%Z) as (-> & ->); [simpl; auto|].
    destruct (NE KOne 1%Z) as (-> & ->); [simpl; auto|].
    destruct (NE KMinusOne (-1)%Z) as (-> & ->); [simpl; auto|].
    destruct (NE' KZero 0%Z) as (-> & ->); [simpl; auto|].
    destruct (NE' KOne 1%Z) as (-> & ->); [simpl; auto|].
    destruct (NE' KMinusOne (-1)%Z) as (-> & ->); [simpl; auto|].
    destruct (is_integer (e_ty e)) eqn:IT; [|reflexivity].
    rewrite (NI eq_refl), (NI' eq_refl). reflexivity.
Qed.

Lemma expr_same c o e e' :
  clang_expr e -> clang_expr e' ->
  same_function c (expr_function c o e) (expr_function c o e') ->
  expr_function c o e = expr_function c o e'.
Proof.
  intros W W' (N & P). cbn [mf_name expr_function] in N.
  pose proof N as E. rewrite !expr_function_name_key in E. apply expr_name_inj in E.
  destruct E as (PL & K). unfold place_of in PL. inversion PL as [[V L T]].
  assert (I : input_type c e = input_type c e').
  { unfold input_type, cpp_type_modifiers, c_type_modifiers. rewrite T, <- L.
    destruct (e_lvalue e) eqn:LV; [|reflexivity].
    destruct W as (_ & M), W' as (_ & M'). rewrite <- L in *. cbn [andb] in V.
    specialize (M LV). specialize (M' eq_refl). unfold can_mutate_lvalue in M, M'.
    destruct (e_const e); [discriminate M|]. destruct (e_const e'); [discriminate M'|].
    rewrite V. reflexivity. }
  assert (D : cpp c && e_side_effects e = cpp c && e_side_effects e').
  { destruct (cpp c) eqn:C; [|reflexivity].
    specialize (P eq_refl). cbn [mf_params expr_function map fst] in P. rewrite C, I in P.
    cbn [andb] in *. inversion P as [P1]. eapply wrap_function_inj; eassumption. }
  assert (X : expr_mutants c (optimise o) e = expr_mutants c (optimise o) e').
  { apply expr_mutants_same; auto. intros O. rewrite O in K. exact K. }
  unfold expr_function. rewrite N, I, D, X, L, T. reflexivity.
Qed.

(** * All kinds *)

Lemma site_prefix c o m f : In f (site_functions c o m) ->
  exists s, mf_name f =
    match m with
    | MutExpr _ _ => "__dredd_replace_expr_"
    | MutBinary _ _ _ _ => "__dredd_replace_binary_operator_"
    | MutUnary _ _ _ => "__dredd_replace_unary_operator_"
    | MutStmt _ _ => ""
    end ++ s.
Proof.
  destruct m; cbn [site_functions].
  - intros [<-|[]]. eexists. reflexivity.
  - destruct (c_logical c b).
    + unfold c_logical_functions. destruct (negb (track o)); simpl;
        intros H; repeat match type of H with _ \/ _ => destruct H as [<-|H] end;
        try contradiction; cbn [mf_name c_logical_lhs_function c_logical_rhs_function
          c_logical_outer_function c_logical_fun]; unfold binary_function_name;
        rewrite sapp_assoc; eexists; reflexivity.
    + intros [<-|[]]. eexists. reflexivity.
  - intros [<-|[]]. eexists. reflexivity.
  - intros [].
Qed.

Lemma no_clash c o m m' f f' :
  clang_node c m -> clang_node c m' ->
  In f (site_functions c o m) -> In f' (site_functions c o m') ->
  same_function c f f' -> f = f'.
Proof.
  intros W W' H H' S. pose proof (proj1 S) as E.
  destruct (site_prefix _ _ _ _ H) as (s & Es). destruct (site_prefix _ _ _ _ H') as (s' & Es').
  rewrite Es, Es' in E.
  destruct m as [e|b|u|], m' as [e'|b'|u'|]; cbn [site_functions] in H, H';
    try contradiction; try (exfalso; discriminate E); cbn [clang_node] in W, W'.
  - destruct H as [<-|[]], H' as [<-|[]]. apply expr_same; auto.
  - destruct (c_logical c b) eqn:CL, (c_logical c b') eqn:CL'.
    + exact (c_logical_same _ _ _ _ _ _ W W' H H' (proj1 S)).
    + exfalso. destruct H' as [<-|[]].
      assert (X : exists n, n < 4 /\ n <> 0 /\
                 mf_name f = binary_function_name c (optimise o) b ++ tail_word n).
      { unfold c_logical_functions in H. destruct (negb (track o)); simpl in H;
          repeat match type of H with _ \/ _ => destruct H as [<-|H] end; try contradiction;
          first [exists 1; repeat split; auto with arith; discriminate
                |exists 2; repeat split; auto with arith; discriminate
                |exists 3; repeat split; auto with arith; discriminate]. }
      destruct X as (n & Hn & Hn0 & Nn). pose proof (proj1 S) as E'. rewrite Nn in E'.
      cbn [mf_name binary_function] in E'.
      destruct (same_name_same_binary c (optimise o) b b' n 0 W W') as (_ & Z); auto with arith.
      { rewrite E'. simpl. rewrite sapp_nil_r. reflexivity. }
    + exfalso. destruct H as [<-|[]].
      assert (X : exists n, n < 4 /\ n <> 0 /\
                 mf_name f' = binary_function_name c (optimise o) b' ++ tail_word n).
      { unfold c_logical_functions in H'. destruct (negb (track o)); simpl in H';
          repeat match type of H' with _ \/ _ => destruct H' as [<-|H'] end; try contradiction;
          first [exists 1; repeat split; auto with arith; discriminate
                |exists 2; repeat split; auto with arith; discriminate
                |exists 3; repeat split; auto with arith; discriminate]. }
      destruct X as (n & Hn & Hn0 & Nn). pose proof (proj1 S) as E'. rewrite Nn in E'.
      cbn [mf_name binary_function] in E'.
      destruct (same_name_same_binary c (optimise o) b' b n 0 W' W) as (_ & Z); auto with arith.
      { rewrite <- E'. simpl. rewrite sapp_nil_r. reflexivity. }
    + destruct H as [<-|[]], H' as [<-|[]]. apply binary_same; auto.
  - destruct H as [<-|[]], H' as [<-|[]]. apply unary_same; auto.
Qed.

Lemma choose_functions c o ms : (forall m, In m ms -> clang_node c m) -> forall l,
  NoDup l ->
  (forall d, In d l -> exists m g, In m ms /\ In g (site_functions c o m) /\ d = print_mfun g) ->
  exists F, map print_mfun F = l /\
    (forall g, In g F -> exists m, In m ms /\ In g (site_functions c o m)) /\
    ForallOrdPairs (fun f g => ~ same_function c f g) F.
Proof.
  intros W. induction l as [|d l IH]; intros N A.
  - exists []. repeat split; [intros g []|constructor].
  - inversion N; subst. destruct IH as (F & E & B & P); auto using in_cons.
    destruct (A d) as (m & g & Hm & Hg & Ed); [left; reflexivity|].
    exists (g :: F). repeat split.
    + cbn [map]. rewrite E, Ed. reflexivity.
    + intros g' [<-|H]; eauto.
    + constructor; [|exact P]. apply Forall_forall. intros g' H S.
      destruct (B g' H) as (m' & Hm' & Hg').
      assert (g = g') by (eapply (no_clash c o m m'); eauto).
      subst g'. apply H1. rewrite <- E, Ed. apply in_map. exact H.
Qed.

Lemma written_no_clash : forall o bt fs n t,
  (forall f, In f fs -> well_placed f) ->
  (forall f u m, In f fs -> f_unit f = Some u -> In m (post (ui_tree u)) ->
     clang_node (ui_ctx u) m) ->
  In (n, t) (rs_written (run o bt fs)) ->
  exists f u pre F suf,
    In f fs /\ f_name f = n /\ f_unit f = Some u /\
    (forall g, In g F -> exists m, In m (post (ui_tree u)) /\
                           In g (site_functions (ui_ctx u) o m)) /\
    (forall m g, In m (post (ui_tree u)) -> In g (site_functions (ui_ctx u) o m) ->
       In (print_mfun g) (map print_mfun F)) /\
    ForallOrdPairs (fun g h => ~ same_function (ui_ctx u) g h) F /\
    t = pre ++ concat_strings (map print_mfun F) ++ suf.
Proof.
  intros o bt fs n t P W H.
  destruct (written_text o bt fs n t P H) as (d1 & f & d2 & u & pre & l & suf & D & Nf & U &
    N & A & T).
  assert (Hf : In f fs).
  { assert (G : forall fs seen, In f (distinct seen fs) -> In f fs).
    { clear. induction fs as [|x fs IH]; intros seen Hin; simpl in *; [contradiction|].
      destruct (in_dec string_dec (f_name x) seen); [right; eauto|].
      destruct Hin as [<-|Hin]; [left; reflexivity|right; eauto]. }
    apply (G fs []). rewrite D. apply in_or_app. right. left. reflexivity. }
  destruct (choose_functions (ui_ctx u) o (post (ui_tree u)) (fun m => W f u m Hf U) l N
              (fun d => proj1 (A d))) as (F & E & B & Q).
  exists f, u, (pre ++ prelude_text (ui_ctx u) o (list_sum (map (offers o) d1)) (offers o f)),
    F, suf.
  repeat split; auto.
  - intros m g Hm Hg. rewrite E. apply A. eauto.
  - rewrite E, T, ?sapp_assoc. reflexivity.
Qed.
