(* Proofs about coverage runs (C18 - C20, C45). *)
From Coq Require Import String List Arith ZArith Bool Permutation Lia.
From Verif Require Import Base Clang Gen GenExpr GenBinary GenUnary GenStmt Mutation RunSpec
  Rewriter Prelude PreludeProof Tracking TrackingSpec.
Import ListNotations.

Section Process.
Variable initial num : nat -> nat.
Variable cpp tracking can_open : bool.
Variable sites : list call.
Hypothesis OK : sites_ok initial num sites.

Notation step := (tstep initial cpp tracking can_open).
Notation ids := (call_ids initial).

Lemma call_ids_spec c x : In x (ids c) <-> covers initial c x.
Proof.
  unfold call_ids, covers. rewrite in_map_iff. split.
  - intros (i & <- & I). apply in_seq in I. lia.
  - intros H. exists (x - (initial (c_file c) + c_local c)). rewrite in_seq. lia.
Qed.

Lemma call_ids_nodup c : NoDup (ids c).
Proof.
  unfold call_ids. apply FinFun.Injective_map_NoDup; [|apply seq_NoDup].
  intros x y. lia.
Qed.

Lemma same_slot c c' : In c sites -> In c' sites ->
  c_file c = c_file c' -> c_local c = c_local c' -> c = c'.
Proof.
  intros I I' F L. apply (sites_apart _ _ _ OK c c' (initial (c_file c) + c_local c));
    auto; unfold covers.
  - pose proof (sites_nonempty _ _ _ OK c I). lia.
  - pose proof (sites_nonempty _ _ _ OK c' I'). rewrite <- F, <- L. lia.
Qed.

Lemma update_nth_split {A} (f : A -> A) l x r :
  update_nth (List.length l) f (l ++ x :: r) = l ++ f x :: r.
Proof. induction l; simpl; congruence. Qed.

(* The element of the array for a site *)
Definition slot (r : nat -> list bool) (c : call) : option bool :=
  nth_error (r (c_file c)) (c_local c).

Record inv (p : tproc) : Prop := {
  inv_len : forall k, List.length (recorded p k) = num k;
  inv_calls : forall th c, In th (tthreads p) -> In c (todo th) -> In c sites;
  inv_bad : bad p = (bad p && (tracking && negb can_open && negb cpp))%bool
}.

Lemma set_recorded_length k l r k' :
  List.length (set_recorded k l r k') = List.length (r k').
Proof.
  unfold set_recorded. destruct (Nat.eqb k' k); [|reflexivity].
  generalize (r k'). intros m. revert l. induction m; intros [|l]; simpl; auto.
Qed.

Lemma slot_in_range p c : inv p -> In c sites -> exists b, slot (recorded p) c = Some b.
Proof.
  intros I C. unfold slot. destruct (nth_error _ _) eqn:E; eauto.
  apply nth_error_None in E. rewrite (inv_len p I) in E.
  pose proof (sites_fit _ _ _ OK c C). pose proof (sites_nonempty _ _ _ OK c C). lia.
Qed.

Lemma in_update {A} (f : A -> A) t l x y :
  nth_error l t = Some x -> In y (update_nth t f l) -> y = f x \/ In y l.
Proof.
  intros E. apply nth_error_split in E as (a & b & -> & <-).
  rewrite update_nth_split, !in_app_iff. cbn [In]. intuition.
Qed.

Lemma inv_step p t : inv p -> inv (step t p).
Proof.
  intros I. unfold tstep. destruct (nth_error (tthreads p) t) as [th|] eqn:T; [|exact I].
  assert (TH : In th (tthreads p)) by (eapply nth_error_In; eassumption).
  destruct (pending th) as [|x pend] eqn:P.
  - destruct (todo th) as [|c todo'] eqn:D; [exact I|].
    assert (C : In c sites) by (apply (inv_calls p I th c TH); rewrite D; left; reflexivity).
    destruct (slot_in_range p c I C) as (b & S). unfold slot in S. rewrite S.
    destruct b; split; cbn [recorded tthreads bad].
    + apply (inv_len p I).
    + intros th' c' H K. apply (in_update _ _ _ _ _ T) in H as [->|H].
      * apply (inv_calls p I th c' TH). rewrite D. right. exact K.
      * eapply (inv_calls p I); eassumption.
    + apply (inv_bad p I).
    + intros k. rewrite set_recorded_length. apply (inv_len p I).
    + intros th' c' H K. apply (in_update _ _ _ _ _ T) in H as [->|H].
      * apply (inv_calls p I th c' TH). rewrite D. right. exact K.
      * eapply (inv_calls p I); eassumption.
    + pose proof (inv_bad p I) as B. destruct (bad p), tracking, can_open, cpp; cbn in *;
        try discriminate; reflexivity.
  - split; cbn [recorded tthreads bad].
    + apply (inv_len p I).
    + intros th' c' H K. apply (in_update _ _ _ _ _ T) in H as [->|H].
      * apply (inv_calls p I th c' TH). exact K.
      * eapply (inv_calls p I); eassumption.
    + apply (inv_bad p I).
Qed.

Lemma inv_execute p l : inv p -> inv (texecute initial cpp tracking can_open l p).
Proof. revert p. induction l as [|t l IH]; intros p I; [exact I|]. apply IH, inv_step, I. Qed.

Lemma inv_start calls :
  (forall c, In c (concat calls) -> In c sites) -> inv (tstart num calls).
Proof.
  intros H. split; cbn [tstart recorded tthreads bad].
  - intros k. apply repeat_length.
  - intros th c I K. apply in_map_iff in I as (l & <- & I). apply H, in_concat. eauto.
  - reflexivity.
Qed.

(* C20: the array is never accessed out of bounds. *)
Definition in_bounds (p : tproc) (t : nat) : Prop :=
  forall th c l, nth_error (tthreads p) t = Some th -> pending th = [] -> todo th = c :: l ->
  c_local c < List.length (recorded p (c_file c)).

Lemma C20_lemma calls l t :
  (forall c, In c (concat calls) -> In c sites) ->
  in_bounds (texecute initial cpp tracking can_open l (tstart num calls)) t.
Proof.
  intros H th c l' T _ D. set (p := texecute _ _ _ _ _ _) in *.
  assert (I : inv p) by (apply inv_execute, inv_start, H).
  assert (C : In c sites).
  { apply (inv_calls p I th c); [eapply nth_error_In; eassumption|]. rewrite D. left. reflexivity. }
  rewrite (inv_len p I).
  pose proof (sites_fit _ _ _ OK c C). pose proof (sites_nonempty _ _ _ OK c C). lia.
Qed.

Lemma no_bad calls l :
  (forall c, In c (concat calls) -> In c sites) ->
  (tracking && negb can_open && negb cpp)%bool = false ->
  bad (texecute initial cpp tracking can_open l (tstart num calls)) = false.
Proof.
  intros H F. pose proof (inv_bad _ (inv_execute _ l (inv_start calls H))) as B.
  rewrite F, andb_false_r in B. exact B.
Qed.

(** * Exactness *)

Definition all_pending (p : tproc) : list nat := flat_map pending (tthreads p).

Record exact_inv (calls : list call) (p : tproc) : Prop := {
  ex_nodup : NoDup (out p ++ all_pending p);
  ex_in : forall x, In x (out p ++ all_pending p) <->
            exists c, In c sites /\ slot (recorded p) c = Some true /\ covers initial c x;
  ex_reached : forall c, In c sites -> slot (recorded p) c = Some true -> In c calls;
  ex_todo : forall c, In c calls -> slot (recorded p) c = Some true \/
              exists th, In th (tthreads p) /\ In c (todo th);
  ex_sub : forall th c, In th (tthreads p) -> In c (todo th) -> In c calls
}.

Lemma slot_set p c c' : In c sites -> In c' sites -> slot (recorded p) c = Some false ->
  slot (set_recorded (c_file c) (c_local c) (recorded p)) c' = Some true <->
  c' = c \/ slot (recorded p) c' = Some true.
Proof.
  intros I I' S. unfold slot, set_recorded in *.
  destruct (Nat.eqb_spec (c_file c') (c_file c)) as [F|F].
  - rewrite nth_error_update_nth.
    destruct (Nat.eqb_spec (c_local c) (c_local c')) as [L|L].
    + assert (c = c') by (apply same_slot; auto). subst c'. rewrite S. cbn. tauto.
    + split; [auto|]. intros [->|H]; [congruence|exact H].
  - split; [auto|]. intros [->|H]; [congruence|exact H].
Qed.

Lemma todo_step {th th'} (c : call) a b todo' :
  todo th = c :: todo' -> todo th' = todo' ->
  forall c', (exists x, In x (a ++ th :: b) /\ In c' (todo x)) ->
             c' = c \/ exists x, In x (a ++ th' :: b) /\ In c' (todo x).
Proof.
  intros D D' c' (x & X & C'). apply in_app_iff in X as [X|[<-|X]].
  - right. exists x. split; [apply in_app_iff; auto|exact C'].
  - rewrite D in C'. destruct C' as [<-|C']; [auto|].
    right. exists th'. split; [apply in_app_iff; right; left; reflexivity|]. rewrite D'. exact C'.
  - right. exists x. split; [apply in_app_iff; right; right; exact X|exact C'].
Qed.

Lemma exact_step calls p t :
  (forall c, In c calls -> In c sites) ->
  tracking = true -> can_open = true ->
  inv p -> exact_inv calls p -> exact_inv calls (step t p).
Proof.
  intros SUB TR CO I E. unfold tstep. destruct (nth_error (tthreads p) t) as [th|] eqn:T; [|exact E].
  assert (TH : In th (tthreads p)) by (eapply nth_error_In; eassumption).
  pose proof (nth_error_split _ _ T) as (a & b & S & L).
  destruct (pending th) as [|x pend] eqn:P.
  - destruct (todo th) as [|c todo'] eqn:D; [exact E|].
    assert (C : In c sites) by (apply (inv_calls p I th c TH); rewrite D; left; reflexivity).
    assert (CC : In c calls) by (apply (ex_sub _ _ E th c TH); rewrite D; left; reflexivity).
    destruct (slot_in_range p c I C) as (bb & SL). pose proof SL as SL'. unfold slot in SL'.
    rewrite SL'. destruct bb.
    + (* recorded before *)
      assert (PE : forall th', pending th' = [] ->
                flat_map pending (update_nth t (fun _ => th') (tthreads p)) = all_pending p).
      { intros th' P'. unfold all_pending. rewrite S, <- L, update_nth_split, !flat_map_app.
        cbn [flat_map]. rewrite P, P'. reflexivity. }
      split; unfold all_pending; cbn [out recorded tthreads]; try rewrite PE by reflexivity.
      * apply (ex_nodup _ _ E).
      * apply (ex_in _ _ E).
      * apply (ex_reached _ _ E).
      * intros c' C'. destruct (ex_todo _ _ E c' C') as [Q|Q]; [auto|].
        rewrite S in Q. rewrite S, <- L, update_nth_split.
        apply (todo_step (th' := {| pending := []; todo := todo' |}) c a b todo' D eq_refl) in Q
          as [->|Q]; auto.
      * intros th' c' H K. apply (in_update _ _ _ _ _ T) in H as [->|H].
        -- apply (ex_sub _ _ E th c' TH). rewrite D. right. exact K.
        -- eapply (ex_sub _ _ E); eassumption.
    + (* first time *)
      rewrite TR, CO. cbn [andb].
      assert (PE : Permutation
                (flat_map pending (update_nth t (fun _ =>
                   {| pending := ids c; todo := todo' |}) (tthreads p)))
                (ids c ++ all_pending p)).
      { unfold all_pending. rewrite S, <- L, update_nth_split, !flat_map_app.
        cbn [flat_map pending]. rewrite P. cbn [app]. apply Permutation_app_swap_app. }
      assert (PE2 : Permutation (out p ++ flat_map pending (update_nth t (fun _ =>
                   {| pending := ids c; todo := todo' |}) (tthreads p)))
                (ids c ++ (out p ++ all_pending p))).
      { rewrite PE. apply Permutation_app_swap_app. }
      assert (FRESH : forall x, In x (ids c) -> ~ In x (out p ++ all_pending p)).
      { intros x X Y. apply (ex_in _ _ E) in Y as (c' & C' & R' & V').
        apply call_ids_spec in X. assert (c = c') by (eapply (sites_apart _ _ _ OK); eassumption).
        subst c'. congruence. }
      split; unfold all_pending; cbn [out recorded tthreads].
      * eapply Permutation_NoDup; [symmetry; exact PE2|].
        clear PE PE2. pose proof (call_ids_nodup c) as N1. pose proof (ex_nodup _ _ E) as N2.
        revert FRESH N1. generalize (ids c). intros l F. induction l as [|y l IH]; [auto|].
        intros N1. inversion N1; subst. cbn [app]. constructor.
        -- rewrite in_app_iff. intros [Y|Y]; [auto|]. apply (F y); [left; reflexivity|exact Y].
        -- apply IH; [|assumption]. intros x X. apply F. right. exact X.
      * intros x. split.
        -- intros X. apply (Permutation_in _ PE2), in_app_iff in X as [X|X].
           ++ exists c. split; [exact C|]. split; [|apply call_ids_spec; exact X].
              apply slot_set; auto.
           ++ apply (ex_in _ _ E) in X as (c' & C' & R' & V'). exists c'. split; [exact C'|].
              split; [|exact V']. apply slot_set; auto.
        -- intros (c' & C' & R' & V'). apply (Permutation_in _ (Permutation_sym PE2)), in_app_iff.
           apply slot_set in R' as [->|R']; auto.
           ++ left. apply call_ids_spec. exact V'.
           ++ right. apply (ex_in _ _ E). eauto.
      * intros c' C' R'. apply slot_set in R' as [->|R']; auto. apply (ex_reached _ _ E); auto.
      * intros c' C'. destruct (ex_todo _ _ E c' C') as [Q|Q].
        -- left. apply slot_set; auto.
        -- rewrite S in Q. rewrite S, <- L, update_nth_split.
           apply (todo_step (th' := {| pending := ids c; todo := todo' |}) c a b todo' D eq_refl)
             in Q as [->|Q]; [|auto].
           left. apply slot_set; auto.
      * intros th' c' H K. apply (in_update _ _ _ _ _ T) in H as [->|H].
        -- apply (ex_sub _ _ E th c' TH). rewrite D. right. exact K.
        -- eapply (ex_sub _ _ E); eassumption.
  - (* a line is written *)
    assert (PE : Permutation
              ((out p ++ [x]) ++ flat_map pending (update_nth t (fun _ =>
                 {| pending := pend; todo := todo th |}) (tthreads p)))
              (out p ++ all_pending p)).
    { unfold all_pending. rewrite S, <- L, update_nth_split, !flat_map_app.
      cbn [flat_map pending]. rewrite P. rewrite <- app_assoc. apply Permutation_app_head.
      cbn [app]. apply Permutation_middle. }
    split; unfold all_pending; cbn [out recorded tthreads].
    + eapply Permutation_NoDup; [symmetry; exact PE|]. apply (ex_nodup _ _ E).
    + intros y. rewrite <- (ex_in _ _ E). split; apply Permutation_in; [|symmetry]; exact PE.
    + apply (ex_reached _ _ E).
    + intros c' C'. destruct (ex_todo _ _ E c' C') as [Q|(th' & Q & Q')]; [auto|]. right.
      rewrite S in Q. rewrite S, <- L, update_nth_split.
      apply in_app_iff in Q as [Q|[<-|Q]].
      * exists th'. split; [apply in_app_iff; auto|exact Q'].
      * eexists. split; [apply in_app_iff; right; left; reflexivity|exact Q'].
      * exists th'. split; [apply in_app_iff; right; right; exact Q|exact Q'].
    + intros th' c' H K. apply (in_update _ _ _ _ _ T) in H as [->|H].
      * apply (ex_sub _ _ E th c' TH). exact K.
      * eapply (ex_sub _ _ E); eassumption.
Qed.

Lemma exact_start calls :
  (forall c, In c (concat calls) -> In c sites) ->
  exact_inv (concat calls) (tstart num calls).
Proof.
  intros H.
  assert (Z : forall c b, slot (recorded (tstart num calls)) c = Some b -> b = false).
  { intros c b S. unfold slot in S. cbn in S. apply nth_error_In, repeat_spec in S. exact S. }
  assert (N : all_pending (tstart num calls) = []).
  { unfold all_pending. cbn. clear. induction calls; simpl; auto. }
  split.
  - rewrite N. constructor.
  - intros x. rewrite N. cbn. split; [tauto|]. intros (c & _ & R & _). apply Z in R. discriminate.
  - intros c _ R. apply Z in R. discriminate.
  - intros c C. right. apply in_concat in C as (l & L & C).
    exists {| pending := []; todo := l |}. split; [|exact C].
    cbn. apply in_map_iff. eauto.
  - intros th c T C. cbn in T. apply in_map_iff in T as (l & <- & L). apply in_concat. eauto.
Qed.

Lemma exact_execute calls l p :
  (forall c, In c calls -> In c sites) -> tracking = true -> can_open = true ->
  inv p -> exact_inv calls p ->
  exact_inv calls (texecute initial cpp tracking can_open l p).
Proof.
  intros SUB TR CO. revert p. induction l as [|t l IH]; intros p I E; [exact E|].
  apply IH; [apply inv_step; exact I|apply exact_step; assumption].
Qed.

Lemma C19_lemma calls l :
  (forall c, In c (concat calls) -> In c sites) -> tracking = true -> can_open = true ->
  let p := texecute initial cpp tracking can_open l (tstart num calls) in
  bad p = false /\ NoDup (out p) /\
  (forall x, In x (out p) -> exists c, In c (concat calls) /\ covers initial c x) /\
  (finished p -> forall c x, In c (concat calls) -> covers initial c x -> In x (out p)).
Proof.
  intros SUB TR CO p.
  assert (E : exact_inv (concat calls) p).
  { apply exact_execute; auto using inv_start, exact_start. }
  split; [|split; [|split]].
  - apply no_bad; [exact SUB|]. rewrite CO, andb_false_r. reflexivity.
  - pose proof (ex_nodup _ _ E) as N. clear - N.
    induction (out p) as [|x o IH]; [constructor|]. cbn [app] in N.
    apply NoDup_cons_iff in N as [N1 N2].
    constructor; auto. intros X. apply N1, in_app_iff. auto.
  - intros x X. destruct (proj1 (ex_in _ _ E x)) as (c & C & R & V);
      [apply in_app_iff; auto|]. exists c. split; [|exact V]. apply (ex_reached _ _ E); auto.
  - intros F c x C V.
    assert (R : slot (recorded p) c = Some true).
    { destruct (ex_todo _ _ E c C) as [R|(th & T & D)]; [exact R|].
      unfold finished in F. rewrite Forall_forall in F. destruct (F th T) as [_ Z].
      rewrite Z in D. destruct D. }
    assert (X : In x (out p ++ all_pending p)) by (apply (ex_in _ _ E); eauto).
    apply in_app_iff in X as [X|X]; [exact X|]. exfalso.
    unfold all_pending in X. apply in_flat_map in X as (th & T & X).
    unfold finished in F. rewrite Forall_forall in F. destruct (F th T) as [Z _].
    rewrite Z in X. destruct X.
Qed.

Lemma C45_cpp_lemma calls l :
  (forall c, In c (concat calls) -> In c sites) -> cpp = true \/ can_open = true ->
  bad (texecute initial cpp tracking can_open l (tstart num calls)) = false.
Proof.
  intros SUB H. apply no_bad; [exact SUB|].
  destruct H as [-> | ->]; cbn [negb]; rewrite ?andb_false_r; reflexivity.
Qed.
End Process.

(** * The sites of a program *)

Lemma layout_bounds c opt k ms local x :
  In x (layout c opt k local ms) ->
  c_file x = k /\ local <= c_local x /\
  c_local x + c_num x <= local + list_sum (map (mutant_count c opt) ms) /\
  exists m, In m ms /\ c_num x = mutant_count c opt m.
Proof.
  revert local. induction ms as [|m ms IH]; intros local; [intros []|].
  cbn [layout map]. cbn [list_sum fold_right]. intros [<-|X].
  - cbn [c_file c_local c_num]. repeat split; [lia|unfold list_sum; lia|]. exists m. cbn. auto.
  - apply IH in X as (F & L & B & m' & M & N). unfold list_sum in *.
    repeat split; [exact F|lia|lia|]. exists m'. cbn. auto.
Qed.

Lemma layout_apart c opt k ms local x y z :
  In x (layout c opt k local ms) -> In y (layout c opt k local ms) ->
  c_local x <= z < c_local x + c_num x -> c_local y <= z < c_local y + c_num y -> x = y.
Proof.
  revert local. induction ms as [|m ms IH]; intros local; [intros []|].
  cbn [layout]. intros [<-|X] [<-|Y] Hx Hy; auto.
  - apply layout_bounds in Y. cbn [c_local c_num] in *. lia.
  - apply layout_bounds in X. cbn [c_local c_num] in *. lia.
  - eapply IH; eassumption.
Qed.

Lemma program_sites_in opt files k x :
  In x (program_sites opt k files) ->
  exists i f, nth_error files i = Some f /\ c_file x = k + i /\
    In x (layout (fst f) opt (k + i) 0 (snd f)).
Proof.
  revert k. induction files as [|[c ms] files IH]; intros k; [intros []|].
  cbn [program_sites]. rewrite in_app_iff. intros [X|X].
  - exists 0, (c, ms). pose proof (layout_bounds _ _ _ _ _ _ X) as [F _].
    rewrite Nat.add_0_r. auto.
  - apply IH in X as (i & f & N & F & L). exists (S i), f.
    replace (k + S i) with (S k + i) by lia. auto.
Qed.

Lemma initial_step opt files i f :
  nth_error files i = Some f ->
  file_initial opt files (S i) = file_initial opt files i + file_size opt f.
Proof.
  unfold file_initial. revert files. induction i as [|i IH]; intros [|g files] N; try discriminate.
  - inversion N; subst. cbn. lia.
  - cbn [nth_error] in N. specialize (IH files N). cbn [firstn map list_sum fold_right] in *.
    unfold list_sum in *. cbn [firstn map fold_right] in *. lia.
Qed.

Lemma initial_mono opt files i j :
  i <= j -> file_initial opt files i <= file_initial opt files j.
Proof.
  intros H. unfold file_initial.
  rewrite <- (firstn_skipn i (firstn j files)), firstn_firstn, Nat.min_l by exact H.
  rewrite map_app, list_sum_app. lia.
Qed.

Lemma program_sites_ok opt files :
  Forall (fun f => Forall (fun m => 0 < mutant_count (fst f) opt m) (snd f)) files ->
  sites_ok (file_initial opt files) (file_num opt files) (program_sites opt 0 files).
Proof.
  intros P. split.
  - intros x X. apply program_sites_in in X as (i & f & N & F & L). cbn [Nat.add] in *.
    apply layout_bounds in L as (_ & _ & B & _). rewrite F. unfold file_num. rewrite N.
    exact B.
  - intros x X. apply program_sites_in in X as (i & f & N & F & L).
    apply layout_bounds in L as (_ & _ & _ & m & M & ->).
    rewrite Forall_forall in P. specialize (P f (nth_error_In _ _ N)).
    rewrite Forall_forall in P. auto.
  - intros x y z X Y CX CY.
    apply program_sites_in in X as (i & f & N & F & L).
    apply program_sites_in in Y as (j & g & N' & F' & L'). cbn [Nat.add] in *.
    unfold covers in *. rewrite F in CX. rewrite F' in CY.
    pose proof (layout_bounds _ _ _ _ _ _ L) as (_ & _ & B & _).
    pose proof (layout_bounds _ _ _ _ _ _ L') as (_ & _ & B' & _).
    pose proof (initial_step opt files i f N) as SI.
    pose proof (initial_step opt files j g N') as SJ. unfold file_size in *.
    destruct (lt_eq_lt_dec i j) as [[H|H]|H].
    + pose proof (initial_mono opt files (S i) j H). lia.
    + rewrite <- H in *. rewrite N in N'. inversion N'; subst g.
      eapply (layout_apart _ _ _ _ _ x y (z - file_initial opt files i) L L'); lia.
    + pose proof (initial_mono opt files (S j) i H). lia.
Qed.

(** * The sites in the generated code *)
From Verif Require Import GenSpec GenProof MutTree TreeSpec Run RunProof RewriterProof RunTest.

Lemma C18_sites_lemma c o m first id :
  track o = true ->
  let a := apply_mutation c o m first id in
  match m with
  | MutStmt s _ =>
      a_edits a = [InsertBefore (r_begin (s_range s))
                     ("__dredd_record_covered_mutants(" ++ string_of_nat (id - first)
                      ++ ", 1); ")%string]
  | _ => exists f, a_decls a = [print_mfun f] /\ mf_track f = Some (mutant_count c (optimise o) m)
                   /\ calls (a_edits a) (mf_name f) (id - first)
  end.
Proof.
  intros T. destruct m as [e i|b i il ir|u i is|s i];
    cbn [apply_mutation a_edits a_decls mutant_count].
  - exists (expr_function c o e). split; [reflexivity|]. split; [|apply calls_expr].
    cbn. rewrite T. reflexivity.
  - unfold binary_actions. destruct (c_logical c b) eqn:L.
    + exists (c_logical_outer_function c o b).
      unfold c_logical_functions, c_logical_edits. rewrite T. cbn [negb when app map].
      split; [reflexivity|]. split.
      * unfold c_logical_outer_function. rewrite T. reflexivity.
      * unfold c_logical_outer_function, c_logical_fun. cbn [mf_name]. split.
        -- exists (r_begin (b_range b)), ""%string, ""%string. left. f_equal.
           cbn [append]. rewrite sapp_assoc. reflexivity.
        -- exists (r_end (b_range b)), ""%string, ""%string,
             [InsertBefore (r_begin (b_range b))
                (binary_function_name c (optimise o) b ++ "_outer(")%string].
           split; [|auto]. cbn [app append]. reflexivity.
    + exists (binary_function c o b). split; [reflexivity|]. split; [|apply calls_binary].
      cbn. rewrite T, map_length. reflexivity.
  - exists (unary_function c o u). split; [reflexivity|]. split; [|apply calls_unary].
    cbn. rewrite T. reflexivity.
  - unfold stmt_edits, stmt_open. rewrite T. reflexivity.
Qed.

(* The local ids that the sites of a file are given are those of its layout. *)
Lemma edits_layout c o first ms id k :
  first <= id ->
  edits_from c o first id ms =
  concat (map (fun x => a_edits (apply_mutation c o (fst x) first (first + c_local (snd x))))
            (combine ms (layout c (optimise o) k (id - first) ms))).
Proof.
  revert id. induction ms as [|m ms IH]; intros id H; [reflexivity|].
  cbn [edits_from layout combine map concat fst snd c_local].
  replace (first + (id - first)) with id by lia. f_equal.
  rewrite (IH (id + mutant_count c (optimise o) m)) by lia.
  replace (id + mutant_count c (optimise o) m - first)
    with (id - first + mutant_count c (optimise o) m) by lia. reflexivity.
Qed.

Lemma C18_layout_lemma c o bt first t k :
  st_edits (apply_mutations c o bt first t) =
  concat (map (fun x => a_edits (apply_mutation c o (fst x) first (first + c_local (snd x))))
            (combine (post t) (layout c (optimise o) k 0 (post t)))).
Proof.
  rewrite (proj1 (apply_mutations_effects c o bt first t)).
  rewrite (edits_layout c o first (post t) first k) by lia.
  rewrite Nat.sub_diag. reflexivity.
Qed.

(** * Refutations: a site without mutants *)

(* The C++ expression  2 != 1  *)
Definition cpp_ctx : ctx :=
  {| cpp := true; prints_bool := true; char_signed := true; wchar_signed := true |}.
Definition e_two_ne : expr := mk_expr false (Some 2%Z) None None None 0 1.
Definition e_one_ne : expr := mk_expr false (Some 1%Z) None None None 5 6.
Definition e_ne : expr :=
  {| e_ty := TBool; e_lvalue := false; e_volatile := false; e_const := false;
     e_bitfield := false; e_side_effects := false; e_int := Some 1%Z; e_float := None;
     e_boolval := Some true; e_cxx11_constant := true; e_binop := Some NE;
     e_logical_operand := false; e_cast_parent_lvalue := None; e_init_list_cast := None;
     e_preceded_by_ident := false; e_range := {| r_begin := 0; r_end := 6 |} |}.
Definition b_ne : binary :=
  {| b_op := NE; b_ty := TBool; b_lhs := e_two_ne; b_rhs := e_one_ne; b_op_offset := 2;
     b_range := e_range e_ne |}.
Definition i_ne := mk_info 1 1 1 7 "2 != 1".

(* bool b = 2 != 1; *)
Definition decl_file : ctx * list mutation :=
  (cpp_ctx, [MutBinary b_ne i_ne i_ne i_ne; MutExpr e_ne i_ne]).
(* the same followed by a removable statement *)
Definition decl_stmt_file : ctx * list mutation :=
  (cpp_ctx, [MutBinary b_ne i_ne i_ne i_ne; MutExpr e_ne i_ne;
             MutStmt s_return i_ne]).

Lemma C20_refuted_lemma :
  exists files calls schedule,
    Forall (fun f => Forall plausible (snd f)) files /\
    concat calls = program_sites true 0 files /\
    bad (texecute (file_initial true files) true true true schedule
           (tstart (file_num true files) calls)) = true.
Proof.
  exists [decl_file], [program_sites true 0 [decl_file]], (repeat 0 20).
  split; [|split].
  - repeat constructor; cbn; discriminate.
  - cbn [concat]. apply app_nil_r.
  - vm_compute. reflexivity.
Qed.

Lemma C18_refuted_lemma :
  exists files calls schedule c x,
    Forall (fun f => Forall plausible (snd f)) files /\
    concat calls = program_sites true 0 files /\
    let p := texecute (file_initial true files) true true true schedule
               (tstart (file_num true files) calls) in
    finished p /\ bad p = false /\
    In c (concat calls) /\ covers (file_initial true files) c x /\ ~ In x (out p).
Proof.
  exists [decl_stmt_file], [program_sites true 0 [decl_stmt_file]], (repeat 0 20).
  exists {| c_file := 0; c_local := mutant_count cpp_ctx true (MutBinary b_ne i_ne i_ne i_ne);
            c_num := 1 |},
    (mutant_count cpp_ctx true (MutBinary b_ne i_ne i_ne i_ne)).
  split; [|split].
  - repeat constructor; cbn; discriminate.
  - cbn [concat]. apply app_nil_r.
  - cbn zeta. split; [|split; [|split; [|split]]].
    + vm_compute. repeat constructor.
    + vm_compute. reflexivity.
    + vm_compute. auto.
    + vm_compute. split; repeat constructor.
    + vm_compute. intuition discriminate.
Qed.

Lemma C45_refuted_lemma :
  exists files calls schedule,
    Forall (fun f => Forall (fun m => 0 < mutant_count (fst f) true m) (snd f)) files /\
    concat calls = program_sites true 0 files /\
    bad (texecute (file_initial true files) false true false schedule
           (tstart (file_num true files) calls)) = true.
Proof.
  exists [(c_ctx, [MutExpr e_one i_ne])], [program_sites true 0 [(c_ctx, [MutExpr e_one i_ne])]], [0].
  split; [|split].
  - repeat constructor.
  - reflexivity.
  - vm_compute. reflexivity.
Qed.

Lemma noopt_sites_ok files :
  Forall (fun f => Forall plausible (snd f)) files ->
  sites_ok (file_initial false files) (file_num false files) (program_sites false 0 files).
Proof.
  intros P. apply program_sites_ok. eapply Forall_impl; [|exact P]. intros f F.
  eapply Forall_impl; [|exact F]. intros m. apply C21_lemma.
Qed.
