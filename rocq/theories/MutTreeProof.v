(* Facts about the mutation tree functions. *)
From Coq Require Import List Bool.
From Verif Require Import MutTree TreeSpec.
Import ListNotations.

Section TreeInd.
  Context {M : Type} (P : tree M -> Prop).
  Hypothesis H : forall ms ks, Forall P ks -> P (Node ms ks).
  Fixpoint tree_ind' (t : tree M) : P t :=
    match t with
    | Node ms ks =>
        H ms ks ((fix go ks : Forall P ks :=
                    match ks with
                    | [] => Forall_nil _
                    | k :: ks => Forall_cons k (tree_ind' k) (go ks)
                    end) ks)
    end.
End TreeInd.

Section Proofs.
Context {M : Type}.
Implicit Types (t k : tree M) (ms : list M) (ks : list (tree M)).

Definition prune_all (ks : list (tree M)) : list (tree M) :=
  map prune (filter (fun k => negb (is_empty k)) ks).

Lemma prune_node ms ks : prune (Node ms ks) = Node ms (prune_all ks).
Proof.
  unfold prune_all. simpl. f_equal.
  induction ks as [|k ks IH]; simpl; [reflexivity|].
  destruct (is_empty k); simpl; [|f_equal]; exact IH.
Qed.

Lemma is_empty_node ms ks :
  is_empty (Node ms ks) = (match ms with [] => true | _ => false end) && forallb is_empty ks.
Proof. destruct ms; reflexivity. Qed.

Lemma empty_entries t anc : is_empty t = true -> entries anc t = [].
Proof.
  revert anc. induction t as [ms ks IH] using tree_ind'. intros anc H.
  destruct ms; [|discriminate]. simpl in *. rewrite app_nil_r, app_nil_r.
  rewrite forallb_forall in H.
  induction IH; simpl; [reflexivity|].
  rewrite H0 by (apply H; left; reflexivity). simpl. apply IHIH.
  intros; apply H; right; assumption.
Qed.

Lemma empty_has t : is_empty t = false <-> has_mutation t.
Proof.
  induction t as [ms ks IH] using tree_ind'. rewrite is_empty_node. split.
  - destruct ms as [|m ms]; simpl; [|intros; apply has_here].
    intros H. rewrite Forall_forall in IH.
    assert (exists k, In k ks /\ is_empty k = false) as (k & Hk & He).
    { clear IH. induction ks as [|k ks IHk]; [discriminate|]. simpl in H.
      destruct (is_empty k) eqn:E.
      - destruct (IHk H) as (k' & ? & ?). exists k'. simpl; auto.
      - exists k; simpl; auto. }
    eapply has_child; [exact Hk|]. apply IH; assumption.
  - intros H. inversion H; subst; [reflexivity|].
    destruct ms; [|reflexivity]. simpl. rewrite Forall_forall in IH.
    apply not_true_is_false. intros C. rewrite forallb_forall in C.
    specialize (C _ H2). apply IH in H3; congruence.
Qed.

Lemma prune_entries t : forall anc, entries anc (prune t) = entries anc t.
Proof.
  induction t as [ms ks IH] using tree_ind'. intros anc. rewrite prune_node. simpl.
  f_equal. unfold prune_all.
  induction IH as [|k ks Hk _ IHks]; simpl; [reflexivity|].
  destruct (is_empty k) eqn:E; simpl.
  - rewrite (empty_entries k) by assumption. exact IHks.
  - rewrite Hk. f_equal. exact IHks.
Qed.

Lemma compress_node ms ks :
  compress (Node ms ks) =
  match ms, ks with
  | [], [k] => compress k
  | _, _ => Node ms (map compress ks)
  end.
Proof. destruct ms; [destruct ks as [|k [|]]|]; reflexivity. Qed.

Lemma compress_entries t : forall anc, entries anc (compress t) = entries anc t.
Proof.
  induction t as [ms ks IH] using tree_ind'. intros anc. rewrite compress_node.
  assert (G : forall anc, entries anc (Node ms (map compress ks)) = entries anc (Node ms ks)).
  { clear anc. intros anc. simpl. f_equal.
    induction IH as [|k ks Hk _ IHks]; simpl; [reflexivity|]. rewrite Hk. f_equal. exact IHks. }
  destruct ms as [|m ms]; [destruct ks as [|k [|k' ks]]|]; try apply G.
  inversion IH; subst. simpl. rewrite H1. rewrite !app_nil_r. reflexivity.
Qed.

Lemma tidy_entries t anc : entries anc (tidy t) = entries anc t.
Proof. unfold tidy. rewrite compress_entries. apply prune_entries. Qed.

(* No proper subtree is empty *)
Definition full_kids t : Prop :=
  forall s, subtree s t -> forall k, In k (children s) -> has_mutation k.

Lemma has_prune t : has_mutation t -> has_mutation (prune t).
Proof.
  induction t as [ms ks IH] using tree_ind'. intros H. rewrite prune_node.
  inversion H; subst; [apply has_here|].
  apply has_child with (k := prune k).
  - unfold prune_all. apply in_map, filter_In. split; [assumption|].
    apply empty_has in H3. rewrite H3; reflexivity.
  - rewrite Forall_forall in IH. auto.
Qed.

Lemma prune_full t : full_kids (prune t).
Proof.
  induction t as [ms ks IH] using tree_ind'. intros s Hs k Hk.
  rewrite prune_node in Hs. inversion Hs; subst.
  - simpl in Hk. unfold prune_all in Hk. rewrite in_map_iff in Hk.
    destruct Hk as (k0 & <- & Hk). apply filter_In in Hk. destruct Hk as (_ & Hk).
    apply has_prune, empty_has. destruct (is_empty k0); [discriminate|reflexivity].
  - unfold prune_all in H2. rewrite in_map_iff in H2. destruct H2 as (k1 & <- & Hi).
    apply filter_In in Hi. rewrite Forall_forall in IH. destruct Hi.
    eapply IH; eassumption.
Qed.

Lemma has_compress t : has_mutation t -> has_mutation (compress t).
Proof.
  induction t as [ms ks IH] using tree_ind'. intros H. rewrite compress_node.
  rewrite Forall_forall in IH.
  assert (G : has_mutation (Node ms (map compress ks))).
  { inversion H; subst; [apply has_here|].
    eapply has_child; [apply in_map; eassumption|]. apply IH; assumption. }
  destruct ms as [|m ms]; [destruct ks as [|k [|k' ks]]|]; try exact G.
  inversion H; subst. simpl in H2. destruct H2 as [<-|[]]. apply IH; simpl; auto.
Qed.

Lemma full_child ms ks k : full_kids (Node ms ks) -> In k ks -> full_kids k.
Proof. intros H Hk s Hs. apply H. eapply sub_child; eassumption. Qed.

Lemma compress_full t : full_kids t -> full_kids (compress t).
Proof.
  induction t as [ms ks IH] using tree_ind'. intros F. rewrite compress_node.
  rewrite Forall_forall in IH.
  assert (G : full_kids (Node ms (map compress ks))).
  { intros s Hs k Hk. inversion Hs; subst.
    - simpl in Hk. rewrite in_map_iff in Hk. destruct Hk as (k0 & <- & Hk).
      apply has_compress. apply (F _ (sub_here _)). exact Hk.
    - rewrite in_map_iff in H2. destruct H2 as (k1 & <- & Hi).
      eapply IH; [exact Hi| |eassumption|eassumption]. eapply full_child; eassumption. }
  destruct ms as [|m ms]; [destruct ks as [|k [|k' ks]]|]; try exact G.
  apply IH; [simpl; auto|]. eapply full_child; [exact F|simpl; auto].
Qed.

Lemma tidy_full t : full_kids (tidy t).
Proof. apply compress_full, prune_full. Qed.

Definition no_chain t : Prop := forall k, ~ subtree (Node [] [k]) t.

Lemma compress_no_chain t : no_chain (compress t).
Proof.
  induction t as [ms ks IH] using tree_ind'. rewrite compress_node.
  rewrite Forall_forall in IH.
  assert (G : (ms <> [] \/ List.length ks <> 1) -> no_chain (Node ms (map compress ks))).
  { intros D k Hs. inversion Hs; subst.
    - destruct D as [D|D]; [congruence|]. rewrite <- (map_length compress) in D.
      match goal with E : map compress ks = _ |- _ => rewrite E in D
                    | E : _ = map compress ks |- _ => rewrite <- E in D end.
      apply D; reflexivity.
    - rewrite in_map_iff in H2. destruct H2 as (k1 & <- & Hi). eapply IH; eassumption. }
  destruct ms as [|m ms]; [destruct ks as [|k [|k' ks]]|]; try apply G.
  - right. discriminate.
  - apply IH; simpl; auto.
  - right. discriminate.
  - left. discriminate.
Qed.

Lemma prune_id t : full_kids t -> prune t = t.
Proof.
  induction t as [ms ks IH] using tree_ind'. intros F. rewrite prune_node. f_equal.
  unfold prune_all.
  assert (Hk : forall k, In k ks -> is_empty k = false /\ prune k = k).
  { intros k Hk. split.
    - apply empty_has. apply (F _ (sub_here _)). exact Hk.
    - rewrite Forall_forall in IH. apply IH; [assumption|]. eapply full_child; eassumption. }
  clear IH F. induction ks as [|k ks IHks]; simpl; [reflexivity|].
  destruct (Hk k (or_introl eq_refl)) as (-> & E). simpl. rewrite E. f_equal.
  apply IHks. intros; apply Hk; right; assumption.
Qed.

Lemma compress_id t : no_chain t -> compress t = t.
Proof.
  induction t as [ms ks IH] using tree_ind'. intros F. rewrite compress_node.
  rewrite Forall_forall in IH.
  assert (G : map compress ks = ks).
  { assert (forall k, In k ks -> compress k = k).
    { intros k Hk. apply IH; [assumption|]. intros k' Hs. apply (F k').
      eapply sub_child; eassumption. }
    clear IH F. induction ks; simpl; [reflexivity|]. rewrite H by (left; reflexivity).
    f_equal. apply IHks. intros; apply H; right; assumption. }
  destruct ms as [|m ms]; [destruct ks as [|k [|k' ks]]|]; rewrite ?G; try reflexivity.
  exfalso. apply (F k). apply sub_here.
Qed.

Lemma tidy_idempotent t : tidy (tidy t) = tidy t.
Proof.
  unfold tidy at 1. rewrite prune_id by apply tidy_full.
  apply compress_id. apply compress_no_chain.
Qed.

End Proofs.
