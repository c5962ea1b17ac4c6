(* Proofs about lines: what edits do to the characters and lines of a text. *)
From Coq Require Import String Ascii List Arith NArith ZArith Bool Lia.
From Coq Require Import DecimalString.
From Verif Require Import Base Clang Gen GenExpr GenBinary GenUnary GenStmt Mutation MutTree TreeSpec
  Rewriter RewriterProof Run LineSpec.
Import ListNotations.
Local Open Scope string_scope.

(** * Strings *)

Lemma newlines_app a b : newlines (a ++ b) = newlines a + newlines b.
Proof. induction a as [|c a IH]; [reflexivity|]. cbn [append newlines]. rewrite IH. lia. Qed.

Lemma append_length a b : String.length (a ++ b) = String.length a + String.length b.
Proof. induction a as [|c a IH]; [reflexivity|]. cbn. now rewrite IH. Qed.

Lemma substring_prefix a b : substring 0 (String.length a) (a ++ b) = a.
Proof. induction a as [|c a IH]; [now destruct b|]. cbn [append String.length substring]. now rewrite IH. Qed.
Lemma substring_mid a b d : substring (String.length a) (String.length b) (a ++ b ++ d) = b.
Proof.
  induction a as [|c a IH]; [exact (substring_prefix b d)|]. cbn [append String.length substring]. apply IH.
Qed.
Lemma get_app a b : get (String.length a) (a ++ b) = get 0 b.
Proof. induction a as [|c a IH]; [reflexivity|]. exact IH. Qed.

(** * Cells *)

(* What an edit does to the cell at an offset *)
Definition eff (e : edit) (k : nat) (x : cell) : cell :=
  match e with
  | InsertBefore off s => if Nat.eqb k off then (s ++ fst x, snd x) else x
  | InsertAfterToken off s => if Nat.eqb k off then (fst x ++ s, snd x) else x
  | ReplaceText off len s =>
      if Nat.eqb k off then (fst x, s)
      else if Nat.leb off k && Nat.ltb k (off + len) then (fst x, "") else x
  end.

Lemma update_nth_nth {A} (f : A -> A) : forall n k l,
  nth_error (update_nth n f l) k =
  if Nat.eqb k n then option_map f (nth_error l k) else nth_error l k.
Proof.
  induction n as [|n IH]; intros k [|x l]; destruct k as [|k]; cbn; try reflexivity.
  - destruct (Nat.eqb k n); reflexivity.
  - apply IH.
Qed.

Lemma blank_nth : forall len off k cs,
  nth_error (blank off len cs) k =
  if Nat.leb off k && Nat.ltb k (off + len)
  then option_map (fun x => (fst x, "")) (nth_error cs k) else nth_error cs k.
Proof.
  induction len as [|len IH]; intros off k cs; cbn [blank].
  - replace (Nat.leb off k && Nat.ltb k (off + 0)) with false; [reflexivity|].
    symmetry. apply andb_false_iff.
    destruct (Nat.leb_spec off k); [right; apply Nat.ltb_ge; lia|now left].
  - rewrite IH, update_nth_nth.
    destruct (Nat.eqb_spec k off) as [->|N].
    + replace (Nat.leb (S off) off) with false by (symmetry; apply Nat.leb_gt; lia).
      rewrite Nat.leb_refl. cbn [andb].
      replace (Nat.ltb off (off + S len)) with true by (symmetry; apply Nat.ltb_lt; lia). reflexivity.
    + replace (Nat.leb (S off) k) with (Nat.leb off k)
        by (destruct (Nat.leb_spec off k), (Nat.leb_spec (S off) k); auto; lia).
      now replace (S off + len) with (off + S len) by lia.
Qed.

Lemma apply_edit_nth e cs k :
  nth_error (apply_edit e cs) k = option_map (eff e k) (nth_error cs k).
Proof.
  destruct e as [off s|off s|off len s]; cbn [apply_edit]; unfold eff; rewrite update_nth_nth.
  - destruct (Nat.eqb k off); [reflexivity|]. now destruct (nth_error cs k).
  - destruct (Nat.eqb k off); [reflexivity|]. now destruct (nth_error cs k).
  - rewrite blank_nth. destruct (Nat.eqb_spec k off) as [->|N].
    + destruct (Nat.leb off off && Nat.ltb off (off + len)); destruct (nth_error cs off); reflexivity.
    + destruct (Nat.leb off k && Nat.ltb k (off + len)); destruct (nth_error cs k); reflexivity.
Qed.

Definition effs (es : list edit) (k : nat) (x : cell) : cell :=
  fold_left (fun x e => eff e k x) es x.
Lemma apply_edits_nth es : forall cs k,
  nth_error (apply_edits es cs) k = option_map (effs es k) (nth_error cs k).
Proof.
  induction es as [|e es IH]; intros cs k; cbn.
  - now destruct (nth_error cs k).
  - unfold apply_edits in *. cbn [fold_left]. rewrite IH, apply_edit_nth.
    now destruct (nth_error cs k).
Qed.

Lemma cells_nth text : forall k,
  nth_error (cells_of text) k =
  match get k text with
  | Some c => Some ("", char_string c)
  | None => if Nat.eqb k (String.length text) then Some ("", "") else None
  end.
Proof.
  induction text as [|c s IH]; intros [|k]; cbn; try reflexivity.
  - now destruct k.
  - apply IH.
Qed.

(** * Newlines in cells *)

(* Newlines that are inserted at an offset *)
Definition inserts (e : edit) (k : nat) : nat :=
  match e with
  | InsertBefore off s | InsertAfterToken off s => if Nat.eqb off k then newlines s else 0
  | ReplaceText _ _ _ => 0
  end.
Definition inserts_all (es : list edit) (k : nat) : nat := list_sum (map (fun e => inserts e k) es).
(* Newlines that are inserted up to an offset *)
Definition inserts_by (e : edit) (k : nat) : nat :=
  match e with
  | InsertBefore off s | InsertAfterToken off s => if Nat.leb off k then newlines s else 0
  | ReplaceText _ _ _ => 0
  end.
Definition inserts_all_by (es : list edit) (k : nat) : nat :=
  list_sum (map (fun e => inserts_by e k) es).

Definition covers (e : edit) (k : nat) : bool :=
  match e with
  | ReplaceText off len _ => Nat.eqb k off || (Nat.leb off k && Nat.ltb k (off + len))
  | _ => false
  end.

Lemma effs_fst es k : forall x,
  newlines (fst (effs es k x)) = newlines (fst x) + inserts_all es k.
Proof.
  induction es as [|e es IH]; intros x; cbn [effs fold_left].
  - unfold inserts_all. cbn. lia.
  - fold (effs es k (eff e k x)). rewrite IH. unfold inserts_all. cbn [map list_sum fold_right].
    destruct e as [off s|off s|off len s]; cbn [eff inserts].
    + rewrite (Nat.eqb_sym off k). destruct (Nat.eqb k off); cbn [fst]; rewrite ?newlines_app; unfold list_sum; lia.
    + rewrite (Nat.eqb_sym off k). destruct (Nat.eqb k off); cbn [fst]; rewrite ?newlines_app; unfold list_sum; lia.
    + destruct (Nat.eqb k off); [cbn [fst]; unfold list_sum; lia|].
      destruct (Nat.leb off k && Nat.ltb k (off + len)); cbn [fst]; unfold list_sum; lia.
Qed.

Lemma effs_snd es k : forall x, (forall e, In e es -> covers e k = false) ->
  snd (effs es k x) = snd x.
Proof.
  induction es as [|e es IH]; intros x H; [reflexivity|]. cbn [effs fold_left].
  fold (effs es k (eff e k x)). rewrite IH by (intros; apply H; now right).
  specialize (H e (or_introl eq_refl)). destruct e as [off s|off s|off len s]; cbn [eff].
  - now destruct (Nat.eqb k off).
  - now destruct (Nat.eqb k off).
  - cbn [covers] in H. apply orb_false_iff in H. destruct H as [-> ->]. reflexivity.
Qed.

Lemma effs_snd_newlines es k : forall x,
  (forall e, In e es -> match e with ReplaceText _ _ s => newlines s = 0 | _ => True end) ->
  ((exists e, In e es /\ covers e k = true) -> newlines (snd x) = 0) ->
  newlines (snd (effs es k x)) = newlines (snd x).
Proof.
  induction es as [|e es IH]; intros x N H; [reflexivity|]. cbn [effs fold_left].
  fold (effs es k (eff e k x)).
  assert (E : newlines (snd (eff e k x)) = newlines (snd x)).
  { specialize (N e (or_introl eq_refl)). destruct e as [off s|off s|off len s]; cbn [eff].
    - now destruct (Nat.eqb k off).
    - now destruct (Nat.eqb k off).
    - destruct (Nat.eqb k off) eqn:C1; [|destruct (Nat.leb off k && Nat.ltb k (off + len)) eqn:C2;
                                         [|reflexivity]]; cbn [snd];
      (rewrite H; [assumption || reflexivity|]; eexists; split; [now left|]; cbn [covers]; now rewrite ?C1, ?C2). }
  rewrite IH; [assumption|intros; apply N; now right|].
  intros (e' & I & C). rewrite E. apply H. exists e'. split; [now right|assumption].
Qed.

(** * The text *)

Section Text.
Context (text : string) (es : list edit).

Definition cs : list cell := apply_edits es (cells_of text).
Definition cell_at (k : nat) : cell := nth k cs ("", "").
Definition before (k : nat) : string := render (firstn k cs) ++ fst (cell_at k).
Definition behind (k : nat) : string := snd (cell_at k) ++ render (skipn (S k) cs).
Definition pos (k : nat) : nat := String.length (before k).

Lemma cs_length : List.length cs = S (String.length text).
Proof. unfold cs. now rewrite apply_edits_length, cells_length. Qed.

Lemma nth_split_firstn {A} (l : list A) d : forall k, k < List.length l ->
  l = (firstn k l ++ nth k l d :: skipn (S k) l)%list.
Proof.
  induction l as [|x l IH]; intros k H; cbn in H; [lia|]. destruct k as [|k]; [reflexivity|].
  cbn [firstn nth skipn app]. f_equal. apply IH. lia.
Qed.

Lemma text_split k : k <= String.length text -> rewrite text es = before k ++ behind k.
Proof.
  intros H. unfold rewrite. fold cs.
  rewrite (nth_split_firstn cs ("", "") k) at 1 by (rewrite cs_length; lia).
  rewrite render_app. unfold render at 2. cbn [map concat_strings]. fold (render (skipn (S k) cs)).
  unfold before, behind, cell_text, cell_at. now rewrite !sapp_assoc.
Qed.

Lemma firstn_S {A} (l : list A) d : forall k, k < List.length l ->
  firstn (S k) l = (firstn k l ++ [nth k l d])%list.
Proof.
  induction l as [|x l IH]; intros k H; cbn in H; [lia|]. destruct k as [|k]; [reflexivity|].
  rewrite (firstn_cons (S k)). cbn [firstn nth app]. f_equal. apply IH. lia.
Qed.
Lemma before_S k : k < String.length text ->
  before (S k) = before k ++ snd (cell_at k) ++ fst (cell_at (S k)).
Proof.
  intros H. unfold before. rewrite (firstn_S cs ("", "") k) by (rewrite cs_length; lia).
  rewrite render_app. unfold render at 2. cbn [map concat_strings]. unfold cell_text. fold (cell_at k).
  now rewrite sapp_nil_r, !sapp_assoc.
Qed.

Lemma cell_at_eq k : k <= String.length text ->
  cell_at k = effs es k match get k text with Some c => ("", char_string c) | None => ("", "") end.
Proof.
  intros H. unfold cell_at. apply nth_error_nth. unfold cs.
  rewrite apply_edits_nth, cells_nth.
  destruct (get k text) as [c|] eqn:G; [reflexivity|].
  replace (Nat.eqb k (String.length text)) with true; [reflexivity|].
  symmetry. apply Nat.eqb_eq. clear -H G. revert k H G.
  induction text as [|c s IH]; intros k H G; cbn in *; [lia|].
  destruct k; [discriminate|]. f_equal. apply IH; [lia|assumption].
Qed.

Lemma get_lt k : k < String.length text -> exists c, get k text = Some c.
Proof.
  revert k. induction text as [|c s IH]; intros k H; cbn in H; [lia|].
  destruct k; [now exists c|]. apply IH. lia.
Qed.
Lemma get_end : get (String.length text) text = None.
Proof. induction text; [reflexivity|assumption]. Qed.

Lemma pos_mono_S k : k < String.length text -> pos k <= pos (S k).
Proof. intros H. unfold pos. rewrite before_S by assumption. rewrite append_length. lia. Qed.
Lemma pos_mono i j : i <= j -> j <= String.length text -> pos i <= pos j.
Proof.
  intros H. induction H as [|j H IH]; intros L; [lia|].
  transitivity (pos j); [apply IH; lia|apply pos_mono_S; lia].
Qed.

Definition untouched_char (k : nat) : Prop := forall e, In e es -> covers e k = false.

Lemma kept_cell k c : get k text = Some c -> k < String.length text -> untouched_char k ->
  snd (cell_at k) = char_string c.
Proof.
  intros G L U. rewrite cell_at_eq by lia. rewrite G. now apply effs_snd.
Qed.
Lemma pos_strict k j : k < String.length text -> untouched_char k -> k < j -> j <= String.length text ->
  pos k < pos j.
Proof.
  intros L U H J. destruct (get_lt k L) as (c & G).
  enough (pos k < pos (S k)) by (pose proof (pos_mono (S k) j ltac:(lia) J); lia).
  unfold pos. rewrite before_S by assumption. rewrite (kept_cell k c) by assumption.
  rewrite append_length. cbn. lia.
Qed.

Lemma kept_get k : k < String.length text -> untouched_char k ->
  get (pos k) (rewrite text es) = get k text.
Proof.
  intros L U. destruct (get_lt k L) as (c & G). rewrite (text_split k) by lia. unfold pos.
  rewrite get_app, G. unfold behind. now rewrite (kept_cell k c).
Qed.

(* Lines *)
Lemma substring_S : forall s k c, get k s = Some c -> substring 0 (S k) s = substring 0 k s ++ char_string c.
Proof.
  induction s as [|x s IH]; intros k c G; [discriminate|]. destruct k; cbn in G.
  - injection G as ->. cbn. now destruct s.
  - change (substring 0 (S (S k)) (String x s)) with (String x (substring 0 (S k) s)).
    change (substring 0 (S k) (String x s)) with (String x (substring 0 k s)).
    cbn [append]. f_equal. now apply IH.
Qed.

Context (Hr : forall e, In e es -> match e with ReplaceText _ _ s => newlines s = 0 | _ => True end).
Context (Hl : forall k, get k text = Some line_feed -> untouched_char k).

Lemma snd_newlines k c : k < String.length text -> get k text = Some c ->
  newlines (snd (cell_at k)) = newlines (char_string c).
Proof.
  intros L G. rewrite cell_at_eq by lia. rewrite G. rewrite effs_snd_newlines; [reflexivity|assumption|].
  intros (e & I & C). cbn. destruct (Ascii.eqb_spec c line_feed) as [->|N]; [|reflexivity].
  specialize (Hl k G e I). congruence.
Qed.

Lemma inserts_all_by_S k : inserts_all_by es (S k) = inserts_all_by es k + inserts_all es (S k).
Proof.
  clear Hr Hl. unfold inserts_all_by, inserts_all. induction es as [|e l IH]; [reflexivity|].
  cbn [map list_sum fold_right]. unfold list_sum in IH. rewrite IH.
  enough (inserts_by e (S k) = inserts_by e k + inserts e (S k)) by lia.
  destruct e as [off s|off s|off len s]; cbn [inserts_by inserts]; [| |reflexivity];
  destruct (Nat.leb_spec off (S k)), (Nat.leb_spec off k), (Nat.eqb_spec off (S k)); lia.
Qed.
Lemma inserts_all_by_0 : inserts_all_by es 0 = inserts_all es 0.
Proof.
  clear Hr Hl. unfold inserts_all_by, inserts_all. f_equal. apply map_ext. intros e.
  destruct e as [[|off] s|[|off] s|off len s]; reflexivity.
Qed.

Lemma before_newlines k : k <= String.length text ->
  newlines (before k) = newlines (substring 0 k text) + inserts_all_by es k.
Proof.
  induction k as [|k IH]; intros L.
  - unfold before. cbn [firstn]. unfold render. cbn [map concat_strings].
    rewrite newlines_app, cell_at_eq, effs_fst by lia. rewrite inserts_all_by_0.
    replace (substring 0 0 text) with "" by (now destruct text). cbn [newlines].
    destruct (get 0 text); reflexivity.
  - destruct (get_lt k) as (c & G); [lia|].
    rewrite before_S by lia. rewrite !newlines_app, IH by lia. rewrite (snd_newlines k c) by (assumption || lia).
    rewrite (substring_S text k c G), newlines_app, inserts_all_by_S.
    rewrite (cell_at_eq (S k)), effs_fst by lia.
    destruct (get (S k) text); cbn [fst newlines]; lia.
Qed.

Lemma line_number k : k <= String.length text ->
  line_at (rewrite text es) (pos k) = line_at text k + inserts_all_by es k.
Proof.
  intros L. unfold line_at. rewrite (text_split k L). unfold pos.
  rewrite substring_prefix. now apply before_newlines.
Qed.

(* A stretch in which nothing is inserted *)
Definition nothing_at (k : nat) : Prop :=
  forall e, In e es -> match e with
                       | InsertBefore off _ | InsertAfterToken off _ => off <> k
                       | ReplaceText _ _ _ => True
                       end.
Lemma effs_fst_nothing l k : forall x,
  (forall e, In e l -> match e with
                       | InsertBefore off _ | InsertAfterToken off _ => off <> k
                       | ReplaceText _ _ _ => True
                       end) -> fst (effs l k x) = fst x.
Proof.
  induction l as [|e l IH]; intros x H; [reflexivity|]. cbn [effs fold_left].
  fold (effs l k (eff e k x)). rewrite IH by (intros; apply H; now right).
  specialize (H e (or_introl eq_refl)). destruct e as [off s|off s|off len s]; cbn [eff].
  - destruct (Nat.eqb_spec k off); [congruence|reflexivity].
  - destruct (Nat.eqb_spec k off); [congruence|reflexivity].
  - destruct (Nat.eqb k off); [reflexivity|]. now destruct (_ && _).
Qed.
Lemma nothing_cell k : k <= String.length text -> nothing_at k -> fst (cell_at k) = "".
Proof.
  intros L N. rewrite cell_at_eq by assumption. rewrite effs_fst_nothing by assumption.
  now destruct (get k text).
Qed.

Lemma stretch i n : i + n <= String.length text ->
  (forall k, i <= k < i + n -> untouched_char k) ->
  (forall k, i < k <= i + n -> nothing_at k) ->
  before (i + n) = before i ++ substring i n text.
Proof.
  induction n as [|n IH]; intros L U N.
  - rewrite Nat.add_0_r. assert (Z : forall s k, substring k 0 s = "")
      by (induction s as [|x s IHs]; intros [|k]; cbn; auto). now rewrite Z, sapp_nil_r.
  - rewrite Nat.add_succ_r, before_S by lia.
    rewrite IH by (try lia; intros; try (apply U; lia); try (apply N; lia)).
    destruct (get_lt (i + n)) as (c & G); [lia|].
    rewrite (kept_cell (i + n) c) by (try assumption; try lia; apply U; lia).
    rewrite (nothing_cell (S (i + n))) by (try lia; apply N; lia).
    rewrite sapp_nil_r, sapp_assoc. f_equal.
    clear -G. revert i G. induction text as [|x s IH]; intros i G; [now destruct (i + n)|].
    destruct i as [|i]; cbn [Nat.add] in G.
    + symmetry. now apply substring_S.
    + cbn [substring]. now apply IH.
Qed.
End Text.
