(* Proofs about operators that are spelled differently. *)
From Coq Require Import String Ascii List Bool Arith Lia.
From Verif Require Import Base Clang Gen GenExpr GenBinary GenUnary GenStmt Rewriter Mutation
  MutTree Run TreeSpec RunSpec RunProof RewriterProof Lang Cst SimMutate NestSpec NestProof
  Operator OperatorSpec.
Import ListNotations.
Local Open Scope string_scope.

(** * From documents to files *)

Lemma outcome_rewrite (B A : nat -> Prop) es pre x post s :
  (forall i, B i -> A i -> False) -> edits_apart B A es ->
  outcome (doc_of (pre ++ x ++ post)) (edits_doc es (doc_of (pre ++ x ++ post)))
    (String.length pre) (String.length x) s ->
  rewrite (pre ++ x ++ post) es = pre ++ s ++ post.
Proof.
  intros Dis Ap [Q O]. set (src := pre ++ x ++ post) in *.
  set (cs := apply_edits es (cells_of src)).
  assert (Fr : forall a x b, src = a ++ x ++ b -> fresh (doc_of src) (String.length a) x).
  { intros a y b ->. apply doc_fresh. reflexivity. }
  assert (Sh : shows (edits_doc es (doc_of src)) 0 cs).
  { apply (shows_edits B A); auto.
    - intros i H. exfalso. apply H. reflexivity.
    - intros i H. exfalso. apply H. reflexivity.
    - exact (shows_start src ""). }
  assert (Len : List.length cs = S (String.length src)).
  { unfold cs. rewrite apply_edits_length, cells_length. reflexivity. }
  assert (Ls : String.length src =
               String.length pre + (String.length x + String.length post)).
  { unfold src. rewrite !length_app. reflexivity. }
  unfold rewrite. fold cs. clearbody cs.
  remember (edits_doc es (doc_of src)) as D eqn:E. clear E.
  apply shows_render in Sh. rewrite Len in Sh. cbn [plus] in Sh.
  pose proof O as [O1 O2].
  rewrite (O2 0), (O2 (S (String.length src))) in Sh by lia. cbn [doc_of aft append] in Sh.
  rewrite sapp_nil_r in Sh. rewrite Sh. clear Sh.
  replace (S (String.length src))
    with (String.length pre + (String.length x + (String.length post + 1))) by lia.
  rewrite !seg_app. cbn [plus].
  rewrite (seg_outside _ _ _ _ 0 (String.length pre) O), Q by lia.
  pose proof (fresh_seg _ _ _ (Fr "" pre (x ++ post) eq_refl)) as Sp. cbn [String.length] in Sp.
  rewrite Sp. clear Sp.
  rewrite (seg_outside _ _ _ _ _ (String.length post) O) by lia.
  rewrite <- length_app.
  rewrite (fresh_seg _ post).
  2:{ apply (Fr _ _ ""). unfold src. rewrite !sapp_assoc, sapp_nil_r. reflexivity. }
  cbn [seg]. rewrite length_app.
  destruct (O1 (String.length pre + String.length x + String.length post)) as [Hb Hc]; [lia|].
  rewrite Hb, Hc, (O2 (S _)) by lia. cbn [doc_of bef aft chr].
  assert (End : String.get (String.length pre + String.length x + String.length post) src = None).
  { replace (_ + String.length post) with (String.length src) by lia. clear. induction src; auto. }
  rewrite End, !sapp_nil_r. reflexivity.
Qed.

(** * Replacing the beginning of a token *)

Fixpoint keep (n : nat) (s : string) : string :=
  match n, s with
  | S n, String a s => String a (keep n s)
  | _, _ => ""
  end.
Lemma keep_drop n : forall s, keep n s ++ drop n s = s.
Proof. induction n as [|n IH]; intros [|a s]; cbn; auto. rewrite IH. reflexivity. Qed.
Lemma keep_length n : forall s, n <= String.length s -> String.length (keep n s) = n.
Proof. induction n as [|n IH]; intros [|a s] H; cbn in *; auto; [lia|]. rewrite IH; lia. Qed.
Lemma drop_nil n : forall s, n <= String.length s -> (drop n s = "" <-> String.length s = n).
Proof.
  induction n as [|n IH]; intros [|a s] H; cbn in *; try lia; try (split; congruence || lia).
  rewrite IH by lia. lia.
Qed.

Lemma operator_outcome D off p canon repl s :
  canon <> "" -> s <> "" -> fresh D off s ->
  spelled_at p off canon s ->
  outcome D (edits_doc (replace_operator p (String.length canon) repl) D) off
    (String.length s) (written_operator p canon repl s).
Proof.
  intros Ne Ns F H. destruct p as [i|]; cbn [replace_operator edits_doc fold_left written_operator].
  - destruct H as [-> Le]. set (n := String.length canon) in *.
    pose proof F as F'. rewrite <- (keep_drop n s) in F'. apply fresh_app in F' as [F1 F2].
    rewrite keep_length in F2 by exact Le.
    assert (Nk : keep n s <> "").
    { intro E. apply (f_equal String.length) in E. rewrite keep_length in E by exact Le.
      destruct canon; [congruence|discriminate]. }
    destruct (replace_seg D off (keep n s) repl Nk F1) as [Q O].
    rewrite keep_length in Q, O by exact Le.
    assert (Ls : String.length s = n + String.length (drop n s)).
    { rewrite <- (keep_drop n s) at 1. rewrite length_app, keep_length by exact Le. reflexivity. }
    split.
    + rewrite Ls, seg_app, Q. f_equal.
      rewrite (seg_outside _ _ _ _ (off + n) (String.length (drop n s)) O) by lia.
      apply fresh_seg. exact F2.
    + apply (outside_weaken _ _ off n); [exact O|lia|lia].
  - apply outcome_refl. exact F.
Qed.

Lemma sapp_cancel_l (p x y : string) : p ++ x = p ++ y -> x = y.
Proof. induction p as [|a p IH]; cbn; intro H; [exact H|]. injection H as H. auto. Qed.
Lemma sapp_cancel_r (x y q : string) : x ++ q = y ++ q -> x = y.
Proof.
  revert y. induction x as [|a x IH]; intros [|b y] H; cbn in *; auto.
  - exfalso. apply (f_equal String.length) in H. cbn in H. rewrite length_app in H. lia.
  - exfalso. apply (f_equal String.length) in H. cbn in H. rewrite length_app in H. lia.
  - injection H as -> H. f_equal. auto.
Qed.

Section Sites.
Variable L : lang.
Variable c : ctx.
Variable o : options.

(** * Binary operators *)

Lemma binary_written b p id pre (l r : cst L) w1 s w2 post :
  let off := String.length pre in
  let op := off + size l + String.length w1 in
  from_to off (size l) (e_range (b_lhs b)) ->
  from_to (op + String.length s + String.length w2) (size r) (e_range (b_rhs b)) ->
  s <> "" -> spelled_at p op (bop_str (b_op b)) s ->
  exists p1 s1 p2 s2,
    (forall l' r' : cst L, text (mutated_binary L c o b id l' w1 w2 r') =
       (p1 ++ text l' ++ s1) ++ w1 ++ "," ++ w2 ++ (p2 ++ text r' ++ s2)) /\
    rewrite (pre ++ (text l ++ w1 ++ s ++ w2 ++ text r) ++ post) (binary_edits_at c o b p id) =
    pre ++ ((p1 ++ text l ++ s1) ++ w1 ++ written_operator p (bop_str (b_op b)) "," s ++ w2
            ++ (p2 ++ text r ++ s2)) ++ post.
Proof.
  intros off op (Nl & Bl & El) (Nr & Br & Er) Ns Sp.
  destruct (binary_text c o L b id w1 w2) as (p1 & s1 & p2 & s2 & Ed & Tx).
  exists p1, s1, p2, s2. split; [exact Tx|].
  unfold binary_edits_at. rewrite Ed. cbn [tl]. rewrite Bl, El, Br, Er.
  assert (Nz : String.length s <> 0) by (destruct s; [congruence|discriminate]).
  unfold size in *.
  set (nl := String.length (text l)) in *. set (nr := String.length (text r)) in *.
  apply (outcome_rewrite (fun i => i = off \/ i = op + String.length s + String.length w2)
           (fun i => i = off + nl \/ i = op + String.length s + String.length w2 + nr)).
  - unfold op. intros i [-> | ->] [H | H]; lia.
  - intros e He. apply in_app_iff in He as [He | He].
    + destruct p; cbn in He; [|contradiction]. destruct He as [<- | []].
      destruct (b_op b); discriminate.
    + cbn in He. repeat (destruct He as [<- | He]; [auto|]). contradiction.
  - rewrite edits_doc_app. rewrite !length_app. fold nl nr.
    set (D := doc_of _).
    assert (F : fresh D off (text l ++ w1 ++ s ++ w2 ++ text r)).
    { apply doc_fresh. reflexivity. }
    pose proof F as F0. apply fresh_app in F0 as [Fl F0]. apply fresh_app in F0 as [_ F0].
    apply fresh_app in F0 as [Fs F0]. apply fresh_app in F0 as [_ Fr].
    fold nl in Fs, Fr. fold op in Fs, Fr.
    set (D3 := edits_doc (replace_operator p (String.length (bop_str (b_op b))) ",") D).
    change (edits_doc [InsertBefore off p1; InsertAfterToken (off + nl) s1;
                       InsertBefore (op + String.length s + String.length w2) p2;
                       InsertAfterToken (op + String.length s + String.length w2 + nr) s2] D3)
      with (edits_doc [InsertBefore (op + String.length s + String.length w2) p2;
                       InsertAfterToken (op + String.length s + String.length w2 + nr) s2]
             (edits_doc [InsertBefore off p1; InsertAfterToken (off + nl) s1] D3)).
    set (D4 := edits_doc [InsertBefore off p1; InsertAfterToken (off + nl) s1] D3).
    refine (around D D D D3 D4 _ off (text l) w1 s w2 (text r) (text l)
              (written_operator p (bop_str (b_op b)) "," s) (text r) p1 s1 p2 s2 F
              (outcome_refl _ _ _ Fl) (outcome_refl _ _ _ Fr) _ _ _).
    + fold nl op. apply operator_outcome; auto. apply bop_nonempty.
    + fold nl. apply (wrapped D3 D3); [exact Nl|]. split; [reflexivity|apply outside_refl].
    + fold nl op nr. apply (wrapped D4 D4); [exact Nr|]. split; [reflexivity|apply outside_refl].
Qed.

Lemma written_right p off canon repl s :
  canon <> "" -> repl <> s -> spelled_at p off canon s ->
  (written_operator p canon repl s = repl <-> usual p canon s).
Proof.
  intros Nc Nr Sp. destruct p as [i|]; cbn [written_operator usual].
  - destruct Sp as [_ Le]. rewrite <- (drop_nil _ _ Le). split; intro H.
    + apply (sapp_cancel_l repl). rewrite sapp_nil_r. exact H.
    + rewrite H. apply sapp_nil_r.
  - split; [intro H; congruence|intros []].
Qed.

Lemma binary_exactly b p id pre (l r : cst L) w1 s w2 post :
  let off := String.length pre in
  let op := off + size l + String.length w1 in
  from_to off (size l) (e_range (b_lhs b)) ->
  from_to (op + String.length s + String.length w2) (size r) (e_range (b_rhs b)) ->
  s <> "" -> s <> "," -> spelled_at p op (bop_str (b_op b)) s ->
  (rewrite (pre ++ (text l ++ w1 ++ s ++ w2 ++ text r) ++ post) (binary_edits_at c o b p id) =
   pre ++ text (mutated_binary L c o b id l w1 w2 r) ++ post
   <-> usual p (bop_str (b_op b)) s).
Proof.
  intros off op Rl Rr Ns Nc Sp.
  destruct (binary_written b p id pre l r w1 s w2 post Rl Rr Ns Sp) as (p1 & s1 & p2 & s2 & Tx & ->).
  rewrite Tx. rewrite <- (written_right p op (bop_str (b_op b)) "," s);
    [|apply bop_nonempty|congruence|exact Sp].
  split; intro H.
  - apply sapp_cancel_l, sapp_cancel_r, sapp_cancel_l, sapp_cancel_l in H.
    exact (sapp_cancel_r _ _ _ H).
  - rewrite H. reflexivity.
Qed.

(** * Unary operators *)

Lemma unary_exactly u p id pre (sub : cst L) w s post :
  let a := if is_prefix (u_op u) then "" else text sub ++ w in
  let z := if is_prefix (u_op u) then w ++ text sub else "" in
  from_to (String.length pre) (String.length (a ++ s ++ z)) (u_range u) ->
  s <> "" -> spelled_at p (String.length (pre ++ a)) (uop_str (u_op u)) s ->
  (rewrite (pre ++ (a ++ s ++ z) ++ post) (unary_edits_at c o u p id) =
   pre ++ text (mutated_unary L c o u id w sub) ++ post
   <-> usual p (uop_str (u_op u)) s).
Proof.
  intros a z (Nz & Bu & Eu) Ns Sp.
  destruct (unary_text c o L u id w) as (q1 & q2 & Ed & Tx). rewrite Tx.
  set (off := String.length pre) in *.
  assert (E : rewrite (pre ++ (a ++ s ++ z) ++ post) (unary_edits_at c o u p id) =
              pre ++ (q1 ++ (a ++ written_operator p (uop_str (u_op u)) "" s ++ z) ++ q2) ++ post).
  { unfold unary_edits_at. rewrite Ed. cbn [tl]. rewrite Bu, Eu.
    apply (outcome_rewrite (fun i => i = off)
             (fun i => i = off + String.length (a ++ s ++ z))).
    - intros i -> H. lia.
    - intros e He. apply in_app_iff in He as [He | He].
      + destruct p; cbn in He; [|contradiction]. destruct He as [<- | []].
        destruct (u_op u); discriminate.
      + cbn in He. repeat (destruct He as [<- | He]; [auto|]). contradiction.
    - rewrite edits_doc_app. set (D := doc_of _).
      assert (F : fresh D off (a ++ s ++ z)) by (apply doc_fresh; reflexivity).
      apply wrapped; [exact Nz|].
      apply fresh_app in F as [Fa F]. apply fresh_app in F as [Fs Fz].
      destruct (operator_outcome D (off + String.length a) p (uop_str (u_op u)) "" s) as [Q O].
      + apply uop_nonempty.
      + exact Ns.
      + exact Fs.
      + unfold off. rewrite <- length_app. exact Sp.
      + rewrite !length_app. split.
        * rewrite !seg_app. fold off. rewrite Q.
          rewrite (seg_outside _ _ _ _ off (String.length a) O) by lia.
          rewrite (seg_outside _ _ _ _ _ (String.length z) O) by lia.
          rewrite (fresh_seg _ _ _ Fa), (fresh_seg _ _ _ Fz). reflexivity.
        * apply (outside_weaken _ _ (off + String.length a) (String.length s)); [exact O|lia|lia]. }
  rewrite E. rewrite <- (written_right p (String.length (pre ++ a)) (uop_str (u_op u)) "" s);
    [|apply uop_nonempty|congruence|exact Sp].
  replace (if is_prefix (u_op u) then w ++ text sub else text sub ++ w) with (a ++ "" ++ z)
    by (unfold a, z; destruct (is_prefix (u_op u)); cbn [append]; rewrite ?sapp_nil_r; reflexivity).
  split; intro H.
  - apply sapp_cancel_l, sapp_cancel_r, sapp_cancel_l, sapp_cancel_r, sapp_cancel_l in H.
    exact (sapp_cancel_r _ _ _ H).
  - rewrite H. reflexivity.
Qed.
End Sites.

Lemma alternative_binary : forall o s off, alternative_bop o = Some s ->
  (usual (OpInFile off) (bop_str o) s <-> o = LOr).
Proof.
  intros o s off E. destruct o; cbn in E; try discriminate E; injection E as <-; cbn;
    split; intro; congruence.
Qed.

Lemma alternative_unary : forall o s off, alternative_uop o = Some s ->
  ~ usual (OpInFile off) (uop_str o) s.
Proof.
  intros o s off E. destruct o; cbn in E; try discriminate E; injection E as <-; cbn; congruence.
Qed.
