(* The cells of Rewriter.v show what Clang's buffer contains. *)
From Coq Require Import String Ascii List Bool Arith ZArith Lia ZifyBool.
From Verif Require Import Base Clang Gen Rewriter RewriterProof RewriteBuffer RewriteBufferSpec.
Import ListNotations.
Local Open Scope string_scope.

Local Notation len := String.length.

Lemma len_app a b : len (a ++ b) = len a + len b.
Proof. induction a; cbn; auto. Qed.
Lemma take_app a b : take (len a) (a ++ b) = a.
Proof. induction a; cbn; [destruct b; reflexivity|]. rewrite IHa. reflexivity. Qed.
Lemma drop_app a b : drop (len a) (a ++ b) = b.
Proof. induction a; cbn; auto. Qed.
Lemma rope_insert_app a b s : rope_insert (len a) s (a ++ b) = a ++ s ++ b.
Proof. unfold rope_insert. rewrite take_app, drop_app. reflexivity. Qed.
Lemma rope_erase_app a m b : rope_erase (len a) (len m) (a ++ m ++ b) = a ++ b.
Proof. unfold rope_erase. rewrite take_app, drop_app, drop_app. reflexivity. Qed.

Lemma split_at {A} (l : list A) n : n < List.length l ->
  exists a x b, l = (a ++ x :: b)%list /\ List.length a = n.
Proof.
  intros H. destruct (nth_error l n) as [x|] eqn:E.
  - apply nth_error_split in E. destruct E as (a & b & -> & E). eauto.
  - apply nth_error_None in E. lia.
Qed.
Lemma update_split {A} f (a : list A) x b :
  update_nth (List.length a) f (a ++ x :: b)%list = (a ++ f x :: b)%list.
Proof. induction a; cbn; [reflexivity|]. rewrite IHa. reflexivity. Qed.

Definition erased (x : cell) : cell := (fst x, "").
Lemma blank_split (m : list cell) : forall a b : list cell,
  blank (List.length a) (List.length m) (a ++ m ++ b)%list = (a ++ map erased m ++ b)%list.
Proof.
  induction m as [|x m IH]; intros a b; [reflexivity|].
  cbn [List.length blank map app]. rewrite update_split.
  specialize (IH (a ++ [erased x])%list b). rewrite app_length in IH. cbn [List.length] in IH.
  rewrite Nat.add_1_r in IH. rewrite <- !app_assoc in IH. exact IH.
Qed.

Definition before (cs : list cell) (i : nat) : nat := len (render (firstn i cs)).
Definition ins (cs : list cell) (i : nat) : string := fst (nth i cs ("", "")).
Definition chr (cs : list cell) (i : nat) : string := snd (nth i cs ("", "")).

Lemma render_cons x cs : render (x :: cs) = fst x ++ snd x ++ render cs.
Proof. unfold render, cell_text. cbn. rewrite sapp_assoc. reflexivity. Qed.
Lemma before_app (a b : list cell) i : before (a ++ b) i =
  if Nat.leb i (List.length a) then before a i
  else len (render a) + before b (i - List.length a).
Proof.
  unfold before. rewrite firstn_app. destruct (Nat.leb_spec i (List.length a)) as [H|H].
  - replace (i - List.length a) with 0 by lia. rewrite app_nil_r. reflexivity.
  - rewrite firstn_all2 by lia. rewrite render_app, len_app. reflexivity.
Qed.
Lemma before_all a : before a (List.length a) = len (render a).
Proof. unfold before. rewrite firstn_all. reflexivity. Qed.
Lemma before_S x cs i : before (x :: cs) (S i) = len (fst x) + len (snd x) + before cs i.
Proof. unfold before. cbn [firstn]. rewrite render_cons, !len_app. lia. Qed.

(* Insertion *)
Lemma before_change (a : list cell) (x y : cell) (b : list cell) i :
  len (fst x) + len (snd x) <= len (fst y) + len (snd y) ->
  before (a ++ y :: b) i = before (a ++ x :: b) i +
    if Nat.ltb (List.length a) i
    then (len (fst y) + len (snd y)) - (len (fst x) + len (snd x)) else 0.
Proof.
  intros H. rewrite !before_app.
  destruct (Nat.leb_spec i (List.length a)), (Nat.ltb_spec (List.length a) i); try lia.
  destruct (i - List.length a) eqn:E; [lia|]. rewrite !before_S. lia.
Qed.

(* Replacement *)
Lemma before_replace (a : list cell) (x : cell) (m b y : list cell) i :
  i <= List.length a \/ List.length a + S (List.length m) <= i ->
  before (a ++ (x :: m) ++ b) i + (if Nat.ltb (List.length a) i then len (render y) else 0) =
  before (a ++ y ++ b) i + (if Nat.ltb (List.length a) i then len (render (x :: m)) else 0) \/
  List.length y <> S (List.length m).
Proof.
  intros H. destruct (Nat.eq_dec (List.length y) (S (List.length m))) as [E|]; [left|right; auto].
  rewrite !before_app.
  destruct (Nat.leb_spec i (List.length a)), (Nat.ltb_spec (List.length a) i); try lia.
  cbn [List.length].
  destruct (Nat.leb_spec (i - List.length a) (S (List.length m))) as [Q|Q].
  - assert (i - List.length a = S (List.length m)) as -> by lia.
    rewrite <- E. rewrite Nat.leb_refl. rewrite before_all. rewrite E.
    change (S (List.length m)) with (List.length (x :: m)). rewrite before_all. lia.
  - destruct (Nat.leb_spec (i - List.length a) (List.length y)) as [Q'|Q']; [lia|].
    rewrite E. lia.
Qed.

Lemma delta_cons k d ds pos : delta_at ((k, d) :: ds) pos =
  (delta_at ds pos + if Nat.ltb k pos then d else 0)%Z.
Proof. unfold delta_at. cbn [fold_right fst snd]. destruct (Nat.ltb k pos); lia. Qed.

Definition inside (e : edit) (i : nat) : Prop :=
  match e with ReplaceText off n _ => off < i < off + n | _ => False end.
Definition covers (e : edit) (i : nat) : Prop :=
  match e with ReplaceText off n _ => off <= i < off + n | _ => False end.
Definition inserts (e : edit) (i : nat) : Prop :=
  match e with InsertBefore off _ | InsertAfterToken off _ => off = i | _ => False end.

Record shown (n : nat) (done : list edit) (cs : list cell) (b : buffer) : Prop := {
  sh_length : List.length cs = S n;
  sh_text : bu_text b = render cs;
  sh_before : forall i, i <= n -> (forall e, In e done -> ~ inside e i) ->
    Z.of_nat (before cs i) = (delta_at (bu_deltas b) (2 * i) + Z.of_nat i)%Z /\
    Z.of_nat (before cs i + len (ins cs i)) =
      (delta_at (bu_deltas b) (2 * i + 1) + Z.of_nat i)%Z;
  sh_chr : forall i, i < n -> (forall e, In e done -> ~ covers e i) -> len (chr cs i) = 1;
  sh_ins : forall i, i <= n -> (forall e, In e done -> ~ inserts e i) -> ins cs i = ""
}.

Lemma shown_mapped n done cs b i : shown n done cs b -> i <= n ->
  (forall e, In e done -> ~ inside e i) ->
  mapped_offset b i false = before cs i /\
  mapped_offset b i true = before cs i + len (ins cs i).
Proof.
  intros S H N. destruct (sh_before _ _ _ _ S i H N) as (A & B). unfold mapped_offset.
  rewrite Nat.add_0_r. split; lia.
Qed.

Lemma cells_before text : forall i, i <= len text ->
  before (cells_of text) i = i /\ ins (cells_of text) i = "".
Proof.
  induction text as [|x text IH]; intros i H; destruct i; cbn in H |- *; auto; try lia.
  destruct (IH i) as (A & B); [lia|]. split; [|exact B].
  change (before (("", char_string x) :: cells_of text) (S i) = S i).
  rewrite before_S, A. reflexivity.
Qed.
Lemma cells_chr text : forall i, i < len text -> len (chr (cells_of text) i) = 1.
Proof.
  induction text as [|x text IH]; intros i H; cbn in H; [lia|]. destruct i; [reflexivity|].
  apply IH. lia.
Qed.
Lemma shown_initial text : shown (len text) [] (cells_of text) (initial_buffer text).
Proof.
  constructor; cbn.
  - apply cells_length.
  - symmetry. apply render_cells.
  - intros i H _. destruct (cells_before text i H) as (-> & ->). cbn. lia.
  - intros i H _. apply cells_chr. exact H.
  - intros i H _. apply cells_before. exact H.
Qed.

Lemma nth_mid {A} (a : list A) x b d : nth (List.length a) (a ++ x :: b)%list d = x.
Proof. rewrite app_nth2, Nat.sub_diag by lia. reflexivity. Qed.
Lemma nth_other {A} (a : list A) x y b d i : i <> List.length a ->
  nth i (a ++ x :: b)%list d = nth i (a ++ y :: b)%list d.
Proof.
  intros H. destruct (Nat.ltb_spec i (List.length a)).
  - rewrite !app_nth1 by lia. reflexivity.
  - rewrite !app_nth2 by lia. destruct (i - List.length a) eqn:E; [lia|]. reflexivity.
Qed.

Lemma shown_insert n done (a : list cell) (x : cell) (b0 : list cell) bu (y : cell) s pos e :
  shown n done (a ++ x :: b0) bu -> s <> "" ->
  (forall i, ~ inside e i) -> (forall i, ~ covers e i) -> inserts e (List.length a) ->
  snd y = snd x -> len (fst y) = len (fst x) + len s ->
  rope_insert pos s (bu_text bu) = render (a ++ y :: b0) ->
  shown n (done ++ [e]) (a ++ y :: b0)
    {| bu_text := rope_insert pos s (bu_text bu);
       bu_deltas := (2 * List.length a, Z.of_nat (len s)) :: bu_deltas bu |}.
Proof.
  intros S Ns In1 In2 In3 Y1 Y2 T. destruct S as [L Tx B C I]. constructor; cbn [bu_text bu_deltas].
  - rewrite app_length in *. cbn [List.length] in *. exact L.
  - exact T.
  - intros i Hi Ni. destruct (B i Hi) as (B1 & B2).
    { intros e' He'. apply Ni, in_or_app. left. exact He'. }
    rewrite (before_change a x y b0 i) by (rewrite Y1, Y2; lia). rewrite Y1, Y2.
    rewrite !delta_cons.
    destruct (Nat.ltb_spec (List.length a) i) as [H|H].
    + replace (Nat.ltb (2 * List.length a) (2 * i)) with true by lia.
      replace (Nat.ltb (2 * List.length a) (2 * i + 1)) with true by lia.
      replace (ins (a ++ y :: b0) i) with (ins (a ++ x :: b0) i)
        by (unfold ins; rewrite (nth_other a x y) by lia; reflexivity). lia.
    + replace (Nat.ltb (2 * List.length a) (2 * i)) with false by lia.
      destruct (Nat.eq_dec i (List.length a)) as [->|Ne].
      * replace (Nat.ltb (2 * List.length a) (2 * List.length a + 1)) with true by lia.
        unfold ins in *. rewrite nth_mid in *. rewrite Y2. lia.
      * replace (Nat.ltb (2 * List.length a) (2 * i + 1)) with false by lia.
        replace (ins (a ++ y :: b0) i) with (ins (a ++ x :: b0) i)
          by (unfold ins; rewrite (nth_other a x y) by lia; reflexivity). lia.
  - intros i Hi Ni. rewrite <- (C i Hi).
    + unfold chr. destruct (Nat.eq_dec i (List.length a)) as [->|Ne].
      * rewrite !nth_mid, Y1. reflexivity.
      * rewrite (nth_other a y x) by exact Ne. reflexivity.
    + intros e' He'. apply Ni, in_or_app. left. exact He'.
  - intros i Hi Ni. rewrite <- (I i Hi).
    + unfold ins. destruct (Nat.eq_dec i (List.length a)) as [->|Ne].
      * exfalso. apply (Ni e); [apply in_or_app; right; left; reflexivity|exact In3].
      * rewrite (nth_other a y x) by exact Ne. reflexivity.
    + intros e' He'. apply Ni, in_or_app. left. exact He'.
Qed.

Lemma shown_same n done cs bu e : shown n done cs bu -> (forall i, ~ inside e i) ->
  (forall i, ~ covers e i) -> shown n (done ++ [e]) cs bu.
Proof.
  intros [L T B C I] H1 H2. constructor; auto; intros i Hi Ni; [apply B|apply C|apply I]; auto;
    intros e' He'; apply Ni, in_or_app; left; exact He'.
Qed.

Lemma compatible_before done e off l s : Forall (fun e' => edits_compatible e' e) done ->
  e = ReplaceText off l s -> forall e', In e' done -> clear_of off l e'.
Proof.
  intros F -> e' H. rewrite Forall_forall in F. specialize (F e' H).
  destruct e'; cbn in *; try assumption. lia.
Qed.

Lemma singles (m : list cell) : (forall x, In x m -> fst x = "" /\ len (snd x) = 1) ->
  len (render m) = List.length m.
Proof.
  induction m as [|x m IH]; intros H; [reflexivity|].
  rewrite render_cons, !len_app, IH by (intros; apply H; right; assumption).
  destruct (H x (or_introl eq_refl)) as (-> & ->). cbn. lia.
Qed.
Lemma erased_blank (m : list cell) : (forall x : cell, In x m -> fst x = "") -> render (map erased m) = "".
Proof.
  induction m as [|x m IH]; intros H; [reflexivity|]. cbn [map].
  rewrite render_cons, IH by (intros; apply H; right; assumption).
  cbn. rewrite (H x (or_introl eq_refl)). reflexivity.
Qed.

Lemma shown_edit n done cs b e :
  shown n done cs b -> edit_fits n e -> Forall (fun e' => edits_compatible e' e) done ->
  shown n (done ++ [e]) (apply_edit e cs) (buffer_edit b e).
Proof.
  intros Sh F C. destruct e as [off s|off s|off l s]; cbn [buffer_edit apply_edit].
  - (* InsertBefore *)
    cbn [edit_fits] in F.
    assert (NI : forall e', In e' done -> ~ inside e' off).
    { intros e' H. rewrite Forall_forall in C. specialize (C e' H). destruct e'; cbn in *; lia. }
    destruct (split_at cs off) as (a & x & b0 & E & La); [rewrite (sh_length _ _ _ _ Sh); lia|].
    subst cs off. rewrite update_split. unfold buffer_insert.
    destruct (String.eqb_spec s "") as [->|Ns].
    + cbn [append]. destruct x as [x1 x2]. apply shown_same; auto.
    + destruct (shown_mapped _ _ _ _ _ Sh F NI) as (M & _). rewrite M.
      apply (shown_insert n done a x); cbn [fst snd]; auto.
      * reflexivity.
      * rewrite len_app. lia.
      * rewrite (sh_text _ _ _ _ Sh), !render_app.
        rewrite before_app, Nat.leb_refl, before_all, rope_insert_app, !render_cons.
        cbn [fst snd]. rewrite !sapp_assoc. reflexivity.
  - (* InsertAfterToken *)
    cbn [edit_fits] in F.
    assert (NI : forall e', In e' done -> ~ inside e' off).
    { intros e' H. rewrite Forall_forall in C. specialize (C e' H). destruct e'; cbn in *; lia. }
    destruct (split_at cs off) as (a & x & b0 & E & La); [rewrite (sh_length _ _ _ _ Sh); lia|].
    subst cs off. rewrite update_split. unfold buffer_insert.
    destruct (String.eqb_spec s "") as [->|Ns].
    + rewrite sapp_nil_r. destruct x as [x1 x2]. apply shown_same; auto.
    + destruct (shown_mapped _ _ _ _ _ Sh F NI) as (_ & M). rewrite M.
      apply (shown_insert n done a x); cbn [fst snd]; auto.
      * reflexivity.
      * rewrite len_app. lia.
      * rewrite (sh_text _ _ _ _ Sh), !render_app.
        rewrite before_app, Nat.leb_refl, before_all. unfold ins. rewrite nth_mid.
        rewrite !render_cons. cbn [fst snd]. rewrite <- len_app, <- sapp_assoc.
        rewrite rope_insert_app, !sapp_assoc. reflexivity.
  - (* ReplaceText *)
    cbn [edit_fits] in F. destruct F as (Fl & Fn).
    pose proof (compatible_before done _ off l s C eq_refl) as CL.
    assert (NI : forall e', In e' done -> ~ inside e' off).
    { intros e' H. specialize (CL e' H). destruct e'; cbn in *; lia. }
    destruct (split_at cs off) as (a & x & b0 & E & La); [rewrite (sh_length _ _ _ _ Sh); lia|].
    subst cs off. pose proof (sh_length _ _ _ _ Sh) as LL. rewrite app_length in LL.
    cbn [List.length] in LL.
    destruct l as [|l]; [lia|].
    assert (Eb : exists m b, b0 = (m ++ b)%list /\ List.length m = l).
    { exists (firstn l b0), (skipn l b0). rewrite firstn_skipn. split; [reflexivity|].
      apply firstn_length_le. lia. }
    destruct Eb as (m & b1 & -> & Lm). subst l.
    rewrite app_length in LL.
    change (x :: m ++ b1)%list with ((x :: m) ++ b1)%list in *.
    change (S (List.length m)) with (List.length (x :: m)) in *.
    rewrite blank_split. cbn [map]. change ((erased x :: map erased m) ++ b1)%list
      with (erased x :: (map erased m ++ b1))%list. rewrite update_split.
    cbn [fst erased].
    assert (Mi : forall z, In z m -> fst z = "" /\ len (snd z) = 1).
    { intros z Hz. apply (In_nth _ _ ("", "")) in Hz. destruct Hz as (k & Hk & Ez).
      assert (Q : nth (List.length a + S k) (a ++ (x :: m) ++ b1)%list ("", "") = z).
      { rewrite app_nth2 by lia. replace (List.length a + S k - List.length a) with (S k) by lia.
        cbn [app nth]. rewrite app_nth1 by exact Hk. exact Ez. }
      cbn [List.length] in CL.
      pose proof (sh_ins _ _ _ _ Sh (List.length a + S k)) as Q1.
      pose proof (sh_chr _ _ _ _ Sh (List.length a + S k)) as Q2.
      unfold ins, chr in Q1, Q2. rewrite Q in Q1, Q2. cbn [List.length] in Fn.
      unfold cell in *. split.
      - apply Q1; [lia|]. intros e' H. specialize (CL e' H). destruct e'; cbn in *; lia.
      - apply Q2; [lia|]. intros e' H. specialize (CL e' H). destruct e'; cbn in *; lia. }
    assert (Xc : len (snd x) = 1).
    { pose proof (sh_chr _ _ _ _ Sh (List.length a)) as Q2. unfold chr in Q2.
      cbn [app] in Q2. rewrite nth_mid in Q2. apply Q2; [cbn [List.length] in Fn; lia|].
      intros e' H. specialize (CL e' H). cbn [List.length] in CL. destruct e'; cbn in *; lia. }
    assert (Lr : len (snd x ++ render m) = List.length (x :: m)).
    { rewrite len_app, singles, Xc by exact Mi. reflexivity. }
    assert (Rb : render ((fst x, s) :: map erased m ++ b1) = fst x ++ s ++ render b1).
    { rewrite render_cons, render_app, erased_blank by (intros; apply Mi; assumption).
      cbn [fst snd append]. reflexivity. }
    assert (Rs : render ((x :: m) ++ b1) = fst x ++ (snd x ++ render m) ++ render b1).
    { cbn [app]. rewrite render_cons, render_app, !sapp_assoc. reflexivity. }
    destruct (shown_mapped _ _ _ _ (List.length a) Sh) as (_ & M); [lia|exact NI|].
    assert (Bf : before (a ++ (x :: m) ++ b1) (List.length a) + len (ins (a ++ (x :: m) ++ b1) (List.length a)) =
                 len (render a ++ fst x)).
    { rewrite before_app, Nat.leb_refl, before_all, len_app. unfold ins.
      cbn [app]. rewrite nth_mid. reflexivity. }
    rewrite Bf in M. unfold buffer_replace. rewrite M.
    set (y := ((fst x, s) :: map erased m)%list : list cell).
    assert (Ly : List.length y = S (List.length m)) by (unfold y; cbn; rewrite map_length; reflexivity).
    assert (Ry : len (render y) + List.length (x :: m) = len (render (x :: m)) + len s).
    { unfold y. rewrite !render_cons, !len_app, erased_blank by (intros; apply Mi; assumption).
      rewrite len_app in Lr. cbn [fst snd]. cbn [String.length]. lia. }
    assert (D : forall pos,
      delta_at (if Nat.eqb (List.length (x :: m)) (len s) then bu_deltas b
                else (2 * List.length a + 1,
                      (Z.of_nat (len s) - Z.of_nat (List.length (x :: m)))%Z) :: bu_deltas b) pos =
      (delta_at (bu_deltas b) pos +
       if Nat.ltb (2 * List.length a + 1) pos
       then Z.of_nat (len s) - Z.of_nat (List.length (x :: m)) else 0)%Z).
    { intros pos. destruct (Nat.eqb_spec (List.length (x :: m)) (len s)) as [Q|Q].
      - rewrite Q. destruct (Nat.ltb _ _); lia.
      - apply delta_cons. }
    constructor; cbn [bu_text bu_deltas].
    + rewrite app_length. cbn [List.length]. rewrite app_length, map_length. exact LL.
    + rewrite (sh_text _ _ _ _ Sh), !(render_app a), Rs, Rb.
      rewrite <- (sapp_assoc (render a) (fst x)), <- Lr, rope_erase_app.
      rewrite rope_insert_app, !sapp_assoc. reflexivity.
    + intros i Hi Ni.
      assert (Oi : i <= List.length a \/ List.length a + S (List.length m) <= i).
      { assert (Q : ~ inside (ReplaceText (List.length a) (List.length (x :: m)) s) i)
          by (apply Ni, in_or_app; right; left; reflexivity). cbn in Q. unfold cell in *. lia. }
      destruct (sh_before _ _ _ _ Sh i Hi) as (B1 & B2).
      { intros e' He'. apply Ni, in_or_app. left. exact He'. }
      change (a ++ (fst x, s) :: map erased m ++ b1)%list with (a ++ y ++ b1 : list cell)%list.
      destruct (before_replace a x m b1 y i Oi) as [Q|Q]; [|contradiction].
      assert (Ii : ins (a ++ y ++ b1) i = ins (a ++ (x :: m) ++ b1) i).
      { unfold ins. destruct (Nat.ltb_spec i (List.length a)).
        - rewrite !app_nth1 by lia. reflexivity.
        - rewrite !(app_nth2 a) by lia. destruct (i - List.length a) as [|k] eqn:Ei; [reflexivity|].
          rewrite !app_nth2 by (cbn [List.length]; lia). rewrite Ly. reflexivity. }
      rewrite Ii, !D.
      destruct (Nat.ltb_spec (List.length a) i) as [H|H].
      * replace (Nat.ltb (2 * List.length a + 1) (2 * i)) with true by lia.
        replace (Nat.ltb (2 * List.length a + 1) (2 * i + 1)) with true by lia. lia.
      * replace (Nat.ltb (2 * List.length a + 1) (2 * i)) with false by lia.
        replace (Nat.ltb (2 * List.length a + 1) (2 * i + 1)) with false by lia. lia.
    + intros i Hi Ni. rewrite <- (sh_chr _ _ _ _ Sh i Hi).
      * assert (Oi : i < List.length a \/ List.length a + S (List.length m) <= i).
        { assert (Q : ~ covers (ReplaceText (List.length a) (List.length (x :: m)) s) i)
            by (apply Ni, in_or_app; right; left; reflexivity). cbn in Q. unfold cell in *. lia. }
        change (a ++ (fst x, s) :: map erased m ++ b1)%list with (a ++ y ++ b1 : list cell)%list. unfold chr.
        destruct (Nat.ltb_spec i (List.length a)).
        -- rewrite !app_nth1 by lia. reflexivity.
        -- rewrite !(app_nth2 a) by lia.
           rewrite !app_nth2 by (cbn [List.length]; lia). rewrite Ly. reflexivity.
      * intros e' He'. apply Ni, in_or_app. left. exact He'.
    + intros i Hi Ni. rewrite <- (sh_ins _ _ _ _ Sh i Hi).
      * change (a ++ (fst x, s) :: map erased m ++ b1)%list with (a ++ y ++ b1 : list cell)%list. unfold ins.
        destruct (Nat.ltb_spec i (List.length a)).
        -- rewrite !app_nth1 by lia. reflexivity.
        -- rewrite !(app_nth2 a) by lia. destruct (i - List.length a) as [|k]; [reflexivity|].
           unfold y. cbn [app nth]. destruct (Nat.ltb_spec k (List.length m)) as [Hk|Hk].
           ++ rewrite !app_nth1 by (rewrite ?map_length; exact Hk).
              change ("", "") with (erased ("", "")) at 1. rewrite map_nth. reflexivity.
           ++ rewrite !app_nth2 by (rewrite ?map_length; exact Hk). rewrite map_length. reflexivity.
      * intros e' He'. apply Ni, in_or_app. left. exact He'.
Qed.

Lemma shown_edits n es : forall done cs b,
  shown n done cs b -> Forall (edit_fits n) es -> ForallOrdPairs edits_compatible es ->
  (forall e e', In e done -> In e' es -> edits_compatible e e') ->
  bu_text (fold_left buffer_edit es b) = render (apply_edits es cs).
Proof.
  induction es as [|e es IH]; intros done cs b Sh F P X.
  - exact (sh_text _ _ _ _ Sh).
  - inversion F; subst. inversion P as [|? ? Pe Pes]; subst.
    unfold apply_edits. cbn [fold_left].
    apply (IH (done ++ [e])%list); auto.
    + apply shown_edit; auto. apply Forall_forall. intros e' H. apply X; [exact H|left; reflexivity].
    + intros e1 e2 I1 I2. apply in_app_or in I1. destruct I1 as [I1|[<-|[]]].
      * apply X; [exact I1|right; exact I2].
      * rewrite Forall_forall in Pe. apply Pe. exact I2.
Qed.

Lemma buffer_refines text es : compatible_edits text es ->
  buffer_rewrite text es = rewrite text es.
Proof.
  intros (F & P). unfold buffer_rewrite, rewrite.
  apply (shown_edits (len text) es []); auto using shown_initial. intros e e' [].
Qed.
