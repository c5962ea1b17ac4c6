(* The query script on files in UTF-8. *)
From Coq Require Import String Ascii List NArith Bool Arith Lia.
From Verif Require Import Base Clang SourceRange QueryText SourceRangeSpec SourceRangeProof.
Import ListNotations.

Definition high (c : ascii) : Prop := (128 <= N_of_ascii c)%N.

Lemma byte_N n : (n < 256)%N -> N_of_ascii (ascii_of_N n) = n.
Proof. apply N_ascii_embedding. Qed.

Lemma continuation_N n : N_of_ascii (continuation n) = (128 + n mod 64)%N.
Proof.
  unfold continuation. apply byte_N. assert (n mod 64 < 64)%N by (apply N.mod_lt; discriminate). lia.
Qed.

Lemma continuation_high n : high (continuation n).
Proof. unfold high. rewrite continuation_N. apply N.le_add_r. Qed.

(* An encoded character is one ASCII character, or two to four other bytes the first of
   which tells how many. *)
Lemma encode_cases n : scalar n ->
  (exists c, encode n = char_string c /\ (N_of_ascii c < 128)%N) \/
  (exists c d, encode n = String c (char_string d) /\
     high c /\ high d /\ utf8_length c = 2) \/
  (exists c d e, encode n = String c (String d (char_string e)) /\
     high c /\ high d /\ high e /\ utf8_length c = 3) \/
  (exists c d e f, encode n = String c (String d (String e (char_string f))) /\
     high c /\ high d /\ high e /\ high f /\ utf8_length c = 4).
Proof.
  intros Sc. assert (B : (n < 1114112)%N) by (destruct Sc; lia). clear Sc.
  unfold encode.
  destruct (N.ltb_spec n 128).
  { left. exists (ascii_of_N n). split; auto. rewrite byte_N by lia. auto. }
  right. destruct (N.ltb_spec n 2048).
  { left. do 2 eexists. split; [reflexivity|].
    assert (n / 64 < 32)%N by (apply N.div_lt_upper_bound; lia).
    generalize dependent (n / 64)%N. intros q Hq.
    unfold utf8_length. unfold high at 1. rewrite byte_N by lia.
    split; [lia|]. split; [apply continuation_high|].
    destruct (N.ltb_spec (192 + q) 192); [lia|].
    destruct (N.ltb_spec (192 + q) 224); [auto|lia]. }
  right. destruct (N.ltb_spec n 65536).
  { left. do 3 eexists. split; [reflexivity|].
    assert (n / 4096 < 16)%N by (apply N.div_lt_upper_bound; lia).
    generalize dependent (n / 4096)%N. intros q Hq.
    unfold utf8_length. unfold high at 1. rewrite byte_N by lia.
    split; [lia|]. split; [apply continuation_high|]. split; [apply continuation_high|].
    destruct (N.ltb_spec (224 + q) 192); [lia|].
    destruct (N.ltb_spec (224 + q) 224); [lia|].
    destruct (N.ltb_spec (224 + q) 240); [auto|lia]. }
  right. do 4 eexists. split; [reflexivity|].
  assert (n / 262144 < 5)%N by (apply N.div_lt_upper_bound; lia).
    generalize dependent (n / 262144)%N. intros q Hq.
  unfold utf8_length. unfold high at 1. rewrite byte_N by lia.
  split; [lia|]. repeat (split; [apply continuation_high|]).
  destruct (N.ltb_spec (240 + q) 192); [lia|].
  destruct (N.ltb_spec (240 + q) 224); [lia|].
  destruct (N.ltb_spec (240 + q) 240); [lia|auto].
Qed.

Lemma utf8_length_ascii c : (N_of_ascii c < 128)%N -> utf8_length c = 1.
Proof.
  intros H. unfold utf8_length. destruct (N.ltb_spec (N_of_ascii c) 192); [auto|lia].
Qed.

Lemma decode_encode n s : scalar n -> decode (encode n ++ s)%string = encode n :: decode s.
Proof.
  intros Sc. unfold decode.
  destruct (encode_cases n Sc)
    as [(c & -> & H)|[(c & d & -> & _ & _ & L)|[(c & d & e & -> & _ & _ & _ & L)
       |(c & d & e & f & -> & _ & _ & _ & _ & L)]]].
  - simpl. now rewrite (utf8_length_ascii c H).
  - simpl. now rewrite L.
  - simpl. now rewrite L.
  - simpl. now rewrite L.
Qed.

Lemma encode_high n : scalar n ->
  (exists c, encode n = char_string c /\ (N_of_ascii c < 128)%N) \/
  exists c r, encode n = String c r /\ r <> ""%string /\
    Forall high (list_ascii_of_string (String c r)).
Proof.
  intros Sc. destruct (encode_cases n Sc)
    as [H|[(c & d & -> & A)|[(c & d & e & -> & A)|(c & d & e & f & -> & A)]]]; auto;
    right; do 2 eexists; (split; [reflexivity|]); (split; [discriminate|]);
    cbn; repeat constructor; tauto.
Qed.

Lemma decode_app a b : utf8 a -> decode (a ++ b)%string = decode a ++ decode b.
Proof.
  induction 1 as [|n s Sc U IH]; auto.
  rewrite app_assoc_s, !decode_encode by auto. simpl. now rewrite IH.
Qed.

Lemma utf8_app a b : utf8 a -> utf8 b -> utf8 (a ++ b)%string.
Proof.
  induction 1 as [|n s Sc U IH]; intros; auto. rewrite app_assoc_s. constructor; auto.
Qed.

Lemma ascii_utf8 s : ascii_only s -> utf8 s.
Proof.
  unfold ascii_only. induction s as [|c s IH]; intros H; [constructor|].
  simpl in H. apply andb_true_iff in H. destruct H as [Hc Hs]. apply N.ltb_lt in Hc.
  replace (String c s) with (encode (N_of_ascii c) ++ s)%string.
  - constructor; auto. left. lia.
  - unfold encode. apply N.ltb_lt in Hc. rewrite Hc. now rewrite ascii_N_embedding.
Qed.

(* A place in a file in UTF-8 that does not follow a byte outside ASCII is between two
   characters. *)
Lemma high_prefix r p s x : Forall high (list_ascii_of_string r) ->
  (p ++ s)%string = (r ++ x)%string ->
  (exists q, p = (r ++ q)%string /\ x = (q ++ s)%string) \/
  exists q, r = (p ++ q)%string /\ s = (q ++ x)%string /\ q <> ""%string.
Proof.
  intros _. revert p. induction r as [|c r IH]; intros p E; simpl in E.
  - left. exists p. auto.
  - destruct p as [|d p]; simpl in E.
    + right. exists (String c r). split; auto. split; auto. discriminate.
    + injection E as -> E. destruct (IH p E) as [(q & -> & ->)|(q & -> & -> & N)].
      * left. exists q. auto.
      * right. exists q. auto.
Qed.

Lemma utf8_split : forall w, utf8 w -> forall p s, w = (p ++ s)%string ->
  (p = ""%string \/ exists p' c, p = (p' ++ char_string c)%string /\ (N_of_ascii c < 128)%N) ->
  utf8 p /\ utf8 s.
Proof.
  induction 1 as [|n w Sc U IH]; intros p s E Hp.
  { destruct p; [|discriminate]. simpl in E. subst s. split; constructor. }
  destruct Hp as [->|(p' & c & -> & Hc)].
  { simpl in E. subst s. split; constructor; auto. }
  destruct (encode_high n Sc) as [(d & Ed & Hd)|(d & r & Ed & Nr & Hh)].
  - rewrite Ed in E. destruct p' as [|d' p']; simpl in E; injection E as -> E.
    + subst w. split; auto.
      change ("" ++ char_string c)%string with (char_string c).
      rewrite <- (app_nil_s (char_string c)), <- Ed. constructor; auto. constructor.
    + destruct (IH (p' ++ char_string c)%string s E) as [A B].
      { right. eauto. }
      split; auto. change (String d' p' ++ char_string c)%string
        with (char_string d' ++ (p' ++ char_string c))%string.
      rewrite <- Ed. constructor; auto.
  - symmetry in E. rewrite Ed in E.
    destruct (high_prefix _ _ _ _ Hh E) as [(q & Eq & Ew)|(q & Eq & Es & Nq)].
    + destruct (IH q s Ew) as [A B].
      * destruct q as [|q0 q]; [auto|]. right.
        assert (L : exists q' e, String q0 q = (q' ++ char_string e)%string).
        { clear. revert q0. induction q as [|a q IH]; intros q0.
          - exists ""%string, q0. reflexivity.
          - destruct (IH a) as (q' & e & ->). exists (String q0 q'), e. reflexivity. }
        destruct L as (q' & e & Eq'). rewrite Eq' in *. exists q', e. split; auto.
        rewrite <- app_assoc_s in Eq.
        assert (X : c = e); [|now subst].
        clear -Eq. generalize dependent (String d r ++ q')%string. intros z.
        revert z. induction p' as [|y p' IHp]; intros z E.
        -- destruct z as [|y z]; simpl in E; [unfold char_string in E; congruence|].
           injection E as _ E. destruct z; discriminate.
        -- destruct z as [|y' z]; simpl in E.
           ++ unfold char_string in E. injection E as _ E. destruct p'; discriminate.
           ++ injection E as _ E. eapply IHp; eauto.
      * split; auto. rewrite Eq, <- Ed. constructor; auto.
    + exfalso. clear -Hh Eq Hc. rewrite Eq in Hh.
      assert (I : In c (list_ascii_of_string ((p' ++ char_string c) ++ q)%string)).
      { clear. induction p'; simpl; auto. }
      rewrite Forall_forall in Hh. specialize (Hh _ I). unfold high in Hh. lia.
Qed.

(* Line ends *)
Lemma universal_app x y :
  hd_error y <> Some p_lf \/ (forall x', x <> x' ++ [p_cr]) ->
  universal (x ++ y) = universal x ++ universal y.
Proof.
  induction x as [|c x IH]; intros H; auto.
  assert (H' : hd_error y <> Some p_lf \/ (forall x', x <> x' ++ [p_cr])).
  { destruct H as [H|H]; auto. right. intros x' ->. apply (H (c :: x')). reflexivity. }
  specialize (IH H'). cbn [app universal].
  destruct (String.eqb c p_cr) eqn:E; [|now rewrite IH].
  apply String.eqb_eq in E. subst c.
  destruct x as [|d x].
  - cbn [app]. destruct y as [|d y]; auto.
    destruct (String.eqb d p_lf) eqn:L; [|reflexivity].
    apply String.eqb_eq in L. subst d. destruct H as [H|H]; [now destruct H|].
    now destruct (H []).
  - cbn [app] in *. destruct (String.eqb d p_lf); rewrite IH; reflexivity.
Qed.

Lemma encode_not_empty n : scalar n -> exists c r, encode n = String c r.
Proof.
  intros Sc. destruct (encode_high n Sc) as [(c & -> & _)|(c & r & -> & _)];
    [exists c, ""%string|exists c, r]; auto.
Qed.

Lemma decode_head s : utf8 s ->
  match s with String c _ => c <> lf | EmptyString => True end ->
  hd_error (decode s) <> Some p_lf.
Proof.
  intros U H. destruct U as [|n s Sc U]; [discriminate|].
  rewrite decode_encode by auto. simpl. destruct (encode_not_empty n Sc) as (c & r & E).
  rewrite E in *. simpl in H. intros X. injection X as -> _. congruence.
Qed.

Lemma decode_last p : utf8 p -> (exists p' c, p = (p' ++ char_string c)%string /\ c <> cr) ->
  forall x', decode p <> x' ++ [p_cr].
Proof.
  intros U (p' & c & E & N). revert p' E. induction U as [|n p Sc U IH]; intros p' E x' X.
  { destruct p'; discriminate. }
  rewrite decode_encode in X by auto.
  destruct p as [|d p].
  - rewrite app_nil_s in E. unfold decode in X. simpl in X.
    destruct x' as [|y x']; [|injection X as _ X; destruct x'; discriminate].
    injection X as X. rewrite X in E. destruct p' as [|z p'].
    + unfold p_cr, char_string in E. simpl in E. congruence.
    + injection E as _ E. destruct p'; discriminate.
  - destruct x' as [|y x'].
    + injection X as _ X. clear -U X. remember (String d p) as w.
      destruct U; [discriminate|]. rewrite decode_encode in X by auto. discriminate.
    + injection X as _ X. 
      assert (L : exists q, String d p = (q ++ char_string c)%string).
      { clear -E. revert p' E. generalize (encode n). intros e. induction e as [|a e IHe];
          intros p' E; simpl in E; [eauto|].
        destruct p' as [|z p']; simpl in E.
        - injection E as _ E. destruct e; discriminate.
        - injection E as _ E. eauto. }
      destruct L as (q & L). eapply IH; eauto.
Qed.

Definition read_text (s : string) : list pchar := universal (decode s).

Lemma read_text_app a b : utf8 a -> utf8 b -> safe_split a b ->
  read_text (a ++ b)%string = read_text a ++ read_text b.
Proof.
  intros Ua Ub H. unfold read_text. rewrite decode_app by auto.
  destruct H as [H|[H| ->]].
  - apply universal_app. left. now apply decode_head.
  - apply universal_app. right. now apply decode_last.
  - reflexivity.
Qed.

Lemma encode_eqb n c : scalar n -> (N_of_ascii c < 128)%N ->
  (encode n = char_string c) \/
  (String.eqb (encode n) (char_string c) = false /\
   exists d r, encode n = String d r /\ d <> c).
Proof.
  intros Sc Hc. destruct (encode_high n Sc) as [(d & -> & _)|(d & r & -> & Nr & H)].
  - rewrite char_string_eqb. destruct (Ascii.eqb_spec d c) as [->|Nd]; auto.
    right. split; auto. exists d, ""%string. auto.
  - right. inversion H; subst. assert (d <> c) by (intros ->; unfold high in *; lia).
    split; [|eauto]. apply String.eqb_neq. intros X. injection X as X _. contradiction.
Qed.

Lemma with_lf_high r s : Forall high (list_ascii_of_string r) ->
  with_lf (r ++ s)%string = (r ++ with_lf s)%string.
Proof.
  induction r as [|c r IH]; intros H; auto. inversion H; subst. cbn [append with_lf].
  destruct (Ascii.eqb_spec c cr) as [->|]; [unfold high in *; vm_compute in H2; now destruct H2|].
  now rewrite IH.
Qed.

Lemma concat_universal s : utf8 s -> concat_strings (read_text s) = with_lf s.
Proof.
  unfold read_text. induction 1 as [|n s Sc U IH]; auto.
  rewrite decode_encode by auto. cbn [universal].
  assert (Lc : (N_of_ascii cr < 128)%N) by reflexivity.
  assert (Ll : (N_of_ascii lf < 128)%N) by reflexivity.
  destruct (encode_high n Sc) as [(c & Ec & Hc)|(c & r & Ec & Nr & Hh)].
  - rewrite Ec. unfold p_cr at 1. rewrite char_string_eqb.
    change (char_string c ++ s)%string with (String c s). cbn [with_lf].
    destruct (Ascii.eqb_spec c cr) as [->|Nc].
    2:{ cbn [concat_strings]. rewrite IH. reflexivity. }
    destruct U as [|m s Sm U]; [reflexivity|].
    rewrite decode_encode in * by auto.
    destruct (encode_eqb m lf Sm Ll) as [Em|(E1 & d & r & E2 & Nd)].
    + rewrite Em in *. unfold p_lf at 1. rewrite String.eqb_refl.
      change (char_string lf ++ s)%string with (String lf s) in *. exact IH.
    + unfold p_lf at 1. rewrite E1, E2 in *. cbn [append].
      destruct (Ascii.eqb_spec d lf); [contradiction|].
      change (concat_strings (p_lf :: universal (String d r :: decode s)))
        with (String lf (concat_strings (universal (String d r :: decode s)))).
      now rewrite IH.
  - rewrite Ec. replace (String.eqb (String c r) p_cr) with false.
    + rewrite with_lf_high by auto. cbn [concat_strings]. rewrite IH. reflexivity.
    + symmetry. apply String.eqb_neq. unfold p_cr, char_string. congruence.
Qed.

Lemma count_lf_high r s : Forall high (list_ascii_of_string r) ->
  count_lf (chars (r ++ s)%string) = count_lf (chars s).
Proof.
  induction r as [|c r IH]; intros H; auto. inversion H; subst.
  change (chars (String c r ++ s)%string) with (char_string c :: chars (r ++ s)%string).
  cbn [count_lf]. unfold p_lf. rewrite char_string_eqb.
  destruct (Ascii.eqb_spec c lf) as [->|]; [unfold high in *; vm_compute in H2; now destruct H2|].
  now rewrite IH.
Qed.

(* What is read is characters. *)
Definition good (x : pchar) : Prop :=
  (exists c, x = char_string c) \/
  (x <> ""%string /\ Forall high (list_ascii_of_string x)).

Lemma good_encode n : scalar n -> good (encode n).
Proof.
  intros Sc. destruct (encode_high n Sc) as [(c & -> & _)|(c & r & -> & _ & H)].
  - left. eauto.
  - right. split; [discriminate|auto].
Qed.

Lemma good_decode s : utf8 s -> Forall good (decode s).
Proof.
  induction 1 as [|n s Sc U IH]; [constructor|].
  rewrite decode_encode by auto. constructor; auto. now apply good_encode.
Qed.

Lemma good_universal l : Forall good l -> Forall good (universal l).
Proof.
  assert (G : good p_lf) by (left; now exists lf).
  induction 1 as [|x l Hx Hl IH]; [constructor|]. cbn [universal].
  destruct (String.eqb x p_cr); [|auto].
  destruct l as [|y l]; [auto|]. destruct (String.eqb y p_lf); auto.
Qed.

Lemma count_lf_concat l : Forall good l ->
  count_lf l = count_lf (chars (concat_strings l)).
Proof.
  induction 1 as [|x l Hx Hl IH]; auto. cbn [concat_strings count_lf].
  destruct Hx as [(c & ->)|(Nx & Hh)].
  - change (chars (char_string c ++ concat_strings l)%string)
      with (char_string c :: chars (concat_strings l)). cbn [count_lf]. now rewrite IH.
  - rewrite count_lf_high by auto. rewrite IH.
    destruct (String.eqb x p_lf) eqn:E; [|reflexivity].
    apply String.eqb_eq in E. subst x. inversion Hh; subst.
    unfold high in *. vm_compute in H1. now destruct H1.
Qed.

Lemma last_char_inj a b c d : (a ++ char_string c)%string = (b ++ char_string d)%string ->
  a = b /\ c = d.
Proof.
  revert b. induction a as [|x a IH]; intros b E; destruct b as [|y b]; simpl in E.
  - unfold char_string in E. injection E as ->. auto.
  - unfold char_string in E. injection E as _ E. destruct b; discriminate.
  - unfold char_string in E. injection E as _ E. destruct a; discriminate.
  - injection E as -> E. destruct (IH b E) as [-> ->]. auto.
Qed.

Lemma last_char s : s = ""%string \/ exists a c, s = (a ++ char_string c)%string.
Proof.
  induction s as [|x s IH]; auto. right. destruct IH as [->|(a & c & ->)].
  - exists ""%string, x. reflexivity.
  - exists (String x a), c. reflexivity.
Qed.

Lemma in_last a c : In c (list_ascii_of_string (a ++ char_string c)%string).
Proof. induction a; simpl; auto. Qed.

Lemma concat_strings_app a b :
  concat_strings (a ++ b) = (concat_strings a ++ concat_strings b)%string.
Proof. induction a; simpl; auto. now rewrite IHa, app_assoc_s. Qed.

Lemma ends_lf l z : Forall good l -> concat_strings l = (z ++ char_string lf)%string ->
  exists l', l = l' ++ [p_lf].
Proof.
  intros G E. destruct (exists_last (l := l)) as (l' & x & ->).
  { intros ->. destruct z; discriminate. }
  rewrite concat_strings_app in E. cbn [concat_strings] in E. rewrite app_nil_s in E.
  apply Forall_app in G. destruct G as [_ G]. inversion G as [|? ? Gx _]; subst.
  exists l'. f_equal. f_equal.
  destruct Gx as [(c & ->)|(Nx & Hh)].
  - apply last_char_inj in E. destruct E as [_ ->]. reflexivity.
  - exfalso. destruct (last_char x) as [->|(a & c & ->)]; [congruence|].
    rewrite <- app_assoc_s in E. apply last_char_inj in E. destruct E as [_ ->].
    rewrite Forall_forall in Hh. specialize (Hh _ (in_last a lf)).
    unfold high in Hh. vm_compute in Hh. now destruct Hh.
Qed.

Lemma with_lf_ends a c : is_line_end c = true ->
  exists z, with_lf (a ++ char_string c)%string = (z ++ char_string lf)%string.
Proof.
  intros H. induction a as [|x a (z & IH)].
  - exists ""%string. cbn. unfold is_line_end in H.
    destruct (Ascii.eqb_spec c cr); auto. rewrite orb_false_r in H.
    apply Ascii.eqb_eq in H. now subst.
  - cbn [append with_lf]. destruct (Ascii.eqb x cr).
    + destruct (a ++ char_string c)%string as [|y w] eqn:E; [destruct a; discriminate|].
      destruct (Ascii.eqb y lf); [eauto|]. exists (String lf z). now rewrite IH.
    + exists (String x z). now rewrite IH.
Qed.

Lemma last_line_lf q x : last_line_from q (x ++ [p_lf]) = [].
Proof.
  rewrite last_line_from_app. unfold last_line_from. cbn [fold_left]. unfold step_line.
  now rewrite String.eqb_refl.
Qed.

Lemma chars_ends z : chars (z ++ char_string lf)%string = chars z ++ [p_lf].
Proof. now rewrite chars_app. Qed.

Lemma line_split p : exists a b, p = (a ++ b)%string /\
  string_forall (fun c => negb (is_line_end c)) b = true /\
  (a = ""%string \/ exists a' c, a = (a' ++ char_string c)%string /\ is_line_end c = true).
Proof.
  induction p as [|c p (a & b & -> & Hb & Ha)].
  { exists ""%string, ""%string. auto. }
  destruct Ha as [->|(a' & d & -> & Hd)].
  - destruct (is_line_end c) eqn:E.
    + exists (char_string c), b. split; auto. split; auto. right. exists ""%string, c. auto.
    + exists ""%string, (String c b). split; auto. split; auto. simpl. now rewrite E.
  - exists (String c (a' ++ char_string d)), b. split; auto. split; auto.
    right. exists (String c a'), d. auto.
Qed.

Lemma line_end_ascii c : is_line_end c = true -> (N_of_ascii c < 128)%N.
Proof.
  unfold is_line_end. intros H. apply orb_true_iff in H.
  destruct H as [H|H]; apply Ascii.eqb_eq in H; subst; reflexivity.
Qed.

Lemma read_text_ascii s : ascii_only s -> read_text s = chars (with_lf s).
Proof. intros H. unfold read_text. now rewrite decode_ascii, universal_chars. Qed.

(* A place with only ASCII before it on its line *)
Definition ascii_tail (p : string) : Prop :=
  forall a b, p = (a ++ b)%string ->
    string_forall (fun c => negb (is_line_end c)) b = true -> ascii_only b.

Lemma ascii_tail_last p : ascii_tail p ->
  p = ""%string \/ exists p' c, p = (p' ++ char_string c)%string /\ (N_of_ascii c < 128)%N.
Proof.
  intros H. destruct (last_char p) as [->|(a & c & ->)]; auto. right. exists a, c.
  split; auto. destruct (is_line_end c) eqn:E; [now apply line_end_ascii|].
  specialize (H a (char_string c) eq_refl). simpl in H. rewrite E in H.
  specialize (H eq_refl). unfold ascii_only in H. simpl in H.
  rewrite andb_true_r in H. now apply N.ltb_lt.
Qed.

Lemma lpos_read p : utf8 p -> ascii_tail p -> lpos (read_text p) = lpos (chars (with_lf p)).
Proof.
  intros U H. unfold lpos. f_equal.
  - f_equal. rewrite count_lf_concat by (now apply good_universal, good_decode).
    now rewrite concat_universal.
  - f_equal. destruct (line_split p) as (a & b & -> & Hb & Ha).
    specialize (H a b eq_refl Hb).
    assert (Ua : utf8 a).
    { apply (utf8_split _ U a b eq_refl). destruct Ha as [->|(a' & c & -> & Hc)]; auto.
      right. exists a', c. split; auto. now apply line_end_ascii. }
    assert (Sp : safe_split a b).
    { left. destruct b as [|c b]; auto. simpl in Hb. apply andb_true_iff in Hb.
      destruct Hb as [Hb _]. intros ->. discriminate. }
    rewrite read_text_app by (auto using ascii_utf8). rewrite with_lf_app by auto.
    rewrite chars_app, !last_line_from_app, (read_text_ascii b H).
    f_equal. f_equal.
    destruct Ha as [->|(a' & c & -> & Hc)]; [reflexivity|].
    destruct (with_lf_ends a' c Hc) as (z & Ez).
    rewrite Ez, chars_ends, last_line_lf.
    destruct (ends_lf (read_text (a' ++ char_string c)%string) z) as (l' & El).
    + now apply good_universal, good_decode.
    + now rewrite concat_universal.
    + rewrite El, last_line_lf. reflexivity.
Qed.

Lemma substring_prefix p s : substring 0 (String.length p) (p ++ s)%string = p.
Proof. induction p; simpl; [now destruct s|]. now rewrite IHp. Qed.

Lemma utf8_lemma text r :
  in_file text r -> starts_with_token text r -> last_token_on_one_line text r ->
  utf8 text -> ascii_before text (tr_begin r) -> ascii_before text (tr_end r) ->
  text_for_source_range text (info_for_source_range text r) = with_lf (text_of text r).
Proof.
  intros H ST OL U AB AE.
  destruct (range_split text r H) as (p & m & t & s & E & Lp & Lm & Lt & T & TT).
  unfold last_token_on_one_line in OL. rewrite TT in OL.
  assert (Tn : t <> ""%string).
  { intros ->. destruct H as (_ & H & _). simpl in Lt. lia. }
  destruct (with_lf_no_ends t OL) as [Wt Ct].
  assert (P0 : safe_split p (m ++ t ++ s)%string).
  { left. unfold starts_with_token in ST. rewrite <- Lp, E, get_app_length in ST.
    destruct (m ++ t ++ s)%string; auto. simpl in ST. congruence. }
  assert (P1 : safe_split (p ++ m)%string (t ++ s)%string).
  { left. apply starts_ok; auto. }
  assert (P2 : safe_split (p ++ m ++ t)%string s).
  { right. left. destruct (ends_not_cr t Tn OL) as (t' & c & Et & Nc).
    exists (p ++ m ++ t')%string, c. split; auto. rewrite Et, !app_assoc_s. reflexivity. }
  assert (P4 : safe_split p (m ++ t)%string).
  { destruct P0 as [P0|P0]; [left|now right].
    destruct m; simpl in *; auto. destruct t; simpl in *; auto. }
  assert (Ap : ascii_tail p).
  { unfold ascii_before in AB. rewrite <- Lp, E, substring_prefix in AB. exact AB. }
  assert (Le : tr_end r = String.length (p ++ m ++ t)%string).
  { unfold tr_end. rewrite <- Lm, <- Lt. rewrite <- app_assoc_s, !length_app. lia. }
  assert (E2 : text = ((p ++ m ++ t) ++ s)%string) by (rewrite E, !app_assoc_s; reflexivity).
  assert (Ae : ascii_tail (p ++ m ++ t)%string).
  { unfold ascii_before in AE. rewrite Le, E2, substring_prefix in AE. exact AE. }
  destruct (utf8_split _ U (p ++ m ++ t)%string s E2 (ascii_tail_last _ Ae)) as [Upm Us].
  destruct (utf8_split _ Upm p (m ++ t)%string eq_refl (ascii_tail_last _ Ap)) as [Up Umt].
  assert (RS : range_start text r = lpos (read_text p)).
  { rewrite lpos_read by auto. unfold range_start. rewrite <- Lp, E. apply position_app; auto. }
  assert (RE : range_end text r = lpos (read_text (p ++ m ++ t)%string)).
  { rewrite lpos_read by auto.
    unfold range_end. rewrite <- Lm, E. rewrite <- app_assoc_s at 1.
    rewrite position_app by auto.
    rewrite <- app_assoc_s, (with_lf_app (p ++ m)%string t), (chars_app (with_lf (p ++ m)%string)).
    - rewrite lpos_add by (now rewrite Wt). rewrite Wt, chars_length, <- Lt.
      destruct (lpos (chars (with_lf (p ++ m)))); reflexivity.
    - pose proof (starts_ok t ""%string Tn OL) as X. rewrite app_nil_s in X. now left. }
  unfold text_for_source_range, info_for_source_range, readlines.
  cbn [start_line start_column end_line end_column].
  rewrite RS, RE. change (universal (decode text)) with (read_text text).
  pose proof (extract_correct (read_text p) (read_text (m ++ t)%string) (read_text s)) as X.
  rewrite <- (read_text_app p (m ++ t)%string) in X by auto.
  rewrite app_assoc in X. rewrite <- (read_text_app p (m ++ t)%string) in X by auto.
  rewrite <- read_text_app, <- E2 in X by auto.
  transitivity (concat_strings (read_text (m ++ t)%string)).
  - f_equal. exact X.
  - rewrite concat_universal by auto. now rewrite T.
Qed.

Lemma utf8_lf_lemma text r :
  in_file text r -> starts_with_token text r -> last_token_on_one_line text r ->
  utf8 text -> ascii_before text (tr_begin r) -> ascii_before text (tr_end r) ->
  string_forall (fun c => negb (Ascii.eqb c cr)) text = true ->
  text_for_source_range text (info_for_source_range text r) = text_of text r.
Proof.
  intros H ST OL U AB AE NC. rewrite utf8_lemma by auto. apply with_lf_id.
  destruct (range_split text r H) as (p & m & t & s & E & _ & _ & _ & T & _).
  rewrite T. rewrite E, !string_forall_app in NC. rewrite string_forall_app.
  repeat (apply andb_true_iff in NC; destruct NC as [? NC]).
  apply andb_true_iff; auto.
Qed.

(* Enough for a place to have only ASCII before it on its line *)
Lemma ascii_before_by text off p c q :
  substring 0 off text = (p ++ String c q)%string -> is_line_end c = true ->
  ascii_only q -> ascii_before text off.
Proof.
  intros E Hc Aq a b E' Hb. rewrite E in E'. clear E.
  revert a E'. induction p as [|x p IH]; intros a E.
  - destruct a as [|y a]; simpl in E.
    + subst b. simpl in Hb. rewrite Hc in Hb. discriminate.
    + injection E as -> ->. unfold ascii_only in *. rewrite string_forall_app in Aq.
      now apply andb_true_iff in Aq.
  - destruct a as [|y a]; simpl in E.
    + subst b. simpl in Hb. apply andb_true_iff in Hb. destruct Hb as [_ Hb].
      rewrite string_forall_app in Hb. apply andb_true_iff in Hb. destruct Hb as [_ Hb].
      simpl in Hb. rewrite Hc in Hb. discriminate.
    + injection E as -> E. eauto.
Qed.
