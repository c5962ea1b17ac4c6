(* Reading a JSON text gives the value that was written. *)
From Coq Require Import String Ascii List NArith ZArith Bool Arith Lia DecimalString.
From Verif Require Import Base Clang SourceRange SourceRangeSpec SourceRangeProof QueryText
  Utf8Proof InfoJson InfoScript InfoSpec.
Import ListNotations.
Local Open Scope string_scope.

Lemma sapp_assoc' (a b c : string) : (a ++ b) ++ c = a ++ b ++ c.
Proof. apply app_assoc_s. Qed.

Lemma cons_app (c : ascii) (a b : string) : String c a ++ b = String c (a ++ b).
Proof. reflexivity. Qed.

Lemma blank_space c : In c (map ascii_of_nat [32; 9; 10; 13]) -> is_space c = true.
Proof. cbn. intros [<-|[<-|[<-|[<-|[]]]]]; reflexivity. Qed.

Lemma skip_blank b s : blank b -> skip_spaces (b ++ s) = skip_spaces s.
Proof.
  unfold blank. induction b as [|c b IH]; intros H; [reflexivity|].
  cbn [list_ascii_of_string] in H. inversion H; subst. cbn [append skip_spaces].
  rewrite blank_space by assumption. auto.
Qed.
Lemma skip_blank_nil b : blank b -> skip_spaces b = "".
Proof. intros H. rewrite <- (app_nil_s b), skip_blank by auto. reflexivity. Qed.

Lemma skip_solid c r : is_space c = false -> skip_spaces (String c r) = String c r.
Proof. intros H. cbn. now rewrite H. Qed.

Lemma hex_digit_value c n : In (c, n) hex_digits -> hex_value c = Some n.
Proof.
  cbn. intros H. repeat (destruct H as [H|H]; [injection H as <- <-; reflexivity|]).
  destruct H.
Qed.

Lemma hex4_text n s r : hex_text n s -> hex4 (s ++ r) = Some (n, r).
Proof.
  intros H. destruct H as [a b c d w x y z A B C D]. cbn [append hex4 bind].
  rewrite (hex_digit_value _ _ A), (hex_digit_value _ _ B), (hex_digit_value _ _ C),
    (hex_digit_value _ _ D). cbn [bind]. f_equal. f_equal. lia.
Qed.

Definition plain_byte (c : ascii) : bool :=
  negb (Ascii.eqb c "034") && negb (N.ltb (N_of_ascii c) 32) && negb (Ascii.eqb c "\").

Lemma read_plain p : forall fuel r, string_forall plain_byte p = true ->
  String.length p <= fuel ->
  read_string fuel (p ++ r) =
  (let? (y, r) := read_string (fuel - String.length p) r in Some (p ++ y, r)).
Proof.
  induction p as [|c p IH]; intros fuel r H L.
  - cbn [append String.length]. rewrite Nat.sub_0_r.
    destruct (read_string fuel r) as [[y r']|]; reflexivity.
  - cbn [String.length] in *. destruct fuel as [|fuel]; [lia|].
    cbn [string_forall] in H. apply andb_true_iff in H. destruct H as [H1 H].
    unfold plain_byte in H1. apply andb_true_iff in H1. destruct H1 as [H1 H3].
    apply andb_true_iff in H1. destruct H1 as [H1 H2]. apply negb_true_iff in H1, H2, H3.
    cbn [append read_string]. rewrite H1, H2, H3, IH by (auto; lia). cbn [Nat.sub].
    destruct (read_string _ r) as [[y r']|]; reflexivity.
Qed.

Lemma high_plain c : high c -> plain_byte c = true.
Proof.
  unfold high, plain_byte. intros H.
  destruct (Ascii.eqb_spec c "034") as [->|]; [now vm_compute in H|].
  destruct (N.ltb_spec (N_of_ascii c) 32); [lia|].
  destruct (Ascii.eqb_spec c "\") as [->|]; [now vm_compute in H|]. reflexivity.
Qed.

Lemma encode_plain n : scalar n -> (32 <= n)%N -> n <> 34%N -> n <> 92%N ->
  string_forall plain_byte (encode n) = true.
Proof.
  intros S A B C. destruct (encode_cases n S) as [(c & E & H)|[(c & d & E & H)|
    [(c & d & e & E & H)|(c & d & e & f & E & H)]]]; rewrite E.
  - assert (N_of_ascii c = n).
    { unfold encode in E. destruct (N.ltb_spec n 128).
      - injection E as <-. apply byte_N. lia.
      - destruct (n <? 2048)%N; [discriminate|]. destruct (n <? 65536)%N; discriminate. }
    cbn. rewrite andb_true_r. unfold plain_byte. subst n.
    destruct (Ascii.eqb_spec c "034") as [->|]; [now destruct B|].
    destruct (N.ltb_spec (N_of_ascii c) 32); [lia|].
    destruct (Ascii.eqb_spec c "\") as [->|]; [now destruct C|]. reflexivity.
  - destruct H as (X & Y & _). cbn. now rewrite !high_plain.
  - destruct H as (X & Y & Z & _). cbn. now rewrite !high_plain.
  - destruct H as (X & Y & Z & W & _). cbn. now rewrite !high_plain.
Qed.

Lemma hex_length n s : hex_text n s -> String.length s = 4.
Proof. intros H. now destruct H. Qed.

Lemma read_u fuel r : read_string (S fuel) ("\u" ++ r) =
  (let? (x, r) := unicode_escape r in
   let? (y, r) := read_string fuel r in Some (x ++ y, r)).
Proof. reflexivity. Qed.

Lemma escape_number n s r : scalar n -> hex_text n s ->
  unicode_escape (s ++ r) = Some (encode n, r).
Proof.
  intros S H. unfold unicode_escape. rewrite (hex4_text _ _ _ H). cbn [bind].
  destruct (N.leb_spec 55296 n); destruct (N.ltb_spec n 56320); cbn [andb];
  destruct (N.leb_spec 56320 n); destruct (N.ltb_spec n 57344); cbn [andb];
  try reflexivity; destruct S; lia.
Qed.

Lemma escape_pair_shape a r : (55296 <= a < 56320)%N ->
  (let (h, r) := (a, "\u" ++ r) in
   if (N.leb 55296 h && N.ltb h 56320)%bool
   then match r with
       | String b (String u r) =>
           if (Ascii.eqb b "\" && Ascii.eqb u "u")%bool
           then let? (l, r) := hex4 r in
                if (N.leb 56320 l && N.ltb l 57344)%bool
                then Some (encode (65536 + (h - 55296) * 1024 + (l - 56320)), r)%N
                else None
           else None
       | _ => None
       end
   else if (N.leb 56320 h && N.ltb h 57344)%bool then None
   else Some (encode h, r)) =
  (let? (l, r) := hex4 r in
   if (N.leb 56320 l && N.ltb l 57344)%bool
   then Some (encode (65536 + (a - 55296) * 1024 + (l - 56320)), r)%N
   else None).
Proof.
  intros H. cbv iota beta. destruct (N.leb_spec 55296 a); [|lia].
  destruct (N.ltb_spec a 56320); [|lia]. reflexivity.
Qed.

Lemma escape_pair h l s t r : (h < 1024)%N -> (l < 1024)%N ->
  hex_text (55296 + h) s -> hex_text (56320 + l) t ->
  unicode_escape (s ++ "\u" ++ t ++ r) = Some (encode (65536 + 1024 * h + l), r).
Proof.
  remember (55296 + h)%N as a eqn:Ea. remember (56320 + l)%N as b eqn:Eb.
  intros A B Hs Ht. unfold unicode_escape. rewrite (hex4_text _ _ _ Hs). unfold bind at 1.
  etransitivity; [apply (escape_pair_shape a (t ++ r)); lia|].
  rewrite (hex4_text _ _ _ Ht). unfold bind at 1.
  destruct (N.leb_spec 56320 b); [|lia]. destruct (N.ltb_spec b 57344); [|lia].
  cbv iota beta delta [andb]. do 3 f_equal. lia.
Qed.

Lemma read_char n t fuel r : scalar n -> char_text n t -> String.length t <= fuel ->
  exists fuel', fuel <= fuel' + String.length t /\
    read_string fuel (t ++ r) =
    (let? (y, r) := read_string fuel' r in Some (encode n ++ y, r)).
Proof.
  intros S C L. destruct C as [n A B C|n s I|n s H|h l s t A B Hs Ht].
  - exists (fuel - String.length (encode n)). split; [lia|].
    apply read_plain; auto using encode_plain.
  - exists (fuel - 1). split.
    { destruct s as [|c s]; cbn in *; [|lia]. unfold short_escapes in I. cbn in I.
      repeat (destruct I as [I|I]; [discriminate|]). destruct I. }
    destruct fuel as [|fuel]; [|replace (Datatypes.S fuel - 1) with fuel by lia].
    { unfold short_escapes in I. cbn in I.
      repeat (destruct I as [I|I]; [injection I as <- <-; cbn in L; lia|]). destruct I. }
    unfold short_escapes in I. cbn in I.
    repeat (destruct I as [I|I]; [injection I as <- <-; reflexivity|]). destruct I.
  - pose proof (hex_length _ _ H) as E4. rewrite length_app in *. rewrite E4 in *.
    change (String.length "\u") with 2 in *.
    destruct fuel as [|fuel]; [lia|]. exists fuel. split; [lia|].
    rewrite !app_assoc_s, read_u, (escape_number n s) by auto. reflexivity.
  - pose proof (hex_length _ _ Hs) as E4. pose proof (hex_length _ _ Ht) as E5.
    rewrite !length_app in *. rewrite E4, E5 in *. change (String.length "\u") with 2 in *.
    destruct fuel as [|fuel]; [lia|]. exists fuel. split; [lia|].
    rewrite !app_assoc_s, read_u, (escape_pair h l s t) by auto. reflexivity.
Qed.

Lemma read_string_text s t : string_text s t -> forall fuel rest,
  String.length t < fuel -> read_string fuel (t ++ dq ++ rest) = Some (s, rest).
Proof.
  intros H. induction H as [|n s t u S C U IH]; intros fuel rest L.
  - destruct fuel; [cbn in L; lia|]. reflexivity.
  - rewrite length_app in L. rewrite app_assoc_s.
    destruct (read_char n t fuel (u ++ dq ++ rest) S C) as (fuel' & F & ->); [lia|].
    rewrite IH by lia. reflexivity.
Qed.

(* Numbers *)
Definition no_digit (s : string) : Prop :=
  match s with String c _ => is_digit c = false | EmptyString => True end.

Fixpoint digits_from (acc : N) (d : Decimal.uint) : N :=
  match d with
  | Decimal.Nil => acc
  | Decimal.D0 d => digits_from (acc * 10 + 0) d
  | Decimal.D1 d => digits_from (acc * 10 + 1) d
  | Decimal.D2 d => digits_from (acc * 10 + 2) d
  | Decimal.D3 d => digits_from (acc * 10 + 3) d
  | Decimal.D4 d => digits_from (acc * 10 + 4) d
  | Decimal.D5 d => digits_from (acc * 10 + 5) d
  | Decimal.D6 d => digits_from (acc * 10 + 6) d
  | Decimal.D7 d => digits_from (acc * 10 + 7) d
  | Decimal.D8 d => digits_from (acc * 10 + 8) d
  | Decimal.D9 d => digits_from (acc * 10 + 9) d
  end.
Lemma digits_from_acc d : forall p,
  digits_from (Npos p) d = Npos (Pos.of_uint_acc d p).
Proof.
  induction d; intros p; auto; cbn [digits_from Pos.of_uint_acc];
  rewrite <- IHd; f_equal; lia.
Qed.
Lemma digits_from_0 d : digits_from 0 d = Pos.of_uint d.
Proof. induction d; auto; cbn [digits_from Pos.of_uint]; try exact (digits_from_acc d _). Qed.

Lemma read_uint d : forall acc rest, no_digit rest ->
  read_digits acc (NilEmpty.string_of_uint d ++ rest) = (digits_from acc d, rest).
Proof.
  induction d; intros acc rest R; cbn [NilEmpty.string_of_uint append];
  [|cbn [read_digits]; cbn -[N.mul N.add read_digits digits_from]; rewrite IHd by auto;
    reflexivity..].
  destruct rest as [|c r]; [reflexivity|]. cbn in R. cbn. now rewrite R.
Qed.

Lemma read_N n rest : no_digit rest -> read_digits 0 (string_of_N n ++ rest) = (n, rest).
Proof.
  intros R. unfold string_of_N. rewrite read_uint by auto. f_equal.
  rewrite digits_from_0. exact (DecimalN.Unsigned.of_to n).
Qed.

Lemma N_first n : exists c r, string_of_N n = String c r /\ is_digit c = true.
Proof.
  unfold string_of_N. destruct (N.to_uint n) eqn:E; cbn [NilEmpty.string_of_uint];
  try (eexists; eexists; split; reflexivity).
  exfalso. pose proof (DecimalN.Unsigned.of_to n) as H. rewrite E in H. cbn in H.
  subst n. discriminate.
Qed.

Lemma digit_facts c : is_digit c = true ->
  is_space c = false /\ Ascii.eqb c "034" = false /\ Ascii.eqb c "[" = false /\
  Ascii.eqb c "{" = false /\ Ascii.eqb c "]" = false /\ Ascii.eqb c "}" = false /\
  Ascii.eqb c "-" = false.
Proof. destruct c as [[] [] [] [] [] [] [] []]; vm_compute; intros; try discriminate; auto 10. Qed.

Lemma text_first v t : json_text v t -> exists c r, t = String c r /\
  is_space c = false /\ Ascii.eqb c "]" = false /\ Ascii.eqb c "}" = false.
Proof.
  intros H. destruct H; try (eexists; eexists; split; [reflexivity|]; auto; fail).
  destruct z as [|p|p].
  - exists "0"%char, "". auto.
  - destruct (N_first (Npos p)) as (c & r & E & D). exists c, r. split; [exact E|].
    apply digit_facts in D. tauto.
  - eexists; eexists; split; [reflexivity|]. auto.
Qed.

Lemma text_length v t : json_text v t -> 1 <= String.length t.
Proof. intros H. destruct (text_first v t H) as (c & r & -> & _). cbn. lia. Qed.

Scheme json_text_mind := Induction for json_text Sort Prop
with elements_text_mind := Induction for elements_text Sort Prop
with members_text_mind := Induction for members_text Sort Prop.

(* How much fuel is enough *)
Definition reads_value (v : json) (t : string) : Prop := forall fuel b rest,
  blank b -> no_digit rest -> 2 * String.length t + 1 <= fuel ->
  read_value fuel (b ++ t ++ rest) = Some (v, rest).
Definition reads_elements (l : list json) (t : string) : Prop := forall fuel rest,
  2 * String.length t + 2 <= fuel ->
  read_elements fuel (t ++ "]" ++ rest) = Some (l, rest).
Definition reads_members (l : list (string * json)) (t : string) : Prop := forall fuel rest,
  2 * String.length t + 2 <= fuel ->
  read_members fuel (t ++ "}" ++ rest) = Some (l, rest).

Lemma blank_no_digit b s : blank b -> no_digit s -> no_digit (b ++ s).
Proof.
  destruct b as [|c b]; intros B S; [exact S|]. unfold blank in B.
  cbn [list_ascii_of_string] in B. inversion B; subst. cbn.
  cbn in H1. destruct H1 as [<-|[<-|[<-|[<-|[]]]]]; reflexivity.
Qed.

Lemma elements_first l t : elements_text l t ->
  forall s, exists c r, skip_spaces (t ++ s) = String c r /\ Ascii.eqb c "]" = false.
Proof.
  intros H s. destruct H as [b v t b' B J B'|b v t b' l u B J B' E];
  destruct (text_first v t J) as (c & r & -> & H1 & H2 & H3);
  rewrite !app_assoc_s, skip_blank by auto; rewrite !cons_app, skip_solid by auto; eauto.
Qed.
Lemma members_first l t : members_text l t ->
  forall s, exists c r, skip_spaces (t ++ s) = String c r /\ Ascii.eqb c "}" = false.
Proof.
  intros H s. destruct H; rewrite !app_assoc_s, skip_blank by auto;
  eexists; eexists; (split; [reflexivity|reflexivity]).
Qed.

Ltac unread := cbn [read_value read_elements read_members].
Ltac lengths H := rewrite ?length_app in H; cbn [String.length] in H; unfold dq in H;
  cbn [String.length] in H.

Lemma read_text : forall v t, json_text v t -> reads_value v t.
Proof.
  apply (json_text_mind (fun v t _ => reads_value v t) (fun l t _ => reads_elements l t)
           (fun l t _ => reads_members l t)).
  - (* numbers *)
    intros z fuel b rest B R L. destruct fuel as [|fuel]; [lia|]. unread.
    rewrite skip_blank by auto. unfold string_of_Z.
    destruct z as [|p|p].
    + cbn [append]. rewrite skip_solid by reflexivity.
      change (Ascii.eqb "0" "034") with false. change (Ascii.eqb "0" "[") with false.
      change (Ascii.eqb "0" "{") with false. change (is_digit "0") with true. cbv iota.
      rewrite (read_N 0 rest R : read_digits 0 (String "0" rest) = _). reflexivity.
    + destruct (N_first (Npos p)) as (c & r & E & D). pose proof (read_N (Npos p) rest R) as Rd.
      rewrite E in Rd |- *. cbn [append] in Rd |- *.
      apply digit_facts in D as F. destruct F as (F1 & F2 & F3 & F4 & F5 & F6 & F7).
      rewrite skip_solid by auto. rewrite F2, F3, F4, D, Rd. reflexivity.
    + destruct (N_first (Npos p)) as (c & r & E & D). pose proof (read_N (Npos p) rest R) as Rd.
      cbn [append]. rewrite skip_solid by reflexivity.
      change (Ascii.eqb "-" "034") with false. change (Ascii.eqb "-" "[") with false.
      change (Ascii.eqb "-" "{") with false. change (is_digit "-") with false.
      change (Ascii.eqb "-" "-") with true. cbv iota.
      rewrite E in Rd |- *. cbn [append] in Rd |- *. rewrite D, Rd. reflexivity.
  - intros fuel b rest B R L. destruct fuel as [|fuel]; [lia|]. unread.
    rewrite skip_blank by auto. reflexivity.
  - intros fuel b rest B R L. destruct fuel as [|fuel]; [lia|]. unread.
    rewrite skip_blank by auto. reflexivity.
  - intros fuel b rest B R L. destruct fuel as [|fuel]; [lia|]. unread.
    rewrite skip_blank by auto. reflexivity.
  - intros s t S fuel b rest B R L. lengths L. destruct fuel as [|fuel]; [lia|]. unread.
    rewrite skip_blank by auto. rewrite !app_assoc_s.
    change (dq ++ t ++ dq ++ rest) with (String "034" (t ++ dq ++ rest)).
    rewrite skip_solid by reflexivity. change (Ascii.eqb "034" "034") with true. cbv iota.
    rewrite (read_string_text s t S) by lia. reflexivity.
  - intros b0 B0 fuel b rest B R L. destruct fuel as [|fuel]; [lia|]. unread.
    rewrite skip_blank by auto. rewrite !app_assoc_s. cbn [append].
    rewrite skip_solid by reflexivity. cbn [Ascii.eqb Bool.eqb].
    cbn -[read_elements read_members skip_spaces append].
    rewrite skip_blank by auto. reflexivity.
  - intros l t E IH fuel b rest B R L. lengths L. destruct fuel as [|fuel]; [lia|]. unread.
    rewrite skip_blank by auto. rewrite !app_assoc_s.
    change ("[" ++ t ++ "]" ++ rest) with (String "[" (t ++ "]" ++ rest)).
    rewrite skip_solid by reflexivity.
    change (Ascii.eqb "[" "034") with false. change (Ascii.eqb "[" "[") with true. cbv iota.
    destruct (elements_first l t E ("]" ++ rest)) as (c & r & -> & ->).
    rewrite IH by lia. reflexivity.
  - intros b0 B0 fuel b rest B R L. destruct fuel as [|fuel]; [lia|]. unread.
    rewrite skip_blank by auto. rewrite !app_assoc_s. cbn [append].
    rewrite skip_solid by reflexivity.
    cbn -[read_elements read_members skip_spaces append].
    rewrite skip_blank by auto. reflexivity.
  - intros l t E IH fuel b rest B R L. lengths L. destruct fuel as [|fuel]; [lia|]. unread.
    rewrite skip_blank by auto. rewrite !app_assoc_s.
    change ("{" ++ t ++ "}" ++ rest) with (String "{" (t ++ "}" ++ rest)).
    rewrite skip_solid by reflexivity.
    change (Ascii.eqb "{" "034") with false. change (Ascii.eqb "{" "[") with false.
    change (Ascii.eqb "{" "{") with true. cbv iota.
    destruct (members_first l t E ("}" ++ rest)) as (c & r & -> & ->).
    rewrite IH by lia. reflexivity.
  - (* elements *)
    intros b v t b' B J IH B' fuel rest L. lengths L. destruct fuel as [|fuel]; [lia|].
    unread. rewrite !app_assoc_s, IH; [|auto|apply blank_no_digit; [auto|reflexivity]|lia].
    cbn [bind]. rewrite skip_blank by auto. reflexivity.
  - intros b v t b' l u B J IH B' E IHE fuel rest L. lengths L.
    destruct fuel as [|fuel]; [lia|].
    unread. rewrite !app_assoc_s, IH; [|auto|apply blank_no_digit; [auto|reflexivity]|lia].
    cbn [bind]. rewrite skip_blank by auto.
    change ("," ++ u ++ "]" ++ rest) with (String "," (u ++ "]" ++ rest)).
    rewrite skip_solid by reflexivity. change (Ascii.eqb "," ",") with true. cbv iota.
    rewrite IHE by lia. reflexivity.
  - (* members *)
    intros b1 k kt b2 b3 v t b4 B1 K B2 B3 J IH B4 fuel rest L. lengths L.
    destruct fuel as [|fuel]; [lia|]. unread. rewrite !app_assoc_s.
    rewrite skip_blank by auto.
    match goal with |- context [skip_spaces (dq ++ ?x)] =>
      change (dq ++ x) with (String "034" x) end.
    rewrite skip_solid by reflexivity. change (Ascii.eqb "034" "034") with true. cbv iota.
    rewrite (read_string_text k kt K) by lia. cbn [bind]. rewrite skip_blank by auto.
    match goal with |- context [skip_spaces (":" ++ ?x)] =>
      change (":" ++ x) with (String ":" x) end.
    rewrite skip_solid by reflexivity. change (Ascii.eqb ":" ":") with true. cbv iota.
    rewrite IH; [|auto|apply blank_no_digit; [auto|reflexivity]|lia].
    cbn [bind]. rewrite skip_blank by auto. reflexivity.
  - intros b1 k kt b2 b3 v t b4 l u B1 K B2 B3 J IH B4 E IHE fuel rest L. lengths L.
    destruct fuel as [|fuel]; [lia|]. unread. rewrite !app_assoc_s.
    rewrite skip_blank by auto.
    match goal with |- context [skip_spaces (dq ++ ?x)] =>
      change (dq ++ x) with (String "034" x) end.
    rewrite skip_solid by reflexivity. change (Ascii.eqb "034" "034") with true. cbv iota.
    rewrite (read_string_text k kt K) by lia. cbn [bind]. rewrite skip_blank by auto.
    match goal with |- context [skip_spaces (":" ++ ?x)] =>
      change (":" ++ x) with (String ":" x) end.
    rewrite skip_solid by reflexivity. change (Ascii.eqb ":" ":") with true. cbv iota.
    rewrite IH; [|auto|apply blank_no_digit; [auto|reflexivity]|lia].
    cbn [bind]. rewrite skip_blank by auto.
    match goal with |- context [skip_spaces ("," ++ ?x)] =>
      change ("," ++ x) with (String "," x) end.
    rewrite skip_solid by reflexivity. change (Ascii.eqb "," ",") with true. cbv iota.
    rewrite IHE by lia. reflexivity.
Qed.

Lemma load_lemma v s : json_file_text v s -> json_load s = Some v.
Proof.
  intros (b & t & b' & B & J & B' & ->). unfold json_load.
  rewrite (read_text v t J); [|auto| |].
  - cbn [bind]. rewrite skip_blank_nil by auto. reflexivity.
  - destruct b' as [|c b']; [exact I|]. unfold blank in B'. cbn [list_ascii_of_string] in B'.
    inversion B'; subst. cbn in H1. destruct H1 as [<-|[<-|[<-|[<-|[]]]]]; reflexivity.
  - rewrite !length_app. lia.
Qed.
