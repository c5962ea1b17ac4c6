(* The lines of recorded places are there; which infos have a JSON text. *)
From Coq Require Import String Ascii List NArith ZArith Bool Arith Lia.
From Verif Require Import Base Clang Gen GenExpr GenBinary GenUnary Mutation Run SourceRange
  SourceRangeSpec SourceRangeProof QueryText Utf8Proof InfoJson InfoSpec.
Import ListNotations.
Local Open Scope string_scope.

Lemma line_cons c t : String.eqb c p_lf = false ->
  List.length (lines (c :: t)) = Nat.max 1 (List.length (lines t)).
Proof. intros H. cbn [lines]. rewrite H. destruct (lines t); cbn; lia. Qed.

Lemma lines_high r t : r <> "" -> Forall high (list_ascii_of_string r) ->
  List.length (lines (chars r ++ t)) = Nat.max 1 (List.length (lines t)).
Proof.
  induction r as [|c r IH]; intros N H; [congruence|]. inversion H; subst.
  change (chars (String c r)) with (char_string c :: chars r). cbn [app].
  rewrite line_cons.
  - destruct r as [|d r]; [reflexivity|]. rewrite IH; [lia|discriminate|auto].
  - unfold p_lf. rewrite char_string_eqb.
    destruct (Ascii.eqb_spec c lf) as [->|]; [|reflexivity].
    unfold high in *. vm_compute in H2. now destruct H2.
Qed.

Lemma lines_concat l : Forall good l ->
  List.length (lines l) = List.length (lines (chars (concat_strings l))).
Proof.
  induction 1 as [|x l Hx Hl IH]; auto. cbn [concat_strings].
  destruct Hx as [(c & ->)|(Nx & Hh)].
  - change (chars (char_string c ++ concat_strings l)%string)
      with (char_string c :: chars (concat_strings l)).
    destruct (String.eqb (char_string c) p_lf) eqn:E.
    + cbn [lines]. rewrite E. cbn [List.length]. now rewrite IH.
    + rewrite !line_cons by auto. now rewrite IH.
  - rewrite chars_app, lines_high, <- IH by auto. apply line_cons.
    destruct (String.eqb_spec x p_lf) as [->|]; [|reflexivity].
    inversion Hh; subst. unfold high in *. vm_compute in H1. now destruct H1.
Qed.

Lemma lines_after a b : b <> [] -> count_lf a < List.length (lines (a ++ b)).
Proof.
  intros N. induction a as [|c a IH]; cbn [app count_lf].
  - cbn. destruct b as [|c b]; [congruence|]. cbn [lines].
    destruct (String.eqb c p_lf); cbn; [lia|]. destruct (lines b); cbn; lia.
  - destruct (String.eqb c p_lf) eqn:E.
    + cbn [lines]. rewrite E. cbn. lia.
    + rewrite line_cons by auto. lia.
Qed.

Lemma with_lf_not_empty s : s <> "" -> chars (with_lf s) <> [].
Proof.
  induction s as [|c s IH]; [congruence|]. intros _. cbn [with_lf].
  destruct (Ascii.eqb c cr); [|discriminate]. destruct s as [|d s]; [discriminate|].
  destruct (Ascii.eqb d lf); [|discriminate]. apply IH. discriminate.
Qed.

Lemma line_there p s : utf8 (p ++ s) -> s <> "" -> safe_split p s ->
  1 <= fst (position (p ++ s) (String.length p)) <= List.length (readlines (p ++ s)).
Proof.
  intros U N S. rewrite position_app by auto. unfold lpos. cbn [fst]. split; [lia|].
  unfold readlines. change (universal (decode (p ++ s))) with (read_text (p ++ s)).
  rewrite lines_concat by (apply good_universal, good_decode; auto).
  rewrite concat_universal by auto. rewrite with_lf_app, chars_app by auto.
  apply lines_after. now apply with_lf_not_empty.
Qed.

Lemma lines_there_lemma text r :
  in_file text r -> starts_with_token text r -> last_token_on_one_line text r ->
  utf8 text -> lines_there text (info_for_source_range text r).
Proof.
  intros H ST OL U. destruct (range_split text r H) as (p & m & t & s & E & Lp & Lm & Lt & T & TT).
  unfold last_token_on_one_line in OL. rewrite TT in OL.
  assert (Tn : t <> ""%string).
  { intros ->. destruct H as (_ & H & _). simpl in Lt. lia. }
  assert (P0 : safe_split p (m ++ t ++ s)%string).
  { left. unfold starts_with_token in ST. rewrite <- Lp, E, get_app_length in ST.
    destruct (m ++ t ++ s)%string; auto. simpl in ST. congruence. }
  assert (P1 : safe_split (p ++ m)%string (t ++ s)%string).
  { left. apply starts_ok; auto. }
  unfold lines_there, info_for_source_range. cbn [start_line end_line].
  split.
  - unfold range_start. rewrite <- Lp, E. apply line_there; [now rewrite <- E| |auto].
    destruct m; [|discriminate]. destruct t; [congruence|discriminate].
  - unfold range_end. rewrite <- Lm.
    assert (E' : text = (p ++ m) ++ t ++ s) by (now rewrite app_assoc_s).
    pose proof (line_there (p ++ m) (t ++ s)) as X. rewrite <- E' in X.
    destruct (position text (String.length (p ++ m))) as [l c]. cbn [fst] in *.
    apply X; auto. destruct t; [congruence|discriminate].
Qed.

(* The strings of a JSON value *)
Fixpoint strings_of (j : json) : list string :=
  match j with
  | JStr s => [s]
  | JArr l => flat_map strings_of l
  | JObj l => flat_map (fun m : string * json => let (k, v) := m in k :: strings_of v) l
  | _ => []
  end.

Lemma string_text_utf8 s t : string_text s t -> utf8 s.
Proof. induction 1; constructor; auto. Qed.

Scheme json_text_mind' := Induction for json_text Sort Prop
with elements_text_mind' := Induction for elements_text Sort Prop
with members_text_mind' := Induction for members_text Sort Prop.

Lemma text_utf8 : forall v t, json_text v t -> Forall utf8 (strings_of v).
Proof.
  apply (json_text_mind' (fun v t _ => Forall utf8 (strings_of v))
    (fun l t _ => Forall utf8 (flat_map strings_of l))
    (fun l t _ => Forall utf8 (flat_map (fun m : string * json => let (k, v) := m in k :: strings_of v) l)));
  cbn [strings_of flat_map]; intros; rewrite ?app_nil_r;
  repeat (apply Forall_app; split || constructor); eauto using string_text_utf8.
Qed.

Section json_induction.
  Variable P : json -> Prop.
  Hypothesis Pnum : forall z, P (JNum z).
  Hypothesis Pstr : forall s, P (JStr s).
  Hypothesis Pbool : forall b, P (JBool b).
  Hypothesis Pnull : P JNull.
  Hypothesis Parr : forall l, Forall P l -> P (JArr l).
  Hypothesis Pobj : forall l, Forall (fun m => P (snd m)) l -> P (JObj l).
  Fixpoint json_induction (j : json) : P j :=
    match j with
    | JNum z => Pnum z | JStr s => Pstr s | JBool b => Pbool b | JNull => Pnull
    | JArr l => Parr l ((fix go l := match l return Forall P l with
        | [] => Forall_nil _
        | x :: l => Forall_cons x (json_induction x) (go l) end) l)
    | JObj l => Pobj l ((fix go l := match l return Forall (fun m => P (snd m)) l with
        | [] => Forall_nil _
        | x :: l => Forall_cons x (json_induction (snd x)) (go l) end) l)
    end.
End json_induction.

Definition hex_char (n : N) : ascii :=
  nth (N.to_nat n) (list_ascii_of_string "0123456789abcdef") "0"%char.

Lemma low_number n : (n < 256)%N -> exists s, hex_text n s.
Proof.
  intros H.
  assert (D : forall k, (k < 16)%N -> In (hex_char k, k) hex_digits).
  { intros k K. assert (X : In k (map N.of_nat (seq 0 16))).
    { apply in_map_iff. exists (N.to_nat k). split; [lia|]. apply in_seq. lia. }
    cbn in X. repeat (destruct X as [<-|X]; [vm_compute; tauto|]). destruct X. }
  replace n with (4096 * 0 + 256 * 0 + 16 * (n / 16) + n mod 16)%N.
  - eexists. constructor; apply D; try lia.
    + apply N.div_lt_upper_bound; lia.
    + apply N.mod_lt. lia.
  - rewrite (N.div_mod n 16) at 3 by lia. lia.
Qed.

Lemma char_written n : exists t, char_text n t.
Proof.
  destruct (N.eq_dec n 34) as [->|]; [eexists; eapply escaped; cbn; tauto|].
  destruct (N.eq_dec n 92) as [->|]; [eexists; eapply escaped; cbn; tauto|].
  destruct (N.le_gt_cases 32 n).
  - eexists. now apply as_itself.
  - destruct (low_number n) as (s & S); [lia|]. eexists. apply numbered. exact S.
Qed.

Lemma string_written s : utf8 s -> exists t, string_text s t.
Proof.
  induction 1 as [|n s Sc U (u & IH)]; [eexists; constructor|].
  destruct (char_written n) as (t & T). exists (t ++ u). now constructor.
Qed.

Lemma blank_nil : blank "".
Proof. constructor. Qed.

Lemma written v : Forall utf8 (strings_of v) -> exists t, json_text v t.
Proof.
  induction v as [z|s|b| |l IH|l IH] using json_induction; cbn [strings_of]; intros U.
  - eexists. constructor.
  - inversion U; subst. destruct (string_written s) as (t & T); auto.
    eexists. constructor. exact T.
  - destruct b; eexists; constructor.
  - eexists. constructor.
  - assert (X : l = [] \/ exists t, elements_text l t).
    { induction l as [|x l IHl]; [now left|]. right. inversion IH; subst.
      cbn [flat_map] in U. apply Forall_app in U. destruct U as [U1 U2].
      destruct (H1 U1) as (t & T). destruct (IHl H2 U2) as [->|(u & E)].
      - exists ("" ++ t ++ ""). constructor; auto using blank_nil.
      - exists ("" ++ t ++ "" ++ "," ++ u). constructor; auto using blank_nil. }
    destruct X as [->|(t & E)].
    + eexists. apply empty_array_text with (b := ""), blank_nil.
    + eexists. apply array_text. exact E.
  - assert (X : l = [] \/ exists t, members_text l t).
    { induction l as [|[k x] l IHl]; [now left|]. right. inversion IH; subst.
      cbn [flat_map] in U. inversion U as [|? ? Uk U']; subst.
      apply Forall_app in U'. destruct U' as [U1 U2]. cbn [snd] in *.
      destruct (H1 U1) as (t & T). destruct (string_written k Uk) as (kt & K).
      destruct (IHl H2 U2) as [->|(u & E)].
      - exists ("" ++ dq ++ kt ++ dq ++ "" ++ ":" ++ "" ++ t ++ "").
        constructor; auto using blank_nil.
      - exists ("" ++ dq ++ kt ++ dq ++ "" ++ ":" ++ "" ++ t ++ "" ++ "," ++ u).
        constructor; auto using blank_nil. }
    destruct X as [->|(t & E)].
    + eexists. apply empty_object_text with (b := ""), blank_nil.
    + eexists. apply object_text. exact E.
Qed.

(* A file can be written if and only if all strings are UTF-8. *)
Lemma file_written v : (exists t, json_file_text v t) <-> Forall utf8 (strings_of v).
Proof.
  split.
  - intros (s & b & t & b' & _ & J & _). eapply text_utf8; eauto.
  - intros H. destruct (written v H) as (t & T). exists ("" ++ t ++ ""), "", t, "".
    repeat split; auto using blank_nil.
Qed.

Lemma utf8_literal s : ascii_only s -> utf8 s.
Proof. apply ascii_utf8. Qed.

Lemma flat_map_map {A B C} (f : B -> list C) (g : A -> B) l :
  flat_map f (map g l) = flat_map (fun x => f (g x)) l.
Proof. induction l as [|x l IH]; cbn; [reflexivity|]. now rewrite IH. Qed.

Lemma Forall_flat_map' {A B} (P : B -> Prop) (f : A -> list B) l :
  Forall P (flat_map f l) <-> Forall (fun x => Forall P (f x)) l.
Proof.
  induction l as [|x l IH]; cbn; [split; constructor|]. rewrite Forall_app, IH.
  split; [intros [? ?]; now constructor|inversion 1; auto].
Qed.

Lemma Forall_same {A} (P Q : A -> Prop) l : (forall x, In x l -> (P x <-> Q x)) ->
  (Forall P l <-> Forall Q l).
Proof. intros H. rewrite !Forall_forall. split; intros F x I; apply H; auto. Qed.

Ltac literals := repeat match goal with
  | |- Forall _ (_ :: _) => constructor; [apply utf8_literal; reflexivity|]
  | |- Forall _ [] => constructor
  end.

Lemma instance_strings {A} (zero : string) (name : A -> string) l :
  (forall a, ascii_only (name a)) ->
  Forall utf8 (flat_map strings_of (map (json_instance zero name) l)).
Proof.
  intros H. rewrite flat_map_map. apply Forall_flat_map', Forall_forall. intros x _.
  cbn. literals. constructor; [apply utf8_literal, H|]. literals.
Qed.
Lemma expr_names a : ascii_only (expr_action_name a).
Proof. destruct a; reflexivity. Qed.
Lemma bin_names a : ascii_only (bin_action_name a).
Proof. destruct a; reflexivity. Qed.
Lemma un_names a : ascii_only (un_action_name a).
Proof. destruct a; reflexivity. Qed.
Lemma bop_names a : utf8 (binary_operator_name a).
Proof. apply utf8_literal. destruct a; reflexivity. Qed.
Lemma uop_names a : utf8 (unary_operator_name a).
Proof. apply utf8_literal. destruct a; reflexivity. Qed.

Lemma Forall_cons' {A} (P : A -> Prop) x l : Forall P (x :: l) <-> P x /\ Forall P l.
Proof. split; [inversion 1; auto|intros [? ?]; now constructor]. Qed.

Lemma literal_utf8 s : (string_forall (fun c => N.ltb (N_of_ascii c) 128) s = true) ->
  (utf8 s <-> True).
Proof. intros H. split; auto. intros _. now apply ascii_utf8. Qed.

Ltac strings_out :=
  repeat match goal with
  | |- context [Forall utf8 (?s :: ?l)] => rewrite (Forall_cons' utf8 s l)
  | |- context [Forall utf8 (?k ++ ?l)%list] => rewrite (Forall_app utf8 k l)
  | |- context [utf8 (String ?c ?s)] =>
      rewrite (literal_utf8 (String c s) eq_refl)
  end.

Lemma group_strings g :
  Forall utf8 (strings_of (json_group g)) <-> Forall utf8 (map snippet (places g)).
Proof.
  destruct g as [id i|i l|i il ir o l|i io o l]; cbn [places map].
  - unfold json_group, json_remove_stmt, message, message_field, string_field, number_field,
      json_start, json_end, json_location, message, number_field, shown_if, jnat.
    cbn [always_print_primitive_fields orb concat app strings_of flat_map].
    strings_out. pose proof (Forall_nil utf8). tauto.
  - unfold json_group, json_replace_expr, message, message_field, string_field, number_field,
      repeated_field, json_start, json_end, json_location, message, number_field, shown_if, jnat.
    cbn [always_print_primitive_fields orb concat app strings_of flat_map].
    strings_out. pose proof (Forall_nil utf8).
    pose proof (instance_strings "InsertPreInc" _ l expr_names). tauto.
  - unfold json_group, json_replace_binary, message, message_field, string_field, number_field,
      enum_field, repeated_field, json_start, json_end, json_location, message, number_field,
      shown_if, jnat.
    cbn [always_print_primitive_fields orb concat app strings_of flat_map].
    strings_out. pose proof (Forall_nil utf8). pose proof (bop_names o).
    pose proof (instance_strings "ReplaceWithLHS" _ l bin_names). tauto.
  - unfold json_group, json_replace_unary, message, message_field, string_field, number_field,
      enum_field, repeated_field, json_start, json_end, json_location, message, number_field,
      shown_if, jnat.
    cbn [always_print_primitive_fields orb concat app strings_of flat_map].
    strings_out. pose proof (Forall_nil utf8). pose proof (uop_names o).
    pose proof (instance_strings "ReplaceWithOperand" _ l un_names). tauto.
Qed.

Lemma node_strings p :
  Forall utf8 (strings_of (json_node p)) <->
  Forall utf8 (flat_map (fun g => map snippet (places g)) (p_groups p)).
Proof.
  unfold json_node, message, repeated_field, shown_if.
  cbn [always_print_primitive_fields orb concat app strings_of flat_map].
  strings_out. pose proof (Forall_nil utf8).
  assert (Forall utf8 (flat_map strings_of (map jnat (p_children p)))).
  { rewrite flat_map_map. apply Forall_flat_map', Forall_forall. intros; constructor. }
  rewrite (flat_map_map strings_of json_group),
    (Forall_flat_map' utf8 (fun x => strings_of (json_group x))),
    (Forall_flat_map' utf8 (fun g => map snippet (places g))).
  rewrite (Forall_same (fun x => Forall utf8 (strings_of (json_group x)))
             (fun x => Forall utf8 (map snippet (places x)))) by (intros; apply group_strings).
  tauto.
Qed.

Lemma file_strings f :
  Forall utf8 (strings_of (json_file f)) <->
  Forall utf8 (fst f :: flat_map (fun p => flat_map (fun g => map snippet (places g))
    (p_groups p)) (snd f)).
Proof.
  unfold json_file, message, repeated_field, string_field, shown_if.
  cbn [always_print_primitive_fields orb concat app strings_of flat_map].
  strings_out. pose proof (Forall_nil utf8).
  rewrite flat_map_map, (Forall_flat_map' utf8 (fun x => strings_of (json_node x))),
    (Forall_flat_map' utf8 (fun p => flat_map (fun g => map snippet (places g)) (p_groups p))).
  rewrite (Forall_same (fun x => Forall utf8 (strings_of (json_node x)))
             (fun p => Forall utf8 (flat_map (fun g => map snippet (places g)) (p_groups p))))
    by (intros; apply node_strings).
  tauto.
Qed.

Lemma info_written info :
  (exists t, json_file_text (json_info info) t) <-> Forall utf8 (info_strings info).
Proof.
  rewrite file_written. unfold json_info, message, repeated_field, shown_if, info_strings.
  cbn [always_print_primitive_fields orb concat app strings_of flat_map].
  strings_out. pose proof (Forall_nil utf8).
  rewrite flat_map_map, (Forall_flat_map' utf8 (fun x => strings_of (json_file x))).
  rewrite (Forall_flat_map' utf8 (fun f : string * list pnode => fst f ::
    flat_map (fun p => flat_map (fun g => map snippet (places g)) (p_groups p)) (snd f)) info).
  rewrite (Forall_same (fun x => Forall utf8 (strings_of (json_file x)))
             (fun f : string * list pnode => Forall utf8 (fst f ::
    flat_map (fun p => flat_map (fun g => map snippet (places g)) (p_groups p)) (snd f))))
    by (intros; apply file_strings).
  tauto.
Qed.

(* Snippets *)
Lemma short_snippet_utf8 text r : in_file text r -> utf8 (text_of text r) ->
  String.length (text_of text r) <= 36 -> utf8 (snippet (info_for_source_range text r)).
Proof.
  intros H U L. unfold info_for_source_range. cbn [snippet]. now rewrite snippet_short.
Qed.

Lemma ascii_app a b : ascii_only (a ++ b) <-> ascii_only a /\ ascii_only b.
Proof. unfold ascii_only. now rewrite string_forall_app, andb_true_iff. Qed.

Lemma ascii_substring text : forall n m, ascii_only text -> ascii_only (substring n m text).
Proof.
  induction text as [|c text IH]; intros n m H; [destruct n, m; reflexivity|].
  unfold ascii_only in H. cbn [string_forall] in H. apply andb_true_iff in H.
  destruct H as [Hc H]. destruct n as [|n]; destruct m as [|m]; cbn; try reflexivity.
  - unfold ascii_only. cbn [string_forall]. rewrite Hc. apply IH. exact H.
  - now apply IH.
  - now apply IH.
Qed.

Lemma ascii_snippet_utf8 text r : ascii_only text ->
  utf8 (snippet (info_for_source_range text r)).
Proof.
  intros H. apply ascii_utf8. unfold info_for_source_range, snippet_of. cbn [snippet].
  destruct (Nat.leb _ _); [now apply ascii_substring|].
  rewrite !ascii_app. split; [now apply ascii_substring|].
  split; [reflexivity|now apply ascii_substring].
Qed.
