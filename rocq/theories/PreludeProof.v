(* Proofs about the runtime of the preludes (C08 - C10, C14). *)
From Coq Require Import String Ascii List Arith NArith ZArith Bool Lia ZifyBool ZifyNat.
From Verif Require Import Base PreludeText Rewriter RewriterProof Prelude PreludeSpec.
Import ListNotations.
Local Open Scope string_scope.

(** * Bits *)

Lemma nth_error_update_nth {A} (f : A -> A) (l : list A) i j :
  nth_error (update_nth i f l) j =
  if Nat.eqb i j then option_map f (nth_error l j) else nth_error l j.
Proof.
  revert i j. induction l as [|x l IH]; intros [|i] [|j]; simpl; auto.
  destruct (Nat.eqb i j); reflexivity.
Qed.

Lemma bit_test w i : negb (N.eqb (N.land w (bit i)) 0) = N.testbit w (N.of_nat (i mod 64)).
Proof.
  unfold bit. set (k := N.of_nat (i mod 64)).
  destruct (N.testbit w k) eqn:E.
  - apply Bool.negb_true_iff, N.eqb_neq. intros H.
    assert (F : N.testbit (N.land w (N.shiftl 1 k)) k = false) by (rewrite H; apply N.bits_0).
    rewrite N.land_spec, E, N.shiftl_1_l, N.pow2_bits_true in F. discriminate.
  - apply Bool.negb_false_iff, N.eqb_eq. apply N.bits_inj. intros j.
    rewrite N.bits_0, N.land_spec, N.shiftl_1_l, N.pow2_bits_eqb.
    destruct (N.eqb_spec k j) as [<-|]; [rewrite E|rewrite Bool.andb_false_r]; reflexivity.
Qed.

Lemma get_set_bit i j ws :
  get_bit i (set_bit j ws) =
  option_map (fun b => Nat.eqb i j || b) (get_bit i ws).
Proof.
  unfold get_bit, set_bit. rewrite nth_error_update_nth.
  destruct (nth_error ws (i / 64)) as [w|] eqn:E; [|destruct (Nat.eqb _ _); reflexivity].
  destruct (Nat.eqb_spec (j / 64) (i / 64)) as [D|D]; cbn [option_map]; rewrite !bit_test.
  - unfold bit. rewrite N.lor_spec, N.shiftl_1_l, N.pow2_bits_eqb. f_equal.
    rewrite Bool.orb_comm. f_equal.
    destruct (Nat.eqb_spec i j) as [->|N]; [apply N.eqb_refl|].
    apply N.eqb_neq. intros H. apply Nat2N.inj in H. apply N.
    rewrite (Nat.div_mod i 64), (Nat.div_mod j 64) by lia. lia.
  - destruct (Nat.eqb_spec i j) as [->|]; [congruence|reflexivity].
Qed.

Lemma set_bit_length i ws : List.length (set_bit i ws) = List.length ws.
Proof.
  unfold set_bit. generalize (i / 64), (fun w => N.lor w (bit i)). clear.
  induction ws as [|w ws IH]; intros [|n] f; simpl; auto.
Qed.

Lemma in_words i num : i < num -> i / 64 < words_required num.
Proof.
  unfold words_required. intros H. apply Nat.div_lt_upper_bound; [lia|].
  pose proof (Nat.div_mod (num + 64 - 1) 64). pose proof (Nat.mod_upper_bound (num + 64 - 1) 64).
  lia.
Qed.

(* The words hold exactly the ids for which P holds. *)
Definition holds (num : nat) (ws : list N) (P : nat -> bool) : Prop :=
  List.length ws = words_required num /\
  forall i, i < num -> get_bit i ws = Some (P i).

Lemma holds_initial num : holds num (repeat 0%N (words_required num)) (fun _ => false).
Proof.
  split; [apply repeat_length|]. intros i H. unfold get_bit.
  rewrite nth_error_repeat by (apply in_words; exact H). cbn [option_map].
  rewrite bit_test, N.bits_0. reflexivity.
Qed.

(** * Reading one item *)

Lemma sapp_nil s : s ++ "" = s.
Proof. apply sapp_nil_r. Qed.

Lemma digit_char_value d : d < 10 -> is_digit (digit_char d) = true /\
  digit_value (digit_char d) = Z.of_nat d /\ is_space (digit_char d) = false /\
  Ascii.eqb (digit_char d) "," = false /\
  Ascii.eqb (digit_char d) "-" = false /\ Ascii.eqb (digit_char d) "+" = false.
Proof. intros H. do 10 (destruct d as [|d]; [vm_compute; repeat split|]). lia. Qed.

Lemma digit_is c : is_digit c = true -> exists d, d < 10 /\ c = digit_char d.
Proof.
  unfold is_digit, in_range. intros H. apply andb_true_iff in H. destruct H as [A B].
  apply N.leb_le in A, B. exists (N.to_nat (N_of_ascii c) - 48). split; [lia|].
  unfold digit_char. rewrite <- (ascii_nat_embedding c) at 1. f_equal.
  unfold nat_of_ascii. lia.
Qed.

Lemma no_digit_first_head c s : no_digit_first (String c s) -> is_digit c = false.
Proof.
  intros H. destruct (is_digit c) eqn:E; [|reflexivity].
  destruct (digit_is c E) as (d & D & ->). now destruct (H d D).
Qed.

Lemma white_space c : white c <-> is_space c = true.
Proof.
  unfold white, is_space, in_range. split.
  - intros H. cbn in H. repeat (destruct H as [<-|H]; [reflexivity|]). destruct H.
  - intros H. assert (L : (N_of_ascii c = 32 \/ 9 <= N_of_ascii c <= 13)%N).
    { apply orb_true_iff in H. rewrite !andb_true_iff, !N.leb_le in H. lia. }
    rewrite <- (ascii_N_embedding c).
    assert (X : (N_of_ascii c = 32 \/ N_of_ascii c = 9 \/ N_of_ascii c = 10 \/
                 N_of_ascii c = 11 \/ N_of_ascii c = 12 \/ N_of_ascii c = 13)%N) by lia.
    cbn. destruct X as [->|[->|[->|[->|[->| ->]]]]]; auto 7.
Qed.

Lemma digits_from_text ds pre rest :
  Forall (fun d => d < 10) ds -> no_digit_first rest ->
  digits_from (number (rev pre)) (digits_text ds ++ rest) = number (rev (pre ++ ds)).
Proof.
  intros F0 R. revert pre F0. induction ds as [|d ds IH]; intros pre F.
  - rewrite app_nil_r. destruct rest; [reflexivity|]. cbn [digits_text String.append digits_from].
    now rewrite (no_digit_first_head _ _ R).
  - inversion F; subst. destruct (digit_char_value d) as (D & V & _); [assumption|].
    cbn [digits_text String.append digits_from]. rewrite D, V.
    replace (10 * number (rev pre) + Z.of_nat d)%Z with (number (rev (pre ++ [d]))).
    + rewrite IH by assumption. rewrite <- app_assoc. reflexivity.
    + rewrite rev_app_distr. cbn [rev app number]. lia.
Qed.

Lemma leading_number_text ds rest :
  ds <> [] -> Forall (fun d => d < 10) ds -> no_digit_first rest ->
  leading_number (digits_text ds ++ rest) = Some (number (rev ds)).
Proof.
  intros N F R. unfold leading_number. destruct ds as [|d ds]; [congruence|].
  cbn [digits_text String.append]. inversion F; subst.
  destruct (digit_char_value d) as (D & _); [assumption|]. rewrite D. f_equal.
  exact (digits_from_text (d :: ds) [] rest F R).
Qed.

Lemma skip_spaces w s : white_text w -> skip_space (w ++ s) = skip_space s.
Proof.
  unfold white_text. induction w as [|c w IH]; intros H; [reflexivity|].
  inversion H; subst. cbn [String.append skip_space].
  rewrite (proj1 (white_space c)) by assumption. auto.
Qed.

Lemma signed_parse_plain c s :
  Ascii.eqb c "-" = false -> Ascii.eqb c "+" = false ->
  signed_parse (String c s) = leading_number (String c s).
Proof.
  intros M P. unfold signed_parse.
  repeat match goal with |- context[match ?x with _ => _ end] => is_var x; destruct x end;
    try reflexivity; discriminate.
Qed.

Lemma strtol_denotes t z : denotes t z -> strtol t = Some z.
Proof.
  intros [w s ds rest W N F _ R]. unfold strtol. rewrite skip_spaces by assumption.
  destruct s; cbn [sign_text String.append].
  - destruct ds as [|d ds]; [congruence|]. inversion F; subst.
    destruct (digit_char_value d) as (D & V & S & C & M & P); [assumption|].
    cbn [digits_text String.append skip_space]. rewrite S.
    rewrite signed_parse_plain by assumption.
    exact (leading_number_text (d :: ds) rest N F R).
  - change (skip_space _) with (String "+" (digits_text ds ++ rest)).
    cbn [signed_parse]. apply leading_number_text; assumption.
  - change (skip_space _) with (String "-" (digits_text ds ++ rest)).
    cbn [signed_parse]. rewrite leading_number_text by assumption. reflexivity.
Qed.

(** * Splitting the list *)

Fixpoint no_comma (s : string) : Prop :=
  match s with
  | EmptyString => True
  | String c s => Ascii.eqb c "," = false /\ no_comma s
  end.

Lemma no_comma_app a b : no_comma a -> no_comma b -> no_comma (a ++ b).
Proof. induction a; simpl; tauto. Qed.

Lemma comma_free_no_comma s : comma_free s <-> no_comma s.
Proof.
  unfold comma_free. induction s as [|c s IH]; cbn; [tauto|]. rewrite <- IH.
  destruct (Ascii.eqb_spec c ","); intuition congruence.
Qed.

Lemma no_comma_white w : white_text w -> no_comma w.
Proof.
  unfold white_text. induction w as [|c w IH]; intros H; [exact I|]. inversion H; subst.
  split; [|auto]. destruct (Ascii.eqb_spec c ","); [|reflexivity]. subst.
  exfalso. repeat match goal with H : white _ |- _ => cbn in H end. intuition discriminate.
Qed.

Lemma no_comma_digits ds : Forall (fun d => d < 10) ds -> no_comma (digits_text ds).
Proof.
  induction 1 as [|d ds H F IH]; cbn [digits_text no_comma]; [exact I|].
  destruct (digit_char_value d H) as (_ & _ & _ & C & _). auto.
Qed.

Lemma no_comma_denotes t z : denotes t z -> no_comma t.
Proof.
  intros [w s ds rest W N F C R].
  apply no_comma_app; [now apply no_comma_white|].
  apply no_comma_app; [destruct s; simpl; auto|].
  apply no_comma_app; [now apply no_comma_digits|now apply comma_free_no_comma].
Qed.

Lemma no_comma_item t zs : item t zs -> no_comma t.
Proof. intros [|t' z D]; [exact I|]. eapply no_comma_denotes; eauto. Qed.

Lemma next_token_last t : no_comma t -> next_token t = (t, None).
Proof.
  induction t as [|c t IH]; [reflexivity|]. intros [C N]. cbn [next_token].
  rewrite C, IH by exact N. reflexivity.
Qed.

Lemma next_token_comma t s : no_comma t -> next_token (t ++ String "," s) = (t, Some s).
Proof.
  induction t as [|c t IH]; [reflexivity|]. intros [C N]. cbn [next_token String.append].
  rewrite C, IH by exact N. reflexivity.
Qed.

Lemma concat_cons t t' items :
  String.concat "," (t :: t' :: items) = t ++ String "," (String.concat "," (t' :: items)).
Proof. reflexivity. Qed.

Lemma length_app s t : String.length (s ++ t) = String.length s + String.length t.
Proof. induction s; simpl; auto. Qed.

Lemma cpp_tokens_concat items fuel :
  Forall no_comma items -> items <> [] ->
  String.length (String.concat "," items) < fuel ->
  cpp_tokens (String.concat "," items) fuel = items.
Proof.
  revert fuel. induction items as [|t items IH]; [congruence|].
  intros fuel F _ L. inversion F; subst. destruct fuel as [|fuel]; [lia|].
  destruct items as [|t' items].
  - cbn [String.concat cpp_tokens]. rewrite next_token_last by assumption. reflexivity.
  - rewrite concat_cons in *. cbn [cpp_tokens]. rewrite next_token_comma by assumption.
    f_equal. apply IH; [assumption|discriminate|].
    rewrite length_app in L. cbn [String.length] in L. lia.
Qed.

Definition nonempty (t : string) : bool := match t with EmptyString => false | _ => true end.

(* strtok is insensitive to leading commas *)
Lemma strtok_skip s : strtok (String "," s) = strtok s.
Proof. reflexivity. Qed.

Lemma c_tokens_skip s fuel : c_tokens (String "," s) fuel = c_tokens s fuel.
Proof. destruct fuel; [reflexivity|]. cbn [c_tokens]. rewrite strtok_skip. reflexivity. Qed.

Lemma strtok_nonempty c s :
  Ascii.eqb c "," = false ->
  strtok (String c s) =
  let (t, r) := next_token (String c s) in (Some t, match r with Some r => r | None => "" end).
Proof. intros H. unfold strtok. cbn [skip_commas]. rewrite H. reflexivity. Qed.

Lemma c_tokens_empty fuel : c_tokens "" fuel = [].
Proof. destruct fuel; reflexivity. Qed.

Lemma c_tokens_concat items fuel :
  Forall no_comma items ->
  String.length (String.concat "," items) < fuel ->
  c_tokens (String.concat "," items) fuel = filter nonempty items.
Proof.
  revert fuel. induction items as [|t items IH]; intros fuel F L.
  - destruct fuel; reflexivity.
  - inversion F; subst. destruct fuel as [|fuel]; [lia|].
    destruct t as [|c t].
    + cbn [filter nonempty]. destruct items as [|t' items]; [reflexivity|].
      rewrite concat_cons in *. cbn [String.append]. rewrite c_tokens_skip.
      apply IH; [assumption|]. cbn [String.append String.length] in L. lia.
    + cbn [filter nonempty]. match goal with H : no_comma (String c t) |- _ =>
        pose proof H as [C N] end.
      destruct items as [|t' items].
      * cbn [String.concat c_tokens]. rewrite strtok_nonempty by exact C.
        rewrite next_token_last by (split; assumption). rewrite c_tokens_empty. reflexivity.
      * rewrite concat_cons in *. cbn [c_tokens].
        change (String c t ++ String "," (String.concat "," (t' :: items)))
          with (String c (t ++ String "," (String.concat "," (t' :: items)))).
        rewrite strtok_nonempty by exact C.
        change (String c (t ++ String "," (String.concat "," (t' :: items))))
          with (String c t ++ String "," (String.concat "," (t' :: items))).
        rewrite next_token_comma by (split; assumption). f_equal.
        apply IH; [assumption|].
        rewrite length_app in L. cbn [String.length] in L. lia.
Qed.

(** * Initialisation *)

Section File.
Variables initial num : nat.

Definition memb (zs : list Z) (i : nat) : bool :=
  existsb (Z.eqb (Z.of_nat initial + Z.of_nat i)) zs.
Definition in_file (zs : list Z) : bool :=
  existsb (fun z => (Z.of_nat initial <=? z) && (z <? Z.of_nat initial + Z.of_nat num))%Z zs.

Lemma int_safe_fits z : int_safe initial z -> fits_int z = true /\
  fits_int (z - Z.of_nat initial) = true.
Proof. unfold int_safe, fits_int, int_min, int_max. intros. split; apply andb_true_iff; lia. Qed.

Lemma enable_spec z ws P some :
  int_safe initial z -> holds num ws P ->
  exists ws', enable initial num z ws some = Ok (ws', in_file [z] || some) /\
    holds num ws' (fun i => memb [z] i || P i).
Proof.
  intros S [L H]. unfold enable. rewrite (proj2 (int_safe_fits z S)). cbn [negb].
  unfold in_file, memb; cbn [existsb].
  destruct ((0 <=? z - Z.of_nat initial) && (z - Z.of_nat initial <? Z.of_nat num))%Z eqn:R.
  - assert (Q : Z.to_nat (z - Z.of_nat initial) < num) by lia.
    rewrite L. rewrite (proj2 (Nat.ltb_lt _ _) (in_words _ _ Q)).
    eexists. split.
    + f_equal. f_equal. lia.
    + split; [rewrite set_bit_length; exact L|]. intros i I. rewrite get_set_bit, H by exact I.
      cbn [option_map]. f_equal. f_equal. lia.
  - exists ws. split.
    + f_equal. f_equal. lia.
    + split; [exact L|]. intros i I. rewrite H by exact I. f_equal.
      destruct (Z.eqb_spec (Z.of_nat initial + Z.of_nat i) z); [lia|reflexivity].
Qed.

Lemma holds_ext ws P Q : (forall i, P i = Q i) -> holds num ws P -> holds num ws Q.
Proof. intros E [L H]. split; [exact L|]. intros i I. rewrite <- E. auto. Qed.

Lemma memb_app a b i : memb (a ++ b) i = memb a i || memb b i.
Proof. apply existsb_app. Qed.

Lemma stoi_denotes t z : denotes t z -> int_safe initial z -> stoi t = PInt z.
Proof.
  intros D S. unfold stoi. rewrite (strtol_denotes t z D), (proj1 (int_safe_fits z S)).
  reflexivity.
Qed.
Lemma atoi_denotes t z : denotes t z -> int_safe initial z -> atoi t = PInt z.
Proof.
  intros D S. unfold atoi. rewrite (strtol_denotes t z D), (proj1 (int_safe_fits z S)).
  reflexivity.
Qed.

Lemma denotes_nonempty t z : denotes t z -> nonempty t = true.
Proof.
  intros [w s ds rest W N F C R]. destruct w; [|reflexivity]. destruct s; try reflexivity.
  destruct ds; [congruence|reflexivity].
Qed.

Lemma cpp_loop_spec items zs ws P some :
  Forall2 item items zs -> Forall (int_safe initial) (concat zs) -> holds num ws P ->
  exists ws', cpp_loop initial num items ws some = (ws', Ok (in_file (concat zs) || some)) /\
    holds num ws' (fun i => memb (concat zs) i || P i).
Proof.
  intros F. revert ws P some.
  induction F as [|t z items zs I F IH]; intros ws P some S H.
  - exists ws. split; [reflexivity|exact H].
  - destruct I as [|t z D].
    + cbn [cpp_loop concat app] in *. apply IH; assumption.
    + cbn [concat app] in *. apply Forall_cons_iff in S as [S1 S2].
      destruct (enable_spec z ws P some) as (ws1 & E & H1); [assumption..|].
      destruct (IH ws1 _ (in_file [z] || some) ltac:(assumption) H1) as (ws2 & E2 & H2).
      exists ws2. split.
      * cbn [cpp_loop]. pose proof (denotes_nonempty t z D) as NE.
        destruct t as [|c t]; [discriminate|].
        rewrite (stoi_denotes _ z D) by assumption. rewrite E, E2. f_equal. f_equal.
        unfold in_file. cbn [existsb]. rewrite orb_false_r.
        rewrite orb_assoc. f_equal. apply orb_comm.
      * eapply holds_ext; [|exact H2]. intros i. unfold memb. cbn [existsb].
        rewrite orb_false_r, orb_assoc. f_equal. apply orb_comm.
Qed.

Lemma c_loop_cpp_loop items zs ws P some :
  Forall2 item items zs -> Forall (int_safe initial) (concat zs) -> holds num ws P ->
  c_loop initial num (filter nonempty items) ws some = cpp_loop initial num items ws some.
Proof.
  intros F. revert ws P some.
  induction F as [|t z items zs I F IH]; intros ws P some S H; [reflexivity|].
  destruct I as [|t z D].
  - cbn [cpp_loop concat app filter nonempty] in *. eapply IH; eassumption.
  - cbn [concat app] in *. apply Forall_cons_iff in S as [S1 S2].
    cbn [filter]. rewrite (denotes_nonempty t z D). cbn [c_loop cpp_loop].
    pose proof (denotes_nonempty t z D) as NE. destruct t as [|c t]; [discriminate|].
    rewrite (stoi_denotes _ z D), (atoi_denotes _ z D) by assumption.
    destruct (enable_spec z ws P some) as (ws1 & E & H1); [assumption..|].
    rewrite E. eapply IH; eassumption.
Qed.

Lemma init_spec cpp v zs ws P :
  variable_lists v zs -> Forall (int_safe initial) zs -> holds num ws P ->
  exists ws', init initial num cpp v ws = (ws', Ok (in_file zs)) /\
    holds num ws' (fun i => memb zs i || P i).
Proof.
  intros V S H. destruct V as [|items zs F].
  - exists ws. split; [reflexivity|exact H].
  - assert (NC : Forall no_comma items).
    { clear S. induction F; constructor; eauto using no_comma_item. }
    destruct (cpp_loop_spec items zs ws P false F S H) as (ws' & E & H').
    rewrite orb_false_r in E. exists ws'. split; [|exact H'].
    cbn [init]. destruct cpp.
    + destruct items as [|t items].
      * inversion F; subst. exact E.
      * rewrite cpp_tokens_concat; [exact E|exact NC|discriminate|lia].
    + rewrite c_tokens_concat by (exact NC || lia).
      rewrite (c_loop_cpp_loop items zs ws P false F S H). exact E.
Qed.

(** * Queries *)

Definition answers (s : tls) (P : nat -> bool) : Prop :=
  initialized s = true /\ holds num (bitset s) P.

Lemma query_initialized cpp v s P i :
  answers s P -> i < num -> query initial num cpp v i s = (s, Ok (P i)).
Proof. intros [I [L H]] Hi. unfold query. rewrite I, H by exact Hi. reflexivity. Qed.

Lemma query_first cpp v zs i :
  variable_lists v zs -> Forall (int_safe initial) zs -> i < num ->
  exists s, query initial num cpp v i (initial_tls num) = (s, Ok (memb zs i)) /\
    answers s (memb zs) /\ some_enabled s = in_file zs.
Proof.
  intros V S Hi.
  destruct (init_spec cpp v zs _ _ V S (holds_initial num)) as (ws & E & H).
  unfold query. cbn [initialized initial_tls bitset]. rewrite E. cbn [bitset].
  assert (H' : holds num ws (memb zs)).
  { eapply holds_ext; [|exact H]. intros; apply orb_false_r. }
  rewrite (proj2 H' i Hi). eexists. split; [reflexivity|]. split; [split; [reflexivity|exact H']|].
  reflexivity.
Qed.

Lemma queries_initialized cpp v s P locals :
  answers s P -> Forall (fun i => i < num) locals ->
  queries initial num cpp v locals s = map (fun i => Ok (P i)) locals.
Proof.
  intros A F. induction F as [|i locals Hi F IH]; [reflexivity|].
  cbn [queries map]. rewrite (query_initialized cpp v s P i A Hi), IH. reflexivity.
Qed.

Lemma memb_spec zs i : memb zs i = true <-> In (Z.of_nat (initial + i)) zs.
Proof.
  unfold memb. rewrite existsb_exists, Nat2Z.inj_add. split.
  - intros (z & I & E). apply Z.eqb_eq in E. subst. exact I.
  - intros I. eexists. split; [exact I|apply Z.eqb_refl].
Qed.

Lemma C08_lemma cpp v zs locals :
  variable_lists v zs -> Forall (int_safe initial) zs ->
  Forall (fun i => i < num) locals ->
  exists answers : list bool,
    queries initial num cpp v locals (initial_tls num) = map Ok answers /\
    Forall2 (fun i b => b = true <-> In (Z.of_nat (initial + i)) zs) locals answers.
Proof.
  intros V S F. exists (map (memb zs) locals). split.
  - destruct F as [|i locals Hi F]; [reflexivity|].
    destruct (query_first cpp v zs i V S Hi) as (s & E & A & _).
    cbn [queries map]. rewrite E. f_equal. rewrite map_map.
    apply queries_initialized; assumption.
  - clear. induction locals as [|i l IH]; constructor; [apply memb_spec|exact IH].
Qed.

Lemma C10_lemma v zs locals :
  variable_lists v zs -> Forall (int_safe initial) zs ->
  Forall (fun i => i < num) locals ->
  queries initial num true v locals (initial_tls num) =
  queries initial num false v locals (initial_tls num).
Proof.
  intros V S F. destruct F as [|i locals Hi F]; [reflexivity|].
  destruct (query_first true v zs i V S Hi) as (s & E & A & _).
  destruct (query_first false v zs i V S Hi) as (s' & E' & A' & _).
  cbn [queries]. rewrite E, E'. f_equal.
  rewrite (queries_initialized _ _ _ _ _ A F), (queries_initialized _ _ _ _ _ A' F).
  reflexivity.
Qed.

End File.

Lemma C10_refuted_lemma :
  exists v v',
    queries 0 1 true (Some v) [0] (initial_tls 1) = [Throws] /\
    queries 0 1 false (Some v) [0] (initial_tls 1) = [Ok true] /\
    queries 0 1 true (Some v') [0] (initial_tls 1) = [Throws] /\
    queries 0 1 false (Some v') [0] (initial_tls 1) = [Undefined].
Proof. exists "x", "4294967296". vm_compute. auto. Qed.
