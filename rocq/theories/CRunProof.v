(* Running the text of the preludes. *)
From Coq Require Import String Ascii List NArith ZArith Bool Lia.
From Verif Require Import Base Clang PreludeText Rewriter Prelude CText CRun CTextProof.
Import ListNotations.
Local Open Scope string_scope.

(* The body of the first loop *)
Fixpoint first_loop (c : cstmt) : option cstmt :=
  match c with
  | CSeq a b => match first_loop a with Some x => Some x | None => first_loop b end
  | CBlock a | CIf _ a => first_loop a
  | CWhile _ a | CFor _ _ _ a => Some a
  | _ => None
  end.
Definition loop_of (f : string) (l : list item) : cstmt :=
  match find_function f l with
  | Some g => match first_loop (f_body g) with Some x => x | None => CSkip end
  | None => CSkip
  end.

Definition cpp_body (w i n : N) : cstmt :=
  Eval vm_compute in loop_of "__dredd_enabled_mutation" (cpp_items w i n).

Definition cpp_state (c v : string) (some : bool) (l : Z) (e : bool) (ws : list N) : cstate :=
  {| autos := [("contents", VString c); ("dredd_environment_variable", VPtr (PText v));
               ("some_mutation_enabled", VBool some); ("local_mutation_id", VInt l)];
     statics := [("__dredd_some_mutation_enabled", VBool e); ("initialized", VBool false);
                 ("enabled_bitset", VArr (map VU64 ws))];
     blocks := [] |}.

(** * The first item of a list *)

Lemma index_token c : String.index 0 "," c =
  match next_token c with (t, Some _) => Some (String.length t) | (_, None) => None end.
Proof.
  induction c as [|d c IH]; [reflexivity|].
  cbn [next_token]. cbn [String.index String.prefix]. destruct (Ascii.eqb d ",") eqn:E.
  - apply Ascii.eqb_eq in E. subst d. destruct (ascii_dec "," ","); [|congruence].
    now destruct c.
  - destruct (ascii_dec "," d) as [D|D].
    + subst d. rewrite Ascii.eqb_refl in E. discriminate.
    + rewrite IH. destruct (next_token c) as [t [r|]]; reflexivity.
Qed.

Lemma token_parts c t r : next_token c = (t, r) ->
  c = match r with Some r => t ++ "," ++ r | None => t end.
Proof.
  revert t r. induction c as [|d c IH]; intros t r; cbn [next_token].
  - now intros [= <- <-].
  - destruct (Ascii.eqb d ",") eqn:E.
    + intros [= <- <-]. apply Ascii.eqb_eq in E. now subst d.
    + destruct (next_token c) as [t' r'] eqn:N. intros [= <- <-].
      rewrite (IH _ _ eq_refl) at 1. now destruct r'.
Qed.

Lemma substring_all s : String.substring 0 (String.length s) s = s.
Proof. induction s; cbn; [reflexivity|now rewrite IHs]. Qed.
Lemma substring_before s t : String.substring 0 (String.length s) (s ++ t) = s.
Proof. induction s; cbn; [now destruct t|now rewrite IHs]. Qed.
Lemma length_append s t : String.length (s ++ t) = String.length s + String.length t.
Proof. induction s; cbn; [reflexivity|now rewrite IHs]. Qed.
Lemma substring_after s t : String.substring (String.length s) (String.length t) (s ++ t) = t.
Proof. induction s; cbn; [apply substring_all|exact IHs]. Qed.

Lemma token_before c t r : next_token c = (t, Some r) ->
  String.substring 0 (String.length t) c = t.
Proof. intros N. rewrite (token_parts _ _ _ N). apply substring_before. Qed.
Lemma token_after c t r : next_token c = (t, Some r) ->
  String.substring (String.length t + 1) (String.length c - (String.length t + 1)) c = r.
Proof.
  intros N. pose proof (token_parts _ _ _ N) as P. cbv iota in P. rewrite P.
  assert (Q : t ++ "," ++ r = (t ++ ",") ++ r).
  { clear. induction t; cbn; [reflexivity|now f_equal]. }
  rewrite Q, length_append.
  assert (L : String.length (t ++ ",") = String.length t + 1) by (now rewrite length_append).
  rewrite L. replace (_ + _ - _) with (String.length r) by lia. rewrite <- L.
  apply substring_after.
Qed.

(** * Bits *)

Lemma shift_count z : (0 <= z)%Z ->
  (0 <=? Z.rem z 64)%Z = true /\ (Z.rem z 64 <? 64)%Z = true /\
  (N.shiftl 1 (Z.to_N (Z.rem z 64)) mod modulus)%N = bit (Z.to_nat z).
Proof.
  intros P. assert (B : (0 <= Z.rem z 64 < 64)%Z) by (apply Z.rem_bound_pos; lia).
  split; [apply Z.leb_le; lia|]. split; [apply Z.ltb_lt; lia|].
  unfold bit.
  assert (E : Z.to_N (Z.rem z 64) = N.of_nat (Z.to_nat z mod 64)).
  { rewrite Z.rem_mod_nonneg by lia. rewrite <- (Z2Nat.id z) at 1 by lia.
    change 64%Z with (Z.of_nat 64). rewrite <- Nat2Z.inj_mod. now rewrite <- nat_N_Z, N2Z.id. }
  rewrite E. apply N.mod_small. rewrite N.shiftl_1_l. unfold modulus.
  apply N.pow_lt_mono_r; [lia|]. pose proof (Nat.mod_upper_bound (Z.to_nat z) 64). lia.
Qed.

Lemma element_word ws z : (0 <= z)%Z ->
  element (map VU64 ws) (VInt (Z.quot z 64)) =
  match nth_error ws (Z.to_nat z / 64) with
  | Some w => Done (Z.to_nat z / 64, VU64 w)
  | None => Wrong
  end.
Proof.
  intros P. cbn [element].
  assert (E : Z.to_nat (Z.quot z 64) = Z.to_nat z / 64).
  { rewrite Z.quot_div_nonneg by lia. now rewrite Z2Nat.inj_div by lia. }
  assert (Z.quot z 64 <? 0 = false)%Z as ->.
  { apply Z.ltb_ge. apply Z.quot_pos; lia. }
  rewrite E, nth_error_map. now destruct (nth_error ws _).
Qed.

Lemma fits_quot z : fits_int z = true -> fits_int (Z.quot z 64) = true.
Proof.
  unfold fits_int, int_min, int_max. rewrite !andb_true_iff, !Z.leb_le. intros [A B].
  split.
  - change (- 2 ^ 31)%Z with (Z.quot (- 2 ^ 37) 64). apply Z.quot_le_mono; lia.
  - transitivity (Z.quot (2 ^ 31 - 1) 64); [apply Z.quot_le_mono; lia|now apply Z.leb_le].
Qed.
Lemma fits_rem z : fits_int (Z.rem z 64) = true.
Proof.
  unfold fits_int, int_min, int_max. rewrite andb_true_iff, !Z.leb_le.
  pose proof (Z.rem_bound_abs z 64). lia.
Qed.

(* One item *)
Definition one_item (initial num : nat) (p : parsed) (ws : list N) (some : bool)
  : outcome (list N * bool) :=
  match p with
  | PInt z => enable initial num z ws some
  | PThrow => Throws
  | PUndefined => Undefined
  end.

Ltac go := cbn -[String.index String.substring fits_int stoi atoi Z.quot Z.rem update_nth
  nth_error Z.of_N Z.to_N N.lor N.land N.shiftl modulus Z.modulo N.modulo Z.leb Z.ltb map repeat
  String.length element Z.sub Z.add N.eqb Nat.ltb Nat.leb Nat.div Nat.modulo Z.of_nat N.of_nat].
Ltac nums :=
  change (Z.of_N 0) with 0%Z; change (Z.of_N 1) with 1%Z; change (Z.of_N 64) with 64%Z;
  change (fits_int 0) with true; change (fits_int 1) with true; change (fits_int 64) with true;
  change (Pos.to_nat 1) with 1; change (0 <=? 1)%Z with true.
Ltac run := repeat (go; nums); go.

Lemma map_update k f (ws : list N) u : nth_error ws k = Some u ->
  update_nth k (fun _ => VU64 (f u)) (map VU64 ws) = map VU64 (update_nth k f ws).
Proof.
  revert k. induction ws as [|x ws IH]; intros [|k]; cbn; [discriminate..| |].
  - now intros [= ->].
  - intros E. f_equal. now apply IH.
Qed.
Lemma map_set i (ws : list N) u : nth_error ws (i / 64) = Some u ->
  update_nth (i / 64) (fun _ => VU64 (N.lor u (bit i))) (map VU64 ws) =
  map VU64 (set_bit i ws).
Proof. intros E. exact (map_update _ (fun w => N.lor w (bit i)) _ _ E). Qed.
Lemma in_array k (ws : list N) : Nat.ltb k (List.length ws) =
  match nth_error ws k with Some _ => true | None => false end.
Proof.
  destruct (nth_error ws _) eqn:E.
  - apply Nat.ltb_lt, nth_error_Some. congruence.
  - apply Nat.ltb_ge, nth_error_None, E.
Qed.

(* From a value that is known to the statement after the one that sets the bit; [last]
   deals with what remains. *)
Ltac enabling initial num z FI FN last :=
  rewrite !nat_N_Z, FI; run; unfold enable;
  let x := fresh "x" in set (x := (z - Z.of_nat initial)%Z) in *; unfold int_result at 1;
  let FL := fresh in destruct (fits_int x) eqn:FL; run; [|reflexivity];
  let L0 := fresh in destruct (0 <=? x)%Z eqn:L0; run; [|last];
  rewrite FN; run;
  let L1 := fresh in destruct (x <? Z.of_nat num)%Z eqn:L1; run; [|last];
  unfold int_result at 1; rewrite (fits_quot x FL); run; unfold int_result at 1;
  rewrite (fits_rem x); run;
  apply Z.leb_le in L0; 
  let C0 := fresh in let C1 := fresh in let C2 := fresh in
  destruct (shift_count x L0) as (C0 & C1 & C2);
  rewrite (fits_quot x FL); run; rewrite C0, C1; run;
  change (Z.to_N (1 mod Z.of_N modulus)) with 1%N; rewrite C2, element_word by exact L0;
  rewrite in_array;
  let u := fresh "u" in let NE := fresh in
  destruct (nth_error _ _) as [u|] eqn:NE; run; [|reflexivity];
  rewrite (map_set _ _ _ NE); last.

Lemma cpp_item initial num w l c v some e ws fuel :
  fits_int (Z.of_nat initial) = true -> fits_int (Z.of_nat num) = true ->
  exec fuel (cpp_body w (N.of_nat initial) (N.of_nat num)) (cpp_state c v some l e ws) =
  let (t, r) := next_token c in
  match (match t with "" => Ok (ws, some) | _ => one_item initial num (stoi t) ws some end) with
  | Ok (ws', some') =>
      match r with
      | Some r => Done (cpp_state r v some' l e ws', Next)
      | None => Done (cpp_state c v some' l e ws', Broke)
      end
  | Throws => Done (cpp_state c v some l e ws, Threw)
  | Undefined => Wrong
  end.
Proof.
  intros FI FN. unfold cpp_body, cpp_state. run. rewrite index_token.
  destruct (next_token c) as [t r] eqn:T.
  destruct r as [r|].
  - pose proof (token_before _ _ _ T) as TB. pose proof (token_after _ _ _ T) as TA.
    generalize dependent (String.length t). intros k TB TA. run. rewrite TB. clear T TB. run.
    destruct t as [|t0 t']; [run; now rewrite TA|].
    set (t := String t0 t'). clearbody t. run.
    destruct (stoi t) as [z| |]; run; [|reflexivity..].
    enabling initial num z FI FN ltac:(now rewrite TA).
  - pose proof (token_parts _ _ _ T) as <-. clear T. run.
    destruct c as [|t0 t']; [reflexivity|].
    set (c := String t0 t') in *. clearbody c. run.
    destruct (stoi c) as [z| |]; run; [|reflexivity..].
    enabling initial num z FI FN ltac:(reflexivity).
Qed.

Definition ends (r : outcome_run) (Q : cstate -> signal -> Prop) : Prop :=
  match r with Done (s, x) => Q s x | _ => False end.

Lemma cpp_loop_runs initial num w l v e f :
  fits_int (Z.of_nat initial) = true -> fits_int (Z.of_nat num) = true ->
  forall fuel n c some ws, String.length c < fuel -> String.length c < n ->
  let r := loop fuel (eval (EBool true))
    (exec f (cpp_body w (N.of_nat initial) (N.of_nat num))) (fun s => Done (s, Next))
    (cpp_state c v some l e ws) in
  match cpp_loop initial num (cpp_tokens c n) ws some with
  | (ws', Ok some') => ends r (fun s x => x = Next /\ exists c', s = cpp_state c' v some' l e ws')
  | (ws', Throws) =>
      ends r (fun s x => x = Threw /\ exists c' some', s = cpp_state c' v some' l e ws')
  | (_, Undefined) => r = Wrong
  end.
Proof.
  intros FI FN. induction fuel as [|fuel IH]; intros n c some ws F N r; [lia|].
  destruct n as [|n]; [lia|]. subst r.
  cbn [loop eval]. unfold then_. cbn [bind truth convert]. rewrite cpp_item by assumption.
  cbn [cpp_tokens]. destruct (next_token c) as [t r] eqn:T.
  pose proof (token_parts _ _ _ T) as P.
  assert (L : forall r', r = Some r' -> String.length r' < String.length c).
  { intros r' ->. rewrite P, !length_append. cbn. lia. }
  destruct t as [|t0 t'].
  - destruct r as [r|]; cbn [bind next cpp_loop].
    + apply IH; specialize (L _ eq_refl); lia.
    + split; [reflexivity|]. now exists c.
  - cbn [cpp_loop]. set (t := String t0 t') in *. clearbody t. unfold one_item.
    destruct (stoi t) as [z| |]; cbn [bind].
    + destruct (enable initial num z ws some) as [[ws' some']| |].
      * destruct r as [r|]; cbn [bind next].
        -- apply IH; specialize (L _ eq_refl); lia.
        -- split; [reflexivity|]. now exists c.
      * split; [reflexivity|]. now exists c, some.
      * reflexivity.
    + split; [reflexivity|]. now exists c, some.
    + reflexivity.
Qed.
