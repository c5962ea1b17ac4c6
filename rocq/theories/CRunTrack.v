(* Running the function in the coverage preludes. *)
From Coq Require Import String Ascii List NArith ZArith Bool Lia.
From Verif Require Import Base Clang PreludeText Rewriter Prelude CText CRun CTextProof
  CRunProof TextSpec CRunTop.
Import ListNotations.
Local Open Scope string_scope.

(** * Loops *)

Definition tracking_state (last : list (string * cval)) (f : string) (i local n : Z)
  : cstate :=
  {| autos := ("i", VInt i) :: last ++
       [("dredd_tracking_environment_variable", VPtr (PText f));
        ("local_mutation_id", VInt local); ("num_mutations", VInt n)];
     statics := []; blocks := [] |}.

Definition cpp_write (i n : N) : cstmt :=
  Eval vm_compute in loop_of "__dredd_record_covered_mutants" (tracking_cpp_items i n).
Definition c_write (i n : N) : cstmt :=
  Eval vm_compute in loop_of "__dredd_record_covered_mutants" (tracking_c_items i n).

Lemma string_of_id k : string_of_Z (Z.of_nat k) = string_of_nat k.
Proof.
  unfold string_of_Z, string_of_nat. now destruct k.
Qed.

Lemma fits_nat k : (Z.of_nat k <= int_max)%Z -> fits_int (Z.of_nat k) = true.
Proof.
  unfold fits_int, int_min, int_max. rewrite andb_true_iff, !Z.leb_le. lia.
Qed.

Lemma cpp_writes {W} (ans : W -> event -> W * answer) w first num local i n f b fuel :
  (Z.of_nat (first + local + i) <= int_max)%Z ->
  interpret ans w (exec fuel (cpp_write (N.of_nat first) num)
    (tracking_state [("output_file", VStream (Some b))] f (Z.of_nat i) (Z.of_nat local) n)) =
  interpret ans w (writes (if b then line true (first + local + i) else [])
    (Done (tracking_state [("output_file", VStream (Some b))] f (Z.of_nat i) (Z.of_nat local) n, Next))).
Proof.
  intros B. unfold cpp_write, tracking_state.
  assert (F1 : fits_int (Z.of_nat first) = true) by (apply fits_nat; lia).
  assert (F2 : fits_int (Z.of_nat first + Z.of_nat local) = true)
    by (rewrite <- Nat2Z.inj_add; apply fits_nat; lia).
  assert (F3 : fits_int (Z.of_nat first + Z.of_nat local + Z.of_nat i) = true)
    by (rewrite <- !Nat2Z.inj_add; apply fits_nat; lia).
  run. rewrite nat_N_Z, F1. run. unfold int_result at 1. rewrite F2. run.
  unfold int_result at 1. rewrite F3. run. rewrite <- !Nat2Z.inj_add, string_of_id.
  destruct b; [|reflexivity].
  cbn [line writes interpret ask bind].
  destruct (ans w _) as [w1 [a| | |]]; [reflexivity..| |reflexivity].
  cbn [interpret bind]. run. fold nl.
  destruct (ans w1 _) as [w2 [a| | |]]; reflexivity.
Qed.

Lemma c_writes {W} (ans : W -> event -> W * answer) w first num local i n f fuel :
  (Z.of_nat (first + local + i) <= int_max)%Z ->
  interpret ans w (exec fuel (c_write (N.of_nat first) num)
    (tracking_state [("fp", VFile true)] f (Z.of_nat i) (Z.of_nat local) n)) =
  interpret ans w (writes (line false (first + local + i))
    (Done (tracking_state [("fp", VFile true)] f (Z.of_nat i) (Z.of_nat local) n, Next))).
Proof.
  intros B. unfold c_write, tracking_state.
  assert (F1 : fits_int (Z.of_nat first) = true) by (apply fits_nat; lia).
  assert (F2 : fits_int (Z.of_nat first + Z.of_nat local) = true)
    by (rewrite <- Nat2Z.inj_add; apply fits_nat; lia).
  assert (F3 : fits_int (Z.of_nat first + Z.of_nat local + Z.of_nat i) = true)
    by (rewrite <- !Nat2Z.inj_add; apply fits_nat; lia).
  run. rewrite nat_N_Z, F1. run. unfold int_result at 1. rewrite F2. run.
  unfold int_result at 1. rewrite F3. run. rewrite <- !Nat2Z.inj_add, string_of_id.
  fold nl. cbn [line writes ask interpret].
  destruct (ans w _) as [w1 [a| | |]]; reflexivity.
Qed.

Lemma c_write_closed first num local n f fuel :
  (Z.of_nat (first + local) <= int_max)%Z ->
  exec fuel (c_write (N.of_nat first) num)
    (tracking_state [("fp", VFile false)] f 0 (Z.of_nat local) n) = Wrong.
Proof.
  intros B. unfold c_write, tracking_state.
  assert (F1 : fits_int (Z.of_nat first) = true) by (apply fits_nat; lia).
  assert (F2 : fits_int (Z.of_nat first + Z.of_nat local) = true)
    by (rewrite <- Nat2Z.inj_add; apply fits_nat; lia).
  run. rewrite nat_N_Z, F1. run. unfold int_result at 1. rewrite F2. run.
  unfold int_result at 1. rewrite Z.add_0_r, F2. reflexivity.
Qed.

Lemma bind_writes {A B W} (ans : W -> event -> W * answer) l (r : run A) (k : A -> run B) w :
  interpret ans w (bind (writes l r) k) = interpret ans w (writes l (bind r k)).
Proof.
  revert w. induction l as [|s l IH]; intros w; [reflexivity|].
  cbn [writes ask bind interpret]. destruct (ans w _) as [w1 [x| | |]]; [reflexivity..| |reflexivity].
  apply IH.
Qed.
Lemma interpret_bind_eq {A B W} (ans : W -> event -> W * answer) (r r' : run A)
  (k : A -> run B) w : interpret ans w r = interpret ans w r' ->
  interpret ans w (bind r k) = interpret ans w (bind r' k).
Proof. intros E. now rewrite !interpret_bind, E. Qed.
Lemma writes_app {A} l l' (k : run A) : writes (l ++ l') k = writes l (writes l' k).
Proof. induction l as [|s l IH]; [reflexivity|]. cbn. now rewrite IH. Qed.
Lemma interpret_writes {A W} (ans : W -> event -> W * answer) l (r r' : run A) w :
  (forall w, interpret ans w r = interpret ans w r') ->
  interpret ans w (writes l r) = interpret ans w (writes l r').
Proof.
  intros E. revert w. induction l as [|s l IH]; intros w; [apply E|].
  cbn [writes ask interpret]. destruct (ans w _) as [w1 [x| | |]]; [reflexivity..| |reflexivity].
  apply IH.
Qed.

Lemma loop_writes {W} (ans : W -> event -> W * answer) n (st : nat -> cstate) cond body step
  (ls : nat -> list string) :
  (forall i, cond (st i) = Done (st i, Val (VBool (Nat.ltb i n)))) ->
  (forall i, i < n -> step (st i) = Done (st (S i), Next)) ->
  (forall w i, i < n ->
     interpret ans w (body (st i)) = interpret ans w (writes (ls i) (Done (st i, Next)))) ->
  forall k i fuel w, i + k = n -> k < fuel ->
  interpret ans w (loop fuel cond body step (st i)) =
  interpret ans w (writes (flat_map ls (seq i k)) (Done (st n, Next))).
Proof.
  intros HC HS HB. induction k as [|k IH]; intros i fuel w E F;
    (destruct fuel as [|fuel]; [lia|]); cbn [loop]; rewrite HC; cbn [then_ bind truth convert].
  - assert (Nat.ltb i n = false) as -> by (apply Nat.ltb_ge; lia).
    replace i with n by lia. reflexivity.
  - assert (Nat.ltb i n = true) as -> by (apply Nat.ltb_lt; lia).
    rewrite (interpret_bind_eq _ _ (writes (ls i) (Done (st i, Next)))) by (apply HB; lia).
    rewrite bind_writes. cbn [bind]. rewrite HS by lia. cbn [next bind flat_map seq].
    rewrite writes_app. apply interpret_writes. intros w'. apply IH; lia.
Qed.

(** * The function *)

Lemma ltb_of i n : Z.ltb (Z.of_nat i) (Z.of_nat n) = Nat.ltb i n.
Proof.
  destruct (Nat.ltb i n) eqn:E; [apply Nat.ltb_lt in E; apply Z.ltb_lt; lia|].
  apply Nat.ltb_ge in E. apply Z.ltb_ge. lia.
Qed.

Lemma flat_map_map {A B C} (f : B -> list C) (g : A -> B) l :
  flat_map f (map g l) = flat_map (fun x => f (g x)) l.
Proof. induction l as [|x l IH]; [reflexivity|]. cbn. now rewrite IH. Qed.

Ltac got := cbn -[String.index String.substring fits_int stoi atoi Z.quot Z.rem
  Z.of_N Z.to_N N.lor N.land N.shiftl modulus Z.modulo N.modulo Z.leb Z.ltb map repeat
  String.length element Z.sub Z.add N.eqb Nat.ltb Nat.leb Nat.div Nat.modulo Z.of_nat N.of_nat
  cpp_write c_write loop interpret seq].

Lemma tracking_cpp_call {W} (ans : W -> event -> W * answer) w first num local n fuel :
  (Z.of_nat (first + local + n) <= int_max + 1)%Z -> (Z.of_nat n <= int_max)%Z -> n < fuel ->
  interpret ans w
    (call (tracking_cpp_items (N.of_nat first) num) fuel "__dredd_record_covered_mutants"
       [VInt (Z.of_nat local); VInt (Z.of_nat n)] []) =
  interpret ans w (whole (records true first local n)).
Proof.
  intros B BN F. unfold tracking_cpp_items, call.
  cbn [find_function f_name String.eqb Ascii.eqb Bool.eqb f_params f_ty f_body].
  cbn [bind_params option_map].
  match goal with |- context [CFor _ _ _ ?b] =>
    change b with (cpp_write (N.of_nat first) num) end.
  got. unfold whole, records, ids, ask_bool, ask_text. cbn [bind interpret].
  destruct (ans w _) as [w1 [a|[]| |]]; try reflexivity.
  cbn [interpret bool_answer bind]. got.
  destruct (ans w1 _) as [w2 [[f|]| | |]]; try reflexivity.
  got. cbn [interpret].
  destruct (ans w2 _) as [w3 [a|b| |]]; try reflexivity.
  got. nums. got.
  set (st := fun i => tracking_state [("output_file", VStream (Some b))] f (Z.of_nat i)
    (Z.of_nat local) (Z.of_nat n)).
  change (push "i" _ _) with (st 0).
  match goal with |- context [loop fuel ?c ?bd ?sp (st 0)] =>
    assert (L : interpret ans w3 (loop fuel c bd sp (st 0)) =
      interpret ans w3 (writes (flat_map (fun i => if b then line true (first + local + i) else [])
        (seq 0 n)) (Done (st n, Next)))) end.
  { apply loop_writes.
    - intros i. subst st. cbv beta. unfold tracking_state. got. now rewrite ltb_of.
    - intros i LT. subst st. cbv beta. unfold tracking_state. got.
      replace (Z.of_nat i + 1)%Z with (Z.of_nat (S i)) by lia.
      rewrite fits_nat by lia. reflexivity.
    - intros w' i LT. apply cpp_writes. lia.
    - reflexivity.
    - exact F. }
  etransitivity; [do 3 apply interpret_bind_eq; exact L|].
  etransitivity; [do 2 apply interpret_bind_eq; apply bind_writes|].
  etransitivity; [apply interpret_bind_eq; apply bind_writes|].
  etransitivity; [apply bind_writes|].
  destruct b.
  - etransitivity; [|symmetry; apply bind_writes].
    rewrite flat_map_map. reflexivity.
  - assert (Z : flat_map (fun _ : nat => []) (seq 0 n) = ([] : list string)).
    { clear. induction (seq 0 n); [reflexivity|exact IHl]. }
    rewrite Z. reflexivity.
Qed.

Lemma tracking_c_call {W} (ans : W -> event -> W * answer) w first num local n fuel :
  (Z.of_nat (first + local + n) <= int_max + 1)%Z -> (Z.of_nat n <= int_max)%Z -> n < fuel ->
  interpret ans w
    (call (tracking_c_items (N.of_nat first) num) fuel "__dredd_record_covered_mutants"
       [VInt (Z.of_nat local); VInt (Z.of_nat n)] []) =
  interpret ans w (whole (records false first local n)).
Proof.
  intros B BN F. unfold tracking_c_items, call.
  cbn [find_function f_name String.eqb Ascii.eqb Bool.eqb f_params f_ty f_body].
  cbn [bind_params option_map].
  match goal with |- context [CFor _ _ _ ?b] =>
    change b with (c_write (N.of_nat first) num) end.
  got. nums. got. unfold whole, records, ids, ask_bool, ask_text. cbn [bind interpret].
  destruct (ans w _) as [w1 [a|[]| |]]; try reflexivity.
  cbn [interpret bool_answer bind]. got.
  destruct (ans w1 _) as [w2 [[f|]| | |]]; try reflexivity.
  got. cbn [interpret].
  destruct (ans w2 _) as [w3 [a|b| |]]; try reflexivity.
  got. nums. got. 
  set (st := fun b i => tracking_state [("fp", VFile b)] f (Z.of_nat i)
    (Z.of_nat local) (Z.of_nat n)).
  change (push "i" _ _) with (st b 0).
  destruct b.
  - match goal with |- context [loop fuel ?c ?bd ?sp (st true 0)] =>
      assert (L : interpret ans w3 (loop fuel c bd sp (st true 0)) =
        interpret ans w3 (writes (flat_map (fun i => line false (first + local + i))
          (seq 0 n)) (Done (st true n, Next)))) end.
    { apply loop_writes.
      - intros i. subst st. cbv beta. unfold tracking_state. got. now rewrite ltb_of.
      - intros i LT. subst st. cbv beta. unfold tracking_state. got.
        replace (Z.of_nat i + 1)%Z with (Z.of_nat (S i)) by lia.
      rewrite fits_nat by lia. reflexivity.
      - intros w' i LT. apply c_writes. lia.
      - reflexivity.
      - exact F. }
    etransitivity; [do 3 apply interpret_bind_eq; exact L|].
    etransitivity; [do 2 apply interpret_bind_eq; apply bind_writes|].
    etransitivity; [apply interpret_bind_eq; apply bind_writes|].
    etransitivity; [apply bind_writes|].
    etransitivity; [|symmetry; apply bind_writes].
    rewrite flat_map_map. apply interpret_writes. intros w4.
    got. cbn [ask interpret]. destruct (ans w4 _) as [w5 [a| | |]]; reflexivity.
  - destruct fuel as [|fuel]; [lia|]. cbn [loop]. unfold then_ at 1.
    match goal with |- context [bind (bind (bind (bind ?c _) _) _) _] =>
      assert (C : c = Done (st false 0, Val (VBool (Nat.ltb 0 n)))) end.
    { subst st. cbv beta. unfold tracking_state. got. now rewrite <- ltb_of. }
    rewrite C. cbn [bind truth convert]. destruct n as [|n]; [reflexivity|].
    change (Nat.ltb 0 (S n)) with true. cbv iota. subst st. cbv beta.
    change (Z.of_nat 0) with 0%Z. rewrite c_write_closed by lia. reflexivity.
Qed.
