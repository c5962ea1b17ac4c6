(* The whole of the function in the prelude of C++ files. *)
From Coq Require Import String Ascii List NArith ZArith Bool Lia.
From Verif Require Import Base Clang PreludeText Rewriter Prelude PreludeC CText CRun CTextProof
  CRunProof TextSpec.
Import ListNotations.
Local Open Scope string_scope.

Lemma map_repeat {A B} (f : A -> B) x n : map f (repeat x n) = repeat (f x) n.
Proof. induction n; cbn; [reflexivity|now f_equal]. Qed.

(** * Parts of the function *)

Fixpoint first_block (c : cstmt) : cstmt :=
  match c with
  | CSeq (CIf _ a) _ => a
  | CSeq _ b => first_block b
  | _ => CSkip
  end.
Fixpoint last_statement (c : cstmt) : cstmt :=
  match c with
  | CSeq a CSkip => a
  | CSeq _ b => last_statement b
  | c => c
  end.
Definition body_of (f : string) (l : list item) : cstmt :=
  match find_function f l with Some g => f_body g | None => CSkip end.

Definition cpp_block (w i n : N) : cstmt :=
  Eval vm_compute in first_block (body_of "__dredd_enabled_mutation" (cpp_items w i n)).
Definition cpp_answer : cstmt :=
  Eval vm_compute in last_statement (body_of "__dredd_enabled_mutation" (cpp_items 0 0 0)).
Definition c_answer : cstmt :=
  Eval vm_compute in last_statement (body_of "__dredd_enabled_mutation" (c_items 0 0 0)).

Lemma exec_seq f a b s : exec f (CSeq a b) s = next (exec f a s) (exec f b).
Proof. reflexivity. Qed.
Lemma exec_if f e a s : exec f (CIf e a) s =
  then_ (eval e s) (fun v s => bind (truth v) (fun b =>
    if b then exec f a s else Done (s, Next))).
Proof. reflexivity. Qed.
Lemma exec_static f d s : d_static d = true -> exec f (CDecl d) s = Done (s, Next).
Proof. cbn. now intros ->. Qed.
Lemma exec_block f a s : exec f (CBlock a) s =
  bind (exec f a s) (fun p => Done (leave (List.length (autos s)) (fst p), snd p)).
Proof. reflexivity. Qed.
Lemma exec_while f e a s : exec f (CWhile e a) s =
  loop f (eval e) (exec f a) (fun s => Done (s, Next)) s.
Proof. reflexivity. Qed.

Definition start_state (l : Z) (e i : cval) (ws : list N) : CRun.cstate :=
  {| autos := [("local_mutation_id", VInt l)]; statics := own e i ws; blocks := [] |}.

Ltac answers F l ws :=
  let P := fresh in assert (P : (0 <= Z.of_nat l)%Z) by apply Nat2Z.is_nonneg;
  let C0 := fresh in let C1 := fresh in let C2 := fresh in let EW := fresh in
  pose proof (shift_count (Z.of_nat l) P) as (C0 & C1 & C2);
  pose proof (element_word ws (Z.of_nat l) P) as EW; rewrite Nat2Z.id in *;
  run; unfold int_result at 1; rewrite (fits_quot _ F); run; rewrite EW;
  destruct (nth_error ws (l / 64)) as [u|]; run; [|reflexivity];
  rewrite (fits_quot _ F); unfold int_result; rewrite fits_rem; run;
  rewrite C0, C1; run;
  change (Z.to_N (1 mod Z.of_N modulus)) with 1%N; rewrite C2;
  change (Z.to_N (0 mod Z.of_N modulus)) with 0%N; reflexivity.

Lemma cpp_answers f ws l e i : fits_int (Z.of_nat l) = true ->
  exec f cpp_answer (start_state (Z.of_nat l) e i ws) =
  match nth_error ws (l / 64) with
  | Some w => Done (start_state (Z.of_nat l) e i ws,
                    Returned (VBool (negb (N.eqb (N.land w (bit l)) 0))))
  | None => Wrong
  end.
Proof. intros F. unfold cpp_answer, start_state, own. answers F l ws. Qed.
Definition state_with (bs : list block) (l : Z) (e i : cval) (ws : list N) : CRun.cstate :=
  {| autos := [("local_mutation_id", VInt l)]; statics := own e i ws; blocks := bs |}.
Lemma c_answers f bs ws l e i : fits_int (Z.of_nat l) = true ->
  exec f c_answer (state_with bs (Z.of_nat l) e i ws) =
  match nth_error ws (l / 64) with
  | Some w => Done (state_with bs (Z.of_nat l) e i ws, Returned (VU64 (N.land w (bit l))))
  | None => Wrong
  end.
Proof. intros F. unfold c_answer, state_with, own. answers F l ws. Qed.

(** * C++ *)

Ltac go' := cbn -[String.index String.substring fits_int stoi atoi Z.quot Z.rem update_nth
  nth_error Z.of_N Z.to_N N.lor N.land N.shiftl modulus Z.modulo N.modulo Z.leb Z.ltb map repeat
  String.length element Z.sub Z.add N.eqb Nat.ltb Nat.leb Nat.div Nat.modulo Z.of_nat N.of_nat
  cpp_body loop interpret get_bit init].

Lemma interpret_bind {A B W} (ans : W -> event -> W * answer) (r : run A) (k : A -> run B) w :
  interpret ans w (bind r k) =
  match interpret ans w r with
  | (w', Done a) => interpret ans w' (k a)
  | (w', Wrong) => (w', Wrong)
  | (w', Unknown) => (w', Unknown)
  | (w', Do e _) => (w', Unknown)
  end.
Proof.
  revert w. induction r as [a|e c IH| |]; intros w; cbn; [|destruct (ans w e); apply IH|reflexivity..].
  reflexivity.
Qed.

Lemma cpp_initialises initial num v t wd l e ws w fuel :
  fits_int (Z.of_nat initial) = true -> fits_int (Z.of_nat num) = true ->
  enough v fuel ->
  interpret (libc v t) wd
    (exec fuel (cpp_block w (N.of_nat initial) (N.of_nat num))
       (start_state l (VBool e) (VBool false) ws)) =
  (wd, match init initial num true v ws with
       | (ws', Ok some) => Done (start_state l (VBool some) (VBool true) ws', Next)
       | (ws', Throws) => Done (start_state l (VBool e) (VBool false) ws', Threw)
       | (_, Undefined) => Wrong
       end).
Proof.
  intros FI FN E. unfold cpp_block.
  match goal with |- context [CWhile (EBool true) ?b] =>
    change b with (cpp_body w (N.of_nat initial) (N.of_nat num)) end.
  unfold start_state, own. go'. destruct v as [v|].
  - cbn [interpret libc]. go'.
    assert (L : String.length v < fuel) by exact E.
    pose proof (cpp_loop_runs initial num w l v e fuel FI FN fuel (S (String.length v)) v
      false ws L (Nat.lt_succ_diag_r _)) as R. cbv zeta in R.
    unfold init.
    match goal with |- context [loop fuel ?a ?b ?c ?d] =>
      change (loop fuel a b c d) with (loop fuel (eval (EBool true))
        (exec fuel (cpp_body w (N.of_nat initial) (N.of_nat num)))
        (fun s => Done (s, Next)) (cpp_state v v false l e ws)) end.
    destruct (loop _ _ _ _ _) as [[s x]|q k| |]; cbn [ends] in R;
      destruct (cpp_loop _ _ _ _ _) as [ws' [some| |]]; try contradiction; try discriminate.
    + destruct R as (-> & c' & ->). reflexivity.
    + destruct R as (-> & c' & some' & ->). reflexivity.
    + reflexivity.
  - reflexivity.
Qed.

Lemma cpp_starts initial num :
  fits_int (Z.of_nat (words_required num)) = true ->
  own_statics (cpp_items (N.of_nat (words_required num)) initial (N.of_nat num)) =
  Some (view true (initial_tls num)).
Proof.
  intros F. unfold own_statics, initial_tls, view, truth_value, own. cbn [bitset some_enabled initialized].
  generalize dependent (words_required num). intros w F. 
  unfold cpp_items. go. unfold constant. cbn [eval]. rewrite nat_N_Z, F, Nat2Z.id.
  now rewrite map_repeat.
Qed.

(* What a call makes of the end of the function's body *)
Definition finish (q : CRun.cstate * signal) : run (list (string * cval) * option cval) :=
  match q with
  | (s, Returned v) => bind (convert CBool v) (fun w => Done (statics s, Some w))
  | (s, Next) => Wrong
  | (s, Threw) => Done (statics s, None)
  | (_, Broke) => Unknown
  end.

Lemma cpp_call initial num local v t wd s w fuel :
  fits_int (Z.of_nat initial) = true -> fits_int (Z.of_nat num) = true ->
  fits_int (Z.of_nat local) = true -> 
  enough v fuel ->
  interpret (libc v t) wd
    (call (cpp_items w (N.of_nat initial) (N.of_nat num)) fuel "__dredd_enabled_mutation"
       [VInt (Z.of_nat local)] (view true s)) =
  (wd, match query initial num true v local s with
       | (s', Ok b) => Done (view true s', Some (VBool b))
       | (s', Throws) => Done (view true s', None)
       | (_, Undefined) => Wrong
       end).
Proof.
  intros FI FN FL E. unfold query. destruct s as [i ws e].
  cbn [bitset some_enabled initialized].
  unfold cpp_items, call. cbn [find_function f_name String.eqb Ascii.eqb Bool.eqb f_params f_ty f_body].
  cbn [bind_params option_map].
  match goal with |- context [CIf _ ?b] => 
    change b with (cpp_block w (N.of_nat initial) (N.of_nat num)) end.
  match goal with |- context [CReturn ?r] => change (CReturn r) with cpp_answer end.
  unfold view at 1. cbn [initialized bitset some_enabled truth_value].
  change {| autos := _; statics := _; blocks := _ |} with
    (start_state (Z.of_nat local) (VBool e) (VBool i) ws).
  rewrite exec_seq, exec_static by reflexivity. cbn [next bind].
  rewrite exec_seq, exec_static by reflexivity. cbn [next bind].
  rewrite exec_seq, exec_if. unfold start_state at 1, own at 1. 
  cbn [eval get lookup autos statics String.eqb Ascii.eqb Bool.eqb on_value bind truth convert then_ negb].
  assert (A : forall i' e' ws',
    interpret (libc v t) wd
      (bind (exec fuel (CSeq cpp_answer CSkip)
               (start_state (Z.of_nat local) (VBool e') (VBool i') ws')) finish) =
    (wd, match get_bit local ws' with
         | Some b => Done (own (VBool e') (VBool i') ws', Some (VBool b))
         | None => Wrong
         end)).
  { intros i' e' ws'. rewrite exec_seq, cpp_answers by exact FL. unfold get_bit.
    now destruct (nth_error ws' (local / 64)). }
  destruct i; cbn [negb].
  - etransitivity; [exact (A true e ws)|]. now destruct (get_bit local ws).
  - match goal with |- interpret _ _ (bind (next (exec _ _ ?s) _) ?f) = _ =>
      change s with (start_state (Z.of_nat local) (VBool e) (VBool false) ws);
      change f with finish
    end.
    rewrite interpret_bind. unfold next at 1. rewrite interpret_bind, cpp_initialises by assumption.
    destruct (init initial num true v ws) as [ws' [some| |]].
    + specialize (A true some ws'). rewrite interpret_bind in A.
      rewrite A. now destruct (get_bit local ws').
    + reflexivity.
    + reflexivity.
Qed.
