(* Running the function in the prelude of C files. *)
From Coq Require Import String Ascii List NArith ZArith Bool Lia.
From Verif Require Import Base Clang PreludeText Rewriter Prelude PreludeC CText CRun CTextProof
  CRunProof TextSpec CRunTop.
Import ListNotations.
Local Open Scope string_scope.

Definition c_body (w i n : N) : cstmt :=
  Eval vm_compute in loop_of "__dredd_enabled_mutation" (c_items w i n).
Definition c_block (w i n : N) : cstmt :=
  Eval vm_compute in first_block (body_of "__dredd_enabled_mutation" (c_items w i n)).

Definition int_of (b : bool) : cval := VInt (if b then 1 else 0)%Z.
Definition ptr_of (t : option string) : cval :=
  VPtr (match t with Some t => PText t | None => PNull end).

Definition c_state (tok : option string) (v : string) (some : bool) (l : Z) (e : bool)
  (ws : list N) : CRun.cstate :=
  {| autos := [("token", ptr_of tok); ("temp", VPtr (PBlock 0));
               ("dredd_environment_variable", VPtr (PText v));
               ("some_mutation_enabled", int_of some); ("local_mutation_id", VInt l)];
     statics := own (int_of e) (VInt 0) ws;
     blocks := [{| b_size := String.length v + 1; b_text := None; b_freed := false |}] |}.

Lemma atoi_no_throw t : atoi t <> PThrow.
Proof. unfold atoi. destruct (strtol t); [destruct (fits_int z)|]; discriminate. Qed.

Lemma c_item {W} (ans : W -> event -> W * answer) wd initial num w l tok v some e ws fuel :
  fits_int (Z.of_nat initial) = true -> fits_int (Z.of_nat num) = true ->
  interpret ans wd (exec fuel (c_body w (N.of_nat initial) (N.of_nat num))
                      (c_state (Some tok) v some l e ws)) =
  match one_item initial num (atoi tok) ws some with
  | Ok (ws', some') =>
      let (wd', a) := ans wd (EvStrtok None ",") in
      (wd', match a with
            | AText r => Done (c_state r v some' l e ws', Next)
            | AUndefined => Wrong
            | _ => Unknown
            end)
  | _ => (wd, Wrong)
  end.
Proof.
  intros FI FN. unfold c_body, c_state, own, int_of, ptr_of. run.
  pose proof (atoi_no_throw tok) as NT.
  destruct (atoi tok) as [z| |]; [|contradiction|reflexivity]. run.
  enabling initial num z FI FN
    ltac:(destruct (ans wd (EvStrtok None ",")) as [wd' [[r|]| | |]]; reflexivity).
Qed.

Lemma rest_shorter text tok rest : strtok text = (Some tok, rest) ->
  String.length rest < String.length text.
Proof.
  intros T. unfold strtok in T.
  assert (G : forall s, String.length (skip_commas s) <= String.length s).
  { induction s as [|c s IH]; [reflexivity|]. cbn [skip_commas].
    destruct (Ascii.eqb c ","); cbn [String.length] in *; lia. }
  specialize (G text). destruct (skip_commas text) as [|c s]; [discriminate|].
  destruct (next_token (String c s)) as [t0 [r|]] eqn:N.
  - apply token_parts in N. assert (r = rest) as -> by congruence. rewrite N in G.
    rewrite !length_append in G. cbn in G. lia.
  - assert (rest = "") as -> by congruence. cbn [String.length] in *. lia.
Qed.

Lemma c_loop_runs initial num w l v e f env t fr :
  fits_int (Z.of_nat initial) = true -> fits_int (Z.of_nat num) = true -> fr (S t) = false ->
  forall fuel n text some ws, String.length text < fuel -> String.length text < n ->
  let (tok, rest) := strtok text in
  let r := interpret (libc env t) {| saved := Some (S t, rest); freed := fr |}
    (loop fuel (eval (EVar "token"))
      (exec f (c_body w (N.of_nat initial) (N.of_nat num))) (fun s => Done (s, Next))
      (c_state tok v some l e ws)) in
  match c_loop initial num (c_tokens text n) ws some with
  | (ws', Ok some') =>
      r = ({| saved := Some (S t, ""); freed := fr |},
           Done (c_state None v some' l e ws', Next))
  | (_, Undefined) => snd r = Wrong
  | (_, Throws) => False
  end.
Proof.
  intros FI FN FR. induction fuel as [|fuel IH]; intros n text some ws F N; [lia|].
  destruct n as [|n]; [lia|]. cbn [c_tokens].
  destruct (strtok text) as [[tok|] rest] eqn:T; cbv zeta.
  - assert (L : String.length rest < String.length text) by exact (rest_shorter _ _ _ T).
    match goal with |- context [loop (S fuel) ?c ?b ?st ?q] =>
      change (loop (S fuel) c b st q) with
        (bind (b q) (fun p => match p with
           | (s, Next) => loop fuel c b st s
           | (s, Broke) => Done (s, Next)
           | _ => Done p
           end)) end.
    rewrite interpret_bind, c_item by assumption. cbn [c_loop]. unfold one_item.
    pose proof (atoi_no_throw tok) as NT.
    destruct (atoi tok) as [z| |]; [|contradiction|reflexivity].
    destruct (enable initial num z ws some) as [[ws' some']| |] eqn:EN; [| |reflexivity].
    + cbn [libc option_map]. unfold call_strtok. cbn [saved freed]. rewrite FR.
      assert (F' : String.length rest < fuel) by lia.
      assert (N' : String.length rest < n) by lia.
      specialize (IH n rest some' ws' F' N').
      destruct (strtok rest) as [tok' rest']. exact IH.
    + exfalso. unfold enable in EN.
      destruct (negb _); [discriminate|]. destruct (_ && _); [|discriminate].
      destruct (Nat.ltb _ _); discriminate.
  - assert (rest = "") as ->.
    { unfold strtok in T. destruct (skip_commas text); [congruence|].
      destruct (next_token _). discriminate. }
    reflexivity.
Qed.

Definition blocks_after (v : option string) : list block :=
  match v with
  | Some v => [{| b_size := String.length v + 1; b_text := None; b_freed := true |}]
  | None => []
  end.

Ltac goc R := cbn -[String.index String.substring fits_int stoi atoi Z.quot Z.rem
  Z.of_N Z.to_N N.lor N.land N.shiftl modulus Z.modulo N.modulo Z.leb Z.ltb map repeat
  String.length element Z.sub Z.add N.eqb Nat.ltb Nat.leb Nat.div Nat.modulo Z.of_nat N.of_nat
  c_body loop interpret get_bit init call_strtok] in R.
Ltac runc R := repeat (goc R;
  change (Z.of_N 0) with 0%Z in R; change (Z.of_N 1) with 1%Z in R;
  change (fits_int 0) with true in R; change (fits_int 1) with true in R;
  change (Pos.to_nat 1) with 1 in R; change (0 <=? 1)%Z with true in R); goc R.

Lemma c_initialises initial num v t l e ws w fuel wd :
  fits_int (Z.of_nat initial) = true -> fits_int (Z.of_nat num) = true ->
  enough v fuel ->
  freed wd (S t) = false ->
  let r := interpret (libc v t) wd
    (exec fuel (c_block w (N.of_nat initial) (N.of_nat num))
       (state_with [] l (int_of e) (VInt 0) ws)) in
  match init initial num false v ws with
  | (ws', Ok some) =>
      r = (after false v t wd, Done (state_with (blocks_after v) l (int_of some) (VInt 1) ws', Next))
  | (_, Undefined) => snd r = Wrong
  | (_, Throws) => False
  end.
Proof.
  intros FI FN E FR. cbv zeta.
  match goal with |- context [interpret ?a ?b ?c] => remember (interpret a b c) as r eqn:R end.
  unfold c_block in R.
  match type of R with context [CWhile _ ?b] =>
    change b with (c_body w (N.of_nat initial) (N.of_nat num)) in R end.
  unfold state_with, own in R. runc R. destruct v as [v|].
  - cbn [interpret libc] in R. runc R.
    assert (LE : Nat.leb (String.length v + 1) (String.length v) = false)
      by (apply Nat.leb_gt; lia).
    rewrite LE in R. runc R. cbn [interpret libc option_map fst snd] in R.
    unfold call_strtok in R. cbn [Nat.add] in R. rewrite FR in R.
    assert (L : String.length v < fuel) by exact E.
    pose proof (c_loop_runs initial num w l v e fuel (Some v) t (freed wd) FI FN FR fuel
      (S (String.length v)) v false ws L (Nat.lt_succ_diag_r _)) as RL.
    destruct (strtok v) as [tok rest]. cbv zeta in RL.
    unfold init. set (tail := c_tokens v (S (String.length v))) in *. clearbody tail.
    destruct tok as [tok|]; runc R; rewrite !interpret_bind in R;
      (match type of R with context [loop fuel ?a ?b ?c ?d] =>
        change (loop fuel a b c d) with (loop fuel (eval (EVar "token")) b c
          (c_state (Some tok) v false l e ws)) in R end ||
       match type of R with context [loop fuel ?a ?b ?c ?d] =>
        change (loop fuel a b c d) with (loop fuel (eval (EVar "token")) b c
          (c_state None v false l e ws)) in R end);
      (destruct (c_loop initial num tail ws false) as [ws' [some| |]];
       [|contradiction|]).
    + rewrite RL in R. subst r. now destruct some.
    + destruct (interpret _ _ (loop _ _ _ _ _)) as [wd' x]. cbn [snd] in RL. subst x r.
      reflexivity.
    + rewrite RL in R. subst r. now destruct some.
    + destruct (interpret _ _ (loop _ _ _ _ _)) as [wd' x]. cbn [snd] in RL. subst x r.
      reflexivity.
  - cbn [interpret libc] in R. runc R. subst r. reflexivity.
Qed.

Lemma c_starts initial num :
  fits_int (Z.of_nat (words_required num)) = true ->
  own_statics (c_items (N.of_nat (words_required num)) initial (N.of_nat num)) =
  Some (view false (initial_tls num)).
Proof.
  intros F. unfold own_statics, initial_tls, view, truth_value, own.
  cbn [bitset some_enabled initialized].
  generalize dependent (words_required num). intros w F.
  unfold c_items. go. unfold constant. cbn [eval]. rewrite nat_N_Z, F, Nat2Z.id.
  now rewrite map_repeat.
Qed.

Lemma c_call initial num local v t s w fuel wd :
  fits_int (Z.of_nat initial) = true -> fits_int (Z.of_nat num) = true ->
  fits_int (Z.of_nat local) = true ->
  enough v fuel ->
  (initialized s = false -> freed wd (S t) = false) ->
  let r := interpret (libc v t) wd
    (call (c_items w (N.of_nat initial) (N.of_nat num)) fuel "__dredd_enabled_mutation"
       [VInt (Z.of_nat local)] (view false s)) in
  match query initial num false v local s with
  | (s', Ok b) =>
      r = (if initialized s then wd else after false v t wd, Done (view false s', Some (VBool b)))
  | (_, Undefined) => snd r = Wrong
  | (_, Throws) => False
  end.
Proof.
  intros FI FN FL E FR. cbv zeta. destruct s as [i ws e].
  unfold query. cbn [bitset some_enabled initialized].
  unfold c_items, call. cbn [find_function f_name String.eqb Ascii.eqb Bool.eqb f_params f_ty f_body].
  cbn [bind_params option_map].
  match goal with |- context [CIf _ ?b] => 
    change b with (c_block w (N.of_nat initial) (N.of_nat num)) end.
  match goal with |- context [CReturn ?r] => change (CReturn r) with c_answer end.
  unfold view at 1. cbn [initialized bitset some_enabled].
  change {| autos := _; statics := _; blocks := _ |} with
    (state_with [] (Z.of_nat local) (int_of e) (int_of i) ws).
  rewrite !exec_seq, !exec_static by reflexivity. cbn [next bind].
  rewrite !exec_seq, !exec_static by reflexivity. cbn [next bind].
  match goal with |- context [bind (exec _ _ _) ?f] => change f with finish end.
  assert (A : forall wd' bs i' e' ws',
    interpret (libc v t) wd'
      (bind (exec fuel (CSeq c_answer CSkip)
               (state_with bs (Z.of_nat local) (int_of e') (int_of i') ws')) finish) =
    (wd', match get_bit local ws' with
          | Some b => Done (own (int_of e') (int_of i') ws', Some (VBool b))
          | None => Wrong
          end)).
  { intros wd' bs i' e' ws'. rewrite exec_seq, c_answers by exact FL. unfold get_bit.
    now destruct (nth_error ws' (local / 64)). }
  match goal with |- context [interpret ?a ?b ?c] => remember (interpret a b c) as r eqn:R end.
  rewrite exec_seq, exec_if in R. unfold state_with, own in R.
  cbn [eval get lookup autos statics String.eqb Ascii.eqb Bool.eqb on_value int_of] in R.
  destruct i; cbn [int_of bind on_value truth convert then_ negb Z.eqb next] in R.
  - change {| autos := _; statics := _; blocks := _ |} with
      (state_with [] (Z.of_nat local) (int_of e) (int_of true) ws) in R.
    rewrite A in R. subst r. now destruct (get_bit local ws).
  - change {| autos := _; statics := _; blocks := _ |} with
      (state_with [] (Z.of_nat local) (int_of e) (VInt 0) ws) in R.
    pose proof (c_initialises initial num v t (Z.of_nat local) e ws w fuel wd FI FN E (FR eq_refl)) as I.
    cbv zeta in I. rewrite interpret_bind in R.
    rewrite interpret_bind in R.
    destruct (init initial num false v ws) as [ws' [some| |]]; [|contradiction|].
    + rewrite I in R.
      specialize (A (after false v t wd) (blocks_after v) true some ws').
      rewrite interpret_bind in A. pose proof (eq_trans R A) as R'. clear R. subst r.
      now destruct (get_bit local ws').
    + destruct (interpret _ _ (exec _ _ _)) as [wd' x]. cbn [snd] in I. now subst x r.
Qed.
