(* Proofs of C66 and C67. *)
From Coq Require Import String Ascii List NArith ZArith Bool Lia.
From Verif Require Import Base Clang PreludeText Rewriter Prelude PreludeC PreludeSpec
  PreludeProof Tracking CText CRun CTextProof CRunProof TextSpec CRunTop CRunC CRunTrack.
Import ListNotations.
Local Open Scope string_scope.

Lemma words_int n : is_int n -> fits_int (Z.of_nat (words_required n)) = true.
Proof.
  intros I. apply fits_nat. unfold words_required, is_int, int_max in *.
  assert ((n + 64 - 1) / 64 <= n); [|lia].
  destruct n as [|n]; [now apply Nat.leb_le|]. apply Nat.div_le_upper_bound; lia.
Qed.

Lemma C66_lemma c o f n : track o = false -> is_int f -> is_int n ->
  exists items,
    parse_text (prelude_text c o f n) = Some items /\
    own_statics items = Some (view (cpp c) (initial_tls n)) /\
    forall v t w s i fuel,
      is_int i -> enough v fuel -> (initialized s = false -> freed w (S t) = false) ->
      let r := interpret (libc v t) w
        (call items fuel "__dredd_enabled_mutation" [VInt (Z.of_nat i)] (view (cpp c) s)) in
      match query f n (cpp c) v i s with
      | (s', Ok b) => r = (if initialized s then w else after (cpp c) v t w,
                           Done (view (cpp c) s', Some (VBool b)))
      | (s', Throws) => r = (w, Done (view (cpp c) s', None))
      | (_, Undefined) => snd r = Wrong
      end.
Proof.
  intros T F N. unfold prelude_text. rewrite T.
  pose proof (fits_nat f F) as FF. pose proof (fits_nat n N) as FN.
  pose proof (words_int n N) as FW.
  destruct (cpp c).
  - eexists. split; [apply cpp_parsed|]. split; [now apply cpp_starts|].
    intros v t w s i fuel I E FR. rewrite cpp_call by (assumption || now apply fits_nat).
    destruct (query f n true v i s) as [s' [b| |]]; [|reflexivity..].
    unfold after. now destruct (initialized s), v.
  - eexists. split; [apply c_parsed|]. split; [now apply c_starts|].
    intros v t w s i fuel I E FR.
    pose proof (c_call f n i v t s (N.of_nat (words_required n)) fuel w FF FN (fits_nat i I) E FR)
      as C. cbv zeta in C.
    destruct (query f n false v i s) as [s' [b| |]]; [exact C|contradiction|exact C].
Qed.

Lemma queries_initialised f n cp v i s s' b :
  query f n cp v i s = (s', Ok b) -> initialized s' = true.
Proof.
  unfold query. destruct (initialized s) eqn:I.
  - destruct (get_bit i (bitset s)); [|discriminate]. now intros [= <- _].
  - destruct (init f n cp v (bitset s)) as [ws [some| |]]; [|discriminate..].
    cbn [bitset]. destruct (get_bit i ws); [|discriminate]. now intros [= <- _].
Qed.

Lemma runs_queries items c f n v t fuel :
  (forall w s i, 
      is_int i -> enough v fuel -> (initialized s = false -> freed w (S t) = false) ->
      let r := interpret (libc v t) w
        (call items fuel "__dredd_enabled_mutation" [VInt (Z.of_nat i)] (view (cpp c) s)) in
      match query f n (cpp c) v i s with
      | (s', Ok b) => r = (if initialized s then w else after (cpp c) v t w,
                           Done (view (cpp c) s', Some (VBool b)))
      | (s', Throws) => r = (w, Done (view (cpp c) s', None))
      | (_, Undefined) => snd r = Wrong
      end) ->
  enough v fuel -> forall locals answers s w,
  Forall is_int locals -> (initialized s = false -> freed w (S t) = false) ->
  queries f n (cpp c) v locals s = map Ok answers ->
  thread_runs items fuel (libc v t) w (view (cpp c) s) locals =
  map (fun b => Some (VBool b)) answers.
Proof.
  intros H E. induction locals as [|i locals IH]; intros answers s w L FR Q.
  - destruct answers; [reflexivity|discriminate].
  - inversion L as [|? ? LI LL]; subst. cbn [queries] in Q.
    specialize (H w s i LI E FR). cbv zeta in H.
    destruct (query f n (cpp c) v i s) as [s' q] eqn:QE.
    destruct answers as [|b answers]; [discriminate|]. cbn [map] in Q.
    injection Q as -> Q. cbn [thread_runs map]. rewrite H. f_equal.
    apply IH; [exact LL| |exact Q].
    intros X. rewrite (queries_initialised _ _ _ _ _ _ _ _ QE) in X. discriminate.
Qed.

Lemma C66_selects_lemma c o f n v zs t w locals fuel :
  track o = false -> is_int f -> is_int n ->
  variable_lists v zs -> Forall (int_safe f) zs -> Forall (fun i => i < n) locals ->
  enough v fuel -> freed w (S t) = false ->
  exists items st answers,
    parse_text (prelude_text c o f n) = Some items /\ own_statics items = Some st /\
    thread_runs items fuel (libc v t) w st locals = map (fun b => Some (VBool b)) answers /\
    Forall2 (fun i b => b = true <-> In (Z.of_nat (f + i)) zs) locals answers.
Proof.
  intros T F N V Z L E FR.
  destruct (C66_lemma c o f n T F N) as (items & P & O & R).
  destruct (C08_lemma f n (cpp c) v zs locals V Z L) as (answers & Q & A).
  exists items, (view (cpp c) (initial_tls n)), answers.
  split; [exact P|]. split; [exact O|]. split; [|exact A].
  apply (runs_queries items c f n v t fuel); [|exact E| |intros _; exact FR|exact Q].
  - intros w' s i. exact (R v t w' s i fuel).
  - eapply Forall_impl; [|exact L]. unfold is_int in *. cbv beta. intros; lia.
Qed.

(** * C67 *)

Lemma C67_events_lemma c o f n : track o = true -> is_int n ->
  exists items,
    parse_text (prelude_text c o f n) = Some items /\
    own_statics items = Some [] /\
    shared_statics items = Some [("already_recorded", VArr (repeat (VBool false) n))] /\
    forall W (answers : W -> event -> W * answer) w local k fuel,
      is_int (f + local + k - 1) -> is_int k -> k < fuel ->
      interpret answers w
        (call items fuel "__dredd_record_covered_mutants"
           [VInt (Z.of_nat local); VInt (Z.of_nat k)] []) =
      interpret answers w (whole (records (cpp c) f local k)).
Proof.
  intros T N. unfold prelude_text. rewrite T. pose proof (fits_nat n N) as FN.
  destruct (cpp c).
  - eexists. split; [apply tracking_cpp_parsed|]. split; [reflexivity|]. split.
    + unfold shared_statics, tracking_cpp_items. go. unfold constant. cbn [eval].
      now rewrite nat_N_Z, FN, Nat2Z.id.
    + intros W answers w local k fuel B BK F. apply tracking_cpp_call; [|exact BK|exact F].
      unfold is_int, int_max in *. lia.
  - eexists. split; [apply tracking_c_parsed|]. split; [reflexivity|]. split.
    + unfold shared_statics, tracking_c_items. go. unfold constant. cbn [eval].
      now rewrite nat_N_Z, FN, Nat2Z.id.
    + intros W answers w local k fuel B BK F. apply tracking_c_call; [|exact BK|exact F].
      unfold is_int, int_max in *. lia.
Qed.

Lemma text_text s t d : with_text t (with_text s d) = with_text (s ++ t) d.
Proof.
  unfold with_text. cbn. f_equal. symmetry. generalize (written d). clear.
  induction s0 as [|a x IH]; cbn; [reflexivity|]. now rewrite IH.
Qed.
Lemma text_nil d : with_text "" d = d.
Proof.
  destruct d. unfold with_text. cbn. f_equal. induction written as [|a x IH]; cbn; congruence.
Qed.

Lemma write_lines {A} cp l d (k : run A) :
  interpret disk_answers d (writes (flat_map (line cp) l) k) =
  interpret disk_answers (with_text (lines l) d) k.
Proof.
  revert d. induction l as [|x l IH]; intros d.
  - now rewrite text_nil.
  - cbn [flat_map]. rewrite writes_app. unfold lines. cbn [map concat_strings].
    rewrite <- text_text. destruct cp; cbn [line writes ask interpret disk_answers];
      rewrite IH; [rewrite (text_text (string_of_nat x) nl)|]; reflexivity.
Qed.

Lemma records_disk cp f local k d :
  interpret disk_answers d (whole (records cp f local k)) =
  let (d', ok) := recorded_by cp f local k d in
  (d', if ok then Done ([], Some VVoid) else Wrong).
Proof.
  unfold recorded_by, whole, records, ask_bool, ask_text. cbn [bind interpret disk_answers].
  assert ((Z.of_nat local <? 0)%Z = false) as -> by (apply Z.ltb_ge; lia).
  rewrite Nat2Z.id. destruct (nth_error (marks d) local) as [[]|] eqn:M; [| |reflexivity].
  - cbn [bind interpret]. f_equal. unfold with_mark. destruct d as [m v op od wr]. cbn in *. f_equal.
    clear - M. revert local M. induction m as [|x m IH]; intros [|l] M; cbn in *; try discriminate.
    + now injection M as ->.
    + f_equal. now apply IH.
  - cbn [bind interpret disk_answers]. change (variable (with_mark local d)) with (variable d).
    destruct (variable d) as [name|]; [|reflexivity].
    cbn [bind interpret disk_answers].
    change (openable (with_mark local d)) with (openable d).
    change (openable (with_open name (with_mark local d))) with (openable d).
    destruct (openable d); [|destruct cp; reflexivity].
    rewrite bind_writes, write_lines. destruct cp; reflexivity.
Qed.

Lemma C67_records_lemma c o f n local k fuel d : track o = true -> is_int n ->
  is_int (f + local + k - 1) -> is_int k -> k < fuel ->
  exists items, parse_text (prelude_text c o f n) = Some items /\
    interpret disk_answers d
      (call items fuel "__dredd_record_covered_mutants"
         [VInt (Z.of_nat local); VInt (Z.of_nat k)] []) =
    let (d', ok) := recorded_by (cpp c) f local k d in
    (d', if ok then Done ([], Some VVoid) else Wrong).
Proof.
  intros T N B BK F. destruct (C67_events_lemma c o f n T N) as (items & P & _ & _ & R).
  exists items. split; [exact P|]. rewrite R by assumption. apply records_disk.
Qed.

(** * The model of coverage builds *)

Lemma writing initial cp tr op todo l : forall p,
  tthreads p = [{| pending := l; todo := todo |}] ->
  texecute initial cp tr op (repeat 0 (List.length l)) p =
  {| recorded := recorded p; out := out p ++ l;
     tthreads := [{| pending := []; todo := todo |}]; bad := bad p |}.
Proof.
  induction l as [|x l IH]; intros p T.
  - destruct p. cbn in *. subst. now rewrite app_nil_r.
  - cbn [List.length repeat]. unfold texecute. cbn [fold_left].
    match goal with |- ?x = _ =>
      change x with (texecute initial cp tr op (repeat 0 (List.length l)) (tstep initial cp tr op 0 p))
    end.
    rewrite IH.
    + unfold tstep. rewrite T. cbn. now rewrite <- app_assoc.
    + unfold tstep. rewrite T. reflexivity.
Qed.
Lemma resting initial cp tr op k : forall p,
  tthreads p = [{| pending := []; todo := [] |}] ->
  texecute initial cp tr op (repeat 0 k) p = p.
Proof.
  induction k as [|k IH]; intros p T; [reflexivity|].
  unfold texecute. cbn [repeat fold_left].
  assert (E : tstep initial cp tr op 0 p = p) by (unfold tstep; now rewrite T).
  rewrite E. now apply IH.
Qed.
Lemma stopped initial cp tr op c k : forall p,
  tthreads p = [{| pending := []; todo := [c] |}] ->
  nth_error (recorded p (c_file c)) (c_local c) = None -> bad p = true ->
  texecute initial cp tr op (repeat 0 k) p = p.
Proof.
  induction k as [|k IH]; intros p T N B; [reflexivity|].
  unfold texecute. cbn [repeat fold_left].
  assert (E : tstep initial cp tr op 0 p = p).
  { unfold tstep. rewrite T. cbn. rewrite N. destruct p. cbn in *. now subst. }
  rewrite E. now apply IH.
Qed.

Lemma tracking_model cp f local k d :
  let p := texecute (fun _ => f) cp (match variable d with Some _ => true | None => false end)
    (openable d) (repeat 0 (S k))
    {| recorded := fun _ => marks d; out := [];
       tthreads := [{| pending := []; todo := [{| c_file := 0; c_local := local; c_num := k |}] |}];
       bad := false |} in
  let (d', ok) := recorded_by cp f local k d in
  marks d' = recorded p 0 /\ written d' = (written d ++ lines (out p))%string /\
  ok = negb (bad p).
Proof.
  unfold recorded_by. cbn [repeat]. unfold texecute. cbn [fold_left].
  match goal with |- context [fold_left ?g (repeat 0 k) ?s] =>
    change (fold_left g (repeat 0 k) s) with (texecute (fun _ => f) cp
      (match variable d with Some _ => true | None => false end) (openable d) (repeat 0 k) s) end.
  unfold tstep. cbn [tthreads nth_error pending todo recorded c_file c_local c_num out bad].
  assert (NE : written d = (written d ++ lines [])%string).
  { unfold lines. cbn. clear. induction (written d) as [|a x IH]; cbn; congruence. }
  destruct (nth_error (marks d) local) as [[]|] eqn:M; cbv zeta.
  - rewrite resting by reflexivity. auto.
  - cbn [update_nth].
    change (variable (with_mark local d)) with (variable d).
    destruct (variable d) as [name|]; cbn [andb].
    + change (openable (with_open name (with_mark local d))) with (openable d).
      destruct (openable d); cbn [andb negb].
      * set (ids' := call_ids _ _). assert (L : List.length ids' = k).
        { unfold ids', call_ids. cbn. now rewrite map_length, seq_length. }
        replace (repeat 0 k) with (repeat 0 (List.length ids')) by now rewrite L.
        rewrite (writing _ _ _ _ [] ids') by reflexivity. cbn. auto.
      * rewrite resting by reflexivity. cbn. destruct cp; auto.
    + rewrite resting by reflexivity. cbn. auto.
  - erewrite stopped; [|reflexivity|exact M|reflexivity]. cbn. auto.
Qed.
