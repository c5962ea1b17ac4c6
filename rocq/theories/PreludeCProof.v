(* Proofs about the C prelude at the granularity of strtok calls (C09, C44). *)
From Coq Require Import String Ascii List Arith NArith ZArith Bool Lia.
From Verif Require Import Base PreludeText Rewriter Prelude PreludeSpec PreludeProof PreludeC.
Import ListNotations.
Local Open Scope string_scope.

Section File.
Variables initial num : nat.

Lemma set_phase_same t x l s : phases (set_phase t x l s) t = x.
Proof. cbn. rewrite Nat.eqb_refl. reflexivity. Qed.

(* The loop of a thread that is not interleaved *)
Lemma alone_loop v t text fuel ws some s tok rest ws' some' :
  strtok text = (tok, rest) ->
  phases s t = Loop tok ws some ->
  saved (lib s) = Some (S t, rest) -> freed (lib s) (S t) = false ->
  String.length text < fuel ->
  c_loop initial num (c_tokens text fuel) ws some = (ws', Ok some') ->
  exists k, let s' := c_execute initial num v (repeat t k) s in
    phases s' t = Ready ws' some' /\ saved (lib s') = Some (S t, "").
Proof.
  revert text ws some s tok rest. induction fuel as [|fuel IH];
    intros text ws some s tok rest T P S F L E; [lia|].
  cbn [c_tokens] in E. rewrite T in E. destruct tok as [tok|].
  - cbn [c_loop] in E. destruct (atoi tok) as [z| |] eqn:A; try discriminate.
    destruct (enable initial num z ws some) as [[ws1 some1]| |] eqn:EN; try discriminate.
    destruct (strtok rest) as [tok2 rest2] eqn:T2.
    assert (L2 : String.length rest < String.length text).
    { clear - T. unfold strtok in T.
      assert (G : forall s, String.length (skip_commas s) <= String.length s).
      { induction s as [|c s IH]; [reflexivity|]. cbn [skip_commas].
        destruct (Ascii.eqb c ","); cbn [String.length] in *; lia. }
      specialize (G text). destruct (skip_commas text) as [|c s]; [discriminate|].
      assert (H : forall s t r, next_token s = (t, Some r) -> String.length r < String.length s).
      { induction s0 as [|c0 s0 IH]; intros t r Hn; [discriminate|]. cbn [next_token] in Hn.
        destruct (Ascii.eqb c0 ","); [inversion Hn; subst; cbn; lia|].
        destruct (next_token s0) as [t0 r0] eqn:N0. inversion Hn; subst.
        specialize (IH _ _ eq_refl). cbn [String.length]. lia. }
      destruct (next_token (String c s)) as [t0 [r|]] eqn:N; inversion T; subst.
      - apply H in N. lia.
      - cbn [String.length] in *. lia. }
    set (s1 := c_step initial num v t s).
    assert (S1 : s1 = set_phase t (Loop tok2 ws1 some1)
                        {| saved := Some (Datatypes.S t, rest2); freed := freed (lib s) |} s).
    { unfold s1, c_step. rewrite P, A, EN. unfold call_strtok. rewrite S, F, T2. reflexivity. }
    destruct (IH rest ws1 some1 s1 tok2 rest2) as (k & K); auto.
    + rewrite S1. apply set_phase_same.
    + rewrite S1. reflexivity.
    + rewrite S1. exact F.
    + lia.
    + exists (Datatypes.S k). exact K.
  - cbn [c_loop] in E. inversion E; subst. exists 1. cbn [repeat c_execute].
    unfold c_step. rewrite P. split; [apply set_phase_same|]. cbn.
    rewrite S. f_equal. f_equal. unfold strtok in T. destruct (skip_commas text) as [|c x].
    + inversion T. reflexivity.
    + destruct (next_token (String c x)). discriminate.
Qed.

Lemma alone_lemma v t s ws some :
  phases s t = Idle -> freed (lib s) (S t) = false ->
  init initial num false v (bitset (initial_tls num)) = (ws, Ok some) ->
  exists k, let s' := c_execute initial num v (repeat t k) s in
    phases s' t = Ready ws some /\
    saved (lib s') = match v with Some _ => Some (S t, "") | None => saved (lib s) end.
Proof.
  intros P F E. destruct v as [text|].
  - cbn [init] in E. destruct (strtok text) as [tok rest] eqn:T.
    set (s1 := c_step initial num (Some text) t s).
    assert (S1 : s1 = set_phase t (Loop tok (repeat 0%N (words_required num)) false)
                        {| saved := Some (S t, rest); freed := freed (lib s) |} s).
    { unfold s1, c_step. rewrite P. unfold call_strtok. rewrite F, T. reflexivity. }
    destruct (alone_loop (Some text) t text (S (String.length text)) (repeat 0%N (words_required num)) false s1 tok rest ws some T)
      as (k & K).
    + rewrite S1. apply set_phase_same.
    + rewrite S1. reflexivity.
    + rewrite S1. exact F.
    + lia.
    + exact E.
    + exists (S k). exact K.
  - cbn [init] in E. inversion E; subst. exists 1. cbn [repeat c_execute]. unfold c_step.
    rewrite P. split; [apply set_phase_same|reflexivity].
Qed.

Lemma C09_alone_lemma v t s zs :
  variable_lists v zs -> Forall (int_safe initial) zs ->
  phases s t = Idle -> freed (lib s) (S t) = false ->
  exists k ws some, phases (c_execute initial num v (repeat t k) s) t = Ready ws some /\
    forall i, i < num -> exists b, get_bit i ws = Some b /\
                                   (b = true <-> In (Z.of_nat (initial + i)) zs).
Proof.
  intros V S P F.
  destruct (init_spec initial num false v zs _ _ V S (holds_initial num)) as (ws & E & H).
  destruct (alone_lemma v t s ws _ P F E) as (k & K & _).
  exists k, ws, (in_file initial num zs). split; [exact K|].
  intros i Hi. exists (memb initial zs i). split; [|apply memb_spec].
  rewrite (proj2 H i Hi), orb_false_r. reflexivity.
Qed.
End File.

Lemma C09_refuted_lemma :
  exists v schedule ws ws' some some',
    let s := c_execute 0 2 v schedule c_start in
    phases s 0 = Ready ws some /\ phases s 1 = Ready ws' some' /\
    get_bit 1 ws = Some true /\ get_bit 1 ws' = Some false.
Proof.
  exists (Some "0,1"), [0; 1; 0; 0; 0; 1; 1], [3%N], [1%N], true, true.
  vm_compute. auto.
Qed.

(** * C44 *)

Lemma C44_lemma cpp v done l s :
  cpp = true \/ v = None \/ done = true ->
  mutated_results cpp v done l s = original_results l s.
Proof.
  intros H. revert done s H. induction l as [|[arg|i] l IH]; intros done s H; [reflexivity| |].
  - cbn [mutated_results original_results]. destruct (call_strtok _ s). rewrite IH by exact H.
    reflexivity.
  - cbn [mutated_results original_results].
    replace (after_query cpp v done s) with s; [apply IH; auto|].
    unfold after_query. destruct H as [->|[->| ->]]; [reflexivity|..].
    + destruct (cpp || done); reflexivity.
    + rewrite orb_true_r. reflexivity.
Qed.

Lemma C44_refuted_lemma :
  exists v l, original_results l (lib c_start) = [Ok (Some "a"); Ok (Some "b")] /\
              mutated_results false v false l (lib c_start) = [Ok (Some "a"); Undefined].
Proof.
  exists (Some "7"), [AppStrtok (Some "a,b"); Mutated 0; AppStrtok None].
  vm_compute. auto.
Qed.

(* after_query is what the steps of the initialisation do. *)
Lemma after_query_faithful initial num v ws some :
  init initial num false v (bitset (initial_tls num)) = (ws, Ok some) ->
  forall s, phases s 0 = Idle -> freed (lib s) 1 = false ->
  exists k, let s' := c_execute initial num v (repeat 0 k) s in
    phases s' 0 = Ready ws some /\
    saved (lib s') = saved (after_query false v false (lib s)).
Proof.
  intros E s P F. destruct (alone_lemma initial num v 0 s ws some P F E) as (k & K & L).
  exists k. split; [exact K|]. cbn zeta in L. rewrite L. destruct v; reflexivity.
Qed.
