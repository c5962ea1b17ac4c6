(* Property C64: what any value of the environment variable does. *)
From Coq Require Import String Ascii List NArith ZArith Bool Lia.
From Verif Require Import Base PreludeText Prelude PreludeSpec PreludeProof ValueProof.
Import ListNotations.
Local Open Scope string_scope.

(* If every item can be read, every query answers whether the id is among those read. *)
Theorem C64_read : forall f n cpp items zs locals,
  Forall2 (reads cpp f) items zs -> Forall (fun i => i < n) locals ->
  exists answers : list bool,
    queries f n cpp (Some (String.concat "," items)) locals (initial_tls n) = map Ok answers /\
    Forall2 (fun i b => b = true <-> In (Z.of_nat (f + i)) (List.concat zs)) locals answers.
Proof. exact reads_lemma. Qed.
Print Assumptions C64_read.

(* Otherwise the first query of a thread ends as the first bad item says, whatever comes
   after it. *)
Theorem C64_not_read : forall f n cpp before t after zs o i,
  Forall2 (reads cpp f) before zs -> fails cpp f t o -> Forall comma_free after ->
  snd (query f n cpp (Some (String.concat "," (before ++ t :: after)%list)) i (initial_tls n))
  = o.
Proof. exact fails_lemma. Qed.
Print Assumptions C64_not_read.

(* There is no other value: every text is of one of the two kinds *)
Theorem C64_every_value : forall cpp f v,
  (Z.of_nat f <= 2 ^ 31)%Z ->
  (exists items zs, v = String.concat "," items /\ Forall2 (reads cpp f) items zs) \/
  (exists before t after zs o, v = String.concat "," (before ++ t :: after)%list /\
     Forall2 (reads cpp f) before zs /\ fails cpp f t o /\ Forall comma_free after).
Proof. exact value_total. Qed.
Print Assumptions C64_every_value.

(* and an item has only one meaning. *)
Theorem C64_one_meaning : forall cpp f t,
  (forall zs zs', reads cpp f t zs -> reads cpp f t zs' -> zs = zs') /\
  (forall zs o, reads cpp f t zs -> fails cpp f t o -> False) /\
  (forall o o', fails cpp f t o -> fails cpp f t o' -> o = o').
Proof. exact meaning_unique. Qed.
Print Assumptions C64_one_meaning.

(* A mistyped item is mutant 0 in C and an exception in C++; text after a number is
   ignored by both. *)
Lemma no_digit_by s : match s with String c _ => is_digit c = false | _ => True end ->
  no_digit_first s.
Proof.
  intros H d D X. destruct s as [|c s]; [discriminate|]. injection X as ->.
  destruct (digit_char_value d D) as (Y & _). congruence.
Qed.
Example C64_example :
  reads true 3 "7-9" [7%Z] /\ reads false 3 "7-9" [7%Z] /\
  reads false 3 "all" [0%Z] /\ fails true 3 "all" Throws /\
  fails true 3 "4294967296" Throws /\ fails false 3 "4294967296" Undefined /\
  queries 3 10 true (Some "7-9") [4; 6] (initial_tls 10) = map Ok [true; false] /\
  queries 0 10 false (Some "all") [0; 1] (initial_tls 10) = map Ok [true; false].
Proof.
  assert (A : denotes "7-9" 7).
  { apply (denotes_intro "" NoSign [7] "-9"); [constructor|discriminate|repeat constructor| |].
    - cbv. intuition discriminate.
    - now apply no_digit_by. }
  assert (B : denotes "4294967296" 4294967296).
  { apply (denotes_intro "" NoSign [4;2;9;4;9;6;7;2;9;6] "");
      [constructor|discriminate|repeat constructor|intros []|now apply no_digit_by]. }
  assert (C : no_number "all").
  { apply (no_number_plain "" "all"); [constructor| |now apply no_digit_by|].
    - cbv. intuition discriminate.
    - intros c [W|[->| ->]]; [|discriminate..]. cbv in W. intuition (subst; discriminate). }
  split; [apply reads_number; [exact A|unfold int_safe; lia]|].
  split; [apply reads_number; [exact A|unfold int_safe; lia]|].
  split; [apply reads_zero; [reflexivity|discriminate|exact C|unfold int_safe; lia]|].
  split; [apply fails_no_number; [reflexivity|discriminate|exact C]|].
  split; [eapply fails_range_cpp; [reflexivity|exact B|lia]|].
  split; [eapply fails_range_c; [reflexivity|exact B|lia]|].
  split; vm_compute; reflexivity.
Qed.
