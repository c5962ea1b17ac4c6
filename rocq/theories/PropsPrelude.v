(* Properties C08 - C10, C14, C44: selecting mutants by the environment variable. *)
From Coq Require Import String Ascii List NArith ZArith Bool Lia.
From Verif Require Import Base PreludeText Prelude PreludeSpec PreludeProof PreludeProof2
  PreludeC PreludeCProof.
Import ListNotations.
Local Open Scope string_scope.

Ltac reading w sg ds rest :=
  exact (denotes_intro w sg ds rest ltac:(repeat constructor) ltac:(discriminate)
           ltac:(repeat constructor) ltac:(cbv; intuition discriminate)
           ltac:(intros d D; do 10 (destruct d as [|d]; [discriminate|]); lia)).
Example list_value : variable_lists (Some "3, -4,,+05 ,070.5") [3; -4; 5; 70]%Z.
Proof.
  change "3, -4,,+05 ,070.5" with (String.concat "," ["3"; " -4"; ""; "+05 "; "070.5"]).
  change [3; -4; 5; 70]%Z with (List.concat [[3]; [-4]; []; [5]; [70]]%Z).
  constructor. repeat constructor.
  - reading "" NoSign [3] "".
  - reading " " MinusSign [4] "".
  - reading "" PlusSign [0; 5] " ".
  - reading "" NoSign [0; 7; 0] ".5".
Qed.
Example list_value_safe : Forall (int_safe 3) [3; -4; 5; 70]%Z.
Proof. repeat constructor; unfold int_safe; simpl; lia. Qed.

(* C08: for a file with first id f and n mutants, in C and C++: every query of a thread
   succeeds (in particular all accesses are in bounds) and answers whether the id is
   listed. *)
Theorem C08_exactly_the_listed : forall f n cpp v zs locals,
  variable_lists v zs -> Forall (int_safe f) zs ->
  Forall (fun i => i < n) locals ->
  exists answers : list bool,
    queries f n cpp v locals (initial_tls n) = map Ok answers /\
    Forall2 (fun i b => b = true <-> In (Z.of_nat (f + i)) zs) locals answers.
Proof. exact C08_lemma. Qed.
Print Assumptions C08_exactly_the_listed.

Example C08_example :
  queries 3 100 true (Some "3, -4,,+05 ,070.5") [0; 1; 2; 67; 99] (initial_tls 100)
  = map Ok [true; false; true; true; false] /\
  queries 3 100 false (Some "3, -4,,+05 ,070.5") [67; 0] (initial_tls 100) = map Ok [true; true].
Proof. vm_compute. auto. Qed.

(* C09: in C++, for every interleaving of queries of any number of threads and changes of
   the variable by the program, each query answers by the value that the variable had when
   its thread made its first query. *)
Theorem C09_answers_are_stable : forall f n v l t i zs,
  variable_lists (first_env t v (l ++ [Query t i])) zs -> Forall (int_safe f) zs -> i < n ->
  exists b, snd (process_step true f n (execute true f n (start n v) l) (Query t i))
              = Some (Ok b) /\
            (b = true <-> In (Z.of_nat (f + i)) zs).
Proof. exact (fun f n => C09_lemma f n true). Qed.
Print Assumptions C09_answers_are_stable.

(* C09, the flag: whenever the flag of a thread is false, all its queries answer false;
   after its first query it is true iff a mutant of the file is enabled. *)
Theorem C09_flag_is_safe : forall f n v l t,
  well_formed f v -> Forall (env_ok f) l ->
  let p := execute true f n (start n v) l in
  some_enabled (threads p t) = false ->
  forall i, i < n -> snd (process_step true f n p (Query t i)) = Some (Ok false).
Proof. exact (fun f n => C09_flag_lemma f n true). Qed.
Print Assumptions C09_flag_is_safe.

Theorem C09_flag_is_exact : forall f n v zs l t i,
  variable_lists (first_env t v (l ++ [Query t i])) zs -> Forall (int_safe f) zs ->
  let p := execute true f n (start n v) (l ++ [Query t i]) in
  some_enabled (threads p t) = true <-> exists j, j < n /\ In (Z.of_nat (f + j)) zs.
Proof. exact (fun f n => C09_flag_exact_lemma f n true). Qed.
Print Assumptions C09_flag_is_exact.

Example C09_example :
  let l := [Query 1 0; SetEnv (Some "3, -4,,+05 ,070.5"); Query 2 0; SetEnv None] in
  variable_lists (first_env 2 None (l ++ [Query 2 2])) [3; -4; 5; 70]%Z /\
  map (fun t => snd (process_step true 3 100 (execute true 3 100 (start 100 None) l) (Query t 2)))
    [1; 2; 3] = [Some (Ok false); Some (Ok true); Some (Ok false)].
Proof. split; [exact list_value|vm_compute; reflexivity]. Qed.

(* C09 for C if queries are atomic.  Missing: threads that initialise at the same time. *)
Theorem C09_c_atomic_queries_partial : forall f n v l t i zs,
  variable_lists (first_env t v (l ++ [Query t i])) zs -> Forall (int_safe f) zs -> i < n ->
  exists b, snd (process_step false f n (execute false f n (start n v) l) (Query t i))
              = Some (Ok b) /\
            (b = true <-> In (Z.of_nat (f + i)) zs).
Proof. exact (fun f n => C09_lemma f n false). Qed.
Print Assumptions C09_c_atomic_queries_partial.

(* C09 for C at the granularity of strtok calls: a thread whose initialisation is not
   interleaved with others reads the variable correctly, whatever happened before. *)
Theorem C09_c_alone_partial : forall f n v t s zs,
  variable_lists v zs -> Forall (int_safe f) zs ->
  phases s t = Idle -> freed (lib s) (S t) = false ->
  exists k ws some, phases (c_execute f n v (repeat t k) s) t = Ready ws some /\
    forall i, i < n -> exists b, get_bit i ws = Some b /\
                                 (b = true <-> In (Z.of_nat (f + i)) zs).
Proof. exact C09_alone_lemma. Qed.
Print Assumptions C09_c_alone_partial.

Example C09_c_example :
  phases (c_execute 3 100 (Some "3, -4,,+05 ,070.5") [0; 1; 1] c_start) 7 = Idle.
Proof. reflexivity. Qed.

(* C09 is false for C: two threads that initialise at the same time disagree for good. *)
Theorem C09_c_threads_refuted :
  exists v schedule ws ws' some some',
    let s := c_execute 0 2 v schedule c_start in
    phases s 0 = Ready ws some /\ phases s 1 = Ready ws' some' /\
    get_bit 1 ws = Some true /\ get_bit 1 ws' = Some false.
Proof. exact C09_refuted_lemma. Qed.
Print Assumptions C09_c_threads_refuted.

(* C10 for lists of decimal ints.  Missing: other values, for which it is false. *)
Theorem C10_same_for_lists_partial : forall f n v zs locals,
  variable_lists v zs -> Forall (int_safe f) zs ->
  Forall (fun i => i < n) locals ->
  queries f n true v locals (initial_tls n) = queries f n false v locals (initial_tls n).
Proof. exact C10_lemma. Qed.
Print Assumptions C10_same_for_lists_partial.

(* C10 is false in general: a malformed item ends a C++ program by an exception and enables
   mutant 0 of a C program; an item beyond the range of int ends a C++ program by an
   exception and has undefined behaviour in C. *)
Theorem C10_refuted :
  exists v v',
    queries 0 1 true (Some v) [0] (initial_tls 1) = [Throws] /\
    queries 0 1 false (Some v) [0] (initial_tls 1) = [Ok true] /\
    queries 0 1 true (Some v') [0] (initial_tls 1) = [Throws] /\
    queries 0 1 false (Some v') [0] (initial_tls 1) = [Undefined].
Proof. exact C10_refuted_lemma. Qed.
Print Assumptions C10_refuted.

(* C14: if no listed id belongs to the file, a thread's first query leaves the very same
   state and gives the very same answer as if the variable were unset, *)
Theorem C14_like_unset : forall f n cpp v zs i,
  variable_lists v zs -> Forall (int_safe f) zs ->
  Forall (fun z => z < Z.of_nat f \/ Z.of_nat f + Z.of_nat n <= z)%Z zs ->
  query f n cpp v i (initial_tls n) = query f n cpp None i (initial_tls n).
Proof. exact C14_lemma. Qed.
Print Assumptions C14_like_unset.

(* and in every interleaving every query answers false and switches the fast path on. *)
Theorem C14_inert : forall f n cpp v zs l t i,
  variable_lists (first_env t v (l ++ [Query t i])) zs -> Forall (int_safe f) zs ->
  Forall (fun z => z < Z.of_nat f \/ Z.of_nat f + Z.of_nat n <= z)%Z zs -> i < n ->
  let p := execute cpp f n (start n v) l in
  snd (process_step cpp f n p (Query t i)) = Some (Ok false) /\
  some_enabled (threads (fst (process_step cpp f n p (Query t i))) t) = false.
Proof. exact C14_answers_lemma. Qed.
Print Assumptions C14_inert.

Example C14_example :
  Forall (fun z => z < Z.of_nat 6 \/ Z.of_nat 6 + Z.of_nat 64 <= z)%Z [3; -4; 5; 70]%Z.
Proof. repeat constructor; lia. Qed.

(* C44: the results of the program's own strtok calls are unchanged in C++, if the variable
   is unset, and after the initialisation. *)
Theorem C44_strtok_results_partial : forall cpp v done l s,
  cpp = true \/ v = None \/ done = true ->
  mutated_results cpp v done l s = original_results l s.
Proof. exact C44_lemma. Qed.
Print Assumptions C44_strtok_results_partial.

(* C44 is false for C: a first query between two strtok calls of the program. *)
Theorem C44_refuted :
  exists v l, original_results l (lib c_start) = [Ok (Some "a"); Ok (Some "b")] /\
              mutated_results false v false l (lib c_start) = [Ok (Some "a"); Undefined].
Proof. exact C44_refuted_lemma. Qed.
Print Assumptions C44_refuted.
