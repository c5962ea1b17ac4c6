(* Properties C18 - C20, C45: coverage builds. *)
From Coq Require Import String Ascii List Arith Bool Lia.
From Verif Require Import Base Clang Gen GenExpr GenBinary GenUnary GenStmt Mutation MutTree
  TreeSpec Run RunSpec GenSpec RewriterProof Tracking TrackingSpec TrackingProof RunTest.
Import ListNotations.

(* C18: in a coverage build each site calls one function that records as many mutants as
   the site has, from the site's first id on; a statement is preceded by such a call. *)
Theorem C18_sites : forall c o m first id,
  track o = true ->
  let a := apply_mutation c o m first id in
  match m with
  | MutStmt s _ =>
      a_edits a = [InsertBefore (r_begin (s_range s))
                     ("__dredd_record_covered_mutants(" ++ string_of_nat (id - first)
                      ++ ", 1); ")%string]
  | _ => exists f, a_decls a = [print_mfun f] /\ mf_track f = Some (mutant_count c (optimise o) m)
                   /\ calls (a_edits a) (mf_name f) (id - first)
  end.
Proof. exact C18_sites_lemma. Qed.
Print Assumptions C18_sites.

(* C18: the local ids of the sites of a file are those of its layout. *)
Theorem C18_layout : forall c o bt first t k,
  st_edits (apply_mutations c o bt first t) =
  concat (map (fun x => a_edits (apply_mutation c o (fst x) first (first + c_local (snd x))))
            (combine (post t) (layout c (optimise o) k 0 (post t)))).
Proof. exact C18_layout_lemma. Qed.
Print Assumptions C18_layout.

(* C18, C19 without optimisation: any number of threads make any calls of the sites of the
   files; whatever the schedule, no id is written twice, only ids of sites that are reached
   are written, and when the threads are done all of them have been written. *)
Theorem C18_recorded_exactly_without_optimisation : forall cpp files calls schedule,
  Forall (fun f => Forall plausible (snd f)) files ->
  (forall c, In c (concat calls) -> In c (program_sites false 0 files)) ->
  let initial := file_initial false files in
  let p := texecute initial cpp true true schedule (tstart (file_num false files) calls) in
  bad p = false /\ NoDup (out p) /\
  (forall x, In x (out p) -> exists c, In c (concat calls) /\ covers initial c x) /\
  (finished p -> forall c x, In c (concat calls) -> covers initial c x -> In x (out p)).
Proof.
  exact (fun cpp files calls schedule P S =>
    C19_lemma _ _ cpp true true _ (noopt_sites_ok files P) calls schedule S eq_refl eq_refl).
Qed.
Print Assumptions C18_recorded_exactly_without_optimisation.

(* C18, C19 with or without optimisation if every site has a mutant.  Missing: sites
   without mutants, for which it is false. *)
Theorem C18_recorded_exactly_partial : forall opt cpp files calls schedule,
  Forall (fun f => Forall (fun m => 0 < mutant_count (fst f) opt m) (snd f)) files ->
  (forall c, In c (concat calls) -> In c (program_sites opt 0 files)) ->
  let initial := file_initial opt files in
  let p := texecute initial cpp true true schedule (tstart (file_num opt files) calls) in
  bad p = false /\ NoDup (out p) /\
  (forall x, In x (out p) -> exists c, In c (concat calls) /\ covers initial c x) /\
  (finished p -> forall c x, In c (concat calls) -> covers initial c x -> In x (out p)).
Proof.
  exact (fun opt cpp files calls schedule P S =>
    C19_lemma _ _ cpp true true _ (program_sites_ok opt files P) calls schedule S eq_refl eq_refl).
Qed.
Print Assumptions C18_recorded_exactly_partial.

(* C19: the same for an arbitrary set of sites that do not overlap. *)
Theorem C19_exact_under_concurrency : forall initial num cpp sites calls schedule,
  sites_ok initial num sites ->
  (forall c, In c (concat calls) -> In c sites) ->
  let p := texecute initial cpp true true schedule (tstart num calls) in
  bad p = false /\ NoDup (out p) /\
  (forall x, In x (out p) -> exists c, In c (concat calls) /\ covers initial c x) /\
  (finished p -> forall c x, In c (concat calls) -> covers initial c x -> In x (out p)).
Proof.
  exact (fun initial num cpp sites calls schedule OK S =>
    C19_lemma initial num cpp true true sites OK calls schedule S eq_refl eq_refl).
Qed.
Print Assumptions C19_exact_under_concurrency.

(* Two threads, two files; both threads reach the second site. *)
Example C18_example :
  let files := [(c_ctx, [MutExpr e_one i_x1; MutBinary b_sum1 i_sum1 i_x1 i_y]);
                (c_ctx, [MutStmt s_return i_x1])] in
  let s := program_sites false 0 files in
  let calls := [s; tl s] in
  Forall (fun f => Forall plausible (snd f)) files /\
  (forall c, In c (concat calls) -> In c s) /\
  let p := texecute (file_initial false files) false true true
             ([1; 0; 0; 1; 0; 1; 1] ++ repeat 0 30 ++ repeat 1 30)
             (tstart (file_num false files) calls) in
  finished p /\ out p = [0; 6; 1; 7; 8; 2; 3; 4; 5; 12; 9; 10; 11].
Proof.
  cbn zeta. split; [|split; [|split]].
  - repeat constructor; cbn; try discriminate.
  - cbn [concat]. intros c. rewrite app_nil_r, in_app_iff. intros [H|H]; [exact H|].
    destruct (program_sites _ _ _); [exact H|right; exact H].
  - vm_compute. repeat constructor.
  - vm_compute. reflexivity.
Qed.

(* C18 is false with optimisation: bool b = 2 != 1; followed by a statement.  The
   comparison keeps its operator mutants, the expression has none left, and its empty
   recording suppresses that of the statement. *)
Theorem C18_refuted :
  exists files calls schedule c x,
    Forall (fun f => Forall plausible (snd f)) files /\
    concat calls = program_sites true 0 files /\
    let p := texecute (file_initial true files) true true true schedule
               (tstart (file_num true files) calls) in
    finished p /\ bad p = false /\
    In c (concat calls) /\ covers (file_initial true files) c x /\ ~ In x (out p).
Proof. exact C18_refuted_lemma. Qed.
Print Assumptions C18_refuted.

(* C20: in every reachable state the next access of any thread is in bounds, without
   optimisation, *)
Theorem C20_in_bounds_without_optimisation :
  forall cpp tracking can_open files calls schedule t,
  Forall (fun f => Forall plausible (snd f)) files ->
  (forall c, In c (concat calls) -> In c (program_sites false 0 files)) ->
  let p := texecute (file_initial false files) cpp tracking can_open schedule
             (tstart (file_num false files) calls) in
  forall th c l, nth_error (tthreads p) t = Some th -> pending th = [] -> todo th = c :: l ->
  c_local c < List.length (recorded p (c_file c)).
Proof.
  exact (fun cpp tracking can_open files calls schedule t P S =>
    C20_lemma _ _ cpp tracking can_open _ (noopt_sites_ok files P) calls schedule t S).
Qed.
Print Assumptions C20_in_bounds_without_optimisation.

(* and with optimisation if every site has a mutant.  Missing: sites without mutants. *)
Theorem C20_in_bounds_partial :
  forall opt cpp tracking can_open files calls schedule t,
  Forall (fun f => Forall (fun m => 0 < mutant_count (fst f) opt m) (snd f)) files ->
  (forall c, In c (concat calls) -> In c (program_sites opt 0 files)) ->
  let p := texecute (file_initial opt files) cpp tracking can_open schedule
             (tstart (file_num opt files) calls) in
  forall th c l, nth_error (tthreads p) t = Some th -> pending th = [] -> todo th = c :: l ->
  c_local c < List.length (recorded p (c_file c)).
Proof.
  exact (fun opt cpp tracking can_open files calls schedule t P S =>
    C20_lemma _ _ cpp tracking can_open _ (program_sites_ok opt files P) calls schedule t S).
Qed.
Print Assumptions C20_in_bounds_partial.

(* C20 is false with optimisation: bool b = 2 != 1; as the last site of a file. *)
Theorem C20_refuted :
  exists files calls schedule,
    Forall (fun f => Forall plausible (snd f)) files /\
    concat calls = program_sites true 0 files /\
    bad (texecute (file_initial true files) true true true schedule
           (tstart (file_num true files) calls)) = true.
Proof. exact C20_refuted_lemma. Qed.
Print Assumptions C20_refuted.

(* C45: recording never goes wrong in C++, and in C if the file can be opened. *)
Theorem C45_cpp_tolerates_partial : forall initial num cpp tracking can_open sites calls schedule,
  sites_ok initial num sites ->
  (forall c, In c (concat calls) -> In c sites) -> cpp = true \/ can_open = true ->
  bad (texecute initial cpp tracking can_open schedule (tstart num calls)) = false.
Proof.
  exact (fun initial num cpp tracking can_open sites calls schedule OK =>
    C45_cpp_lemma initial num cpp tracking can_open sites OK calls schedule).
Qed.
Print Assumptions C45_cpp_tolerates_partial.

Example C45_example :
  sites_ok (fun _ => 0) (fun _ => 3) [{| c_file := 0; c_local := 1; c_num := 2 |}].
Proof.
  split; cbn [In]; intros; repeat match goal with H : _ \/ False |- _ => destruct H as [<-|[]] end;
    cbn; auto with arith.
Qed.

(* C45 is false for C: fprintf is called with a null stream. *)
Theorem C45_refuted :
  exists files calls schedule,
    Forall (fun f => Forall (fun m => 0 < mutant_count (fst f) true m) (snd f)) files /\
    concat calls = program_sites true 0 files /\
    bad (texecute (file_initial true files) false true false schedule
           (tstart (file_num true files) calls)) = true.
Proof. exact C45_refuted_lemma. Qed.
Print Assumptions C45_refuted.
