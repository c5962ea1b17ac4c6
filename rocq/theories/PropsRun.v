(* Properties C01 - C06, C28, C39: runs, ids and the mutation info. *)
From Coq Require Import String Ascii List Arith Bool Permutation Lia Sorted.
From Verif Require Import Base Clang Gen GenExpr GenBinary GenUnary GenStmt Mutation MutTree TreeSpec MutTreeProof Rewriter
  PreludeText Run RunSpec RunProof RunProof2 RewriterProof RunTest.
Import ListNotations.

(* C01: the ids in the info file are 0 .. N-1, each once; N is the number of mutants that
   the distinct files offer. *)
Theorem C01_ids_contiguous : forall o fs,
  let st := run o true fs in
  Permutation (flat_map (fun e => entry_ids (snd e)) (rs_info st)) (seq 0 (rs_id st)) /\
  rs_id st = list_sum (map (offers o) (distinct [] fs)).
Proof. exact C01_ids_lemma. Qed.
Print Assumptions C01_ids_contiguous.

(* C01: reading the entries as trees, the ids increase in creation order. *)
Theorem C01_creation_order : forall o fs,
  let st := run o true fs in
  exists Ts,
    Forall2 (fun e T => decodes (snd e) 0 T) (rs_info st) Ts /\
    flat_map tree_ids Ts = seq 0 (rs_id st).
Proof. exact C01_trees_lemma. Qed.
Print Assumptions C01_creation_order.

(* C01: the ids of a file are the consecutive block after those of the files before it. *)
Theorem C01_blocks : forall o fs A e B,
  rs_info (run o true fs) = A ++ e :: B ->
  Permutation (entry_ids (snd e))
    (seq (List.length (flat_map (fun e => entry_ids (snd e)) A))
         (List.length (entry_ids (snd e)))).
Proof. exact C01_blocks_lemma. Qed.
Print Assumptions C01_blocks.

Example C01_example :
  exists e e', rs_info (run default_options true [add_c_file; bad_file; add2_c_file]) = [e] ++ [e']
  /\ List.length (entry_ids (snd e)) = 57 /\ In 57 (entry_ids (snd e')).
Proof. do 2 eexists. split; [vm_compute; reflexivity|]. vm_compute. tauto. Qed.

(* C02: exactly the distinct files that offer a mutant are rewritten, each once, and they
   are the ones that get an entry. *)
Theorem C02_rewritten_once : forall o bt fs,
  let st := run o bt fs in
  NoDup (map fst (rs_written st)) /\
  (forall n, In n (map fst (rs_written st)) <->
             exists f, In f (distinct [] fs) /\ f_name f = n /\ 0 < offers o f) /\
  (bt = true -> map fst (rs_info st) = map fst (rs_written st)).
Proof. exact C02_written_lemma. Qed.
Print Assumptions C02_rewritten_once.

(* C02: a repeated file, a file with errors and a file without mutants have no effect. *)
Theorem C02_skipped_files_are_inert : forall o bt fs f gs,
  names_identify (fs ++ f :: gs) ->
  In (f_name f) (map f_name fs) \/ offers o f = 0 ->
  core (run o bt (fs ++ f :: gs)) = core (run o bt (fs ++ gs)).
Proof. exact C02_skip_lemma. Qed.
Print Assumptions C02_skipped_files_are_inert.

Example C02_example :
  names_identify ([add_c_file] ++ bad_file :: [add2_c_file]) /\ offers default_options bad_file = 0
  /\ offers default_options add_c_file = 57.
Proof.
  split; [|split; vm_compute; reflexivity].
  intros f g Hf Hg. simpl in Hf, Hg. intuition subst; simpl in *; try reflexivity; discriminate.
Qed.

(* C03: coverage mode does not change the info, the number of mutants or the set of
   rewritten files. *)
Theorem C03_coverage_numbering : forall o fs b,
  let st := run o true fs in
  let st' := run (with_track o b) true fs in
  rs_info st' = rs_info st /\ rs_id st' = rs_id st /\
  map fst (rs_written st') = map fst (rs_written st).
Proof. exact C03_run_lemma. Qed.
Print Assumptions C03_coverage_numbering.

(* C03, site by site: the function generated in coverage mode records as many mutants as
   the function generated otherwise tests, and the site passes it the same arguments.
   Statements record their single mutant under the same id. *)
Theorem C03_sites : forall c o m first id,
  let a := apply_mutation c (with_track o true) m first id in
  let a' := apply_mutation c (with_track o false) m first id in
  a_group a = a_group a' /\ a_next a = a_next a' /\
  (forall f, In f (site_functions c (with_track o true) m) ->
     mf_track f = Some (mutant_count c (optimise o) m) /\ mf_lines f = []) /\
  match m with
  | MutStmt s _ =>
      a_edits a = [InsertBefore (r_begin (s_range s))
                     ("__dredd_record_covered_mutants(" ++ string_of_nat (id - first)
                      ++ ", 1); ")%string]
  | MutBinary b _ _ _ => c_logical c b = false -> a_edits a = a_edits a'
  | _ => a_edits a = a_edits a'
  end.
Proof. exact C03_sites_lemma. Qed.
Print Assumptions C03_sites.

Example C03_example :
  site_functions c_ctx (with_track default_options true) (MutBinary b_sum1 i_sum1 i_x1 i_y)
  = [binary_function c_ctx (with_track default_options true) b_sum1] /\
  mutant_count c_ctx true (MutBinary b_sum1 i_sum1 i_x1 i_y) = 6.
Proof. split; reflexivity. Qed.

(* C04: an entry describes exactly the ids of its file, each once; the file's prelude
   carries the same block. *)
Theorem C04_described_once : forall o fs n ns,
  (forall f, In f fs -> well_placed f) ->
  In (n, ns) (rs_info (run o true fs)) ->
  exists f u first t pre suf,
    In f (distinct [] fs) /\ f_name f = n /\ f_unit f = Some u /\
    In (n, t) (rs_written (run o true fs)) /\
    t = (pre ++ prelude_text (ui_ctx u) o first (offers o f) ++ suf)%string /\
    Permutation (entry_ids ns) (seq first (offers o f)).
Proof. exact C04_lemma. Qed.
Print Assumptions C04_described_once.

Theorem C04_request_is_harmless : forall o fs,
  rs_id (run o false fs) = rs_id (run o true fs) /\
  rs_written (run o false fs) = rs_written (run o true fs).
Proof. exact C04_request_lemma. Qed.
Print Assumptions C04_request_is_harmless.

Example C04_example :
  (forall f, In f [add_c_file; add2_c_file] -> well_placed f) /\
  exists ns, In ("add2.c"%string, ns) (rs_info (run default_options true [add_c_file; add2_c_file])).
Proof.
  split.
  - intros f [<-|[<-|[]]] u; simpl; intros [= <-]; simpl; lia.
  - eexists. vm_compute. right. left. reflexivity.
Qed.

(* C05: each entry of the info file encodes one rooted tree, and that tree describes the
   (tidied) tree of mutations. *)
Theorem C05_flat_tree : forall o fs n ns,
  In (n, ns) (rs_info (run o true fs)) ->
  flat_tree_ok ns /\
  exists f u T,
    In f (distinct [] fs) /\ f_name f = n /\ f_unit f = Some u /\
    decodes ns 0 T /\ (forall T', decodes ns 0 T' -> T' = T) /\
    describes (ui_ctx u) (optimise o) (tidy (ui_tree u)) T.
Proof. exact C05_lemma. Qed.
Print Assumptions C05_flat_tree.

Example C05_example :
  exists ns, rs_info (run default_options true [add_c_file]) = [("add.c"%string, ns)] /\
             map p_children ns = [[1; 2; 3]; []; []; [4]; [5; 10]; [6; 8]; [7]; []; [9]; []; [11]; []].
Proof. eexists. split; [vm_compute; reflexivity|reflexivity]. Qed.

(* C06: tidying keeps every mutation, the creation order, the enclosing mutations and the
   mutations at the same node. *)
Theorem C06_tidy_keeps_entries : forall M (t : tree M), entries [] (tidy t) = entries [] t.
Proof. exact (fun M t => tidy_entries t []). Qed.
Print Assumptions C06_tidy_keeps_entries.

(* C06: afterwards no node below the root is empty and no node merely wraps one child. *)
Theorem C06_tidy_is_tidy : forall M (t s : tree M),
  subtree s (tidy t) ->
  (forall k, In k (children s) -> has_mutation k) /\ (forall k, s <> Node [] [k]).
Proof.
  exact (fun M t s H => conj (tidy_full t s H)
    (fun k E => compress_no_chain (prune t) k (eq_ind s (fun x => subtree x (tidy t)) H _ E))).
Qed.
Print Assumptions C06_tidy_is_tidy.

Theorem C06_tidy_idempotent : forall M (t : tree M), tidy (tidy t) = tidy t.
Proof. exact (fun M => @tidy_idempotent M). Qed.
Print Assumptions C06_tidy_idempotent.

Example C06_example :
  tidy (Node [] [Node [] [Node [] [Node [1] [Node [] []; Node [] [Node [2] []]]; Node [] []]]])
  = Node [1] [Node [2] []].
Proof. reflexivity. Qed.

(* C28: what is inserted at the prelude location is the prelude followed by each distinct
   function once, and depends on the set of functions only. *)
Theorem C28_inserted_text : forall text es off,
  off <= String.length text ->
  exists pre suf, forall c o first num decls,
    exists l, NoDup l /\ (forall d, In d l <-> In d decls) /\
      rewrite text (es ++ prelude_edits c o first num off decls) =
      (pre ++ prelude_text c o first num ++ concat_strings l ++ suf)%string.
Proof. exact C28_text_lemma. Qed.
Print Assumptions C28_inserted_text.

Theorem C28_deterministic : forall c o first num off decls decls',
  (forall d, In d decls <-> In d decls') ->
  prelude_edits c o first num off decls = prelude_edits c o first num off decls'.
Proof. exact C28_deterministic_lemma. Qed.
Print Assumptions C28_deterministic.

(* C28, for the files of a run: the functions are those of the file's mutations. *)
Theorem C28_written_files : forall o bt fs n t,
  (forall f, In f fs -> well_placed f) ->
  In (n, t) (rs_written (run o bt fs)) ->
  exists d1 f d2 u pre l suf,
    distinct [] fs = d1 ++ f :: d2 /\ f_name f = n /\ f_unit f = Some u /\
    NoDup l /\
    (forall d, In d l <-> exists m g, In m (post (ui_tree u)) /\
                            In g (site_functions (ui_ctx u) o m) /\ d = print_mfun g) /\
    t = (pre ++ prelude_text (ui_ctx u) o (list_sum (map (offers o) d1)) (offers o f)
        ++ concat_strings l ++ suf)%string.
Proof. exact written_text. Qed.
Print Assumptions C28_written_files.

Example C28_example :
  (forall f, In f [add_c_file] -> well_placed f) /\
  In ("add.c"%string, add_c_expected) (rs_written (run default_options true [add_c_file])) /\
  sorted_decls ["b"; "a"; "b"]%string = ["a"; "b"]%string.
Proof.
  split; [|split].
  - intros f [<-|[]] u; simpl; intros [= <-]; simpl; lia.
  - rewrite add_c_reproduced. left. reflexivity.
  - reflexivity.
Qed.

(* C39: wherever a run is cut short, each file rewritten so far has its final text, and
   the info file has been written only if nothing remained to be done. *)
Theorem C39_interrupted_run : forall o bt fs p q,
  main_events o bt fs = p ++ q ->
  (forall n t t', In (WriteSource n t) p -> In (WriteSource n t') (p ++ q) -> t' = t) /\
  (forall i, In (WriteInfo i) p -> q = []).
Proof. exact C39_lemma. Qed.
Print Assumptions C39_interrupted_run.

(* C39: stopping after the files fs leaves the files rewritten so far as the complete run
   would, and the complete run writes no file named in fs later on. *)
Theorem C39_prefix : forall o bt fs gs,
  exists W,
    rs_written (run o bt (fs ++ gs)) = rs_written (run o bt fs) ++ W /\
    (forall n t, In (n, t) W -> ~ In n (map f_name fs)).
Proof. exact C39_prefix_lemma. Qed.
Print Assumptions C39_prefix.

Example C39_example :
  exists p q, main_events default_options true [add_c_file; add2_c_file] = p ++ q /\
    List.length p = 1 /\ List.length q = 2.
Proof.
  exists (firstn 1 (main_events default_options true [add_c_file; add2_c_file])),
         (skipn 1 (main_events default_options true [add_c_file; add2_c_file])).
  split; [symmetry; apply firstn_skipn|]. split; reflexivity.
Qed.
