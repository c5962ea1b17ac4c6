(* C69 *)
From Coq Require Import String Ascii List Arith NArith ZArith Bool Lia.
From Verif Require Import Base Clang Gen GenExpr GenBinary GenUnary GenStmt Mutation MutTree TreeSpec
  MutTreeProof Rewriter PreludeText Run RunSpec ClashSpec TypeSpec CText FunText FunSpec NameSpec
  RunProof RunProof2 RewriterProof GenProof TypeProof CTextProof FunProof FunProof2 FunProof3 FunTop
  NameProof NameProof2.
Import ListNotations.
Local Open Scope string_scope.

Lemma edits_from_in c o first ms e : forall id, In e (edits_from c o first id ms) ->
  exists m id', In m ms /\ In e (a_edits (apply_mutation c o m first id')).
Proof.
  induction ms as [|m ms IH]; intros id I; [contradiction|]. cbn [edits_from] in I.
  apply in_app_iff in I. destruct I as [I|I].
  - exists m, id. split; [now left|assumption].
  - destruct (IH _ I) as (m' & id' & J & K). exists m', id'. split; [now right|assumption].
Qed.

Lemma C69_c_lemma c o i n : cpp c = false ->
  exists items, parse_text (prelude_text c o i n) = Some items /\
    forall defined, items_known false (provided false defined (prelude_text c o i n)) items = true.
Proof.
  intros C. exists (prelude_items c o i n). split; [apply prelude_parsed|].
  intros. now apply prelude_known_c.
Qed.
Lemma C69_cpp_lemma c o i n : cpp c = true ->
  exists items, parse_text (prelude_text c o i n) = Some items /\
    forall defined, items_known true
      (["std::getenv"; "size_t"; "uint64_t"]
         ++ provided true defined (prelude_text c o i n)) items = true.
Proof.
  intros C. exists (prelude_items c o i n). split; [apply prelude_parsed|].
  intros. now apply prelude_known_cpp.
Qed.
Lemma C69_cpp_needs_lemma c o i n : cpp c = true ->
  exists items, parse_text (prelude_text c o i n) = Some items /\
    forall defined x,
      In x (if track o then ["std::getenv"] else ["std::getenv"; "size_t"; "uint64_t"]) ->
      items_known true
        (filter (fun y => negb (String.eqb x y)) ["std::getenv"; "size_t"; "uint64_t"]
         ++ provided true defined (prelude_text c o i n)) items = false.
Proof.
  intros C. exists (prelude_items c o i n). split; [apply prelude_parsed|].
  intros. now apply prelude_unknown_cpp.
Qed.

Lemma prefix_app a b : String.prefix a (a ++ b) = true.
Proof.
  induction a as [|x a IH]; [now destruct b|]. cbn. destruct (ascii_dec x x); [assumption|congruence].
Qed.

Lemma C69_files_lemma o bt fs n t :
  (forall f, In f fs -> well_placed f) ->
  (forall f u m, In f fs -> f_unit f = Some u -> In m (post (ui_tree u)) -> clang_node (ui_ctx u) m) ->
  In (n, t) (rs_written (run o bt fs)) ->
  exists f u prelude functions after items ds,
    In f fs /\ Run.f_name f = n /\ f_unit f = Some u /\
    parse_text prelude = Some items /\ read_functions functions = Some ds /\
    (nothing_before o u ->
     t = substring 0 (ui_prelude_offset u) (f_text f) ++ prelude ++ functions ++ after) /\
    (forall defined, forallb (function_known (cpp (ui_ctx u))
       (map item_name items ++ provided (cpp (ui_ctx u)) defined prelude)) ds = true) /\
    (forall m first id e w, In m (post (ui_tree u)) ->
       In e (a_edits (apply_mutation (ui_ctx u) o m first id)) ->
       In w (words_in (edit_text e)) -> reserved w = true ->
       In w (map item_name items ++ map fd_name ds)) /\
    (forall x, In x (map item_name items ++ map fd_name ds) -> reserved x = true) /\
    (forall x, In x (map item_name items) -> ~ In x (map fd_name ds)).
Proof.
  intros W Cl H. rewrite run_written in H. apply output_split in H.
  destruct H as (d1 & f & u & d2 & E & U & N & H). simpl in H.
  set (id := list_sum (map (offers o) d1)) in *.
  unfold handle_unit in H. rewrite apply_mutations_id in H.
  destruct (apply_mutations_effects (ui_ctx u) o true id (tidy (ui_tree u))) as (Ee & Ed).
  rewrite Ee, Ed in H.
  destruct (Nat.eqb_spec id (id + tree_total (ui_ctx u) (optimise o) (tidy (ui_tree u))))
    as [C|C]; [discriminate|].
  cbn [h_output] in H. injection H as <-.
  assert (If : In f fs).
  { assert (In f (RunSpec.distinct [] fs)) as I by (rewrite E; apply in_elt). apply distinct_in in I. tauto. }
  set (num := id + tree_total (ui_ctx u) (optimise o) (tidy (ui_tree u)) - id) in *.
  set (decls := map print_mfun (flat_map (site_functions (ui_ctx u) o) (post (tidy (ui_tree u))))) in *.
  set (es := (edits_from (ui_ctx u) o id id (post (tidy (ui_tree u))) ++ ui_rewrites u)%list).
  set (c := ui_ctx u) in *. set (off := ui_prelude_offset u) in *.
  assert (Wp : off <= String.length (f_text f)) by (now apply W).
  set (names := fun defined => (map item_name (prelude_items c o id num)
    ++ provided (cpp c) defined (prelude_text c o id num))%list).
  (* the functions *)
  assert (Fs : forall l, (forall d, In d l -> In d decls) ->
    exists fl ds, Forall2 (fun s g => s = print_mfun g /\
                                     exists m, In m (post (ui_tree u)) /\ In g (site_functions c o m)) l fl /\
      Forall2 read_as l ds /\ map fd_name ds = map mf_name fl /\
      forall defined, forallb (function_known (cpp c) (names defined)) ds = true).
  { induction l as [|s l IH]; intros S.
    - exists [], []. repeat split; constructor.
    - destruct IH as (fl & ds & F1 & F2 & Ns & K); [intros; apply S; now right|].
      assert (Is : In s decls) by (apply S; now left). unfold decls in Is.
      apply in_map_iff in Is. destruct Is as (g & <- & Ig). apply in_flat_map in Ig.
      destruct Ig as (m & Im & Ig). rewrite post_tidy in Im.
      destruct (function_known_read c o m g (names (fun _ => false))
        (Cl f u m If U Im) (wanted_provided c o id num _) Ig) as (d & R & Nd & _ & _).
      exists (g :: fl), (d :: ds). split; [|split; [|split]].
      + constructor; [|assumption]. split; [reflexivity|]. now exists m.
      + now constructor.
      + cbn [map]. now rewrite Nd, Ns.
      + intros defined. cbn [forallb]. rewrite K, andb_true_r.
        destruct (function_known_read c o m g (names defined)
          (Cl f u m If U Im) (wanted_provided c o id num _) Ig) as (d' & R' & _ & _ & Kd).
        assert (d' = d) as <-; [|assumption].
        pose proof (read_one _ _ R) as A. rewrite (read_one _ _ R') in A. congruence. }
  destruct (Fs (rev (sorted_decls decls))) as (fl & ds & F1 & F2 & Ns & K).
  { intros d. rewrite <- in_rev. apply sorted_decls_in. }
  assert (Names : forall x, In x (map fd_name ds) ->
    exists m g, In m (post (ui_tree u)) /\ In g (site_functions c o m) /\ mf_name g = x).
  { intros x I. rewrite Ns in I. apply in_map_iff in I. destruct I as (g & <- & Ig).
    clear - F1 Ig. induction F1 as [|s g' l fl (_ & m & M & G) F1 IH]; [contradiction|].
    destruct Ig as [->|Ig]; [now exists m, g|now apply IH]. }
  exists f, u, (prelude_text c o id num), (concat_strings (rev (sorted_decls decls))),
    (render (skipn off (apply_edits es (cells_of (f_text f))))), (prelude_items c o id num), ds.
  split; [assumption|]. split; [assumption|]. split; [assumption|].
  split; [apply prelude_parsed|]. split; [now apply functions_read|].
  split; [|split; [|split; [|split]]].
  - intros [B1 B2]. fold off in B1, B2. rewrite app_assoc. fold es.
    assert (B : Forall (starts_at off) es).
    { apply Forall_forall. intros e I. unfold es in I. apply in_app_iff in I. destruct I as [I|I].
      - destruct (edits_from_in _ _ _ _ _ _ I) as (m & id' & J & L). rewrite post_tidy in J.
        exact (B1 _ _ _ _ J L).
      - now apply B2. }
    unfold rewrite. rewrite apply_edits_app, prelude_edits_apply.
    rewrite (update_nth_ext _ _
       (fun x => ((prelude_text c o id num ++ concat_strings (rev (sorted_decls decls)))
                  ++ fst x, snd x))) by (intros; rewrite sapp_assoc; reflexivity).
    rewrite render_prepend by (rewrite apply_edits_length, cells_length; lia).
    rewrite apply_edits_firstn, render_firstn by assumption. rewrite !sapp_assoc. reflexivity.
  - exact K.
  - intros m first id' e w Im Ie Iw R.
    pose proof (mutation_words c o m first id' (Cl f u m If U Im) e Ie w Iw R) as I.
    rewrite prelude_item_names. apply in_app_iff in I. apply in_app_iff. destruct I as [I|I]; [now left|].
    right. apply in_map_iff in I. destruct I as (g & <- & Ig). rewrite Ns.
    assert (Id : In (print_mfun g) (rev (sorted_decls decls))).
    { rewrite <- in_rev. apply sorted_decls_in. unfold decls. apply in_map, in_flat_map.
      exists m. rewrite post_tidy. auto. }
    (* the function read from the text of g is called as g *)
    destruct (function_known_read c o m g (names (fun _ => false))
        (Cl f u m If U Im) (wanted_provided c o id num _) Ig) as (d & Rd & Nd & _ & _).
    rewrite <- Nd, <- Ns. apply in_map.
    clear - F2 Id Rd. induction F2 as [|s d' l ds R' F2 IH]; [contradiction|].
    destruct Id as [->|Id]; [left|right; now apply IH].
    pose proof (read_one _ _ Rd) as A. rewrite (read_one _ _ R') in A. congruence.
  - intros x I. apply in_app_iff in I. destruct I as [I|I].
    + rewrite prelude_item_names in I. unfold prelude_names in I.
      destruct (track o); [destruct I as [<-|[]]|destruct I as [<-|[<-|[]]]]; reflexivity.
    + destruct (Names x I) as (m & g & _ & Ig & <-).
      destruct (site_function_name _ _ _ _ Ig) as (s & ->). exact (prefix_app "__dredd_" ("replace_" ++ s)).
  - intros x I J. destruct (Names x J) as (m & g & _ & Ig & <-).
    destruct (site_function_name _ _ _ _ Ig) as (s & Es). rewrite Es in I.
    rewrite prelude_item_names in I. unfold prelude_names in I.
    destruct (track o); [destruct I as [I|[]]|destruct I as [I|[I|[]]]]; discriminate I.
Qed.
