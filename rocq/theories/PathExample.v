(* Examples of paths. *)
From Coq Require Import String Ascii List Arith NArith ZArith Bool Lia.
From Verif Require Import Base Clang Gen GenExpr GenBinary GenUnary GenStmt Mutation MutTree
  TreeSpec Run RunSpec RunTest GenSpec SourceRange SourceRangeSpec QueryText Utf8Proof QuerySpec
  InfoJson InfoScript InfoSpec InfoRead InfoProof InfoLines PathText PathSpec PathProof PathTop.
Import ListNotations.
Local Open Scope string_scope.

(* f(
     );  which is removed, in a file with a given name *)
Definition one_text : string := "int f();" ++ nl ++ "int main() { f(" ++ nl ++ "  ); }" ++ nl.
Definition one_info : loc_info :=
  info_for_source_range one_text {| tr_begin := 22; tr_last := 27; tr_last_length := 1 |}.
Definition one_group : group := GroupRemoveStmt 0 one_info.
Definition one_stmt : stmt_site :=
  {| s_range := {| r_begin := 22; r_end := 29 |}; s_ext_comment := false;
     s_ext_semi := true; s_next_hash := false |}.
Definition one_file (name : string) : source_file :=
  {| Run.f_name := name; f_text := one_text;
     f_unit := Some {| ui_ctx := c_ctx;
       ui_tree := Node [MutStmt one_stmt one_info] [];
       ui_rewrites := []; ui_prelude_offset := 0 |} |}.
Definition one_run (name : string) := run default_options true [one_file name].

(* A file system with two files; paths are followed part by part *)
Fixpoint same_parts (a b : list string) : bool :=
  match a, b with
  | [], [] => true
  | x :: a, y :: b => String.eqb x y && same_parts a b
  | _, _ => false
  end.
Definition two_files (info : string) (dir : list string) (p : string) : option string :=
  if same_parts (path_parts p) ["info.json"] then Some info
  else if same_parts (path_parts p) dir then Some one_text
  else None.

Lemma one_written name : ascii_only name ->
  exists text, json_file_text (json_info (rs_info (one_run name))) text.
Proof.
  intro A. apply info_written.
  change (rs_info (one_run name)) with [(name, [ {| p_groups := [one_group]; p_children := [] |} ])].
  vm_compute info_strings. constructor; [now apply ascii_utf8|].
  repeat (constructor; [apply ascii_utf8; reflexivity|]). constructor.
Qed.
Lemma info_opens text dir i : same_path "info.json" i -> two_files text dir i = Some text.
Proof.
  intro S. unfold two_files. destruct (key _ _ S) as [_ <-]. reflexivity.
Qed.
Lemma source_opens text original file o' :
  same_parts (path_parts original ++ path_parts file) ["info.json"] = false ->
  same_path original o' ->
  two_files text (path_parts original ++ path_parts file) (o' ++ "/" ++ file) = Some one_text.
Proof.
  intros N S. unfold two_files. change (o' ++ "/" ++ file) with (o' ++ String slash file).
  rewrite parts_app. destruct (key _ _ S) as [_ <-]. rewrite N.
  assert (R : forall l, same_parts l l = true).
  { induction l as [|x l IH]; [reflexivity|]. cbn. now rewrite String.eqb_refl, IH. }
  now rewrite R.
Qed.
Lemma one_lines : Forall (lines_there one_text) (places one_group).
Proof. constructor; [vm_compute; lia|constructor]. Qed.

(* What the script does *)
Lemma one_query name text dir mutated original id :
  json_file_text (json_info (rs_info (one_run name))) text ->
  query_command (two_files text dir) "info.json" (Some (mutated, original)) false (Some id) =
  match assignments (json_info (rs_info (one_run name))) with
  | None => Raises
  | Some d => show_info_for_mutant (two_files text dir)
                (Some (path_str mutated, path_str original)) id d
  end.
Proof.
  intro J. unfold query_command, query_script. cbn [option_map fst snd].
  change (two_files text dir (path_str "info.json")) with (Some text). cbn [bind].
  now rewrite (load_lemma _ _ J).
Qed.

(* neat, as a check *)
Fixpoint neat_from (start : bool) (s : string) : bool :=
  match s with
  | String a r =>
      negb (String.prefix "//" s) && negb (String.prefix "/./" s) &&
      negb (start && String.prefix "./" s) && neat_from false r
  | EmptyString => true
  end.
Lemma prefix_app p t : String.prefix p (p ++ t) = true.
Proof.
  induction p as [|c p IH]; [destruct t; reflexivity|]. cbn [append String.prefix].
  destruct (ascii_dec c c); [exact IH|congruence].
Qed.
Lemma neat_check s : neat_from true s = true -> neat s.
Proof.
  assert (G : forall a p t start, p = "//" \/ p = "/./" -> neat_from start (a ++ p ++ t) = true -> False).
  { induction a as [|c a IH]; intros p t start P H.
    - destruct P as [-> | ->].
      + cbn [append] in H.
        assert (E : neat_from start ("//" ++ t) = true) by exact H.
        cbn [append neat_from] in E. change (String "/" (String "/" t)) with ("//" ++ t) in E.
        rewrite prefix_app in E. discriminate.
      + assert (E : neat_from start ("/./" ++ t) = true) by exact H.
        cbn [append neat_from] in E.
        change (String "/" (String "." (String "/" t))) with ("/./" ++ t) in E.
        rewrite prefix_app in E. cbn [negb] in E. now rewrite andb_false_r in E.
    - cbn [append neat_from] in H. apply andb_true_iff in H. destruct H as [_ H].
      now apply (IH p t false P). }
  intro H. split; [|split].
  - intros a t ->. now apply (G a "//" t true); [left|].
  - intros a t ->. now apply (G a "/./" t true); [right|].
  - intros t ->. cbn [append neat_from] in H.
    change (String "." (String "/" t)) with ("./" ++ t) in H. rewrite prefix_app in H.
    cbn [andb negb] in H. now rewrite andb_false_r in H.
Qed.
Lemma new_neat : neat "/new/a.c".
Proof. apply neat_check. reflexivity. Qed.
Lemma new_same : same_path "/new//./" "/new".
Proof. apply (same_as_str "/new//./"). discriminate. Qed.

Lemma dot_refuted : exists o fs opens text mutated original n ns p g k,
  (forall i, same_path "info.json" i -> opens i = Some text) /\
  json_file_text (json_info (rs_info (run o true fs))) text /\
  In (n, ns) (rs_info (run o true fs)) /\ In p ns /\ In g (p_groups p) /\
  nth_error (group_ids g) k = Some 0 /\ neat n /\
  ~ reports_on opens "info.json" mutated original 0 n g k ".".
Proof.
  destruct (one_written "a.c" eq_refl) as (text & J).
  exists default_options, [one_file "a.c"], (two_files text ["old"; "a.c"]), text, ".", "/old",
    "a.c", [ {| p_groups := [one_group]; p_children := [] |} ],
    {| p_groups := [one_group]; p_children := [] |}, one_group, 0.
  split. { intro i. apply info_opens. }
  split. { exact J. }
  split. { left. reflexivity. }
  split. { now left. }
  split. { now left. }
  split. { reflexivity. }
  split. { now apply neat_check. }
  intro R. destruct (R "a.c" one_text) as (r & _ & Q).
  - apply sp_refl.
  - split; [discriminate|reflexivity].
  - intros o' S. now apply (source_opens text "/old" "a.c" o').
  - exact one_lines.
  - rewrite (one_query "a.c" text) in Q by exact J. vm_compute in Q. discriminate.
Qed.

Lemma slashes_refuted : exists o fs opens text mutated original n ns p g k d,
  (forall i, same_path "info.json" i -> opens i = Some text) /\
  json_file_text (json_info (rs_info (run o true fs))) text /\
  In (n, ns) (rs_info (run o true fs)) /\ In p ns /\ In g (p_groups p) /\
  nth_error (group_ids g) k = Some 0 /\ ~ same_path mutated "." /\ mutated = d /\
  ~ reports_on opens "info.json" mutated original 0 n g k d.
Proof.
  destruct (one_written "/home//new/a.c" eq_refl) as (text & J).
  exists default_options, [one_file "/home//new/a.c"], (two_files text ["old"; "a.c"]), text,
    "/home//new", "/old",
    "/home//new/a.c", [ {| p_groups := [one_group]; p_children := [] |} ],
    {| p_groups := [one_group]; p_children := [] |}, one_group, 0, "/home//new".
  split. { intro i. apply info_opens. }
  split. { exact J. }
  split. { left. reflexivity. }
  split. { now left. }
  split. { now left. }
  split. { reflexivity. }
  split. { intro S. apply same_str in S. discriminate. }
  split. { reflexivity. }
  intro R. destruct (R "a.c" one_text) as (r & _ & Q).
  - apply sp_refl.
  - split; [discriminate|reflexivity].
  - intros o' S. now apply (source_opens text "/old" "a.c" o').
  - exact one_lines.
  - rewrite (one_query "/home//new/a.c" text) in Q by exact J. vm_compute in Q. discriminate.
Qed.

Lemma other_refuted : exists o fs opens text mutated original n ns p g r,
  (forall i, same_path "info.json" i -> opens i = Some text) /\
  json_file_text (json_info (rs_info (run o true fs))) text /\
  In (n, ns) (rs_info (run o true fs)) /\ In p ns /\ In g (p_groups p) /\
  nth_error (group_ids g) 0 = Some 0 /\ neat n /\
  (forall d file, same_path mutated d -> ~ name_in d file n) /\
  query_command opens "info.json" (Some (mutated, original)) false (Some 0%Z) = Exits 0 r.
Proof.
  destruct (one_written "/new1/a.c" eq_refl) as (text & J).
  eexists default_options, [one_file "/new1/a.c"], (two_files text ["old"; "a.c"]), text,
    "/new2", "/old", "/new1/a.c", [ {| p_groups := [one_group]; p_children := [] |} ],
    {| p_groups := [one_group]; p_children := [] |}, one_group, _.
  split. { intro i. apply info_opens. }
  split. { exact J. }
  split. { left. reflexivity. }
  split. { now left. }
  split. { now left. }
  split. { reflexivity. }
  split. { now apply neat_check. }
  split.
  - intros d file S I.
    assert (P : path_str d = "/new2") by (symmetry; exact (same_str _ _ S)).
    pose proof (neat_check "/new1/a.c" eq_refl) as N.
    destruct I as (D0 & I). destruct (String.eqb d ".") eqn:E1.
    { apply String.eqb_eq in E1. subst d. discriminate. }
    destruct (String.eqb d "/") eqn:E2.
    { apply String.eqb_eq in E2. subst d. discriminate. }
    apply String.eqb_neq in E2. rewrite I in N. rewrite (neat_dir d file D0 E2 N) in P.
    subst d. discriminate.
  - rewrite (one_query "/new1/a.c" text) by exact J. vm_compute. reflexivity.
Qed.
