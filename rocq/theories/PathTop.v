(* The query script with its arguments as they are written. *)
From Coq Require Import String Ascii List Arith NArith ZArith Bool Lia.
From Verif Require Import Base Clang Gen GenExpr GenBinary GenUnary GenStmt Mutation MutTree
  TreeSpec Run RunSpec GenSpec SourceRange SourceRangeSpec QueryText QuerySpec
  SourceRangeProof InfoJson InfoScript InfoSpec InfoRead InfoProof PathText PathSpec PathProof.
Import ListNotations.
Local Open Scope string_scope.

(* The script, asked for the mutant with an id, reports on the file of that name below the
   directory [original], if n is a name of a file in the directory d that the user calls
   [mutated].  Whatever is the same path is the same file. *)
Definition reports_on (opens : string -> option string) (info_file mutated original : string)
  (id : nat) (n : string) (g : group) (k : nat) (d : string) : Prop :=
  forall file source,
    same_path mutated d -> name_in d file n ->
    (forall o', same_path original o' -> opens (o' ++ "/" ++ file) = Some source) ->
    Forall (lines_there source) (places g) ->
    exists r, report file source g k = Some r /\
      query_command opens info_file (Some (mutated, original)) false (Some (Z.of_nat id))
      = Exits 0 r.

Lemma left_root file : ~ starts_with_slash file -> left_of "/" ("/" ++ file) = file.
Proof.
  intro N. unfold left_of. cbn [String.length append substring].
  replace (S (String.length file) - 1) with (String.length file) by lia.
  rewrite substring_all. destruct file as [|c file]; [reflexivity|].
  destruct (Ascii.eqb c "/") eqn:E; [|reflexivity].
  apply Ascii.eqb_eq in E. subst c. exfalso. apply N. now exists file.
Qed.
Lemma left_dir d file : left_of d (d ++ "/" ++ file) = file.
Proof. unfold left_of. now rewrite without_prefix. Qed.

Lemma left_named mutated d file n :
  same_path mutated d -> ~ same_path mutated "." -> name_in d file n -> neat n ->
  left_of (path_str mutated) n = file.
Proof.
  intros S D (D0 & I) N. rewrite (same_str _ _ S).
  destruct (String.eqb d ".") eqn:E1.
  { apply String.eqb_eq in E1. subst d. contradiction. }
  destruct (String.eqb d "/") eqn:E2.
  - apply String.eqb_eq in E2. subst d n. apply left_root. now apply neat_root.
  - apply String.eqb_neq in E2. subst n. rewrite (neat_dir d file D0 E2 N). apply left_dir.
Qed.

Lemma paths_lemma o fs opens info_file text mutated original id :
  info_file <> "" -> original <> "" ->
  (forall i, same_path info_file i -> opens i = Some text) ->
  json_file_text (json_info (rs_info (run o true fs))) text ->
  id < rs_id (run o true fs) ->
  exists n ns p g k f u m,
    In (n, ns) (rs_info (run o true fs)) /\ In p ns /\ In g (p_groups p) /\
    nth_error (group_ids g) k = Some id /\
    In f (RunSpec.distinct [] fs) /\ Run.f_name f = n /\ f_unit f = Some u /\
    In m (post (ui_tree u)) /\ describes_group (ui_ctx u) (optimise o) m g /\
    (neat n -> ~ same_path mutated "." ->
     forall d, reports_on opens info_file mutated original id n g k d).
Proof.
  intros I0 O0 O J H.
  destruct (shown_script_at o fs opens (path_str info_file) text (path_str mutated)
              (path_str original) id (O _ (same_as_str _ I0)) J H)
    as (n & ns & p & g & k & f & u & m & A & B & C & D & E & F & G & I & K & Sh).
  exists n, ns, p, g, k, f, u, m. repeat (split; [assumption|]).
  intros N D1 d file source S Na Or L. unfold query_command. cbn [option_map fst snd].
  apply (Sh file source); [|apply Or; now apply same_as_str|assumption].
  now apply (left_named _ d).
Qed.

Lemma paths_largest o fs opens info_file text prefixes show :
  info_file <> "" ->
  (forall i, same_path info_file i -> opens i = Some text) ->
  json_file_text (json_info (rs_info (run o true fs))) text ->
  query_command opens info_file prefixes true show =
  Exits 0 (string_of_Z (Z.of_nat (rs_id (run o true fs)) - 1) ++ nl).
Proof.
  intros I0 O J. apply (largest_script o fs opens (path_str info_file) text); [|assumption].
  apply O. now apply same_as_str.
Qed.
Lemma paths_unknown o fs opens info_file text mutated original id :
  info_file <> "" ->
  (forall i, same_path info_file i -> opens i = Some text) ->
  json_file_text (json_info (rs_info (run o true fs))) text ->
  ~ (0 <= id < Z.of_nat (rs_id (run o true fs)))%Z ->
  query_command opens info_file (Some (mutated, original)) false (Some id) =
  Exits 1 ("Unknown mutant id: " ++ string_of_Z id ++ nl).
Proof.
  intros I0 O J H. unfold query_command. cbn [option_map fst snd].
  apply (unknown_script o fs opens (path_str info_file) text); [|assumption|assumption].
  apply O. now apply same_as_str.
Qed.
