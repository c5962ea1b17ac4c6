(* The query script on the JSON form of the mutation info. *)
From Coq Require Import String Ascii List NArith ZArith Bool Arith Lia Permutation.
From Verif Require Import Base Clang Gen GenExpr GenBinary GenUnary GenStmt Mutation MutTree
  TreeSpec Run RunSpec RunProof RunProof2 GenSpec SourceRange SourceRangeSpec
  SourceRangeProof QueryText Query QuerySpec QueryProof InfoJson InfoScript InfoSpec InfoRead.
Import ListNotations.
Local Open Scope string_scope.

Lemma collect_map {A B C} (f : B -> option (list C)) (h : A -> B) (g : A -> list C) l :
  (forall x, In x l -> f (h x) = Some (g x)) ->
  collect f (map h l) = Some (flat_map g l).
Proof.
  induction l as [|x l IH]; intros H; [reflexivity|]. cbn [map collect flat_map].
  rewrite H by now left. cbn [bind]. rewrite IH; [reflexivity|]. intros y Y. apply H. now right.
Qed.

(* The entries of a group *)
Definition jentry (f : string * list pnode) (g : group) (kind : string) (i : option json)
  : jinfo :=
  {| ji_kind := kind; ji_file := json_file f; ji_group := json_group g; ji_instance := i |}.
Definition jentries (f : string * list pnode) (g : group) : list (Z * jinfo) :=
  match g with
  | GroupRemoveStmt id _ => [(Z.of_nat id, jentry f g "removeStmt" None)]
  | GroupReplaceExpr _ l =>
      flat_map (fun x => [(Z.of_nat (fst x), jentry f g "replaceExpr"
        (Some (json_instance "InsertPreInc" expr_action_name x)))]) l
  | GroupReplaceBinary _ _ _ _ l =>
      flat_map (fun x => [(Z.of_nat (fst x), jentry f g "replaceBinaryOperator"
        (Some (json_instance "ReplaceWithLHS" bin_action_name x)))]) l
  | GroupReplaceUnary _ _ _ l =>
      flat_map (fun x => [(Z.of_nat (fst x), jentry f g "replaceUnaryOperator"
        (Some (json_instance "ReplaceWithOperand" un_action_name x)))]) l
  end.

Lemma group_assigned f g : group_assignments (json_file f) (json_group g) = Some (jentries f g).
Proof.
  destruct g as [id i|i l|i il ir o l|i io o l]; [reflexivity|..];
  unfold group_assignments, json_group, message, message_field; cbn [concat app];
  cbn [String.eqb Ascii.eqb Bool.eqb orb].
  all: match goal with
       | |- context [json_replace_expr] =>
           change (get "instances" (json_replace_expr i l)) with
             (Some (JArr (map (json_instance "InsertPreInc" expr_action_name) l)))
       | |- context [json_replace_binary] =>
           change (get "instances" (json_replace_binary i il ir o l)) with
             (Some (JArr (map (json_instance "ReplaceWithLHS" bin_action_name) l)))
       | |- context [json_replace_unary] =>
           change (get "instances" (json_replace_unary i io o l)) with
             (Some (JArr (map (json_instance "ReplaceWithOperand" un_action_name) l)))
       end; cbn [bind items]; apply collect_map; intros x _; reflexivity.
Qed.

Definition all_entries (info : list (string * list pnode)) : list (Z * jinfo) :=
  flat_map (fun f => flat_map (fun p => flat_map (jentries f) (p_groups p)) (snd f)) info.

Lemma all_assigned info : assignments (json_info info) = Some (all_entries info).
Proof.
  unfold assignments.
  change (get "infoForFiles" (json_info info)) with (Some (JArr (map json_file info))).
  cbn [bind items]. apply collect_map. intros f _.
  change (get "mutationTree" (json_file f)) with (Some (JArr (map json_node (snd f)))).
  cbn [bind items]. apply collect_map. intros p _.
  change (get "mutationGroups" (json_node p)) with (Some (JArr (map json_group (p_groups p)))).
  cbn [bind items]. apply collect_map. intros g _. apply group_assigned.
Qed.

Lemma listed_ids {A} (e : nat * A -> jinfo) l :
  map fst (flat_map (fun x => [(Z.of_nat (fst x), e x)]) l) = map Z.of_nat (map fst l).
Proof. induction l as [|x l IH]; cbn in *; [reflexivity|]. now rewrite IH. Qed.
Lemma listed_in {A} (e : nat * A -> jinfo) l id m :
  In (id, m) (flat_map (fun x => [(Z.of_nat (fst x), e x)]) l) ->
  exists k n a, nth_error l k = Some (n, a) /\ id = Z.of_nat n /\ m = e (n, a).
Proof.
  rewrite in_flat_map. intros ([n a] & I & [H|[]]). injection H as <- <-.
  destruct (In_nth_error _ _ I) as [k K]. eauto 8.
Qed.

Lemma jentries_ids f g : map fst (jentries f g) = map Z.of_nat (group_ids g).
Proof. destruct g; cbn [jentries group_ids]; [reflexivity|apply listed_ids..]. Qed.

Lemma all_ids info : map fst (all_entries info) =
  map Z.of_nat (flat_map (fun e => entry_ids (snd e)) info).
Proof.
  unfold all_entries, entry_ids. rewrite !map_flat_map. apply flat_map_ext. intros f.
  rewrite !map_flat_map. apply flat_map_ext. intros p. rewrite !map_flat_map.
  apply flat_map_ext. intros g. apply jentries_ids.
Qed.

Lemma assigned_in d k v : assigned d k = Some v -> In (k, v) d.
Proof.
  induction d as [|[x w] d IH]; simpl; [discriminate|].
  destruct (assigned d k) as [u|]; intros H.
  - injection H as ->. auto.
  - destruct (Z.eqb_spec x k); [|discriminate]. injection H as ->. subst. auto.
Qed.
Lemma assigned_some d k : In k (map fst d) -> exists v, assigned d k = Some v.
Proof.
  induction d as [|[x w] d IH]; simpl; [tauto|].
  intros [->|H].
  - destruct (assigned d k); eauto. rewrite Z.eqb_refl. eauto.
  - destruct (IH H) as (v & ->). eauto.
Qed.
Lemma assigned_none d k : ~ In k (map fst d) -> assigned d k = None.
Proof.
  intros H. destruct (assigned d k) eqn:E; auto. apply assigned_in in E.
  exfalso. apply H. apply in_map_iff. exists (k, j). auto.
Qed.

Lemma Z_text n : string_of_Z (Z.of_nat n) = string_of_nat n.
Proof. destruct n; reflexivity. Qed.

Lemma range_shown opens source path name i :
  opens path = Some source -> lines_there source i ->
  get_text_for_source_range opens (json_start i) (json_end i) path name =
  Some {| single_line := Nat.eqb (start_line i) (end_line i);
          description := place_name name i; prefix := indentation i;
          range_chars := text_for_source_range source i |}.
Proof.
  intros O (A & B). unfold get_text_for_source_range, json_start, json_end.
  change (get "line" (json_location (start_line i) (start_column i)))
    with (Some (JNum (Z.of_nat (start_line i)))).
  change (get "column" (json_location (start_line i) (start_column i)))
    with (Some (JNum (Z.of_nat (start_column i)))).
  change (get "line" (json_location (end_line i) (end_column i)))
    with (Some (JNum (Z.of_nat (end_line i)))).
  change (get "column" (json_location (end_line i) (end_column i)))
    with (Some (JNum (Z.of_nat (end_column i)))).
  cbn [bind number]. rewrite O. cbn [bind]. rewrite !Nat2Z.id.
  destruct (Z.leb_spec 1 (Z.of_nat (start_line i))); [|lia].
  destruct (Z.leb_spec (Z.of_nat (start_line i)) (Z.of_nat (List.length (readlines source)))); [|lia].
  destruct (Z.leb_spec 1 (Z.of_nat (end_line i))); [|lia].
  destruct (Z.leb_spec (Z.of_nat (end_line i)) (Z.of_nat (List.length (readlines source)))); [|lia].
  cbn [andb]. f_equal. f_equal.
  - destruct (Z.eqb_spec (Z.of_nat (start_line i)) (Z.of_nat (end_line i)));
    destruct (Nat.eqb_spec (start_line i) (end_line i)); auto; lia.
  - rewrite !Z_text. unfold place_name, line_column. now rewrite !app_assoc_s.
  - rewrite indentation_shown. reflexivity.
Qed.

(* What is shown for an entry, by its kind *)
Definition dispatch (opens : string -> option string) (m : jinfo) (path name : string)
  : option string :=
  if String.eqb (ji_kind m) "replaceExpr"
  then show_info_for_replace_expr opens m path name
  else if String.eqb (ji_kind m) "replaceUnaryOperator"
  then show_info_for_replace_unary_operator opens m path name
  else if String.eqb (ji_kind m) "replaceBinaryOperator"
  then show_info_for_replace_binary_operator opens m path name
  else if String.eqb (ji_kind m) "removeStmt"
  then show_info_for_remove_stmt opens m path name
  else None.

Lemma print_paragraph s : print (s ++ nl) = paragraph s.
Proof. unfold print, paragraph. now rewrite app_assoc_s. Qed.

Lemma some_eq {A} (a b : A) : Some a = Some b -> a = b.
Proof. now injection 1. Qed.

Lemma shown_group f g id m : In (id, m) (jentries f g) ->
  ji_file m = json_file f /\
  exists k n, id = Z.of_nat n /\ nth_error (group_ids g) k = Some n /\
    forall opens path name source r,
      opens path = Some source -> Forall (lines_there source) (places g) ->
      report name source g k = Some r -> dispatch opens m path name = Some r.
Proof.
  destruct g as [n i|i l|i il ir o l|i io o l]; cbn [jentries].
  - intros [H|[]]. injection H as <- <-. split; [reflexivity|]. exists 0, n.
    repeat split. intros opens path name source r O L R. cbn [places] in L.
    inversion L as [|? ? L1 _]; subst. unfold dispatch. cbn [ji_kind jentry String.eqb Ascii.eqb Bool.eqb].
    unfold show_info_for_remove_stmt. cbn [ji_group jentry].
    change (get "removeStmt" (json_group (GroupRemoveStmt n i))) with (Some (json_remove_stmt n i)).
    cbn [bind].
    change (get "start" (json_remove_stmt n i)) with (Some (json_start i)).
    change (get "end" (json_remove_stmt n i)) with (Some (json_end i)).
    cbn [bind]. rewrite (range_shown opens source) by auto. cbn [bind description prefix range_chars].
    revert R. unfold report. cbn [group_phrase option_map]. intros R. apply some_eq in R; rewrite <- R; clear R.
    f_equal. rewrite <- !print_paragraph. unfold print. now rewrite !app_assoc_s.
  - intros H. apply listed_in in H. destruct H as (k & n & a & K & -> & ->).
    split; [reflexivity|]. exists k, n. split; [reflexivity|]. cbn [group_ids].
    rewrite nth_error_map, K. split; [reflexivity|].
    intros opens path name source r O L R. cbn [places] in L.
    inversion L as [|? ? L1 _]; subst. unfold dispatch. cbn [ji_kind jentry String.eqb Ascii.eqb Bool.eqb].
    unfold show_info_for_replace_expr. cbn [ji_group ji_instance jentry].
    change (get "replaceExpr" (json_group (GroupReplaceExpr i l))) with (Some (json_replace_expr i l)).
    cbn [bind].
    change (get "start" (json_replace_expr i l)) with (Some (json_start i)).
    change (get "end" (json_replace_expr i l)) with (Some (json_end i)).
    cbn [bind]. rewrite (range_shown opens source) by auto. cbn [bind description prefix range_chars].
    change (get "action" (json_instance "InsertPreInc" expr_action_name (n, a)))
      with (Some (JStr (expr_action_name a))). cbn [bind text].
    revert R. unfold report. cbn [group_phrase]. rewrite K.
    destruct a; cbn [expr_action_name]; cbn [table replacements insertions String.eqb Ascii.eqb Bool.eqb bind];
    rewrite <- ?operand_text_shown; cbn [expr_meaning option_map]; intros R; apply some_eq in R; rewrite <- R; clear R;
    f_equal; rewrite <- !print_paragraph; unfold print, phrase; rewrite !app_assoc_s; reflexivity.
  - intros H. apply listed_in in H. destruct H as (k & n & a & K & -> & ->).
    split; [reflexivity|]. exists k, n. split; [reflexivity|]. cbn [group_ids].
    rewrite nth_error_map, K. split; [reflexivity|].
    intros opens path name source r O L R. cbn [places] in L.
    inversion L as [|? ? L1 L']; subst. inversion L' as [|? ? L2 L'']; subst.
    inversion L'' as [|? ? L3 _]; subst.
    unfold dispatch. cbn [ji_kind jentry String.eqb Ascii.eqb Bool.eqb].
    unfold show_info_for_replace_binary_operator. cbn [ji_group ji_instance jentry].
    change (get "replaceBinaryOperator" (json_group (GroupReplaceBinary i il ir o l)))
      with (Some (json_replace_binary i il ir o l)).
    cbn [bind].
    change (get "exprStart" (json_replace_binary i il ir o l)) with (Some (json_start i)).
    change (get "exprEnd" (json_replace_binary i il ir o l)) with (Some (json_end i)).
    change (get "lhsStart" (json_replace_binary i il ir o l)) with (Some (json_start il)).
    change (get "lhsEnd" (json_replace_binary i il ir o l)) with (Some (json_end il)).
    change (get "rhsStart" (json_replace_binary i il ir o l)) with (Some (json_start ir)).
    change (get "rhsEnd" (json_replace_binary i il ir o l)) with (Some (json_end ir)).
    cbn [bind]. rewrite !(range_shown opens source) by auto.
    cbn [bind description prefix range_chars single_line].
    change (get "action" (json_instance "ReplaceWithLHS" bin_action_name (n, a)))
      with (Some (JStr (bin_action_name a))). cbn [bind text].
    revert R. unfold report. cbn [group_phrase]. rewrite K.
    destruct a; cbn [bin_action_name]; cbn [table operators String.eqb Ascii.eqb Bool.eqb bind];
    rewrite <- ?operand_text_shown; cbn [bin_meaning option_map]; intros R;
    try discriminate; apply some_eq in R; rewrite <- R; clear R;
    f_equal; rewrite <- !print_paragraph; unfold print, phrase; rewrite !app_assoc_s; reflexivity.
  - intros H. apply listed_in in H. destruct H as (k & n & a & K & -> & ->).
    split; [reflexivity|]. exists k, n. split; [reflexivity|]. cbn [group_ids].
    rewrite nth_error_map, K. split; [reflexivity|].
    intros opens path name source r O L R. cbn [places] in L.
    inversion L as [|? ? L1 L']; subst. inversion L' as [|? ? L2 L'']; subst.
    unfold dispatch. cbn [ji_kind jentry String.eqb Ascii.eqb Bool.eqb].
    unfold show_info_for_replace_unary_operator. cbn [ji_group ji_instance jentry].
    change (get "replaceUnaryOperator" (json_group (GroupReplaceUnary i io o l)))
      with (Some (json_replace_unary i io o l)).
    cbn [bind].
    change (get "exprStart" (json_replace_unary i io o l)) with (Some (json_start i)).
    change (get "exprEnd" (json_replace_unary i io o l)) with (Some (json_end i)).
    change (get "operandStart" (json_replace_unary i io o l)) with (Some (json_start io)).
    change (get "operandEnd" (json_replace_unary i io o l)) with (Some (json_end io)).
    cbn [bind]. rewrite !(range_shown opens source) by auto.
    cbn [bind description prefix range_chars single_line].
    change (get "action" (json_instance "ReplaceWithOperand" un_action_name (n, a)))
      with (Some (JStr (un_action_name a))). cbn [bind text].
    revert R. unfold report. cbn [group_phrase]. rewrite K.
    destruct a; cbn [un_action_name];
    cbn [table pre_replacements post_replacements String.eqb Ascii.eqb Bool.eqb bind];
    rewrite <- ?operand_text_shown; cbn [un_meaning option_map]; intros R;
    try discriminate; apply some_eq in R; rewrite <- R; clear R;
    f_equal; rewrite <- !print_paragraph; unfold print, phrase; rewrite !app_assoc_s; reflexivity.
Qed.

Lemma describes_report c opt m g file source k :
  describes_group c opt m g -> k < List.length (group_ids g) ->
  exists r, report file source g k = Some r.
Proof.
  intros D L. destruct (described_phrase c opt m g source k D L) as (s & E).
  unfold report. rewrite E. eexists. reflexivity.
Qed.

Lemma loaded (opens : string -> option string) info_file text info :
  opens info_file = Some text -> json_file_text (json_info info) text ->
  (let? t := opens info_file in let? j := json_load t in assignments j) =
  Some (all_entries info).
Proof.
  intros O J. rewrite O. cbn [bind]. rewrite (load_lemma _ _ J). cbn [bind].
  apply all_assigned.
Qed.

Lemma fold_max_Z l : forall x,
  fold_left Z.max (map Z.of_nat l) (Z.of_nat x) = Z.of_nat (fold_left Nat.max l x).
Proof. induction l as [|y l IH]; intros x; cbn; [reflexivity|]. rewrite <- IH. f_equal. lia. Qed.

Lemma largest_script o fs opens info_file text prefixes show :
  opens info_file = Some text ->
  json_file_text (json_info (rs_info (run o true fs))) text ->
  query_script opens info_file prefixes true show =
  Exits 0 (string_of_Z (Z.of_nat (rs_id (run o true fs)) - 1) ++ nl).
Proof.
  intros O J. unfold query_script. rewrite (loaded _ _ _ _ O J). cbv iota.
  rewrite all_ids. pose proof (largest_lemma o fs) as H. cbv zeta in H.
  unfold largest_mutant_id in H. rewrite mapping_ids in H. rewrite <- H.
  destruct (flat_map _ _) as [|x l]; [reflexivity|]. cbn [map].
  rewrite fold_max_Z. reflexivity.
Qed.

Lemma script_ids o fs id : In id (map fst (all_entries (rs_info (run o true fs)))) <->
  (0 <= id < Z.of_nat (rs_id (run o true fs)))%Z.
Proof.
  rewrite all_ids, in_map_iff. destruct (C01_ids_lemma o fs) as [P _]. split.
  - intros (n & <- & H). apply (Permutation_in _ P) in H. apply in_seq in H. lia.
  - intros H. exists (Z.to_nat id). split; [lia|].
    apply (Permutation_in _ (Permutation_sym P)). apply in_seq. lia.
Qed.

Lemma unknown_script o fs opens info_file text mutated original id :
  opens info_file = Some text ->
  json_file_text (json_info (rs_info (run o true fs))) text ->
  ~ (0 <= id < Z.of_nat (rs_id (run o true fs)))%Z ->
  query_script opens info_file (Some (mutated, original)) false (Some id) =
  Exits 1 ("Unknown mutant id: " ++ string_of_Z id ++ nl).
Proof.
  intros O J H. unfold query_script. rewrite (loaded _ _ _ _ O J).
  unfold show_info_for_mutant. rewrite assigned_none.
  - unfold print. now rewrite app_assoc_s.
  - rewrite script_ids. exact H.
Qed.

Lemma without_prefix mutated rest :
  substring (String.length mutated)
    (String.length (mutated ++ "/" ++ rest) - String.length mutated)
    (mutated ++ "/" ++ rest) = String "/" rest.
Proof.
  rewrite length_app. replace (String.length mutated + _ - _)
    with (String.length ("/" ++ rest)) by lia.
  rewrite substring_app_skip. apply substring_all.
Qed.

(* What the script leaves of a name *)
Definition left_of (mutated n : string) : string :=
  let rest := substring (String.length mutated) (String.length n - String.length mutated) n in
  match rest with
  | String c r => if Ascii.eqb c "/" then r else rest
  | EmptyString => rest
  end.
Lemma shown_script_at o fs opens info_file text mutated original id :
  opens info_file = Some text ->
  json_file_text (json_info (rs_info (run o true fs))) text ->
  id < rs_id (run o true fs) ->
  exists n ns p g k f u m,
    In (n, ns) (rs_info (run o true fs)) /\ In p ns /\ In g (p_groups p) /\
    nth_error (group_ids g) k = Some id /\
    In f (RunSpec.distinct [] fs) /\ Run.f_name f = n /\ f_unit f = Some u /\
    In m (post (ui_tree u)) /\ describes_group (ui_ctx u) (optimise o) m g /\
    forall file source,
      left_of mutated n = file -> opens (original ++ "/" ++ file) = Some source ->
      Forall (lines_there source) (places g) ->
      exists r, report file source g k = Some r /\
        query_script opens info_file (Some (mutated, original)) false
          (Some (Z.of_nat id)) = Exits 0 r.
Proof.
  intros O J H. unfold query_script. rewrite (loaded _ _ _ _ O J). cbv iota.
  set (st := run o true fs) in *.
  assert (K : In (Z.of_nat id) (map fst (all_entries (rs_info st)))).
  { apply script_ids. fold st. lia. }
  destruct (assigned_some _ _ K) as (mi & G).
  pose proof (assigned_in _ _ _ G) as I. unfold all_entries in I.
  apply in_flat_map in I. destruct I as ([n ns] & I1 & I).
  apply in_flat_map in I. destruct I as (p & I2 & I). cbn [snd] in I2.
  apply in_flat_map in I. destruct I as (g & I3 & I).
  apply shown_group in I. destruct I as (F & k & y & E & Hk & Sh).
  apply Nat2Z.inj in E. subst y.
  destruct (entry_groups o fs n ns p g I1 I2 I3) as (f & u & m & X1 & X2 & X3 & X4 & X5).
  exists n, ns, p, g, k, f, u, m. repeat (split; [assumption|]).
  intros file source Cut Or L.
  destruct (describes_report _ _ _ _ file source k X5) as (r & R).
  { apply nth_error_Some. congruence. }
  exists r. split; [exact R|].
  unfold show_info_for_mutant. rewrite G, F.
  change (get "filename" (json_file (n, ns))) with (Some (JStr n)). cbn [bind InfoScript.text].
  cbv zeta.
  fold (left_of mutated n). rewrite Cut.
  pose proof (Sh opens (original ++ "/" ++ file) file source r Or L R) as D.
  unfold dispatch in D. cbv iota. rewrite D. reflexivity.
Qed.
Lemma shown_script o fs opens info_file text mutated original id :
  opens info_file = Some text ->
  json_file_text (json_info (rs_info (run o true fs))) text ->
  id < rs_id (run o true fs) ->
  exists n ns p g k f u m,
    In (n, ns) (rs_info (run o true fs)) /\ In p ns /\ In g (p_groups p) /\
    nth_error (group_ids g) k = Some id /\
    In f (RunSpec.distinct [] fs) /\ Run.f_name f = n /\ f_unit f = Some u /\
    In m (post (ui_tree u)) /\ describes_group (ui_ctx u) (optimise o) m g /\
    forall file source,
      n = mutated ++ "/" ++ file -> opens (original ++ "/" ++ file) = Some source ->
      Forall (lines_there source) (places g) ->
      exists r, report file source g k = Some r /\
        query_script opens info_file (Some (mutated, original)) false
          (Some (Z.of_nat id)) = Exits 0 r.
Proof.
  intros O J H. destruct (shown_script_at o fs opens info_file text mutated original id O J H)
    as (n & ns & p & g & k & f & u & m & A & B & C & D & E & F & G & I & K & Sh).
  exists n, ns, p, g, k, f, u, m. repeat (split; [assumption|]).
  intros file source -> Or L. apply Sh; try assumption.
  unfold left_of. rewrite without_prefix. reflexivity.
Qed.
