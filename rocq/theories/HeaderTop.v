(* C72: the directives of written files. *)
From Coq Require Import String Ascii List Arith NArith ZArith Bool Lia.
From Verif Require Import Base Clang Gen GenExpr GenBinary GenUnary GenStmt Mutation MutTree TreeSpec
  Rewriter RewriterProof PreludeText Run RunSpec RunProof RunProof2 CText FunText NameSpec NameProof
  LineSpec LineProof LineTop HeaderSpec HeaderProof HeaderRun.
Import ListNotations.
Local Open Scope string_scope.

Lemma block_directives_read c o i n :
  directives_of (prelude_text c o i n) = block_directives (cpp c) (track o).
Proof.
  unfold prelude_text. destruct (cpp c), (track o).
  - apply tracking_cpp_read.
  - apply regular_cpp_read.
  - apply tracking_c_read.
  - apply regular_c_read.
Qed.
(* it begins with a comment *)
Lemma comment_first c s l p : out_of_directive p -> Ascii.eqb c "010" = false -> Ascii.eqb c "#" = false ->
  lines_from {| found := l; place := p |} (String c s) = lines_from {| found := l; place := InOtherLine |} s.
Proof.
  intros P A B. cbn [lines_from]. unfold line_char. cbn [place found].
  destruct P as [->| ->]; rewrite A; rewrite ?B; reflexivity.
Qed.
Lemma comment_starts s l p : out_of_directive p ->
  lines_from {| found := l; place := p |} (prelude_start_comment ++ s) =
  lines_from {| found := l; place := LineStart |} (prelude_start_comment ++ s).
Proof.
  intros P. unfold prelude_start_comment. rewrite !sapp_assoc. cbn [append].
  rewrite (comment_first _ _ l p P) by reflexivity.
  now rewrite (comment_first _ _ l LineStart (or_introl eq_refl)) by reflexivity.
Qed.
Lemma block_read c o i n fns l p : out_of_directive p -> hashes fns = 0 ->
  found (lines_from {| found := l; place := p |} (prelude_text c o i n ++ fns)) =
  (rev (block_directives (cpp c) (track o)) ++ l)%list.
Proof.
  intros P H. unfold prelude_text. rewrite sapp_assoc, comment_starts by exact P. rewrite <- sapp_assoc.
  fold (prelude_text c o i n). rewrite lines_app.
  pose proof (ends_line_start (prelude_text c o i n) {| found := l; place := LineStart |} (prelude_ends c o i n)) as E.
  rewrite (eta (lines_from _ (prelude_text c o i n))), E, hashless_lines by (assumption || now left).
  rewrite found_shift. cbn [found]. f_equal.
  rewrite <- (block_directives_read c o i n). unfold directives_of. now rewrite rev_involutive.
Qed.

Lemma C72_lemma o bt fs n t :
  (forall f, In f fs -> well_placed f) ->
  In (n, t) (rs_written (run o bt fs)) ->
  exists f u, In f fs /\ Run.f_name f = n /\ f_unit f = Some u /\
    let text := f_text f in
    (in_one_line u text -> directives_left_alone u text ->
     exists ds1 ds2,
       ds1 = directives_of (substring 0 (ui_prelude_offset u) text) /\
       directives_of text = (ds1 ++ ds2)%list /\
       directives_of t = (ds1 ++ block_directives (cpp (ui_ctx u)) (track o) ++ ds2)%list).
Proof.
  intros W H. rewrite run_written in H. apply output_split in H.
  destruct H as (d1 & f & u & d2 & E & U & N & H). simpl in H.
  set (id := list_sum (map (offers o) d1)) in *.
  unfold handle_unit in H. rewrite apply_mutations_id in H.
  destruct (apply_mutations_effects (ui_ctx u) o true id (tidy (ui_tree u))) as (Ee & Ed).
  rewrite Ee, Ed in H.
  destruct (Nat.eqb_spec id (id + tree_total (ui_ctx u) (optimise o) (tidy (ui_tree u))))
    as [C|C]; [discriminate|].
  cbn [h_output] in H. injection H as <-.
  assert (If : In f fs).
  { assert (In f (RunSpec.distinct [] fs)) as I by (rewrite E; apply in_elt). apply distinct_in in I. tauto. }
  rewrite post_tidy in *.
  set (num := id + tree_total (ui_ctx u) (optimise o) (tidy (ui_tree u)) - id) in *.
  set (decls := map print_mfun (flat_map (site_functions (ui_ctx u) o) (post (ui_tree u)))) in *.
  exists f, u. split; [assumption|]. split; [assumption|]. split; [assumption|].
  intros text (One & Rw) (Dir & Place & Hs & Hb & Hc). change (f_text f) with text.
  set (c := ui_ctx u) in *. set (off := ui_prelude_offset u) in *.
  set (sites := edits_from c o id id (post (ui_tree u))) in *.
  set (fns := concat_strings (rev (sorted_decls decls))).
  assert (Wp : off <= String.length text) by (now apply W).
  pose (es := (sites ++ ui_rewrites u)%list). rewrite app_assoc. fold es.
  assert (Fns : hashes fns = 0).
  { apply hashes_concat. intros d Hd.
    rewrite <- in_rev in Hd. rewrite sorted_decls_in in Hd. unfold decls in Hd. apply in_map_iff in Hd.
    destruct Hd as (g & <- & Hd). apply in_flat_map in Hd. destruct Hd as (m & _ & Hd).
    now apply (site_fun_hashless c o m). }
  assert (Ends : ends_line (prelude_text c o id num ++ fns)).
  { apply concat_ends; [apply prelude_ends|]. apply Forall_forall. intros d Hd.
    rewrite <- in_rev in Hd. rewrite sorted_decls_in in Hd. unfold decls in Hd. apply in_map_iff in Hd.
    destruct Hd as (g & <- & Hd). apply in_flat_map in Hd. destruct Hd as (m & _ & Hd).
    now apply (function_ends c o m). }
  assert (T : rewrite text (es ++ prelude_edits c o id num off decls)%list =
              render (firstn off (cs text es)) ++ (prelude_text c o id num ++ fns) ++ render (skipn off (cs text es))).
  { unfold rewrite. rewrite apply_edits_app, prelude_edits_apply.
    rewrite (update_nth_ext _ _ (fun x => ((prelude_text c o id num ++ fns) ++ fst x, snd x)))
      by (intros; unfold fns; rewrite sapp_assoc; reflexivity).
    apply render_prepend. unfold cs. rewrite apply_edits_length, cells_length. lia. }
  rewrite T. clear T.
  assert (Kept : forall k, kept u k -> untouched_char es k).
  { intros k (K1 & K2) e He.
    destruct (covers e k) eqn:V; [|reflexivity]. exfalso.
    unfold es in He. apply in_app_iff in He. destruct He as [He|He].
    - apply sites_in in He. destruct He as (m & id' & Im & He).
      apply (K1 m Im). eapply site_covers; eassumption.
    - apply (K2 e He). destruct e as [a s|a s|a len s]; try discriminate V. cbn [covers in_constant] in *.
      apply orb_true_iff in V. destruct V as [V|V]; [left; now apply Nat.eqb_eq|right].
      apply andb_true_iff in V. destruct V as [A B]. apply Nat.leb_le in A. apply Nat.ltb_lt in B. lia. }
  assert (Nothing : forall i j, untouched u i j -> forall k, i <= k <= j -> nothing_at es k).
  { intros i j Un k Hk e He. destruct (Un k Hk) as (_ & U1 & U2).
    unfold es in He. apply in_app_iff in He. destruct He as [He|He].
    - apply sites_in in He. destruct He as (m & id' & Im & He).
      pose proof (fun Q => U1 m Im (site_inserted_at c o m id id' e k He Q)) as X.
      destruct e; [exact X|exact X|exact I].
    - apply U2 in He. destruct e; [exact He|exact He|exact I]. }
  assert (Safe : forall e, In e es -> safe (inserted_text e)).
  { intros e He. unfold es in He. apply in_app_iff in He. destruct He as [He|He].
    - apply sites_in in He. destruct He as (m & id' & Im & He). eapply site_safe; eassumption.
    - apply safe_plain; [now apply Rw|]. pose proof (fun i => Hc e i He) as X. revert X. clear.
      induction (inserted_text e) as [|x s IH]; intros X; [reflexivity|]. cbn [hashes].
      rewrite IH by (intros i; apply (X (S i))).
      destruct (Ascii.eqb_spec x hash) as [->|]; [|reflexivity]. exfalso. now apply (X 0). }
  assert (Left : forall k s, k <= String.length text -> place (original text k) = InDirectiveLine s ->
                  (untouched_char es k /\ nothing_at es k) /\ off <> k).
  { intros k s L P. destruct (original_directive text k s L P) as (i & L1 & L2 & L3 & L4).
    destruct (Dir i k L2 L3 ltac:(lia) L L4) as (Un & Po). split; [split|].
    - apply Kept, (Un k). lia.
    - apply (Nothing i k Un). lia.
    - lia. }
  assert (Begin : forall k, k <= String.length text -> line_begins text k -> get k text = Some hash ->
                  nothing_at es k).
  { intros k L B G. destruct (Dir k k B G ltac:(lia) L ltac:(lia)) as (Un & _). apply (Nothing k k Un). lia. }
  assert (Feeds : forall k, get k text = Some line_feed -> untouched_char es k) by (intros k G; apply Kept, One, G).
  assert (Hash : forall k, get k text = Some hash -> untouched_char es k) by (intros k G; apply Kept, Hs, G).
  assert (Before : forall k, get (S k) text = Some hash -> untouched_char es k) by (intros k G; apply Kept, Hb, G).
  assert (Left' : forall k s, k <= String.length text -> place (original text k) = InDirectiveLine s ->
                  untouched_char es k /\ nothing_at es k) by (intros k s L P; now destruct (Left k s L P)).
  (* up to the block *)
  assert (A0 : alike_hash text [] [] 0 start).
  { unfold alike_hash, alike. rewrite original_0. cbn [start place found]. split; [|reflexivity].
    split; [now exists []|now left]. }
  pose proof (alike_cells text es [] [] Safe Left' Begin Feeds Hash Before off 0 start Wp A0) as A1.
  cbn [Nat.add skipn] in A1. destruct A1 as [[(l & F1 & F2) P1] _].
  rewrite app_nil_r in F1. cbn [app] in F2. rewrite app_nil_r in F2.
  assert (P2 : out_of_directive (place (lines_from start (render (firstn off (cs text es)))))).
  { destruct (place (original text off)) as [|s|] eqn:Q; [exact P1| |exact P1].
    exfalso. now apply (Left off s Wp Q). }
  set (r1 := lines_from start (render (firstn off (cs text es)))) in *.
  set (r2 := lines_from r1 (prelude_text c o id num ++ fns)).
  assert (R2 : r2 = {| found := (rev (block_directives (cpp c) (track o)) ++ l)%list; place := LineStart |}).
  { unfold r2. rewrite (eta (lines_from r1 _)), (ends_line_start _ _ Ends). f_equal.
    rewrite (eta r1), block_read by assumption. now rewrite F2. }
  (* after it *)
  assert (A2 : alike_hash text (rev (block_directives (cpp c) (track o))) l off r2).
  { unfold alike_hash, alike. rewrite R2. cbn [place found]. split; [split|].
    - exists []. now rewrite F1.
    - destruct (place (original text off)) as [|s|] eqn:Q; [now left| |now left].
      exfalso. now apply (Left off s Wp Q).
    - intros G. rewrite (original_line_start text off Wp (Place G)). reflexivity. }
  destruct (alike_end text es _ _ Safe Left' Begin Feeds Hash Before off r2 Wp A2) as (l' & G1 & G2).
  exists (rev l), (rev l'). unfold directives_of. fold start. split; [|split].
  - fold (original text off). now rewrite F1.
  - now rewrite G1, rev_app_distr.
  - rewrite lines_app. fold r1. rewrite (lines_app (prelude_text c o id num ++ fns)). fold r2. rewrite G2, !rev_app_distr, rev_involutive.
    now rewrite <- app_assoc.
Qed.

Lemma first_included_app h a b : ~ In ("include " ++ h) a ->
  first_included h (a ++ b) = option_map (app a) (first_included h b).
Proof.
  induction a as [|d a IH]; intros N.
  - cbn. now destruct (first_included h b).
  - change ((d :: a) ++ b)%list with (d :: (a ++ b))%list. cbn [first_included].
    destruct (String.eqb_spec d ("include " ++ h)) as [->|]; [exfalso; apply N; now left|].
    rewrite IH by (intros X; apply N; now right). now destruct (first_included h b).
Qed.
Lemma first_included_left h a b : In ("include " ++ h) a -> first_included h (a ++ b) = first_included h a.
Proof.
  induction a as [|d a IH]; intros I; [contradiction|].
  change ((d :: a) ++ b)%list with (d :: (a ++ b))%list. cbn [first_included].
  destruct (String.eqb_spec d ("include " ++ h)) as [->|D]; [reflexivity|].
  destruct I as [I|I]; [contradiction|]. now rewrite IH.
Qed.
Lemma C72_headers_lemma o bt fs n t :
  (forall f, In f fs -> well_placed f) ->
  In (n, t) (rs_written (run o bt fs)) ->
  exists f u, In f fs /\ Run.f_name f = n /\ f_unit f = Some u /\
    let text := f_text f in
    let block := block_directives (cpp (ui_ctx u)) (track o) in
    (in_one_line u text -> directives_left_alone u text ->
     forall h ds, first_included h (directives_of text) = Some ds ->
       (In ("include " ++ h) (directives_of (substring 0 (ui_prelude_offset u) text)) ->
        first_included h (directives_of t) = Some ds) /\
       (~ In ("include " ++ h) (directives_of (substring 0 (ui_prelude_offset u) text)) ->
        ~ In ("include " ++ h) block ->
        exists ds', ds = (directives_of (substring 0 (ui_prelude_offset u) text) ++ ds')%list /\
          first_included h (directives_of t) =
          Some (directives_of (substring 0 (ui_prelude_offset u) text) ++ block ++ ds')%list)).
Proof.
  intros W H. destruct (C72_lemma o bt fs n t W H) as (f & u & I & N & U & R).
  exists f, u. split; [exact I|]. split; [exact N|]. split; [exact U|]. intros text block One Lf h ds F.
  destruct (R One Lf) as (ds1 & ds2 & E1 & E2 & E3). fold text in E1, E2. fold block in E3.
  rewrite <- E1, E3. rewrite E2 in F. split.
  - intros I1. rewrite first_included_left in * by exact I1. exact F.
  - intros I1 I2. rewrite first_included_app in F by exact I1.
    destruct (first_included h ds2) as [q|] eqn:Q; [|discriminate F]. cbn [option_map] in F. injection F as <-.
    exists q. split; [reflexivity|]. rewrite !first_included_app, Q by assumption. reflexivity.
Qed.

Lemma included_grows defined h ds : forall p, In h (included p) ->
  In h (included (fold_left (directive defined) ds p)).
Proof.
  induction ds as [|d ds IH]; intros p I; [exact I|]. cbn [fold_left]. apply IH. unfold directive.
  destruct (until_space d) as [w r].
  destruct (String.eqb w "include"); [destruct (compiled p); [now right|exact I]|].
  destruct (String.eqb w "define"); [destruct (compiled p); exact I|].
  destruct (String.eqb w "ifdef"); [exact I|]. destruct (conditions p) as [|[x y] l]; [exact I|].
  destruct (String.eqb w "elif"); [exact I|]. destruct (String.eqb w "else"); [exact I|].
  destruct (String.eqb w "endif"); exact I.
Qed.
Lemma bool_provided defined ds s :
  directives_of s = ("include <inttypes.h>" :: "include <stdatomic.h>" :: "include <stdbool.h>" :: ds)%list ->
  In "bool" (provided false defined s).
Proof.
  intros E. unfold provided, preprocessed. rewrite E.
  set (p := fold_left _ _ _).
  assert (I : In "<stdbool.h>" (included p)).
  { unfold p. rewrite !preprocessed_cons. apply included_grows. vm_compute. now left. }
  apply in_app_iff. left. apply in_flat_map. exists "<stdbool.h>". split; [exact I|]. now left.
Qed.
