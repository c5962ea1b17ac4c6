(* A written file with coverage tracking, read and executed, for property C82. *)
From Coq Require Import Ascii String List Arith NArith ZArith Bool Lia DecimalString DecimalN.
From Verif Require Import Base Clang Gen GenExpr GenBinary GenUnary GenStmt Mutation GenSpec
  Rewriter PreludeText Prelude PreludeSpec MutTree ClashSpec CText FunText FunProof2 NameProof PreludeC CRun
  TextSpec RunSpec StmtEnd.
From Verif Require Import NestSpec Lang Cst SimSpec SimRel SimTop SimExample SimRefute LangRun MutantProof MutantSpec TextLang TextLangProof
  TextLangProof2 TextLangProof3 TextTop TextCoverSpec TextCoverProof CoverSpec CoverExample.
Import ListNotations.
Local Open Scope string_scope.

(** * Lines *)

Fixpoint split_lines (s line : string) : list string :=
  match s with
  | "" => [line]
  | String a s => if Ascii.eqb a newline then line :: split_lines s ""
                  else split_lines s (line ++ String a "")
  end.
Lemma split_digits w : string_forall is_digit w = true -> forall s line,
  split_lines (w ++ s) line = split_lines s (line ++ w).
Proof.
  induction w as [|a w IH]; intros D s line; cbn [append].
  - now rewrite app_nil_r.
  - cbn in D. apply andb_true_iff in D as [Da D]. cbn [split_lines].
    destruct (Ascii.eqb_spec a newline) as [->|_]; [discriminate Da|].
    rewrite IH by exact D. f_equal. rewrite app_app. reflexivity.
Qed.
Lemma split_ended b : forall line rest, exists l, split_lines (b ++ nl ++ rest) line = (l ++ split_lines rest "")%list.
Proof.
  induction b as [|a b IH]; intros line rest; cbn [append].
  - exists [line]. reflexivity.
  - cbn [split_lines]. destruct (Ascii.eqb a newline).
    + destruct (IH "" rest) as [l E]. exists (line :: l). rewrite E. reflexivity.
    + apply IH.
Qed.
Lemma has_line_split s x : has_line s x -> In (string_of_nat x) (split_lines s "").
Proof.
  assert (H : forall rest, In (string_of_nat x) (split_lines (string_of_nat x ++ nl ++ rest) "")).
  { intro rest. rewrite split_digits by apply number_digits. left. reflexivity. }
  intros (before & rest & -> & [->|[b ->]]); [apply H|].
  rewrite app_app. destruct (split_ended b "" (string_of_nat x ++ nl ++ rest)) as [l E].
  cbn [append] in E. rewrite E. apply in_or_app. right. apply H.
Qed.

Lemma split_all l : split_lines (lines l) "" = (map string_of_nat l ++ [""])%list.
Proof.
  induction l as [|x l IH]; [reflexivity|]. rewrite lines_cons, app_app.
  rewrite split_digits by apply number_digits. cbn [append]. cbn [nl append split_lines].
  cbn [map List.app]. rewrite <- IH. reflexivity.
Qed.
Lemma string_of_nat_inj x y : string_of_nat x = string_of_nat y -> x = y.
Proof.
  intro H. apply (f_equal NilEmpty.uint_of_string) in H. unfold string_of_nat, string_of_N in H.
  rewrite !NilEmpty.usu in H. injection H as H. apply (f_equal N.of_uint) in H.
  rewrite !DecimalN.Unsigned.of_to in H. apply Nat2N.inj. exact H.
Qed.
Lemma number_not_empty x : string_of_nat x <> "".
Proof.
  intro H. apply (f_equal NilEmpty.uint_of_string) in H. unfold string_of_nat, string_of_N in H.
  rewrite NilEmpty.usu in H. injection H as H. pose proof (DecimalN.Unsigned.of_to (N.of_nat x)) as Q.
  rewrite H in Q. cbn in Q. rewrite <- Q in H. discriminate.
Qed.
Lemma has_line_lines l x : has_line (lines l) x <-> In x l.
Proof.
  split.
  - intro H. apply has_line_split in H. rewrite split_all in H. apply in_app_or in H as [H|[H|[]]].
    + apply in_map_iff in H as (y & E & H). apply string_of_nat_inj in E. subst y. exact H.
    + exfalso. exact (number_not_empty x (eq_sym H)).
  - intro H. exact (has_line_new "" l x (or_introl eq_refl) H).
Qed.

(** * Programs *)

Definition none_in (xs : list nat) (d : disk) : bool :=
  forallb (fun x => negb (existsb (String.eqb (string_of_nat x)) (split_lines (written d) ""))) xs.
Lemma none_in_file xs d x : none_in xs d = true -> has_line (written d) x -> ~ In x xs.
Proof.
  intros H Li I. unfold none_in in H. rewrite forallb_forall in H. specialize (H _ I).
  apply has_line_split in Li. rewrite (proj2 (existsb_exists _ _)) in H; [discriminate|].
  exists (string_of_nat x). split; [exact Li|apply String.eqb_refl].
Qed.


(* A mutation at a place, wherever that is *)
Definition mutation_at (x : NestSpec.place) : mutation :=
  match x with
  | PExpr e => MutExpr e no_info
  | PBin b => MutBinary b no_info no_info no_info
  | PUn u => MutUnary u no_info no_info
  | PStmt s => MutStmt s no_info
  end.
Definition functions_text (c : ctx) (o : options) (p : list (string * cst toy)) : string :=
  concat_strings (nodup string_dec
    (flat_map (fun x => map print_mfun (site_functions c o (mutation_at x))) (source_places p))).

Lemma functions_places c o p :
  (forall x, In x (source_places p) -> clang_node c (mutation_at x)) ->
  exists ds, read_functions (functions_text c o p) = Some ds /\
             forall x, In x (source_places p) -> place_reads c o ds x.
Proof.
  intro C. set (ms := map mutation_at (source_places p)).
  assert (C' : forall m, In m ms -> clang_node c m).
  { intros m H. apply in_map_iff in H as (x & <- & H). auto. }
  unfold functions_text. set (l := nodup _ _).
  assert (Ml : forall s, In s l <-> exists m g, In m ms /\ In g (site_functions c o m) /\ s = print_mfun g).
  { intro s. unfold l. rewrite nodup_In, in_flat_map. split.
    - intros (x & Hx & H). apply in_map_iff in H as (g & <- & Hg).
      exists (mutation_at x), g. split; [apply in_map; exact Hx|auto].
    - intros (m & g & Hm & Hg & ->). apply in_map_iff in Hm as (x & <- & Hx).
      exists x. split; auto. apply in_map. exact Hg. }
  destruct (readings c o ms l C') as (ds & Rd); [intros s Hs; apply Ml; exact Hs|].
  exists ds. split.
  - apply functions_read. clear - Rd. induction Rd; constructor; auto.
    eapply reading_read; eassumption.
  - intros x Hx. apply (all_places_read c o ms l ds x C').
    + intros m g Hm Hg. apply Ml. eauto.
    + exact Rd.
    + apply NoDup_nodup.
    + unfold ms. rewrite map_map. replace x with (NestSpec.place_of (mutation_at x)) by (destruct x; reflexivity).
      apply (in_map (fun x => NestSpec.place_of (mutation_at x))). exact Hx.
Qed.

Lemma text_unrecorded_by c o ds items fuel p m d g args xs n :
  well_formed_program toy c p = true ->
  (forall x, In x (source_places p) -> place_reads c o ds x) ->
  all_states toy (text_recording items fuel) c (body_of toy c (fst (mutate_program toy c o p 0)))
    false (none_in xs) n tt m d (call toy g args) = true ->
  text_unrecorded toy c false ds items fuel
    (text_body_of toy c ds (fst (mutate_program toy c o p 0))) tt m d (call toy g args)
    (map Z.of_nat xs).
Proof.
  intros Wf Pl H m' d' t' St x Li I.
  destruct (steps_same toy (text_recording items fuel) c ds _ _ (sim_program toy c o ds p Wf Pl 0)
    _ _ _ _ _ St (called_sim _ _ _ g args)) as [u [Su _]]. cbn [fst] in Su.
  pose proof (all_states_steps _ _ _ _ _ _ _ _ _ Su _ _ _ _ _ _ _ eq_refl eq_refl H) as Q.
  apply (none_in_file _ _ _ Q Li). apply in_map_iff in I as (y & E & I).
  apply Nat2Z.inj in E. subst y. exact I.
Qed.

Lemma text_finishes_by c o ds items fuel p m d g args n :
  well_formed_program toy c p = true ->
  (forall x, In x (source_places p) -> place_reads c o ds x) ->
  all_finish toy (text_recording items fuel) c (body_of toy c (fst (mutate_program toy c o p 0)))
    false n tt m d (call toy g args) = true ->
  text_finishes toy c false ds (text_recording items fuel)
    (text_body_of toy c ds (fst (mutate_program toy c o p 0))) tt m d (call toy g args).
Proof.
  intros Wf Pl H m' d' t' St.
  pose proof (sim_program toy c o ds p Wf Pl 0) as B.
  destruct (steps_same toy (text_recording items fuel) c ds _ _ B
    _ _ _ _ _ St (called_sim _ _ _ g args)) as [u [Su S]]. cbn [fst snd] in Su, S.
  destruct (all_finish_steps _ _ _ _ _ _ _ _ Su _ _ _ _ _ _ _ eq_refl eq_refl H) as (m2 & r & d2 & Sr & F).
  destruct (steps_back toy (text_recording items fuel) c ds _ _ B _ _ _ _ _ Sr S) as [r' [Sr' S']].
  exists m2, d2, r'. split; [exact Sr'|]. rewrite (sim_final _ _ _ _ _ S'). exact F.
Qed.

Lemma text_noticed c o ds R p m d g args bs s m' v :
  well_formed_program toy c p = true ->
  (forall x, In x (source_places p) -> place_reads c o ds x) ->
  finishes toy R c (body_of toy c (fst (mutate_program toy c o p 0))) false tt m d (call toy g args)
    m' (@RV toy v) ->
  ~ finishes toy no_runtime c bs false tt m tt s m' (@RV toy v) ->
  ~ text_no_more toy c false ds R (text_body_of toy c ds (fst (mutate_program toy c o p 0))) tt m d
      (call toy g args) bs s.
Proof.
  intros Wf Pl (d' & St & F) No [H _ _ _].
  pose proof (sim_program toy c o ds p Wf Pl 0) as B.
  destruct (steps_back toy R c ds _ _ B _ _ _ _ _ St (called_sim _ _ _ g args)) as [r' [Sr' S']].
  cbn [snd fst] in *. inversion S'; subst. apply No. eapply H; [exact Sr'|reflexivity].
Qed.

(** * The prelude and the functions of a program *)

Record file_text (c : ctx) (o : options) (p : list (string * cst toy))
  (items : list CText.item) (ds : list fdef) : Prop := {
  file_prelude : parse_text (prelude_text c o 0 (snd (mutate_program toy c o p 0))) = Some items;
  file_functions : read_functions (functions_text c o p) = Some ds
}.
Lemma file_places c o p items ds : file_text c o p items ds ->
  (forall x, In x (source_places p) -> clang_node c (mutation_at x)) ->
  forall x, In x (source_places p) -> place_reads c o ds x.
Proof.
  intros [_ Q] C. destruct (functions_places c o p C) as (ds' & Q' & H). rewrite Q in Q'. injection Q' as <-. exact H.
Qed.

Definition items_of (c : ctx) (o : options) (p : list (string * cst toy)) : list CText.item :=
  match parse_text (prelude_text c o 0 (snd (mutate_program toy c o p 0))) with
  | Some l => l
  | None => []
  end.
Definition functions_of (c : ctx) (o : options) (p : list (string * cst toy)) : list fdef :=
  match read_functions (functions_text c o p) with Some l => l | None => [] end.
Definition no_lines (n : nat) : disk :=
  {| marks := repeat false n; variable := Some "covered"; openable := true; opened := [];
     written := "" |}.
Lemma no_lines_fresh n : fresh n (no_lines n).
Proof. split; try reflexivity. discriminate. Qed.
Definition before_main : strtok_state := {| saved := None; freed := fun _ => false |}.

Ltac places := let x := fresh in let H := fresh in
  intros x H; cbn in H;
  repeat match type of H with _ \/ _ => destruct H as [<-|H] | False => destruct H end;
  cbn; unfold clang_expr, clang_binary; cbn; repeat split; intros; congruence.
Lemma guarded_clang : forall x, In x (source_places guarded) -> clang_node c_ctx (mutation_at x).
Proof. places. Qed.
Lemma guarded_file o : (o = coverage \/ o = optimised) ->
  file_text c_ctx o guarded (items_of c_ctx o guarded) (functions_of c_ctx o guarded).
Proof. intros [->| ->]; split; vm_compute; reflexivity. Qed.

Lemma guarded_text_unrecorded :
  text_unrecorded toy c_ctx false (functions_of c_ctx coverage guarded)
    (items_of c_ctx coverage guarded) 30
    (text_body_of toy c_ctx (functions_of c_ctx coverage guarded)
       (fst (mutate_program toy c_ctx coverage guarded 0)))
    tt guard_off (no_lines 23) (call toy "f" []) [21%Z].
Proof.
  apply (text_unrecorded_by c_ctx coverage _ _ _ guarded guard_off (no_lines 23) "f" [] [21] 200).
  - reflexivity.
  - eapply file_places; [apply guarded_file; auto|apply guarded_clang].
  - vm_compute. reflexivity.
Qed.

(* A program as a text: the states of a thread before and what can be done. *)
Notation of_text c o p := (text_body_of toy c (functions_of c o p) (fst (mutate_program toy c o p 0))).
Definition st_of (c : ctx) (o : options) (p : list (string * cst toy)) : list (string * cval) :=
  match own_statics (items_of c o p) with Some st => st | None => [] end.

Lemma guarded_text_recorded :
  ~ text_unrecorded toy c_ctx false (functions_of c_ctx coverage guarded)
      (items_of c_ctx coverage guarded) 30 (of_text c_ctx coverage guarded)
      tt guard_off (no_lines 23) (call toy "f" []) [12%Z].
Proof.
  intro U. set (R := text_recording (items_of c_ctx coverage guarded) 30) in *.
  destruct (follow toy R c_ctx
    (body_of toy c_ctx (fst (mutate_program toy c_ctx coverage guarded 0))) false 30 tt guard_off
    (no_lines 23) (call toy "f" [])) as [[m' d'] t'] eqn:Q.
  pose proof (follow_steps _ _ _ _ _ _ _ _ _ _ _ Q) as St.
  assert (Pl : forall x, In x (source_places guarded) ->
                 place_reads c_ctx coverage (functions_of c_ctx coverage guarded) x).
  { eapply file_places; [apply guarded_file; auto|apply guarded_clang]. }
  destruct (steps_back toy R c_ctx _ _ _ (sim_program toy c_ctx coverage _ guarded eq_refl Pl 0)
    _ _ _ _ _ St (called_sim _ _ _ "f" [])) as [u [Su _]]. cbn [fst snd] in Su.
  refine (U m' d' u Su 12 _ (or_introl eq_refl)).
  assert (L : written (snd (fst (follow toy R c_ctx
    (body_of toy c_ctx (fst (mutate_program toy c_ctx coverage guarded 0))) false 30 tt guard_off
    (no_lines 23) (call toy "f" [])))) = lines (22 :: seq 0 6 ++ seq 12 3)).
  { vm_compute. reflexivity. }
  rewrite Q in L. cbn [fst snd] in L. rewrite L.
  apply (has_line_new "" (22 :: seq 0 6 ++ seq 12 3) 12); [left; reflexivity|].
  cbn. tauto.
Qed.

(* guards: the mutants of && are not recorded, and the coverage build always can finish. *)
Lemma guards_clang : forall x, In x (source_places guards) -> clang_node c_ctx (mutation_at x).
Proof. places. Qed.
Lemma guards_file o : (o = coverage \/ o = optimised) ->
  file_text c_ctx o guards (items_of c_ctx o guards) (functions_of c_ctx o guards).
Proof. intros [->| ->]; split; vm_compute; reflexivity. Qed.
Definition guards_number : nat := snd (mutate_program toy c_ctx optimised guards 0).
Lemma guards_text_unrecorded :
  text_unrecorded toy c_ctx false (functions_of c_ctx coverage guards)
    (items_of c_ctx coverage guards) 40 (of_text c_ctx coverage guards)
    tt guard_off (no_lines guards_number) (call toy "f" []) [18%Z; 20%Z].
Proof.
  apply (text_unrecorded_by c_ctx coverage _ _ _ guards guard_off (no_lines guards_number) "f" [] [18; 20] 200).
  - reflexivity.
  - eapply file_places; [apply guards_file; auto|apply guards_clang].
  - vm_compute. reflexivity.
Qed.
Lemma guards_text_finishes :
  text_finishes toy c_ctx false (functions_of c_ctx coverage guards)
    (text_recording (items_of c_ctx coverage guards) 40) (of_text c_ctx coverage guards)
    tt guard_off (no_lines guards_number) (call toy "f" []).
Proof.
  apply (text_finishes_by c_ctx coverage _ _ _ guards guard_off _ "f" [] 200).
  - reflexivity.
  - eapply file_places; [apply guards_file; auto|apply guards_clang].
  - vm_compute. reflexivity.
Qed.

(* b && x / y as in C76 *)
Lemma divides_clang : forall x, In x (source_places divides_later) -> clang_node c_ctx (mutation_at x).
Proof. places. Qed.
Lemma divides_file o : (o = coverage \/ o = optimised) ->
  file_text c_ctx o divides_later (items_of c_ctx o divides_later) (functions_of c_ctx o divides_later).
Proof. intros [->| ->]; split; vm_compute; reflexivity. Qed.
Definition divides_number : nat := snd (mutate_program toy c_ctx optimised divides_later 0).
Lemma divides_text_unrecorded :
  text_unrecorded toy c_ctx false (functions_of c_ctx coverage divides_later)
    (items_of c_ctx coverage divides_later) 40 (of_text c_ctx coverage divides_later)
    tt by_zero (no_lines divides_number) (call toy "f" []) [24%Z].
Proof.
  apply (text_unrecorded_by c_ctx coverage _ _ _ divides_later by_zero (no_lines divides_number) "f" [] [24] 200).
  - reflexivity.
  - eapply file_places; [apply divides_file; auto|apply divides_clang].
  - vm_compute. reflexivity.
Qed.
Lemma divides_text_noticed :
  ~ text_no_more toy c_ctx false (functions_of c_ctx optimised divides_later)
      (text_selecting (items_of c_ctx optimised divides_later) 40 (Some "24"))
      (of_text c_ctx optimised divides_later) tt by_zero
      (before_main, st_of c_ctx optimised divides_later) (call toy "f" [])
      (body_of toy c_ctx divides_later) (call toy "f" []).
Proof.
  apply (text_noticed _ _ _ _ _ _ _ _ _ _ _ by_zero (I 0)).
  - reflexivity.
  - eapply file_places; [apply divides_file; auto|apply divides_clang].
  - apply (first_run_finishes _ _ _ _ _ 200). vm_compute. reflexivity.
  - apply (never_ends _ _ _ _ _ _ 200). vm_compute. reflexivity.
Qed.

(* bool b = 2 != 1; print(a);  as in C76 *)
Lemma shadowed_clang : forall x, In x (source_places shadowed) -> clang_node cpp_ctx (mutation_at x).
Proof. places. Qed.
Lemma shadowed_file o : (o = coverage \/ o = optimised) ->
  file_text cpp_ctx o shadowed (items_of cpp_ctx o shadowed) (functions_of cpp_ctx o shadowed).
Proof. intros [->| ->]; split; vm_compute; reflexivity. Qed.
Definition shadowed_number : nat := snd (mutate_program toy cpp_ctx optimised shadowed 0).
Lemma shadowed_text_unrecorded :
  text_unrecorded toy cpp_ctx false (functions_of cpp_ctx coverage shadowed)
    (items_of cpp_ctx coverage shadowed) 40 (of_text cpp_ctx coverage shadowed)
    tt zero (no_lines shadowed_number) (call toy "f" []) [2%Z].
Proof.
  apply (text_unrecorded_by cpp_ctx coverage _ _ _ shadowed zero (no_lines shadowed_number) "f" [] [2] 200).
  - reflexivity.
  - eapply file_places; [apply shadowed_file; auto|apply shadowed_clang].
  - vm_compute. reflexivity.
Qed.
Lemma shadowed_text_noticed :
  ~ text_no_more toy cpp_ctx false (functions_of cpp_ctx optimised shadowed)
      (text_selecting (items_of cpp_ctx optimised shadowed) 40 (Some "2"))
      (of_text cpp_ctx optimised shadowed) tt zero
      (before_main, st_of cpp_ctx optimised shadowed) (call toy "f" [])
      (body_of toy cpp_ctx shadowed) (call toy "f" []).
Proof.
  apply (text_noticed _ _ _ _ _ _ _ _ _ _ _ (start (I 0) (I 1) (P 0) (I 0) (I 0)) (I 0)).
  - reflexivity.
  - eapply file_places; [apply shadowed_file; auto|apply shadowed_clang].
  - apply (first_run_finishes _ _ _ _ _ 200). vm_compute. reflexivity.
  - apply (never_ends _ _ _ _ _ _ 200). vm_compute. reflexivity.
Qed.

Lemma logical_text_refuted : exists c p items ds st itemsC dsC num fuel v zs w d g args m,
  file_text c optimised p items ds /\ file_text c coverage p itemsC dsC /\
  own_statics items = Some st /\ num = snd (mutate_program toy c optimised p 0) /\
  (forall x, In x (source_places p) -> clang_node c (mutation_at x)) /\
  enables 0 v zs /\ enough v fuel /\ freed w 1 = false /\ fresh num d /\ num < fuel /\
  well_formed_program toy c p = true /\ productive_program toy c coverage p = true /\
  text_unrecorded toy c false dsC itemsC fuel
    (text_body_of toy c dsC (fst (mutate_program toy c coverage p 0))) tt m d
    (SimSpec.call toy g args) zs /\
  ~ text_no_more toy c false ds (text_selecting items fuel v)
      (text_body_of toy c ds (fst (mutate_program toy c optimised p 0))) tt m (w, st)
      (SimSpec.call toy g args) (body_of toy c p) (SimSpec.call toy g args).
Proof.
  exists c_ctx, divides_later, (items_of c_ctx optimised divides_later), (functions_of c_ctx optimised divides_later),
    (st_of c_ctx optimised divides_later), (items_of c_ctx coverage divides_later), (functions_of c_ctx coverage divides_later),
    divides_number, 40, (Some "24"), [24%Z], before_main, (no_lines divides_number), "f", [], by_zero.
  split; [apply divides_file; auto|]. split; [apply divides_file; auto|].
  split; [vm_compute; reflexivity|]. split; [reflexivity|]. split; [apply divides_clang|].
  split; [exact enables_24|]. split; [cbn; lia|]. split; [reflexivity|].
  split; [apply no_lines_fresh|]. split; [apply Nat.ltb_lt; vm_compute; reflexivity|].
  split; [reflexivity|]. split; [vm_compute; reflexivity|].
  split; [exact divides_text_unrecorded|exact divides_text_noticed].
Qed.

Lemma shadowed_text_refuted : exists c p items ds st itemsC dsC num fuel v zs w d g args m,
  file_text c optimised p items ds /\ file_text c coverage p itemsC dsC /\
  own_statics items = Some st /\ num = snd (mutate_program toy c optimised p 0) /\
  (forall x, In x (source_places p) -> clang_node c (mutation_at x)) /\
  enables 0 v zs /\ enough v fuel /\ freed w 1 = false /\ fresh num d /\ num < fuel /\
  well_formed_program toy c p = true /\ (forall i, In i (logical_of toy c true p 0) -> ~ In (Z.of_nat (0 + i)) zs) /\
  text_unrecorded toy c false dsC itemsC fuel
    (text_body_of toy c dsC (fst (mutate_program toy c coverage p 0))) tt m d
    (SimSpec.call toy g args) zs /\
  ~ text_no_more toy c false ds (text_selecting items fuel v)
      (text_body_of toy c ds (fst (mutate_program toy c optimised p 0))) tt m (w, st)
      (SimSpec.call toy g args) (body_of toy c p) (SimSpec.call toy g args).
Proof.
  exists cpp_ctx, shadowed, (items_of cpp_ctx optimised shadowed), (functions_of cpp_ctx optimised shadowed),
    (st_of cpp_ctx optimised shadowed), (items_of cpp_ctx coverage shadowed), (functions_of cpp_ctx coverage shadowed),
    shadowed_number, 40, (Some "2"), [2%Z], before_main, (no_lines shadowed_number), "f", [], zero.
  split; [apply shadowed_file; auto|]. split; [apply shadowed_file; auto|].
  split; [vm_compute; reflexivity|]. split; [reflexivity|]. split; [apply shadowed_clang|].
  split; [exact enables_2|]. split; [cbn; lia|]. split; [reflexivity|].
  split; [apply no_lines_fresh|]. split; [apply Nat.ltb_lt; vm_compute; reflexivity|].
  split; [reflexivity|]. split; [intros i H; vm_compute in H; destruct H|].
  split; [exact shadowed_text_unrecorded|exact shadowed_text_noticed].
Qed.
