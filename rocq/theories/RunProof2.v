(* Facts about whole runs. *)
From Coq Require Import String Ascii List Arith Bool Permutation Lia.
From Verif Require Import Base Clang Gen GenExpr GenBinary GenUnary GenStmt Mutation MutTree
  TreeSpec MutTreeProof Rewriter PreludeText Run RunSpec RunProof.
Import ListNotations.

(* process_file for a file that is new *)
Definition step_new (o : options) (bt : bool)
  (s : nat * list (string * list pnode) * list (string * string)) (f : source_file) :=
  let '(id, info, wr) := s in
  match f_unit f with
  | None => s
  | Some u =>
      let h := handle_unit o bt (f_text f) u id in
      (h_next h,
       match h_info h with Some ns => info ++ [(f_name f, ns)] | None => info end,
       match h_output h with Some t => wr ++ [(f_name f, t)] | None => wr end)
  end.

Lemma string_mem_in s l : string_mem s l = true <-> In s l.
Proof.
  unfold string_mem. rewrite existsb_exists. split.
  - intros (x & H & E). apply String.eqb_eq in E. subst. exact H.
  - intros H. exists s. split; [exact H|]. apply String.eqb_refl.
Qed.

Lemma run_from_core o bt fs : forall st,
  core (run_from o bt st fs) =
  fold_left (step_new o bt) (distinct (rs_processed st) fs) (core st).
Proof.
  unfold run_from. induction fs as [|f fs IH]; intros st; [reflexivity|].
  cbn [fold_left distinct]. rewrite IH. clear IH. unfold process_file.
  destruct (in_dec string_dec (f_name f) (rs_processed st)) as [I|I].
  - apply string_mem_in in I. rewrite I. reflexivity.
  - destruct (string_mem (f_name f) (rs_processed st)) eqn:E.
    { apply string_mem_in in E. contradiction. }
    cbn [fold_left]. unfold step_new at 3. cbn [core].
    destruct (f_unit f); reflexivity.
Qed.

Lemma run_from_processed o bt fs : forall st n,
  In n (rs_processed (run_from o bt st fs)) <-> In n (rs_processed st) \/ In n (map f_name fs).
Proof.
  unfold run_from. induction fs as [|f fs IH]; intros st n; simpl; [tauto|].
  rewrite IH. unfold process_file.
  destruct (string_mem (f_name f) (rs_processed st)) eqn:E.
  - apply string_mem_in in E. split; [tauto|]. intros [H|[<-|H]]; auto.
  - destruct (f_unit f); simpl; tauto.
Qed.

Lemma run_core o bt fs :
  core (run o bt fs) = fold_left (step_new o bt) (distinct [] fs) (0, [], []).
Proof. apply run_from_core. Qed.

(* The files of a list with the first id that each gets *)
Fixpoint starts (o : options) (id : nat) (ds : list source_file)
  : list (source_file * nat) :=
  match ds with
  | [] => []
  | f :: ds => (f, id) :: starts o (id + offers o f) ds
  end.

Definition entry_of (o : options) (x : source_file * nat) : list (string * list pnode) :=
  let (f, id) := x in
  match f_unit f with
  | None => []
  | Some u => if Nat.eqb (offers o f) 0 then []
              else [(f_name f, flat 0 (group_tree (ui_ctx u) (optimise o) id (tidy (ui_tree u))))]
  end.

Definition output_of (o : options) (x : source_file * nat) : list (string * string) :=
  let (f, id) := x in
  match f_unit f with
  | None => []
  | Some u => match h_output (handle_unit o true (f_text f) u id) with
              | Some t => [(f_name f, t)]
              | None => []
              end
  end.

Lemma handle_info_false o text u id : h_info (handle_unit o false text u id) = None.
Proof. unfold handle_unit. destruct (Nat.eqb _ _); reflexivity. Qed.

Lemma fold_step o bt ds : forall id info wr,
  fold_left (step_new o bt) ds (id, info, wr) =
  (id + list_sum (map (offers o) ds),
   info ++ (if bt then flat_map (entry_of o) (starts o id ds) else []),
   wr ++ flat_map (output_of o) (starts o id ds)).
Proof.
  induction ds as [|f ds IH]; intros id info wr.
  - simpl. rewrite Nat.add_0_r. destruct bt; rewrite !app_nil_r; reflexivity.
  - cbn [fold_left starts flat_map map list_sum fold_right].
    change (fold_right Nat.add 0 (map (offers o) ds)) with (list_sum (map (offers o) ds)).
    unfold step_new at 2. unfold entry_of at 1, output_of at 1.
    destruct (f_unit f) as [u|] eqn:U.
    + assert (T : offers o f = tree_total (ui_ctx u) (optimise o) (ui_tree u))
        by (unfold offers; rewrite U; reflexivity).
      destruct (handle_unit_bt o bt true (f_text f) u id) as (En & Eo).
      rewrite IH. rewrite En, handle_next, <- T, Eo, Nat.add_assoc. f_equal; [f_equal|].
      * destruct bt.
        -- rewrite handle_info, <- T. destruct (Nat.eqb (offers o f) 0); [reflexivity|].
           rewrite <- app_assoc. reflexivity.
        -- rewrite handle_info_false. reflexivity.
      * destruct (h_output (handle_unit o true (f_text f) u id)); [rewrite <- app_assoc|]; reflexivity.
    + assert (T : offers o f = 0) by (unfold offers; rewrite U; reflexivity).
      rewrite T. rewrite IH. rewrite !Nat.add_0_r. reflexivity.
Qed.

Lemma run_closed o bt fs :
  core (run o bt fs) =
  (list_sum (map (offers o) (distinct [] fs)),
   if bt then flat_map (entry_of o) (starts o 0 (distinct [] fs)) else [],
   flat_map (output_of o) (starts o 0 (distinct [] fs))).
Proof. rewrite run_core, fold_step. destruct bt; reflexivity. Qed.

Lemma run_id o bt fs : rs_id (run o bt fs) = list_sum (map (offers o) (distinct [] fs)).
Proof. exact (f_equal (fun c => fst (fst c)) (run_closed o bt fs)). Qed.
Lemma run_info o fs :
  rs_info (run o true fs) = flat_map (entry_of o) (starts o 0 (distinct [] fs)).
Proof. exact (f_equal (fun c => snd (fst c)) (run_closed o true fs)). Qed.
Lemma run_written o bt fs :
  rs_written (run o bt fs) = flat_map (output_of o) (starts o 0 (distinct [] fs)).
Proof. exact (f_equal snd (run_closed o bt fs)). Qed.

(** * C01 *)

Definition tree_of (o : options) (x : source_file * nat) : list (tree group) :=
  let (f, id) := x in
  match f_unit f with
  | None => []
  | Some u => if Nat.eqb (offers o f) 0 then []
              else [group_tree (ui_ctx u) (optimise o) id (tidy (ui_tree u))]
  end.

Lemma offers_unit o f u :
  f_unit f = Some u -> offers o f = tree_total (ui_ctx u) (optimise o) (tidy (ui_tree u)).
Proof. intros U. unfold offers. rewrite U, tree_total_tidy. reflexivity. Qed.

Lemma tree_of_ids o f id : flat_map tree_ids (tree_of o (f, id)) = seq id (offers o f).
Proof.
  unfold tree_of. destruct (f_unit f) as [u|] eqn:U.
  - rewrite (offers_unit _ _ _ U).
    destruct (Nat.eqb_spec (tree_total (ui_ctx u) (optimise o) (tidy (ui_tree u))) 0) as [->|N];
      [reflexivity|].
    simpl. rewrite app_nil_r. apply group_tree_ids.
  - unfold offers. rewrite U. reflexivity.
Qed.

Lemma trees_ids o ds : forall id,
  flat_map tree_ids (flat_map (tree_of o) (starts o id ds)) =
  seq id (list_sum (map (offers o) ds)).
Proof.
  induction ds as [|f ds IH]; intros id; [reflexivity|].
  cbn [starts flat_map map list_sum fold_right]. rewrite flat_map_app, tree_of_ids, IH.
  change (fold_right Nat.add 0 (map (offers o) ds)) with (list_sum (map (offers o) ds)).
  rewrite seq_app. reflexivity.
Qed.

Lemma entries_trees o ds : forall id,
  Forall2 (fun e T => snd e = flat 0 T)
    (flat_map (entry_of o) (starts o id ds)) (flat_map (tree_of o) (starts o id ds)).
Proof.
  induction ds as [|f ds IH]; intros id; [constructor|].
  cbn [starts flat_map]. apply Forall2_app; [|apply IH].
  unfold entry_of, tree_of. destruct (f_unit f); [|constructor].
  destruct (Nat.eqb _ _); constructor; [reflexivity|constructor].
Qed.

Lemma Forall2_imp {A B} (P Q : A -> B -> Prop) l1 l2 :
  (forall x y, P x y -> Q x y) -> Forall2 P l1 l2 -> Forall2 Q l1 l2.
Proof. intros H. induction 1; constructor; auto. Qed.

Lemma flat_decodes0 T : decodes (flat 0 T) 0 T.
Proof.
  pose proof (flat_decodes T 0 [] [] eq_refl) as H. simpl in H. rewrite app_nil_r in H.
  exact H.
Qed.

Lemma C01_trees_lemma o fs :
  let st := run o true fs in
  exists Ts,
    Forall2 (fun e T => decodes (snd e) 0 T) (rs_info st) Ts /\
    flat_map tree_ids Ts = seq 0 (rs_id st).
Proof.
  cbn zeta. exists (flat_map (tree_of o) (starts o 0 (distinct [] fs))). split.
  - rewrite run_info. eapply Forall2_imp; [|apply entries_trees].
    intros e T E. cbn beta in E. rewrite E. apply flat_decodes0.
  - rewrite trees_ids, run_id. reflexivity.
Qed.

Lemma entries_perm o ds id :
  Permutation (flat_map (fun e => entry_ids (snd e)) (flat_map (entry_of o) (starts o id ds)))
    (seq id (list_sum (map (offers o) ds))).
Proof.
  rewrite <- trees_ids. pose proof (entries_trees o ds id) as H.
  induction H as [|e T es Ts E _ IH]; [constructor|].
  simpl. rewrite E. apply Permutation_app; [apply flat_entry_ids|exact IH].
Qed.

Lemma starts_app o d1 d2 : forall id,
  starts o id (d1 ++ d2) = starts o id d1 ++ starts o (id + list_sum (map (offers o) d1)) d2.
Proof.
  induction d1 as [|f d1 IH]; intros id; simpl; [rewrite Nat.add_0_r; reflexivity|].
  rewrite IH, Nat.add_assoc. reflexivity.
Qed.

(* An entry of the info file comes from a distinct file and the entries before it from
   the files before. *)
Lemma entry_split o ds : forall id A e B,
  flat_map (entry_of o) (starts o id ds) = A ++ e :: B ->
  exists d1 f u d2,
    ds = d1 ++ f :: d2 /\ f_unit f = Some u /\ offers o f <> 0 /\
    A = flat_map (entry_of o) (starts o id d1) /\
    e = (f_name f, flat 0 (group_tree (ui_ctx u) (optimise o)
                             (id + list_sum (map (offers o) d1)) (tidy (ui_tree u)))).
Proof.
  induction ds as [|f ds IH]; intros id A e B H; [destruct A; discriminate|].
  cbn [starts flat_map] in H. unfold entry_of at 1 in H.
  destruct (f_unit f) as [u|] eqn:U; [destruct (Nat.eqb_spec (offers o f) 0) as [N|N]|].
  - simpl in H. rewrite N, Nat.add_0_r in H. apply IH in H.
    destruct H as (d1 & f' & u' & d2 & -> & U' & N' & -> & ->).
    exists (f :: d1), f', u', d2. repeat split; auto.
    + cbn [starts flat_map]. unfold entry_of at 2. rewrite U, N. simpl.
      rewrite Nat.add_0_r. reflexivity.
    + simpl. rewrite N. reflexivity.
  - destruct A as [|a A]; simpl in H; injection H as <- H.
    + exists [], f, u, ds. simpl. rewrite Nat.add_0_r. auto.
    + apply IH in H. destruct H as (d1 & f' & u' & d2 & -> & U' & N' & -> & ->).
      exists (f :: d1), f', u', d2. repeat split; auto.
      * cbn [starts flat_map]. unfold entry_of at 2. rewrite U.
        destruct (Nat.eqb_spec (offers o f) 0); [contradiction|]. reflexivity.
      * simpl. rewrite Nat.add_assoc. reflexivity.
  - assert (N : offers o f = 0) by (unfold offers; rewrite U; reflexivity).
    simpl in H. rewrite N, Nat.add_0_r in H. apply IH in H.
    destruct H as (d1 & f' & u' & d2 & -> & U' & N' & -> & ->).
    exists (f :: d1), f', u', d2. repeat split; auto.
    + cbn [starts flat_map]. unfold entry_of at 2. rewrite U. simpl.
      rewrite N, Nat.add_0_r. reflexivity.
    + simpl. rewrite N. reflexivity.
Qed.

Lemma C01_ids_lemma o fs :
  let st := run o true fs in
  Permutation (flat_map (fun e => entry_ids (snd e)) (rs_info st)) (seq 0 (rs_id st)) /\
  rs_id st = list_sum (map (offers o) (distinct [] fs)).
Proof. cbn zeta. rewrite run_info, run_id. split; [apply entries_perm|reflexivity]. Qed.

Lemma Permutation_length_nat {A} (l l' : list A) :
  Permutation l l' -> List.length l = List.length l'.
Proof. apply Permutation_length. Qed.

Lemma group_tree_entry c opt id t :
  Permutation (entry_ids (flat 0 (group_tree c opt id t))) (seq id (tree_total c opt t)).
Proof. rewrite flat_entry_ids, group_tree_ids. reflexivity. Qed.

Lemma C01_blocks_lemma o fs A e B :
  rs_info (run o true fs) = A ++ e :: B ->
  Permutation (entry_ids (snd e))
    (seq (List.length (flat_map (fun e => entry_ids (snd e)) A))
         (List.length (entry_ids (snd e)))).
Proof.
  rewrite run_info. intros H. apply entry_split in H.
  destruct H as (d1 & f & u & d2 & E & U & N & -> & ->). cbn [snd].
  pose proof (entries_perm o d1 0) as P. apply Permutation_length in P.
  rewrite seq_length in P. rewrite P.
  pose proof (group_tree_entry (ui_ctx u) (optimise o)
    (0 + list_sum (map (offers o) d1)) (tidy (ui_tree u))) as Q.
  pose proof (Permutation_length Q) as L. rewrite seq_length in L. rewrite L. exact Q.
Qed.

(** * C02 *)

Lemma distinct_in seen fs f : In f (distinct seen fs) -> In f fs /\ ~ In (f_name f) seen.
Proof.
  revert seen. induction fs as [|g fs IH]; intros seen; simpl; [tauto|].
  destruct (in_dec string_dec (f_name g) seen) as [I|I].
  - intros H. apply IH in H. tauto.
  - simpl. intros [<-|H]; [tauto|]. apply IH in H. simpl in H. tauto.
Qed.

Lemma distinct_nodup seen fs : NoDup (map f_name (distinct seen fs)).
Proof.
  revert seen. induction fs as [|g fs IH]; intros seen; simpl; [constructor|].
  destruct (in_dec string_dec (f_name g) seen) as [I|I]; [apply IH|].
  simpl. constructor; [|apply IH]. intros H. rewrite in_map_iff in H.
  destruct H as (f & E & H). apply distinct_in in H. simpl in H. intuition congruence.
Qed.

Lemma distinct_ext seen seen' fs :
  (forall f, In f fs -> (In (f_name f) seen <-> In (f_name f) seen')) ->
  distinct seen fs = distinct seen' fs.
Proof.
  revert seen seen'. induction fs as [|g fs IH]; intros seen seen' H; simpl; [reflexivity|].
  destruct (in_dec string_dec (f_name g) seen) as [I|I],
           (in_dec string_dec (f_name g) seen') as [I'|I'].
  - apply IH. intros; apply H; right; assumption.
  - exfalso. apply I', H; [left; reflexivity|assumption].
  - exfalso. apply I, H; [left; reflexivity|assumption].
  - f_equal. apply IH. intros f Hf. simpl. rewrite (H f) by (right; assumption). reflexivity.
Qed.

Lemma distinct_app seen fs gs :
  distinct seen (fs ++ gs) = distinct seen fs ++ distinct (map f_name fs ++ seen) gs.
Proof.
  revert seen. induction fs as [|f fs IH]; intros seen; [reflexivity|].
  simpl. destruct (in_dec string_dec (f_name f) seen) as [I|I].
  - rewrite IH. f_equal. apply distinct_ext. intros g _. simpl. rewrite in_app_iff.
    split; [tauto|]. intros [<-|]; [tauto|assumption].
  - simpl. rewrite IH. f_equal. f_equal. apply distinct_ext. intros g _. simpl.
    rewrite !in_app_iff. simpl. tauto.
Qed.

Lemma written_names o ds : forall id,
  map fst (flat_map (output_of o) (starts o id ds)) =
  map f_name (filter (fun f => negb (Nat.eqb (offers o f) 0)) ds).
Proof.
  induction ds as [|f ds IH]; intros id; [reflexivity|].
  cbn [starts flat_map filter]. rewrite map_app, IH. unfold output_of.
  destruct (f_unit f) as [u|] eqn:U.
  - assert (T : offers o f = tree_total (ui_ctx u) (optimise o) (ui_tree u))
      by (unfold offers; rewrite U; reflexivity).
    pose proof (handle_output o true (f_text f) u id) as H. rewrite <- T in H.
    destruct (h_output _), (Nat.eqb_spec (offers o f) 0) as [N|N]; simpl; try reflexivity.
    + apply H in N. discriminate.
    + exfalso. apply N, H. reflexivity.
  - assert (N : offers o f = 0) by (unfold offers; rewrite U; reflexivity).
    rewrite N. reflexivity.
Qed.

Lemma info_names o ds : forall id,
  map fst (flat_map (entry_of o) (starts o id ds)) =
  map f_name (filter (fun f => negb (Nat.eqb (offers o f) 0)) ds).
Proof.
  induction ds as [|f ds IH]; intros id; [reflexivity|].
  cbn [starts flat_map filter]. rewrite map_app, IH. unfold entry_of.
  destruct (f_unit f) as [u|] eqn:U.
  - destruct (Nat.eqb (offers o f) 0); reflexivity.
  - assert (N : offers o f = 0) by (unfold offers; rewrite U; reflexivity).
    rewrite N. reflexivity.
Qed.

Lemma NoDup_map_filter {A B} (g : A -> B) p l : NoDup (map g l) -> NoDup (map g (filter p l)).
Proof.
  induction l as [|x l IH]; simpl; [auto|]. intros H. inversion H; subst.
  destruct (p x); [|auto]. simpl. constructor; [|auto].
  intros C. apply H2. rewrite in_map_iff in *. destruct C as (y & E & Hy).
  apply filter_In in Hy. exists y. tauto.
Qed.

Lemma C02_written_lemma o bt fs :
  let st := run o bt fs in
  NoDup (map fst (rs_written st)) /\
  (forall n, In n (map fst (rs_written st)) <->
             exists f, In f (distinct [] fs) /\ f_name f = n /\ 0 < offers o f) /\
  (bt = true -> map fst (rs_info st) = map fst (rs_written st)).
Proof.
  cbn zeta. rewrite run_written, written_names. repeat split.
  - apply NoDup_map_filter, distinct_nodup.
  - rewrite in_map_iff. intros (f & E & H). apply filter_In in H. destruct H as (H & N).
    exists f. repeat split; try assumption. destruct (Nat.eqb_spec (offers o f) 0); [discriminate|lia].
  - intros (f & H & <- & N). apply in_map, filter_In. split; [assumption|].
    destruct (Nat.eqb_spec (offers o f) 0); [lia|reflexivity].
  - intros ->. rewrite run_info. apply info_names.
Qed.

Lemma starts_skip {B} o (g : source_file * nat -> list B) :
  (forall f id, offers o f = 0 -> g (f, id) = []) ->
  forall ds id,
  flat_map g (starts o id ds) =
  flat_map g (starts o id (filter (fun f => negb (Nat.eqb (offers o f) 0)) ds)).
Proof.
  intros Hg. induction ds as [|f ds IH]; intros id; [reflexivity|].
  cbn [starts flat_map filter]. destruct (Nat.eqb_spec (offers o f) 0) as [N|N]; simpl.
  - rewrite Hg, N, Nat.add_0_r by assumption. apply IH.
  - f_equal. apply IH.
Qed.

Lemma sum_skip o ds :
  list_sum (map (offers o) ds) =
  list_sum (map (offers o) (filter (fun f => negb (Nat.eqb (offers o f) 0)) ds)).
Proof.
  induction ds as [|f ds IH]; [reflexivity|]. simpl.
  destruct (Nat.eqb_spec (offers o f) 0) as [N|N]; simpl; [rewrite N; exact IH|].
  f_equal. exact IH.
Qed.

Lemma entry_skip o f id : offers o f = 0 -> entry_of o (f, id) = [].
Proof. intros N. unfold entry_of. rewrite N. destruct (f_unit f); reflexivity. Qed.
Lemma output_skip o f id : offers o f = 0 -> output_of o (f, id) = [].
Proof.
  intros N. unfold output_of. destruct (f_unit f) as [u|] eqn:U; [|reflexivity].
  replace (h_output _) with (@None string); [reflexivity|].
  symmetry. apply handle_output. unfold offers in N. rewrite U in N. exact N.
Qed.

Definition offering (o : options) (ds : list source_file) : list source_file :=
  filter (fun f => negb (Nat.eqb (offers o f) 0)) ds.

Lemma run_offering o bt fs gs :
  offering o (distinct [] fs) = offering o (distinct [] gs) ->
  core (run o bt fs) = core (run o bt gs).
Proof.
  unfold offering. intros E. rewrite !run_closed.
  rewrite (sum_skip o (distinct [] fs)), (sum_skip o (distinct [] gs)), E.
  rewrite (starts_skip o (entry_of o) (entry_skip o) (distinct [] fs)),
          (starts_skip o (entry_of o) (entry_skip o) (distinct [] gs)), E.
  rewrite (starts_skip o (output_of o) (output_skip o) (distinct [] fs)),
          (starts_skip o (output_of o) (output_skip o) (distinct [] gs)), E.
  reflexivity.
Qed.

(* A file without mutants may be forgotten *)
Lemma offering_forget o f : offers o f = 0 -> forall gs seen,
  (forall g, In g gs -> f_name g = f_name f -> g = f) ->
  offering o (distinct (f_name f :: seen) gs) = offering o (distinct seen gs).
Proof.
  intros N. induction gs as [|g gs IH]; intros seen H; [reflexivity|].
  cbn [distinct].
  destruct (in_dec string_dec (f_name g) (f_name f :: seen)) as [I|I],
           (in_dec string_dec (f_name g) seen) as [I'|I'].
  - apply IH. intros; apply H; simpl; auto.
  - destruct I as [E|I]; [|contradiction].
    assert (g = f) by (apply H; simpl; auto). subst g.
    unfold offering at 2. cbn [filter]. rewrite N. cbn [Nat.eqb negb]. reflexivity.
  - exfalso. apply I. right. exact I'.
  - unfold offering. cbn [filter]. destruct (negb _).
    + f_equal. rewrite (distinct_ext (f_name g :: f_name f :: seen)
                                      (f_name f :: f_name g :: seen))
        by (intros; simpl; tauto).
      apply IH. intros; apply H; simpl; auto.
    + rewrite (distinct_ext (f_name g :: f_name f :: seen)
                            (f_name f :: f_name g :: seen)) by (intros; simpl; tauto).
      apply IH. intros; apply H; simpl; auto.
Qed.

Lemma C02_skip_lemma o bt fs f gs :
  names_identify (fs ++ f :: gs) ->
  In (f_name f) (map f_name fs) \/ offers o f = 0 ->
  core (run o bt (fs ++ f :: gs)) = core (run o bt (fs ++ gs)).
Proof.
  intros Hn H. apply run_offering. rewrite !distinct_app. unfold offering.
  rewrite !filter_app. f_equal. cbn [distinct].
  destruct (in_dec string_dec (f_name f) (map f_name fs ++ [])) as [I|I]; [reflexivity|].
  rewrite app_nil_r in *. destruct H as [H|H]; [contradiction|].
  cbn [filter]. rewrite H. cbn [Nat.eqb negb]. apply offering_forget; [assumption|].
  intros g Hg E. apply Hn; [|rewrite in_app_iff; simpl; auto|exact E].
  rewrite in_app_iff; simpl; auto.
Qed.

(** * C03 *)

Lemma offers_track o b f : offers (with_track o b) f = offers o f.
Proof. reflexivity. Qed.

Lemma C03_run_lemma o fs b :
  let st := run o true fs in
  let st' := run (with_track o b) true fs in
  rs_info st' = rs_info st /\ rs_id st' = rs_id st /\
  map fst (rs_written st') = map fst (rs_written st).
Proof.
  cbn zeta. rewrite !run_info, !run_id, !run_written, !written_names.
  split; [|split; reflexivity].
  generalize 0, (distinct [] fs). intros id ds. revert id.
  induction ds as [|f ds IH]; intros id; [reflexivity|].
  cbn [starts flat_map]. f_equal. apply IH.
Qed.

(** * C04 *)

Lemma C04_request_lemma o fs :
  rs_id (run o false fs) = rs_id (run o true fs) /\
  rs_written (run o false fs) = rs_written (run o true fs).
Proof. rewrite !run_id, !run_written. split; reflexivity. Qed.

(** * C05 *)

Lemma decodes_unique ns T : forall i T', decodes ns i T -> decodes ns i T' -> T = T'.
Proof.
  induction T as [gs ks IH] using tree_ind'. intros i T' H H'.
  inversion H as [? p ? E F]; subst. inversion H' as [? p' ts' E' F']; subst.
  rewrite E in E'. injection E' as <-. f_equal.
  clear E H H'. revert ts' F'. induction F as [|x y l l' Hxy F IHF]; intros ts' F'.
  - inversion F'; reflexivity.
  - inversion F' as [|? y' ? l'' Hy Fl]; subst. inversion IH as [|? ? H1 H2]; subst.
    f_equal; [eapply H1; eassumption|]. apply IHF; assumption.
Qed.

Lemma flat_ok T : flat_tree_ok (flat 0 T).
Proof.
  split.
  - rewrite flat_length. apply flat_children.
  - intros i p j E H. split.
    + eapply flat_children_gt in E; [|exact H]. exact E.
    + assert (In j (flat_map p_children (flat 0 T))) as I.
      { apply in_flat_map. exists p. split; [|exact H]. eapply nth_error_In; eassumption. }
      rewrite flat_children in I. apply in_seq in I. rewrite flat_length. lia.
Qed.

Lemma C05_lemma o fs n ns :
  In (n, ns) (rs_info (run o true fs)) ->
  flat_tree_ok ns /\
  exists f u T,
    In f (distinct [] fs) /\ f_name f = n /\ f_unit f = Some u /\
    decodes ns 0 T /\ (forall T', decodes ns 0 T' -> T' = T) /\
    describes (ui_ctx u) (optimise o) (tidy (ui_tree u)) T.
Proof.
  rewrite run_info. intros H. apply in_split in H. destruct H as (A & B & H).
  apply entry_split in H. destruct H as (d1 & f & u & d2 & E & U & N & -> & H).
  injection H as -> ->. split; [apply flat_ok|].
  exists f, u, (group_tree (ui_ctx u) (optimise o) (0 + list_sum (map (offers o) d1))
                  (tidy (ui_tree u))).
  repeat split; auto.
  - rewrite E. apply in_elt.
  - apply flat_decodes0.
  - intros T' H. eapply decodes_unique; [exact H|apply flat_decodes0].
  - apply group_tree_describes.
Qed.

(** * C39 *)

Lemma run_from_app o bt st fs gs :
  run_from o bt st (fs ++ gs) = run_from o bt (run_from o bt st fs) gs.
Proof. apply fold_left_app. Qed.

Lemma written_prefix o bt fs gs :
  exists W, rs_written (run o bt (fs ++ gs)) = rs_written (run o bt fs) ++ W /\
            forall n t, In (n, t) W -> ~ In n (map f_name fs).
Proof.
  rewrite !run_written, distinct_app, starts_app, flat_map_app.
  eexists. split; [reflexivity|]. intros n t H.
  assert (I : In n (map fst (flat_map (output_of o)
     (starts o (0 + list_sum (map (offers o) (distinct [] fs)))
        (distinct (map f_name fs ++ []) gs))))) by (apply (in_map fst) in H; exact H).
  rewrite written_names, in_map_iff in I. destruct I as (f & <- & I).
  apply filter_In in I. destruct I as (I & _). apply distinct_in in I.
  rewrite app_nil_r in I. tauto.
Qed.

(** * C03, site by site *)

Lemma C03_sites_lemma c o m first id :
  let a := apply_mutation c (with_track o true) m first id in
  let a' := apply_mutation c (with_track o false) m first id in
  a_group a = a_group a' /\ a_next a = a_next a' /\
  (forall f, In f (site_functions c (with_track o true) m) ->
     mf_track f = Some (mutant_count c (optimise o) m) /\ mf_lines f = []) /\
  match m with
  | MutStmt s _ =>
      a_edits a = [InsertBefore (r_begin (s_range s))
                     ("__dredd_record_covered_mutants(" ++ string_of_nat (id - first)
                      ++ ", 1); ")%string]
  | MutBinary b _ _ _ => c_logical c b = false -> a_edits a = a_edits a'
  | _ => a_edits a = a_edits a'
  end.
Proof.
  cbn zeta. destruct m as [e i|b i il ir|u i is|s i].
  - split; [reflexivity|]. split; [reflexivity|]. split; [|reflexivity].
    intros f [<-|[]]. split; reflexivity.
  - split; [reflexivity|]. split; [reflexivity|]. split.
    + cbn [site_functions mutant_count]. unfold binary_actions.
      destruct (c_logical c b); intros f [<-|[]]; split; try reflexivity.
      cbn [binary_function mf_track with_track track optimise]. rewrite map_length. reflexivity.
    + intros E. cbn [apply_mutation a_edits]. rewrite E. reflexivity.
  - split; [reflexivity|]. split; [reflexivity|]. split; [|reflexivity].
    intros f [<-|[]]. split; reflexivity.
  - split; [reflexivity|]. split; [reflexivity|]. split; [intros f []|reflexivity].
Qed.
