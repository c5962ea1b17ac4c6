(* Programs with several threads for property C81. *)
From Coq Require Import String List ZArith Bool Lia.
From Verif Require Import Base Clang Gen GenExpr GenBinary GenUnary GenStmt Mutation GenSpec
  PreludeSpec Prelude Tracking Lang Cst Runtime SimSpec SimRel SimTop LangRun MutantSpec SimExample
  SimRefute CoverSpec CoverExample Linked LinkedSpec LinkedExample LinkedCoverSpec
  LinkedCoverExample Threads ThreadsSpec ThreadsProof ThreadsExample ThreadsCoverSpec.
Import ListNotations.
Local Open Scope string_scope.
Local Open Scope list_scope.

(* All executions *)
Section Explore.
Variable L : lang.
Variable R : runtime.
Variable c : ctx.
Variable bodies : string -> option (tm L).
Variable cpp17 : bool.
Variable sys : system L.
Variable slot : nat -> nat.
Notation mv := (move L R c bodies cpp17 sys slot).
Notation mvs := (moves L R c bodies cpp17 sys slot).
Definition nexts_of (x : state L R) (k : nat) : list (option (state L R)) :=
  let '(m, ds, ts) := x in
  match nth_error ts k with
  | Some a =>
      if th_ended a then []
      else let put m ds b := (m, ds, firstn k ts ++ b :: skipn (S k) ts) in
           if final (th_tm a)
           then [Some (put (sys_end sys k (th_tm a) m) ds
                         {| th_env := th_env a; th_tm := th_tm a; th_ended := true |})]
           else map (fun o => match o with
                              | Some (m', d', t') =>
                                  Some (put m' (with_state R slot k d' ds)
                                         {| th_env := th_env a; th_tm := t'; th_ended := false |})
                              | None => None
                              end) (succs L R c bodies cpp17 (th_env a) m (ds (slot k)) (th_tm a))
  | None => []
  end.
Definition nexts (x : state L R) : list (option (state L R)) :=
  match sys_start sys (fst (fst x)) with
  | Some (y, m') => [Some (m', snd (fst x), snd x ++ [new_thread L y])]
  | None => []
  end ++ flat_map (nexts_of x) (seq 0 (length (snd x))).

Lemma around {A} (pre : list A) a post :
  firstn (length pre) (pre ++ a :: post) = pre /\ skipn (S (length pre)) (pre ++ a :: post) = post.
Proof.
  split.
  - rewrite firstn_app, Nat.sub_diag, firstn_all. cbn [firstn]. apply app_nil_r.
  - induction pre; cbn; auto.
Qed.
Lemma nexts_complete x k z : mv x k z -> In z (nexts x).
Proof.
  destruct 1 as [m ds pre a post x Na St|m ds pre a post Na Fi|m ds ts x m' St];
    unfold nexts; cbn [fst snd]; apply in_or_app.
  - right. apply in_flat_map. exists (length pre). split.
    + apply in_seq. rewrite app_length. cbn. lia.
    + unfold nexts_of. rewrite nth_error_app2, Nat.sub_diag by lia. cbn [nth_error].
      destruct (around pre a post) as [-> ->]. rewrite Na.
      destruct (final (th_tm a)) eqn:F; [destruct (final_no_step _ _ _ _ _ _ _ _ _ _ F St)|].
      apply succs_complete in St. apply in_map_iff. exists x. split; [|exact St].
      destruct x as [[[m' d'] t']|]; reflexivity.
  - right. apply in_flat_map. exists (length pre). split.
    + apply in_seq. rewrite app_length. cbn. lia.
    + unfold nexts_of. rewrite nth_error_app2, Nat.sub_diag by lia. cbn [nth_error].
      destruct (around pre a post) as [-> ->]. rewrite Na, Fi. left. reflexivity.
  - left. rewrite St. left. reflexivity.
Qed.
Lemma nexts_sound x y : In (Some y) (nexts x) -> exists k, mv x k (Some y).
Proof.
  destruct x as [[m ds] ts]. unfold nexts. cbn [fst snd]. intro H. apply in_app_or in H as [H|H].
  - destruct (sys_start sys m) as [[z m']|] eqn:Q; [|destruct H]. destruct H as [H|[]].
    injection H as <-. exists None. apply move_start. exact Q.
  - apply in_flat_map in H as (k & _ & H). exists (Some k). unfold nexts_of in H.
    destruct (nth_error ts k) as [a|] eqn:N; [|destruct H].
    destruct (nth_error_split ts k N) as (pre & post & -> & <-).
    destruct (around pre a post) as [Q1 Q2]. rewrite Q1, Q2 in H.
    destruct (th_ended a) eqn:En; [destruct H|]. destruct (final (th_tm a)) eqn:F.
    + destruct H as [H|[]]. injection H as <-. apply move_end; auto.
    + apply in_map_iff in H as ([[[m' d'] t']|] & H & I); [|discriminate]. injection H as <-.
      apply (move_step L R c bodies cpp17 sys slot m ds pre a post (Some (m', d', t')) En).
      apply succs_sound. exact I.
Qed.

Variable P : state L R -> bool.
Fixpoint always (n : nat) (x : state L R) : bool :=
  P x && match n with
         | 0 => false
         | S n => forallb (fun o => match o with Some y => always n y | None => true end) (nexts x)
         end.
Lemma always_moves x l y : mvs x l y -> forall n, always n x = true -> P y = true.
Proof.
  induction 1 as [x|x k y l z M Ms IH]; intros n H.
  - destruct n; cbn in H; apply andb_true_iff in H; tauto.
  - destruct n as [|n]; cbn in H; apply andb_true_iff in H as [_ H]; [discriminate|].
    rewrite forallb_forall in H. specialize (H _ (nexts_complete _ _ _ M)). cbn in H. eauto.
Qed.

Definition over (x : state L R) : bool :=
  forallb th_ended (snd x) && match sys_start sys (fst (fst x)) with None => true | _ => false end.
Fixpoint all_end (n : nat) (x : state L R) : bool :=
  match n with
  | 0 => false
  | S n => (over x || match nexts x with [] => false | _ => true end) &&
           forallb (fun o => match o with Some y => all_end n y | None => false end) (nexts x)
  end.
Lemma all_end_here n : forall x, all_end n x = true -> exists m, ends L R c bodies cpp17 sys slot x m.
Proof.
  induction n as [|n IH]; intros x H; cbn in H; [discriminate|].
  apply andb_true_iff in H as [H1 H2]. destruct (over x) eqn:O.
  - destruct x as [[m ds] ts]. unfold over in O. cbn [fst snd] in O. apply andb_true_iff in O as [O1 O2].
    exists m, [], ds, ts. split; [constructor|]. split; auto.
    destruct (sys_start sys m); [discriminate|reflexivity].
  - destruct (nexts x) as [|[y|] rest] eqn:N; cbn in H1, H2; try discriminate.
    apply andb_true_iff in H2 as [H2 _]. destruct (IH y H2) as (m & l & ds & ts & Ms & T).
    destruct (nexts_sound x y) as [k M]; [rewrite N; left; reflexivity|].
    exists m, (k :: l), ds, ts. split; auto. econstructor; eauto.
Qed.
Lemma all_end_moves x l y : mvs x l y -> forall n, all_end n x = true ->
  exists m, ends L R c bodies cpp17 sys slot y m.
Proof.
  induction 1 as [x|x k y l z M Ms IH]; intros n H; [eapply all_end_here; eauto|].
  destruct n as [|n]; cbn in H; [discriminate|]. apply andb_true_iff in H as [_ H].
  rewrite forallb_forall in H. specialize (H _ (nexts_complete _ _ _ M)). cbn in H. eauto.
Qed.
End Explore.

Lemma threads_unrecorded_by c cpp17 sys o files m calls zs n :
  always toy (linked_recording toy c o files true true) c (linked_body toy c o files 0) cpp17 sys
    shared (fun y => none_written (List.length files) zs (snd (fst y) 0)) n
    (begin toy (linked_recording toy c o files true true) m (linked_track toy c o files true true) calls)
    = true ->
  threads_unrecorded toy c cpp17 sys o files m calls zs.
Proof.
  intros H m' ds ts [l Ms] j x (k & Lt & I) J.
  pose proof (always_moves _ _ _ _ _ _ _ _ _ _ _ Ms _ H) as Q. cbn [fst snd] in Q.
  unfold none_written in Q. rewrite forallb_forall in Q.
  assert (K : In k (seq 0 (List.length files))) by (apply in_seq; lia). specialize (Q _ K).
  unfold none_of in Q. rewrite forallb_forall in Q. specialize (Q _ I). apply negb_true_iff in Q.
  rewrite <- not_true_iff_false in Q. apply Q. apply existsb_exists. exists (Z.of_nat x).
  split; auto. apply Z.eqb_refl.
Qed.
Lemma threads_finish_by c cpp17 sys o files m calls n :
  all_end toy (linked_recording toy c o files true true) c (linked_body toy c o files 0) cpp17 sys
    shared n
    (begin toy (linked_recording toy c o files true true) m (linked_track toy c o files true true) calls)
    = true ->
  threads_finish toy c cpp17 sys o files m calls.
Proof. intros H y [l Ms]. eapply all_end_moves; eauto. Qed.

(* void f() { if (x) g(); }  void h() { }  in one file, void g() { b && y; } in the other.
   Unless b is 0 a thread that calls h is to be started; b becomes 0. *)
Definition asks_more : list (string * cst toy) := asks ++ [("h", CNode KSkip [] "")].
Definition asked_more : list (source toy) := one_run toy c_ctx coverage [asks_more; answers] 0.
Definition starts_h : system toy :=
  {| sys_start := fun m : mem toy => match fst m with
       | [a; I b; p; x; y] => if Z.eqb b 0 then None
                              else Some (tt, "h", [], (([a; I 0; p; x; y], snd m) : mem toy))
       | _ => None
       end;
     sys_end := fun _ _ m => m |}.
Definition guard_waits : tmem := start (I 7) (I 1) (P 0) (I 0) (I 1).
Definition guard_open : tmem := start (I 7) (I 0) (P 0) (I 1) (I 1).
Definition starts_none : system toy :=
  {| sys_start := fun _ => None; sys_end := fun _ _ m => m |}.
Lemma enables_asked_more : enables_in toy asked_more (Some "20,22") [20%Z; 22%Z].
Proof.
  split; [numbers [[2; 0]; [2; 2]]|]. assert (Q : map fst asked_more = [0; 8]) by reflexivity.
  apply Forall_forall. intros s I. apply (in_map fst) in I. rewrite Q in I.
  destruct I as [<-|[<-|[]]]; safe.
Qed.
Lemma enables_asked_18 : enables_in toy asked_more (Some "18") [18%Z].
Proof.
  split; [numbers [[1; 8]]|]. assert (Q : map fst asked_more = [0; 8]) by reflexivity.
  apply Forall_forall. intros s I. apply (in_map fst) in I. rewrite Q in I.
  destruct I as [<-|[<-|[]]]; safe.
Qed.
Lemma asked_more_logical : no_logical toy c_ctx true asked_more [18%Z].
Proof.
  assert (Q : map (fun s => map (Nat.add (fst s)) (logical_of toy c_ctx true (snd s) 0)) asked_more
              = [[]; [20; 21; 22]]) by (vm_compute; reflexivity).
  apply Forall_forall. intros s Is i Ii [H|[]].
  apply (in_map (fun s => map (Nat.add (fst s)) (logical_of toy c_ctx true (snd s) 0))) in Is.
  apply (in_map (Nat.add (fst s))) in Ii. cbv beta in Is. rewrite Q in Is.
  destruct Is as [E|[E|[]]]; rewrite <- E in Ii; cbn in Ii; lia.
Qed.
Lemma asked_more_unrecorded : threads_unrecorded toy c_ctx false starts_h coverage asked_more
  guard_waits [(tt, "f", [])] [18%Z; 20%Z; 22%Z].
Proof. apply (threads_unrecorded_by _ _ _ _ _ _ _ _ 100). vm_compute. reflexivity. Qed.
Lemma asked_more_fewer zs : incl zs [18%Z; 20%Z; 22%Z] ->
  threads_unrecorded toy c_ctx false starts_h coverage asked_more guard_waits [(tt, "f", [])] zs.
Proof. intros In m' ds ts Ru k x W H. exact (asked_more_unrecorded m' ds ts Ru k x W (In _ H)). Qed.
Lemma asked_more_finish : threads_finish toy c_ctx false starts_h coverage asked_more
  guard_waits [(tt, "f", [])].
Proof. apply (threads_finish_by _ _ _ _ _ _ _ 100). vm_compute. reflexivity. Qed.

(* If the started thread calls g, mutant 20 is recorded. *)
Definition recorded_by (c : ctx) (sys : system toy) (o : options) (files : list (source toy))
  (m : tmem) (calls : list (env toy * string * list (val toy + loc toy))) (l : list (option nat))
  (fuel n k x : nat) : bool :=
  match play toy (linked_recording toy c o files true true) c (linked_body toy c o files 0) false
          sys shared l (begin toy (linked_recording toy c o files true true) m
                          (linked_track toy c o files true true) calls) with
  | Some y => let '(_, ds, _) := play_out toy (linked_recording toy c o files true true) c
                (linked_body toy c o files 0) false sys shared fuel n y in
              existsb (Nat.eqb x) (t_lines (ds (shared 0) k))
  | None => false
  end.
Lemma recorded_by_sound c sys o files m calls l fuel n k x zs :
  recorded_by c sys o files m calls l fuel n k x = true -> k < List.length files ->
  In (Z.of_nat x) zs -> ~ threads_unrecorded toy c false sys o files m calls zs.
Proof.
  unfold recorded_by. destruct (play _ _ _ _ _ _ _ _ _) as [y|] eqn:P; [|discriminate].
  intros H Lt I U. apply play_sound in P.
  destruct (play_out_sound toy (linked_recording toy c o files true true) c
    (linked_body toy c o files 0) false sys shared n fuel y) as [l' M].
  destruct (play_out _ _ _ _ _ _ _ _ _ y) as [[m' ds] ts].
  apply existsb_exists in H as (z & J & Q). apply Nat.eqb_eq in Q. subst z.
  apply (U m' ds ts) with (k := 0) (x := x); auto.
  - exists (l ++ l'). eapply ThreadsProof.moves_app; eauto.
  - exists k. auto.
Qed.
Lemma asked_more_recorded : ~ threads_unrecorded toy c_ctx false starts coverage asked_more
  guard_waits [(tt, "f", [])] [20%Z].
Proof.
  apply (recorded_by_sound _ _ _ _ _ _ [None] 60 2 1 20); [vm_compute; reflexivity| |left; reflexivity].
  cbn. lia.
Qed.

(* As in LinkedCoverExample.v *)
Lemma threads_noticed (test : tmem -> bool) c files v m m' calls o n :
  always toy no_runtime c (body_of toy c (whole toy files)) false starts_none shared
    (fun y => negb (over toy no_runtime starts_none y && test (fst (fst y)))) n (begin toy no_runtime m tt calls) = true ->
  played toy (linked_selecting toy c o files v) c (linked_body toy c o files 0) false starts_none own
    [] 80 1 (begin toy (linked_selecting toy c o files v) m (linked_initial toy c o files v) calls)
    = Some (m', true) ->
  test m' = true ->
  ~ threads_no_more toy c false starts_none (linked_selecting toy c o files v) no_runtime own shared
      m calls (linked_initial toy c o files v) (linked_body toy c o files 0)
      tt (body_of toy c (whole toy files)).
Proof.
  intros H P T [A _ _ _ _].
  destruct (A m') as (l & ds & ts & Ms & En & _).
  - eapply played_ends; eauto.
  - pose proof (always_moves _ _ _ _ _ _ _ _ _ _ _ Ms _ H) as Q.
    unfold over in Q. cbn [fst snd] in Q. rewrite En, T in Q. discriminate.
Qed.
Lemma divided_threads : threads_unrecorded toy c_ctx false starts_none coverage divided by_zero
  [(tt, "f", [])] [30%Z].
Proof. apply (threads_unrecorded_by _ _ _ _ _ _ _ _ 200). vm_compute. reflexivity. Qed.
Lemma divided_threads_noticed :
  ~ threads_no_more toy c_ctx false starts_none (linked_selecting toy c_ctx optimised divided (Some "30"))
      no_runtime own shared by_zero [(tt, "f", [])]
      (linked_initial toy c_ctx optimised divided (Some "30"))
      (linked_body toy c_ctx optimised divided 0) tt (body_of toy c_ctx (whole toy divided)).
Proof. apply (threads_noticed (fun _ => true) _ _ _ _ by_zero _ _ 200); vm_compute; reflexivity. Qed.
Lemma hidden_threads : threads_unrecorded toy cpp_ctx false starts_none coverage hidden zero
  [(tt, "f", [])] [8%Z].
Proof. apply (threads_unrecorded_by _ _ _ _ _ _ _ _ 200). vm_compute. reflexivity. Qed.
Lemma hidden_threads_noticed :
  ~ threads_no_more toy cpp_ctx false starts_none (linked_selecting toy cpp_ctx optimised hidden (Some "8"))
      no_runtime own shared zero [(tt, "f", [])]
      (linked_initial toy cpp_ctx optimised hidden (Some "8"))
      (linked_body toy cpp_ctx optimised hidden 0) tt (body_of toy cpp_ctx (whole toy hidden)).
Proof.
  apply (threads_noticed (fun m => match snd m with [] => true | _ => false end)
    _ _ _ _ (start (I 0) (I 1) (P 0) (I 0) (I 0)) _ _ 200); vm_compute; reflexivity.
Qed.
