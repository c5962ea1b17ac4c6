(* Two threads that use the same variable. *)
From Coq Require Import String List ZArith Bool Lia.
From Verif Require Import Base Clang Gen GenExpr GenBinary GenUnary GenStmt Mutation GenSpec
  PreludeSpec Prelude Lang Cst Runtime SimSpec SimRel SimTop LangRun MutantSpec SimExample SimRefute
  Linked LinkedSpec LinkedExample Threads ThreadsSpec.
Import ListNotations.
Local Open Scope string_scope.

(* One execution, in which the threads have their turns in the given order (None: a thread is
   started) *)
Section Play.
Variable L : lang.
Variable R : runtime.
Variable c : ctx.
Variable bodies : string -> option (tm L).
Variable cpp17 : bool.
Variable sys : system L.
Variable slot : nat -> nat.
Definition play_one (k : option nat) (x : state L R) : option (state L R) :=
  let '(m, ds, ts) := x in
  match k with
  | None => match sys_start sys m with
            | Some (y, m') => Some (m', ds, ts ++ [new_thread L y])%list
            | None => None
            end
  | Some k =>
      match nth_error ts k with
      | Some a =>
          let put m ds b := Some (m, ds, firstn k ts ++ b :: skipn (S k) ts)%list in
          if th_ended a then None
          else if final (th_tm a)
          then put (sys_end sys k (th_tm a) m) ds
                 {| th_env := th_env a; th_tm := th_tm a; th_ended := true |}
          else match succs L R c bodies cpp17 (th_env a) m (ds (slot k)) (th_tm a) with
               | Some (m', d', t') :: _ =>
                   put m' (with_state R slot k d' ds)
                     {| th_env := th_env a; th_tm := t'; th_ended := false |}
               | _ => None
               end
      | None => None
      end
  end.
Fixpoint play (l : list (option nat)) (x : state L R) : option (state L R) :=
  match l with
  | [] => Some x
  | k :: l => match play_one k x with Some y => play l y | None => None end
  end.
(* Each of the first n threads goes on until it has ended. *)
Fixpoint play_out (fuel n : nat) (x : state L R) : state L R :=
  match fuel with
  | 0 => x
  | S fuel => fold_left (fun x k => match play_one (Some k) x with Some y => y | None => x end)
                (seq 0 n) (play_out fuel n x)
  end.

Lemma play_one_sound k x y : play_one k x = Some y -> move L R c bodies cpp17 sys slot x k (Some y).
Proof.
  destruct x as [[m ds] ts]. destruct k as [k|]; unfold play_one.
  - destruct (nth_error ts k) as [a|] eqn:Q; [|discriminate].
    destruct (nth_error_split ts k Q) as (pre & post & -> & <-).
    rewrite firstn_app, Nat.sub_diag, firstn_all. cbn [firstn]. rewrite app_nil_r.
    replace (skipn (S (length pre)) (pre ++ a :: post)) with post
      by (clear; induction pre; cbn; auto).
    destruct (th_ended a) eqn:En; [discriminate|]. destruct (final (th_tm a)) eqn:F.
    + intro H. injection H as <-. apply move_end; auto.
    + destruct (succs L R c bodies cpp17 (th_env a) m (ds (slot (length pre))) (th_tm a))
        as [|[[[m' d'] t']|] rest] eqn:S; try discriminate.
      intro H. injection H as <-.
      apply (move_step L R c bodies cpp17 sys slot m ds pre a post (Some (m', d', t')) En).
      apply succs_sound. rewrite S. left. reflexivity.
  - destruct (sys_start sys m) as [[z m']|] eqn:Q; [|discriminate]. intro H. injection H as <-.
    apply move_start. exact Q.
Qed.
Lemma play_sound l : forall x y, play l x = Some y -> moves L R c bodies cpp17 sys slot x l y.
Proof.
  induction l as [|k l IH]; intros x y; cbn.
  - intro H. injection H as <-. constructor.
  - destruct (play_one k x) as [z|] eqn:Q; [|discriminate]. intro H.
    econstructor; [apply play_one_sound; exact Q|auto].
Qed.
Lemma play_out_sound n : forall fuel x,
  exists l, moves L R c bodies cpp17 sys slot x l (play_out fuel n x).
Proof.
  assert (App : forall x l y, moves L R c bodies cpp17 sys slot x l y -> forall l' z,
    moves L R c bodies cpp17 sys slot y l' z -> exists l2, moves L R c bodies cpp17 sys slot x l2 z).
  { induction 1 as [|x k y l z M Ms IH]; intros l' w H; [eauto|].
    destruct (IH _ _ H) as [l2 H2]. exists (k :: l2). econstructor; eauto. }
  induction fuel as [|fuel IH]; intro x; cbn [play_out].
  - exists []. constructor.
  - destruct (IH x) as [l Ms].
    assert (F : forall ks y, exists l', moves L R c bodies cpp17 sys slot y l'
      (fold_left (fun x k => match play_one (Some k) x with Some y => y | None => x end) ks y)).
    { induction ks as [|k ks IHk]; intro y; cbn; [exists []; constructor|].
      destruct (play_one (Some k) y) as [z|] eqn:Q; [|apply IHk].
      destruct (IHk z) as [l' M']. exists (Some k :: l'). econstructor; eauto using play_one_sound. }
    destruct (F (seq 0 n) (play_out fuel n x)) as [l' M']. eapply App; eauto.
Qed.
Definition played (l : list (option nat)) (fuel n : nat) (x : state L R)
  : option (mem L * bool) :=
  match play l x with
  | Some y => let '(m, _, ts) := play_out fuel n y in Some (m, forallb th_ended ts)
  | None => None
  end.
Lemma played_ends l fuel n x m :
  played l fuel n x = Some (m, true) -> sys_start sys m = None ->
  ends L R c bodies cpp17 sys slot x m.
Proof.
  unfold played. destruct (play l x) as [y|] eqn:P; [|discriminate]. intros Q S.
  apply play_sound in P. destruct (play_out_sound n fuel y) as [l' M].
  destruct (play_out fuel n y) as [[m' ds] ts]. injection Q as -> F.
  assert (App : forall x y, moves L R c bodies cpp17 sys slot x l y -> forall l' z,
    moves L R c bodies cpp17 sys slot y l' z -> moves L R c bodies cpp17 sys slot x (l ++ l')%list z).
  { clear. induction 1; intros; cbn; auto. econstructor; eauto. }
  exists (l ++ l')%list, ds, ts. eauto.
Qed.
End Play.

(* If b is not 0, a thread that calls g is to be started; b becomes 0. *)
Definition starts : system toy :=
  {| sys_start := fun m : mem toy => match fst m with
       | [a; I b; p; x; y] => if Z.eqb b 0 then None
                              else Some (tt, "g", [], (([a; I 0; p; x; y], snd m) : mem toy))
       | _ => None
       end;
     sys_end := fun _ _ m => m |}.

Definition started : tmem := start (I 0) (I 1) (P 0) (I 5) (I 0).
Definition selected (v : option string) : runtime := linked_selecting toy cpp_ctx optimised files v.
Lemma threads_end v m l :
  played toy (selected v) cpp_ctx (linked_body toy cpp_ctx optimised files 0) false starts own l 60 2
    (begin toy (selected v) started (linked_initial toy cpp_ctx optimised files v) [(tt, "f", [])])
    = Some (m, true) ->
  sys_start starts m = None ->
  ends toy (selected v) cpp_ctx (linked_body toy cpp_ctx optimised files 0) false starts own
    (begin toy (selected v) started (linked_initial toy cpp_ctx optimised files v) [(tt, "f", [])]) m.
Proof. apply played_ends. Qed.
