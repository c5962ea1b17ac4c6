(* Examples and counterexamples for C83. *)
From Coq Require Import String List Arith Bool.
From Verif Require Import Base Clang MutTree Rewriter PreludeText Run RunSpec RunTest Disk DiskSpec DiskProof.
Import ListNotations.
Local Open Scope string_scope.

(* Files 0 (add.c) and 1 (add2.c), the latter including the former; a/../add.c is another
   name of file 0.  Whatever the main file contains, Clang finds what add.c has where it
   has it: text in front of it moves the places of the mutations out of the way, which
   makes no difference to what is shown here. *)
Definition files (n : string) : nat :=
  if String.eqb n "add.c" then 0
  else if String.eqb n "a/../add.c" then 0
  else if String.eqb n "add2.c" then 1 else 2.
Definition includes (n : string) : list nat :=
  if String.eqb n "add2.c" then [1; 0] else [files n].

(* Clang, for which only add.c as it was first will do as an included file: a
   second prelude, say, defines what has been defined. *)
Definition clang (d : disk) (n : string) : option unit_info :=
  if String.eqb n "add2.c"
  then match d 0, d 1 with
       | Some t, Some _ => if String.eqb t add_c then Some add_c_unit else None
       | _, _ => None
       end
  else match d (files n) with Some _ => Some add_c_unit | None => None end.

Definition small_world : world :=
  {| w_file := files; w_reads := fun _ n => includes n; w_clang := clang |}.
Definition two_files : disk :=
  fun i => match i with 0 => Some add_c | 1 => Some add_c | _ => None end.

Lemma small_reads_enough : reads_enough small_world.
Proof.
  intros d d' n H. cbn in *. unfold clang, includes in *.
  destruct (String.eqb n "add2.c").
  - rewrite <- (H 0), <- (H 1) by (simpl; auto). reflexivity.
  - rewrite <- (H (files n)) by (simpl; auto). reflexivity.
Qed.

Lemma small_reads_main : reads_main small_world.
Proof.
  intros d n. cbn. unfold includes. destruct (String.eqb n "add2.c") eqn:E; simpl; auto.
  apply String.eqb_eq in E. subst n. left. reflexivity.
Qed.

(* The including file is given before the included one *)
Definition good_order : list string := ["add2.c"; "add.c"; "missing.c"; "add2.c"].

Lemma small_read_before : read_before small_world two_files good_order.
Proof.
  intros before n rest m E N I H. unfold good_order in E.
  destruct before as [|b1 [|b2 [|b3 [|b4 before]]]]; simpl in E;
    injection E; clear E; intros; subst; simpl in *.
  - contradiction.
  - destruct I as [<-|[]]. cbn in H. intuition discriminate.
  - destruct I as [<-|[<-|[]]]; cbn in H; intuition discriminate.
  - apply N. auto.
  - destruct before; discriminate.
Qed.

Definition after_good : dstate := run_on small_world default_options true two_files good_order.

Lemma good_result :
  map fst (rs_written (ds_run after_good)) = ["add2.c"; "add.c"] /\
  rs_id (ds_run after_good) = 114 /\
  ds_disk after_good 1 = Some add_c_expected /\
  ds_disk after_good 2 = None.
Proof. vm_compute. repeat split. Qed.

(* The file given by two names is mutated twice *)
Lemma other_name_refuted :
  exists w o d ns, reads_enough w /\ reads_main w /\
    NoDup ns /\
    (forall n, In n ns -> exists t u, d (w_file w n) = Some t /\ w_clang w d n = Some u) /\
    ds_run (run_on w o true d ns) <> Run.run o true (map (found w d) ns) /\
    exists n t, In (n, t) (rs_written (Run.run o true (map (found w d) ns))) /\
      ds_disk (run_on w o true d ns) (w_file w n) <> Some t.
Proof.
  exists small_world, default_options, two_files, ["add.c"; "a/../add.c"].
  split; [apply small_reads_enough|]. split; [apply small_reads_main|].
  split. { repeat constructor; simpl; intuition discriminate. }
  split.
  { intros n [<-|[<-|[]]]; exists add_c, add_c_unit; split; reflexivity. }
  split.
  - intros E. apply (f_equal (fun r => String.length (snd (last (rs_written r) ("", ""))))) in E.
    vm_compute in E. discriminate E.
  - exists "add.c", add_c_expected. split.
    + vm_compute. left. reflexivity.
    + intros E.
      apply (f_equal (fun r => match r with Some t => String.length t | None => 0 end)) in E.
      vm_compute in E. discriminate E.
Qed.

(* The file given after a file which it includes is no longer mutated *)
Lemma included_refuted :
  exists w o d ns, reads_enough w /\ reads_main w /\
    NoDup (map (w_file w) ns) /\
    (forall n, In n ns -> exists t u, d (w_file w n) = Some t /\ w_clang w d n = Some u) /\
    map fst (rs_written (Run.run o true (map (found w d) ns))) = ns /\
    map fst (rs_written (ds_run (run_on w o true d ns))) <> ns.
Proof.
  exists small_world, default_options, two_files, ["add.c"; "add2.c"].
  split; [apply small_reads_enough|]. split; [apply small_reads_main|].
  split. { repeat constructor; simpl; intuition discriminate. }
  split.
  { intros n [<-|[<-|[]]]; exists add_c, add_c_unit; split; reflexivity. }
  split; [vm_compute; reflexivity|]. vm_compute. discriminate.
Qed.
