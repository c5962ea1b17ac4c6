(* add.c, mutated and given to the tool again. *)
From Coq Require Import String Ascii List Arith ZArith Bool Lia.
From Verif Require Import Base Clang Gen GenExpr GenBinary GenUnary GenStmt Mutation MutTree TreeSpec
  Rewriter Run RunSpec RunTest LineSpec TwiceSpec TwiceProof.
Import ListNotations.
Local Open Scope string_scope.

(* The mutated text, in which the 1 of "int x = 1" is now an argument of a call.  Of the many
   places that can be mutated this is one; the first declaration is that of
   __dredd_some_mutation_enabled. *)
Definition again_unit : unit_info :=
  {| ui_ctx := c_ctx;
     ui_tree := Node [MutExpr (mk_expr false (Some 1%Z) (Some true) None None 3935 3936)
                        (mk_info 110 40 110 41 "1")] [];
     ui_rewrites := []; ui_prelude_offset := 511 |}.
Definition again_file : source_file :=
  {| f_name := "add.c"; f_text := add_c_expected; f_unit := Some again_unit |}.

Lemma again_text : substring 511 24 add_c_expected = "static thread_local int " /\
  substring 3934 6 add_c_expected = "(1, 0)".
Proof. vm_compute. auto. Qed.
Lemma again_placed : forall f, In f [again_file] -> well_placed f.
Proof.
  intros f [<-|[]] u H. cbn [f_unit again_file] in H. injection H; intros; subst u.
  apply Nat.leb_le. vm_compute. reflexivity.
Qed.
Lemma again_line : whole_line add_c_expected 570 (definition_line false).
Proof.
  split; [|split].
  - right. exists 569. vm_compute. auto.
  - vm_compute. reflexivity.
  - right. vm_compute. reflexivity.
Qed.
Lemma again_untouched i j : j < 3935 -> untouched again_unit i j.
Proof.
  intros L k K. split; [split|split].
  - intros m [<-|[]]. cbn. auto.
  - intros e [].
  - intros m [<-|[]]. cbn [site_ends ends_of e_range mk_expr r_begin r_end In].
    intros [E|[E|[]]]; lia.
  - intros e [].
Qed.

Lemma again_meets : forall f u, In f [again_file] -> f_name f = "add.c" -> f_unit f = Some u ->
  in_one_line u (f_text f) /\
  exists i, let j := i + String.length (definition_line false) in
    whole_line (f_text f) i (definition_line false) /\ j <= String.length (f_text f) /\
    untouched u i j /\ (ui_prelude_offset u <= i \/ j < ui_prelude_offset u).
Proof.
  intros f u [<-|[]] _ H. cbn [f_unit again_file] in H. injection H; intros; subst u.
  split.
  - split; [|intros e []]. intros i _. split; [|intros e []]. intros m [<-|[]]. cbn. auto.
  - exists 570. cbv zeta. split; [exact again_line|]. split.
    + apply Nat.leb_le. vm_compute. reflexivity.
    + split; [apply again_untouched|left]; apply Nat.leb_le; vm_compute; reflexivity.
Qed.
Lemma again_written : exists t, In ("add.c", t) (rs_written (run default_options true [again_file])).
Proof.
  exists (snd (nth 0 (rs_written (run default_options true [again_file])) ("", ""))).
  vm_compute. now left.
Qed.
