(* Property C27: generated functions never clash. *)
From Coq Require Import String List Bool Arith ZArith Lia.
From Verif Require Import Base Clang Gen GenExpr GenBinary GenUnary GenStmt Mutation MutTree
  TreeSpec Rewriter PreludeText Run RunSpec ClashSpec ClashProof RunTest.
Import ListNotations.

(* C27: of two mutated nodes, functions that a compiler takes for the same function have the
   same text. *)
Theorem C27_same_text : forall c o m m' f f',
  clang_node c m -> clang_node c m' ->
  In f (site_functions c o m) -> In f' (site_functions c o m') ->
  same_function c f f' -> print_mfun f = print_mfun f'.
Proof.
  exact (fun c o m m' f f' W W' H H' S =>
    f_equal print_mfun (no_clash c o m m' f f' W W' H H' S)).
Qed.
Print Assumptions C27_same_text.

(* Two different nodes with the same function: the operands x and y of x + y *)
Example C27_same_text_example :
  let m := MutExpr l_x1 i_x1 in
  let m' := MutExpr l_y i_y in
  m <> m' /\ clang_node c_ctx m /\ clang_node c_ctx m' /\
  exists f f', In f (site_functions c_ctx default_options m) /\
    In f' (site_functions c_ctx default_options m') /\ same_function c_ctx f f'.
Proof.
  cbv zeta. split; [discriminate|].
  split; [cbn; unfold clang_expr; cbn; repeat split; intros; congruence|].
  split; [cbn; unfold clang_expr; cbn; repeat split; intros; congruence|].
  eexists. eexists. split; [left; reflexivity|]. split; [left; reflexivity|].
  split; [vm_compute; reflexivity|discriminate].
Qed.

(* C27 for the files of a run: no two of the functions that are inserted in a file are the
   same function to a compiler. *)
Theorem C27_written_files : forall o bt fs n t,
  (forall f, In f fs -> well_placed f) ->
  (forall f u m, In f fs -> f_unit f = Some u -> In m (post (ui_tree u)) ->
     clang_node (ui_ctx u) m) ->
  In (n, t) (rs_written (run o bt fs)) ->
  exists f u pre F suf,
    In f fs /\ f_name f = n /\ f_unit f = Some u /\
    (forall g, In g F -> exists m, In m (post (ui_tree u)) /\
                           In g (site_functions (ui_ctx u) o m)) /\
    (forall m g, In m (post (ui_tree u)) -> In g (site_functions (ui_ctx u) o m) ->
       In (print_mfun g) (map print_mfun F)) /\
    ForallOrdPairs (fun g h => ~ same_function (ui_ctx u) g h) F /\
    t = (pre ++ concat_strings (map print_mfun F) ++ suf)%string.
Proof. exact written_no_clash. Qed.
Print Assumptions C27_written_files.

Example C27_example :
  (forall f, In f [add_c_file] -> well_placed f) /\
  (forall f u m, In f [add_c_file] -> f_unit f = Some u -> In m (post (ui_tree u)) ->
     clang_node (ui_ctx u) m) /\
  In ("add.c"%string, add_c_expected) (rs_written (run default_options true [add_c_file])).
Proof.
  split; [|split].
  - intros f [<-|[]] u; simpl; intros [= <-]; simpl; lia.
  - intros f u m [<-|[]] [= <-] H. cbn in H.
    repeat match type of H with
           | _ \/ _ => destruct H as [<-|H]
           | False => destruct H
           end; cbn; unfold clang_expr, clang_binary; cbn; repeat split; intros; congruence.
  - rewrite add_c_reproduced. left. reflexivity.
Qed.
