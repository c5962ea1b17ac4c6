(* Property C54: from the syntax tree to the text and behaviour of the written file. *)
From Coq Require Import String List ZArith Bool Arith.
From Verif Require Import VisitorExample Base Clang Gen GenExpr GenBinary GenUnary GenStmt Rewriter Mutation
  MutTree PreludeText Run TreeSpec RunSpec Lang Cst PreludeSpec Prelude Runtime NestSpec SimSpec
  SimTop MutantSpec Visitor VisitorSpec ExactSpec RunTest SimExample PropsNest EndSpec
  EndProof.
Import ListNotations.
Local Open Scope string_scope.

(* C54: the places of a text that correspond to the changes that the description of the tool
   demands of the syntax tree are those of which the mutation tree consists, in order; *)
Theorem C54_places : forall is_cpp opt root ps l,
  corresponds is_cpp opt root ps l ->
  map place_of (post (mutation_tree is_cpp opt root)) = l.
Proof. exact found. Qed.
Print Assumptions C54_places.

(* there always are such places; *)
Theorem C54_places_exist : forall is_cpp opt root,
  exists ps, corresponds is_cpp opt root ps
               (map place_of (post (mutation_tree is_cpp opt root))).
Proof. exact some_correspondence. Qed.
Print Assumptions C54_places_exist.

(* and a file that is written consists of the prelude, for the ids from the number of mutants
   of the earlier files on and for as many mutants as the file has, the generated functions,
   and the functions of the file with those places changed.  With the ids zs enabled it behaves
   like the program in which exactly these mutants are applied (C48), and if none of them is
   in the file, like the original program. *)
Theorem C54_whole_tool : forall o bt fs n t,
  In (n, t) (rs_written (run o bt fs)) ->
  exists d1 f d2 u,
    distinct [] fs = (d1 ++ f :: d2)%list /\ f_name f = n /\ f_unit f = Some u /\
    let c := ui_ctx u in
    let first := list_sum (map (offers o) d1) in
    forall L root ps pre gaps (p : list (string * cst L)) last,
      tidy (ui_tree u) = tidy (mutation_tree (cpp c) (optimise o) root) ->
      f_text f = pre ++ source gaps p ++ last ->
      ui_prelude_offset u = String.length pre -> ui_rewrites u = [] ->
      corresponds (cpp c) (optimise o) root ps (source_places p) ->
      source_placed gaps p (String.length pre) -> separated (source_places p) ->
      let q := fst (mutate_program L c o p 0) in
      let num := snd (mutate_program L c o p 0) in
      (exists l, t = pre ++ prelude_text c o first num ++ concat_strings l
                         ++ source gaps q ++ last) /\
      (track o = false -> well_formed_program L c p = true ->
       forall cpp17 v zs g args, enables first v zs ->
         (cpp17 = true -> sequenced_program L c p = true) ->
         behaves_like L c cpp17 (selecting first num (cpp c) v) (initial_tls num)
           (body_of L c q) (call L g args)
           (lookup_body L (fst (spec_program L c (optimise o) true (listed first zs) p 0)))
           (call L g args) /\
         ((forall i, i < num -> ~ In (Z.of_nat (first + i)) zs) ->
          behaves_like L c cpp17 (selecting first num (cpp c) v) (initial_tls num)
            (body_of L c q) (call L g args) (body_of L c p) (call L g args))).
Proof. exact whole_tool. Qed.
Print Assumptions C54_whole_tool.

(* add.c of the test suite; the other hypotheses are met as shown in C29_example. *)
Example C54_example :
  In ("add.c", add_c_expected) (rs_written (run default_options true [add_c_file])) /\
  tidy (ui_tree add_c_unit) = tidy (mutation_tree (cpp c_ctx) true add_c_ast) /\
  corresponds (cpp c_ctx) true add_c_ast
    [[0; 0; 0; 0; 0]; [0; 0; 1; 0; 0]; [0; 0; 2; 0; 0; 0; 0]; [0; 0; 2; 0; 0; 0];
     [0; 0; 2; 0; 0; 1; 0]; [0; 0; 2; 0; 0; 1]; [0; 0; 2; 0; 0]; [0; 0; 2; 0; 0];
     [0; 0; 2; 0; 1; 0]; [0; 0; 2; 0; 1]; [0; 0; 2; 0]; [0; 0; 2; 0]; [0; 0; 2]]
    (source_places [("main", add_body)]) /\
  well_formed_program toy c_ctx [("main", add_body)] = true /\
  sequenced_program toy c_ctx [("main", add_body)] = true.
Proof.
  split; [left; vm_compute; reflexivity|]. split; [vm_compute; reflexivity|].
  split; [|split; vm_compute; reflexivity].
  pose proof (visited_correspondence (cpp c_ctx) true add_c_ast) as H.
  vm_compute in H. exact H.
Qed.
