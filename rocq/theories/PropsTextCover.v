(* Property C82: the written files of a run with and of a run without coverage tracking, read
   and executed: a mutant whose id is not written to the tracking file makes no difference.

   [has_line]: the tracking file has the number as a line.  [text_unrecorded]: no execution of
   the coverage build, read from its text and called like that, writes the id of an enabled
   mutant.  [text_no_more]: every result, memory, undefined behaviour and divergence of the
   mutated file, read from its text, is possible in the original program.  [text_finishes]:
   wherever the coverage build has got to, it can finish (TextCoverSpec.v). *)
From Coq Require Import String List Arith NArith ZArith Bool Lia.
From Verif Require Import Base Clang Gen GenExpr GenBinary GenUnary GenStmt Rewriter
  Mutation MutTree PreludeText Prelude PreludeC PreludeSpec Run TreeSpec RunSpec RunTest ClashSpec
  CText FunText CRun TextSpec.
From Verif Require Import NestSpec Lang Cst SimSpec SimRel SimTop MutantSpec Visitor VisitorSpec SimExample SimRefute
  PropsNest EndSpec EndProof TextLang TextTop CoverSpec CoverExample TextCoverSpec TextCoverProof
  TextCoverExample.
Import ListNotations.
Local Open Scope string_scope.

(* If a run of the tool writes a file, the run with coverage tracking over the same files does,
   too.  Both texts consist of what precedes the declarations, a prelude, functions and the
   declarations with calls, which can be read.  If, executed as it is read, the text with
   coverage tracking never writes the id of an enabled mutant, the text without can only do
   what the original program can.  Missing: mutants of && and || in C if the coverage build may
   not finish, and files in which a site has no mutant. *)
Theorem C82_texts_partial : forall oM oC bt fs n t,
  track oM = false -> track oC = true -> optimise oM = optimise oC ->
  In (n, t) (rs_written (Run.run oM bt fs)) ->
  exists tC d1 f d2 u,
    In (n, tC) (rs_written (Run.run oC bt fs)) /\
    RunSpec.distinct [] fs = (d1 ++ f :: d2)%list /\ Run.f_name f = n /\ f_unit f = Some u /\
    let c := ui_ctx u in
    let first := list_sum (map (offers oM) d1) in
    forall L root ps pre gaps (p : list (string * cst L)) last,
      MutTree.tidy (ui_tree u) = MutTree.tidy (mutation_tree (cpp c) (optimise oM) root) ->
      f_text f = pre ++ source gaps p ++ last ->
      ui_prelude_offset u = String.length pre -> ui_rewrites u = [] ->
      corresponds (cpp c) (optimise oM) root ps (source_places p) ->
      source_placed gaps p (String.length pre) -> separated (source_places p) ->
      (forall m, In m (post (ui_tree u)) -> clang_node c m) ->
      well_formed_program L c p = true -> productive_program L c oC p = true ->
      let q := fst (mutate_program L c oM p 0) in
      let qC := fst (mutate_program L c oC p 0) in
      let num := snd (mutate_program L c oM p 0) in
      is_int (first + num) ->
      exists h functions items ds st hC functionsC itemsC dsC,
        t = pre ++ h ++ functions ++ source gaps q ++ last /\
        parse_text h = Some items /\ read_functions functions = Some ds /\
        own_statics items = Some st /\
        tC = pre ++ hC ++ functionsC ++ source gaps qC ++ last /\
        parse_text hC = Some itemsC /\ read_functions functionsC = Some dsC /\
        shared_statics itemsC = Some [("already_recorded", VArr (repeat (VBool false) num))] /\
        forall cpp17 g args e m v zs w fuel d fuelC,
          (cpp17 = true -> sequenced_program L c p = true) ->
          enables first v zs -> enough v fuel -> freed w 1 = false ->
          fresh num d -> num < fuelC ->
          (forall i, In i (logical_of L c (optimise oC) p 0) -> ~ In (Z.of_nat (first + i)) zs) ->
          text_unrecorded L c cpp17 dsC itemsC fuelC (text_body_of L c dsC qC) e m d
            (SimSpec.call L g args) zs ->
          text_no_more L c cpp17 ds (text_selecting items fuel v) (text_body_of L c ds q) e m
            (w, st) (SimSpec.call L g args) (body_of L c p) (SimSpec.call L g args).
Proof. exact whole_cover_other. Qed.
Print Assumptions C82_texts_partial.

(* All mutants, those of && and || in C among them, if the coverage build can always finish. *)
Theorem C82_texts_finishing : forall oM oC bt fs n t,
  track oM = false -> track oC = true -> optimise oM = optimise oC ->
  In (n, t) (rs_written (Run.run oM bt fs)) ->
  exists tC d1 f d2 u,
    In (n, tC) (rs_written (Run.run oC bt fs)) /\
    RunSpec.distinct [] fs = (d1 ++ f :: d2)%list /\ Run.f_name f = n /\ f_unit f = Some u /\
    let c := ui_ctx u in
    let first := list_sum (map (offers oM) d1) in
    forall L root ps pre gaps (p : list (string * cst L)) last,
      MutTree.tidy (ui_tree u) = MutTree.tidy (mutation_tree (cpp c) (optimise oM) root) ->
      f_text f = pre ++ source gaps p ++ last ->
      ui_prelude_offset u = String.length pre -> ui_rewrites u = [] ->
      corresponds (cpp c) (optimise oM) root ps (source_places p) ->
      source_placed gaps p (String.length pre) -> separated (source_places p) ->
      (forall m, In m (post (ui_tree u)) -> clang_node c m) ->
      well_formed_program L c p = true -> productive_program L c oC p = true ->
      let q := fst (mutate_program L c oM p 0) in
      let qC := fst (mutate_program L c oC p 0) in
      let num := snd (mutate_program L c oM p 0) in
      is_int (first + num) ->
      exists h functions items ds st hC functionsC itemsC dsC,
        t = pre ++ h ++ functions ++ source gaps q ++ last /\
        parse_text h = Some items /\ read_functions functions = Some ds /\
        own_statics items = Some st /\
        tC = pre ++ hC ++ functionsC ++ source gaps qC ++ last /\
        parse_text hC = Some itemsC /\ read_functions functionsC = Some dsC /\
        shared_statics itemsC = Some [("already_recorded", VArr (repeat (VBool false) num))] /\
        forall cpp17 g args e m v zs w fuel d fuelC,
          (cpp17 = true -> sequenced_program L c p = true) ->
          enables first v zs -> enough v fuel -> freed w 1 = false ->
          fresh num d -> num < fuelC ->
          text_finishes L c cpp17 dsC (text_recording itemsC fuelC) (text_body_of L c dsC qC) e m d
            (SimSpec.call L g args) ->
          text_unrecorded L c cpp17 dsC itemsC fuelC (text_body_of L c dsC qC) e m d
            (SimSpec.call L g args) zs ->
          text_no_more L c cpp17 ds (text_selecting items fuel v) (text_body_of L c ds q) e m
            (w, st) (SimSpec.call L g args) (body_of L c p) (SimSpec.call L g args).
Proof. exact whole_cover_finishing. Qed.
Print Assumptions C82_texts_finishing.

(* What a line of the tracking file is: the lines for a list of numbers are these numbers. *)
Theorem C82_lines : forall l x, has_line (lines l) x <-> In x l.
Proof. exact has_line_lines. Qed.
Print Assumptions C82_lines.

(* add.c of the test suite; the other hypotheses are met as shown in C29_example and
   C54_example. *)
Example C82_example :
  In ("add.c", add_c_expected) (rs_written (Run.run default_options true [add_c_file])) /\
  (forall m, In m (post (ui_tree add_c_unit)) -> clang_node c_ctx m) /\
  well_formed_program toy c_ctx [("main", add_body)] = true /\
  productive_program toy c_ctx coverage [("main", add_body)] = true /\
  is_int (0 + snd (mutate_program toy c_ctx default_options [("main", add_body)] 0)).
Proof.
  split; [rewrite add_c_reproduced; left; reflexivity|]. split; [|split; [|split]].
  - intros m H. cbn in H.
    repeat match type of H with
           | _ \/ _ => destruct H as [<-|H]
           | False => destruct H
           end; cbn; unfold clang_expr, clang_binary; cbn; repeat split; intros; congruence.
  - vm_compute; reflexivity.
  - vm_compute; reflexivity.
  - vm_compute; discriminate.
Qed.

(* if (x && y) print(a);  in C, x being 0, its prelude and functions read from their texts: the
   coverage build writes the ids of the mutants of the condition, but not that of the removal
   of the call of print (21). *)
Example C82_executions :
  file_text c_ctx coverage guarded (items_of c_ctx coverage guarded) (functions_of c_ctx coverage guarded) /\
  fresh 23 (no_lines 23) /\ enables 0 (Some "21") [21%Z] /\
  logical_of toy c_ctx true guarded 0 = [12; 13; 14] /\
  (text_unrecorded toy c_ctx false (functions_of c_ctx coverage guarded)
     (items_of c_ctx coverage guarded) 30 (of_text c_ctx coverage guarded)
     tt guard_off (no_lines 23) (SimSpec.call toy "f" []) [21%Z]) /\
  ~ text_unrecorded toy c_ctx false (functions_of c_ctx coverage guarded)
      (items_of c_ctx coverage guarded) 30 (of_text c_ctx coverage guarded)
      tt guard_off (no_lines 23) (SimSpec.call toy "f" []) [12%Z].
Proof.
  split; [apply guarded_file; auto|]. split; [apply no_lines_fresh|]. split; [exact enables_21|].
  split; [vm_compute; reflexivity|]. split; [exact guarded_text_unrecorded|].
  exact guarded_text_recorded.
Qed.

(* if (x) b && y;  in C, x being 0, with two mutants of && enabled *)
Example C82_finishing_executions :
  file_text c_ctx coverage guards (items_of c_ctx coverage guards) (functions_of c_ctx coverage guards) /\
  enables 0 (Some "18,20") [18%Z; 20%Z] /\ logical_of toy c_ctx true guards 0 = [18; 19; 20] /\
  (text_finishes toy c_ctx false (functions_of c_ctx coverage guards)
     (text_recording (items_of c_ctx coverage guards) 40) (of_text c_ctx coverage guards)
     tt guard_off (no_lines guards_number) (SimSpec.call toy "f" [])) /\
  text_unrecorded toy c_ctx false (functions_of c_ctx coverage guards)
    (items_of c_ctx coverage guards) 40 (of_text c_ctx coverage guards)
    tt guard_off (no_lines guards_number) (SimSpec.call toy "f" []) [18%Z; 20%Z].
Proof.
  split; [apply guards_file; auto|]. split; [exact enables_18_20|].
  split; [vm_compute; reflexivity|]. split; [exact guards_text_finishes|].
  exact guards_text_unrecorded.
Qed.

(* False for && and || in C: b && x / y; with b = 1 and y = 0 divides by zero before the operator
   is recorded; with || for && nothing is divided.  [file_text]: the prelude and the functions of
   the sites of the program, as they are printed, can be read as these (TextCoverExample.v). *)
Theorem C82_logical_refuted : exists c p items ds st itemsC dsC num fuel v zs w d g args m,
  file_text c optimised p items ds /\ file_text c coverage p itemsC dsC /\
  own_statics items = Some st /\ num = snd (mutate_program toy c optimised p 0) /\
  (forall x, In x (source_places p) -> clang_node c (mutation_at x)) /\
  enables 0 v zs /\ enough v fuel /\ freed w 1 = false /\ fresh num d /\ num < fuel /\
  well_formed_program toy c p = true /\ productive_program toy c coverage p = true /\
  text_unrecorded toy c false dsC itemsC fuel
    (text_body_of toy c dsC (fst (mutate_program toy c coverage p 0))) tt m d
    (SimSpec.call toy g args) zs /\
  ~ text_no_more toy c false ds (text_selecting items fuel v)
      (text_body_of toy c ds (fst (mutate_program toy c optimised p 0))) tt m (w, st)
      (SimSpec.call toy g args) (body_of toy c p) (SimSpec.call toy g args).
Proof. exact logical_text_refuted. Qed.
Print Assumptions C82_logical_refuted.

(* False if there are sites without mutants, which share their id with the next site. *)
Theorem C82_shadowed_refuted : exists c p items ds st itemsC dsC num fuel v zs w d g args m,
  file_text c optimised p items ds /\ file_text c coverage p itemsC dsC /\
  own_statics items = Some st /\ num = snd (mutate_program toy c optimised p 0) /\
  (forall x, In x (source_places p) -> clang_node c (mutation_at x)) /\
  enables 0 v zs /\ enough v fuel /\ freed w 1 = false /\ fresh num d /\ num < fuel /\
  well_formed_program toy c p = true /\
  (forall i, In i (logical_of toy c true p 0) -> ~ In (Z.of_nat (0 + i)) zs) /\
  text_unrecorded toy c false dsC itemsC fuel
    (text_body_of toy c dsC (fst (mutate_program toy c coverage p 0))) tt m d
    (SimSpec.call toy g args) zs /\
  ~ text_no_more toy c false ds (text_selecting items fuel v)
      (text_body_of toy c ds (fst (mutate_program toy c optimised p 0))) tt m (w, st)
      (SimSpec.call toy g args) (body_of toy c p) (SimSpec.call toy g args).
Proof. exact shadowed_text_refuted. Qed.
Print Assumptions C82_shadowed_refuted.
