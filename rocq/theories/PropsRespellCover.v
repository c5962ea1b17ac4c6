(* Property C82 for files in which constants are replaced by their values. *)
From Coq Require Import String List Arith NArith ZArith Bool Lia.
From Verif Require Import Base Clang Gen GenExpr GenBinary GenUnary GenStmt Rewriter
  Mutation MutTree PreludeText Prelude PreludeC PreludeSpec Run TreeSpec RunSpec RunTest ClashSpec
  CText FunText CRun TextSpec.
From Verif Require Import NestSpec Lang Cst SimSpec SimRel SimTop MutantSpec Visitor VisitorSpec SimExample
  EndSpec EndProof TextLang TextTop CoverSpec CoverExample TextCoverSpec TextCoverExample
  RespellSpec RespellTop RespellExample RespellCover.
Import ListNotations.
Local Open Scope string_scope.

(* As C82_texts_partial, for files in which text is replaced as well, as long as it has no
   characters of mutated operators.  Both written files are the same respelling of the original
   program with calls and what is put in front of the declarations.  Missing: mutants of && and
   || in C if the coverage build may not finish, and files in which a site has no mutant
   (C82_logical_refuted, C82_shadowed_refuted). *)
Theorem C82_replaced_partial : forall oM oC bt fs n t,
  track oM = false -> track oC = true -> optimise oM = optimise oC ->
  In (n, t) (rs_written (Run.run oM bt fs)) ->
  exists tC d1 f d2 u,
    In (n, tC) (rs_written (Run.run oC bt fs)) /\
    RunSpec.distinct [] fs = (d1 ++ f :: d2)%list /\ Run.f_name f = n /\ f_unit f = Some u /\
    let c := ui_ctx u in
    let first := list_sum (map (offers oM) d1) in
    forall L root ps pre gaps (p : list (string * cst L)) last,
      MutTree.tidy (ui_tree u) = MutTree.tidy (mutation_tree (cpp c) (optimise oM) root) ->
      f_text f = pre ++ source gaps p ++ last ->
      ui_prelude_offset u = String.length pre ->
      beside_operators (ui_rewrites u) (source_places p) ->
      corresponds (cpp c) (optimise oM) root ps (source_places p) ->
      source_placed gaps p (String.length pre) -> separated (source_places p) ->
      (forall m, In m (post (ui_tree u)) -> clang_node c m) ->
      well_formed_program L c p = true -> productive_program L c oC p = true ->
      let num := snd (mutate_program L c oM p 0) in
      is_int (first + num) ->
      exists pre' gaps' p' last' h functions items ds st hC functionsC itemsC dsC,
        rewrite (f_text f) (ui_rewrites u) = pre' ++ source gaps' p' ++ last' /\
        respelled p p' /\
        let q := fst (mutate_program L c oM p' 0) in
        let qC := fst (mutate_program L c oC p' 0) in
        t = pre' ++ h ++ functions ++ source gaps' q ++ last' /\
        parse_text h = Some items /\ read_functions functions = Some ds /\
        own_statics items = Some st /\
        tC = pre' ++ hC ++ functionsC ++ source gaps' qC ++ last' /\
        parse_text hC = Some itemsC /\ read_functions functionsC = Some dsC /\
        shared_statics itemsC = Some [("already_recorded", VArr (repeat (VBool false) num))] /\
        forall cpp17 g args e m v zs w fuel d fuelC,
          (cpp17 = true -> sequenced_program L c p = true) ->
          enables first v zs -> enough v fuel -> freed w 1 = false ->
          fresh num d -> num < fuelC ->
          (forall i, In i (logical_of L c (optimise oC) p 0) -> ~ In (Z.of_nat (first + i)) zs) ->
          text_unrecorded L c cpp17 dsC itemsC fuelC (text_body_of L c dsC qC) e m d
            (SimSpec.call L g args) zs ->
          text_no_more L c cpp17 ds (text_selecting items fuel v) (text_body_of L c ds q) e m
            (w, st) (SimSpec.call L g args) (body_of L c p) (SimSpec.call L g args).
Proof. exact replaced_cover_other. Qed.
Print Assumptions C82_replaced_partial.

(* All mutants, if the coverage build can always finish. *)
Theorem C82_replaced_finishing : forall oM oC bt fs n t,
  track oM = false -> track oC = true -> optimise oM = optimise oC ->
  In (n, t) (rs_written (Run.run oM bt fs)) ->
  exists tC d1 f d2 u,
    In (n, tC) (rs_written (Run.run oC bt fs)) /\
    RunSpec.distinct [] fs = (d1 ++ f :: d2)%list /\ Run.f_name f = n /\ f_unit f = Some u /\
    let c := ui_ctx u in
    let first := list_sum (map (offers oM) d1) in
    forall L root ps pre gaps (p : list (string * cst L)) last,
      MutTree.tidy (ui_tree u) = MutTree.tidy (mutation_tree (cpp c) (optimise oM) root) ->
      f_text f = pre ++ source gaps p ++ last ->
      ui_prelude_offset u = String.length pre ->
      beside_operators (ui_rewrites u) (source_places p) ->
      corresponds (cpp c) (optimise oM) root ps (source_places p) ->
      source_placed gaps p (String.length pre) -> separated (source_places p) ->
      (forall m, In m (post (ui_tree u)) -> clang_node c m) ->
      well_formed_program L c p = true -> productive_program L c oC p = true ->
      let num := snd (mutate_program L c oM p 0) in
      is_int (first + num) ->
      exists pre' gaps' p' last' h functions items ds st hC functionsC itemsC dsC,
        rewrite (f_text f) (ui_rewrites u) = pre' ++ source gaps' p' ++ last' /\
        respelled p p' /\
        let q := fst (mutate_program L c oM p' 0) in
        let qC := fst (mutate_program L c oC p' 0) in
        t = pre' ++ h ++ functions ++ source gaps' q ++ last' /\
        parse_text h = Some items /\ read_functions functions = Some ds /\
        own_statics items = Some st /\
        tC = pre' ++ hC ++ functionsC ++ source gaps' qC ++ last' /\
        parse_text hC = Some itemsC /\ read_functions functionsC = Some dsC /\
        shared_statics itemsC = Some [("already_recorded", VArr (repeat (VBool false) num))] /\
        forall cpp17 g args e m v zs w fuel d fuelC,
          (cpp17 = true -> sequenced_program L c p = true) ->
          enables first v zs -> enough v fuel -> freed w 1 = false ->
          fresh num d -> num < fuelC ->
          text_finishes L c cpp17 dsC (text_recording itemsC fuelC)
            (text_body_of L c dsC qC) e m d (SimSpec.call L g args) ->
          text_unrecorded L c cpp17 dsC itemsC fuelC (text_body_of L c dsC qC) e m d
            (SimSpec.call L g args) zs ->
          text_no_more L c cpp17 ds (text_selecting items fuel v) (text_body_of L c ds q) e m
            (w, st) (SimSpec.call L g args) (body_of L c p) (SimSpec.call L g args).
Proof. exact replaced_cover_finishing. Qed.
Print Assumptions C82_replaced_finishing.

(* The file of C85_example, which is written by both runs; the hypotheses about the file and its
   declarations are met as shown in C85_meets, those about executions as in C82_executions. *)
Example C82_replaced_example :
  map fst (rs_written (Run.run default_options true [sized_file])) = ["sized.cc"] /\
  map fst (rs_written (Run.run coverage true [sized_file])) = ["sized.cc"] /\
  productive_program toy sized_ctx coverage sized_program = true /\
  is_int (0 + snd (mutate_program toy sized_ctx default_options sized_program 0)) /\
  logical_of toy sized_ctx true sized_program 0 = [].
Proof.
  split; [vm_compute; reflexivity|]. split; [vm_compute; reflexivity|].
  split; [vm_compute; reflexivity|]. split; [vm_compute; discriminate|vm_compute; reflexivity].
Qed.
