(* Property C85: written files in which constants are replaced by their values, read and
   executed. *)
From Coq Require Import String List Arith NArith ZArith Bool Lia.
From Verif Require Import Base Clang Gen GenExpr GenBinary GenUnary GenStmt Rewriter
  Mutation MutTree PreludeText Prelude PreludeC PreludeSpec Run TreeSpec RunSpec RunTest ClashSpec
  CText FunText CRun TextSpec.
From Verif Require Import NestSpec Lang Cst SimSpec SimTop MutantSpec Visitor VisitorSpec SimExample
  EndSpec EndProof TextLang TextTop RespellSpec RespellTop RespellExample.
Import ListNotations.
Local Open Scope string_scope.

(* C85: as C70, for files in which text is replaced as well - sizes of arrays, arguments of
   templates and of builtin functions, conditions of static assertions - as long as it has no
   characters of mutated operators.  There is a program with the meaning of the original one
   that is the original text with just the replacements; the written file is this program with
   calls at the places to be mutated, and what is put in front of the declarations.  Executed as
   it is read, the file can only do what the original program with exactly the listed mutants
   can do; without any of its mutants and in a coverage build, what the original program can. *)
Theorem C85_replaced_constants : forall o bt fs n t,
  In (n, t) (rs_written (Run.run o bt fs)) ->
  exists d1 f d2 u,
    RunSpec.distinct [] fs = (d1 ++ f :: d2)%list /\ Run.f_name f = n /\ f_unit f = Some u /\
    let c := ui_ctx u in
    let first := list_sum (map (offers o) d1) in
    forall L root ps pre gaps (p : list (string * cst L)) last,
      MutTree.tidy (ui_tree u) = MutTree.tidy (mutation_tree (cpp c) (optimise o) root) ->
      f_text f = pre ++ source gaps p ++ last ->
      ui_prelude_offset u = String.length pre ->
      beside_operators (ui_rewrites u) (source_places p) ->
      corresponds (cpp c) (optimise o) root ps (source_places p) ->
      source_placed gaps p (String.length pre) -> separated (source_places p) ->
      (forall m, In m (post (ui_tree u)) -> clang_node c m) ->
      well_formed_program L c p = true ->
      let num := snd (mutate_program L c o p 0) in
      is_int (first + num) ->
      exists pre' gaps' p' last' h functions items ds st,
        rewrite (f_text f) (ui_rewrites u) = pre' ++ source gaps' p' ++ last' /\
        respelled p p' /\
        let q := fst (mutate_program L c o p' 0) in
        t = pre' ++ h ++ functions ++ source gaps' q ++ last' /\
        parse_text h = Some items /\ read_functions functions = Some ds /\
        own_statics items = Some st /\
        forall cpp17 g args, (cpp17 = true -> sequenced_program L c p = true) ->
        (track o = false ->
         forall v zs w fuel, enables first v zs -> enough v fuel -> freed w 1 = false ->
           text_behaves_like L c cpp17 ds (text_selecting items fuel v) (w, st)
             (text_body_of L c ds q) (SimSpec.call L g args)
             (lookup_body L (fst (spec_program L c (optimise o) true (listed first zs) p 0)))
             (SimSpec.call L g args) /\
           ((forall i, i < num -> ~ In (Z.of_nat (first + i)) zs) ->
            text_behaves_like L c cpp17 ds (text_selecting items fuel v) (w, st)
              (text_body_of L c ds q) (SimSpec.call L g args)
              (body_of L c p) (SimSpec.call L g args))) /\
        (track o = true -> productive_program L c o p = true ->
         shared_statics items = Some [("already_recorded", VArr (repeat (VBool false) num))] /\
         forall d fuel, marks d = repeat false num -> num < fuel ->
           (variable d = None \/ openable d = true \/ cpp c = true) ->
           text_behaves_like L c cpp17 ds (text_recording items fuel) d
             (text_body_of L c ds q) (SimSpec.call L g args)
             (body_of L c p) (SimSpec.call L g args)).
Proof. exact replaced_text. Qed.
Print Assumptions C85_replaced_constants.

(* enum { n = 2 }; int f() { int a[n + 1]; return 1 + 1; } in C++: n + 1 is replaced by 3. *)
Example C85_example :
  rs_written (Run.run default_options true [sized_file]) = [("sized.cc", sized_front ++ sized_rest)] /\
  sized_rest =
  source sized_gaps (fst (mutate_program toy sized_ctx default_options [("f", replaced_body)] 0)) ++ nl.
Proof. exact sized_written. Qed.
Example C85_meets :
  f_text sized_file = "" ++ source sized_gaps sized_program ++ nl /\
  ui_rewrites sized_unit = [ReplaceText 32 5 "3"] /\
  beside_operators (ui_rewrites sized_unit) (source_places sized_program) /\
  (exists ps, corresponds true true sized_ast ps (source_places sized_program)) /\
  source_placed sized_gaps sized_program 0 /\ separated (source_places sized_program) /\
  (forall m, In m (post (ui_tree sized_unit)) -> clang_node sized_ctx m) /\
  well_formed_program toy sized_ctx sized_program = true /\
  rewrite sized_text sized_rewrites = source sized_gaps [("f", replaced_body)] ++ nl /\
  respelled sized_program [("f", replaced_body)].
Proof. exact sized_meets. Qed.
