(* Property C70: the written file, read and executed. *)
From Coq Require Import String List Arith NArith ZArith Bool Lia.
From Verif Require Import VisitorExample Base Clang Gen GenExpr GenBinary GenUnary GenStmt Rewriter
  Mutation MutTree PreludeText Prelude PreludeC PreludeSpec Run TreeSpec RunSpec RunTest ClashSpec
  CText FunText CRun TextSpec.
From Verif Require Import NestSpec Lang Cst SimSpec SimTop MutantSpec Visitor VisitorSpec SimExample
  PropsNest EndSpec EndProof TextLang TextTop.
Import ListNotations.
Local Open Scope string_scope.

(* C70: a file that is written consists of what precedes the declarations, a prelude and
   functions that can be read, and the declarations with calls at the places to be mutated.
   Executed as it is read - the calls resolved among the functions that were read, their
   bodies executed as they stand, and the prelude's own function run to learn which mutants
   are enabled - the file can only do what the program in which exactly the listed mutants
   are applied can do; if none of them is in the file, only what the original program can.
   In a coverage build, where the prelude's function records to a file, it always can only do
   what the original program can. *)
Theorem C70_whole_text : forall o bt fs n t,
  In (n, t) (rs_written (Run.run o bt fs)) ->
  exists d1 f d2 u,
    RunSpec.distinct [] fs = (d1 ++ f :: d2)%list /\ Run.f_name f = n /\ f_unit f = Some u /\
    let c := ui_ctx u in
    let first := list_sum (map (offers o) d1) in
    forall L root ps pre gaps (p : list (string * cst L)) last,
      tidy (ui_tree u) = tidy (mutation_tree (cpp c) (optimise o) root) ->
      f_text f = pre ++ source gaps p ++ last ->
      ui_prelude_offset u = String.length pre -> ui_rewrites u = [] ->
      corresponds (cpp c) (optimise o) root ps (source_places p) ->
      source_placed gaps p (String.length pre) -> separated (source_places p) ->
      (forall m, In m (post (ui_tree u)) -> clang_node c m) ->
      well_formed_program L c p = true ->
      let q := fst (mutate_program L c o p 0) in
      let num := snd (mutate_program L c o p 0) in
      is_int (first + num) ->
      exists h functions items ds st,
        t = pre ++ h ++ functions ++ source gaps q ++ last /\
        parse_text h = Some items /\ read_functions functions = Some ds /\
        own_statics items = Some st /\
        forall cpp17 g args, (cpp17 = true -> sequenced_program L c p = true) ->
        (track o = false ->
         forall v zs w fuel, enables first v zs -> enough v fuel -> freed w 1 = false ->
           text_behaves_like L c cpp17 ds (text_selecting items fuel v) (w, st)
             (text_body_of L c ds q) (SimSpec.call L g args)
             (lookup_body L (fst (spec_program L c (optimise o) true (listed first zs) p 0)))
             (SimSpec.call L g args) /\
           ((forall i, i < num -> ~ In (Z.of_nat (first + i)) zs) ->
            text_behaves_like L c cpp17 ds (text_selecting items fuel v) (w, st)
              (text_body_of L c ds q) (SimSpec.call L g args)
              (body_of L c p) (SimSpec.call L g args))) /\
        (track o = true -> productive_program L c o p = true ->
         shared_statics items = Some [("already_recorded", VArr (repeat (VBool false) num))] /\
         forall d fuel, marks d = repeat false num -> num < fuel ->
           (variable d = None \/ openable d = true \/ cpp c = true) ->
           text_behaves_like L c cpp17 ds (text_recording items fuel) d
             (text_body_of L c ds q) (SimSpec.call L g args)
             (body_of L c p) (SimSpec.call L g args)).
Proof. exact whole_text. Qed.
Print Assumptions C70_whole_text.

(* add.c of the test suite; the other hypotheses are met as shown in C29_example and
   C54_example. *)
Example C70_example :
  In ("add.c", add_c_expected) (rs_written (Run.run default_options true [add_c_file])) /\
  (forall m, In m (post (ui_tree add_c_unit)) -> clang_node c_ctx m) /\
  well_formed_program toy c_ctx [("main", add_body)] = true /\
  is_int (0 + snd (mutate_program toy c_ctx default_options [("main", add_body)] 0)).
Proof.
  split; [rewrite add_c_reproduced; left; reflexivity|]. split; [|split].
  - intros m H. cbn in H.
    repeat match type of H with
           | _ \/ _ => destruct H as [<-|H]
           | False => destruct H
           end; cbn; unfold clang_expr, clang_binary; cbn; repeat split; intros; congruence.
  - vm_compute; reflexivity.
  - vm_compute; discriminate.
Qed.

(* The functions of that file, as they are written, and the calls in it: none is left
   unresolved, and its first function can be executed. *)
Definition add_c_functions : string :=
  let q := fst (mutate_program toy c_ctx default_options [("main", add_body)] 0) in
  let num := snd (mutate_program toy c_ctx default_options [("main", add_body)] 0) in
  let h := prelude_text c_ctx default_options 0 num in
  let rest := source ["int main() "] q ++ nl in
  substring (String.length h)
    (String.length add_c_expected - String.length h - String.length rest) add_c_expected.
Fixpoint unresolved {L} (t : tm L) : bool :=
  match t with
  | N KWrong _ => true
  | N _ args => existsb unresolved args
  | _ => false
  end.
Example C70_resolved :
  match read_functions add_c_functions with
  | Some ds =>
      match text_body_of toy c_ctx ds
              (fst (mutate_program toy c_ctx default_options [("main", add_body)] 0)) "main" with
      | Some t => unresolved t = false
      | None => False
      end /\
      match text_body_of toy c_ctx (List.tl ds)
              (fst (mutate_program toy c_ctx default_options [("main", add_body)] 0)) "main" with
      | Some t => unresolved t = true
      | None => False
      end /\ 3 < List.length ds
  | None => False
  end.
Proof. vm_compute. repeat split; lia. Qed.

(* A function that is overloaded, executed with the prelude of a file whose ids start at 3 *)
Definition two_functions : string :=
  "static int f(int arg, int local_mutation_id) {" ++ nl ++
  "  if (!__dredd_some_mutation_enabled) return arg;" ++ nl ++
  "  if (__dredd_enabled_mutation(local_mutation_id + 1)) return ~(arg);" ++ nl ++
  "  return arg;" ++ nl ++ "}" ++ nl ++
  "static int f(std::function<int()> arg, int local_mutation_id) {" ++ nl ++
  "  return arg();" ++ nl ++ "}" ++ nl.
Definition cpp20 : ctx :=
  {| cpp := true; prints_bool := true; char_signed := true; wchar_signed := true |}.
Definition executed (v : string) (symbol : string) (a : tm toy) : option (tm toy) :=
  match read_functions two_functions, parse_text (prelude_text cpp20 default_options 3 5) with
  | Some ds, Some items =>
      match own_statics items, resolved ds symbol with
      | Some st, Some d =>
          option_map snd
            (call_text toy (text_selecting items 30 (Some v)) cpp20 d 1 [a]
               ({| saved := None; freed := fun _ => false |}, st))
      | _, _ => None
      end
  | _, _ => None
  end.
Example C70_executes : forall v : val toy,
  executed "7,5" "vv/f" (RV v) = Some (N (KAt TInt) [N (KUn Not) [RV v]]) /\
  executed "7,6" "vv/f" (RV v) = Some (N (KAt TInt) [RV v]) /\
  executed "7,5" "fv/f" (N (KLambda "int") [RV v]) = Some (N (KAt TInt) [RV v]) /\
  executed "7,5" "vf/f" (RV v) = None.
Proof. intro v. vm_compute. repeat split. Qed.
