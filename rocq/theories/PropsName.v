(* Property C69: what the inserted code names is declared before. *)
From Coq Require Import String Ascii List Arith ZArith NArith Bool Lia.
From Verif Require Import Base Clang Gen GenExpr GenBinary GenUnary GenStmt Mutation MutTree TreeSpec
  PreludeText Run RunSpec ClashSpec CText FunText NameSpec NameTop RunTest.
Import ListNotations.
Local Open Scope string_scope.

(* C69.  In a file that is written, the text before the place of the prelude is the original
   one, if nothing is mutated there; then come the prelude and the functions, and then all the
   rest.  The functions mention only their parameters, names that the prelude defines and names
   that its headers declare.  The edits name nothing reserved but what prelude and functions
   define; these names are reserved, and no function is named like a part of the prelude. *)
Theorem C69_written_files : forall o bt fs n t,
  (forall f, In f fs -> well_placed f) ->
  (forall f u m, In f fs -> f_unit f = Some u -> In m (post (ui_tree u)) ->
     clang_node (ui_ctx u) m) ->
  In (n, t) (rs_written (run o bt fs)) ->
  exists f u prelude functions after items ds,
    In f fs /\ Run.f_name f = n /\ f_unit f = Some u /\
    parse_text prelude = Some items /\ read_functions functions = Some ds /\
    (nothing_before o u ->
     t = substring 0 (ui_prelude_offset u) (f_text f) ++ prelude ++ functions ++ after) /\
    (forall defined, forallb (function_known (cpp (ui_ctx u))
       (map item_name items ++ provided (cpp (ui_ctx u)) defined prelude)) ds = true) /\
    (forall m first id e w, In m (post (ui_tree u)) ->
       In e (a_edits (apply_mutation (ui_ctx u) o m first id)) ->
       In w (words_in (edit_text e)) -> reserved w = true ->
       In w (map item_name items ++ map fd_name ds)) /\
    (forall x, In x (map item_name items ++ map fd_name ds) -> reserved x = true) /\
    (forall x, In x (map item_name items) -> ~ In x (map fd_name ds)).
Proof. exact C69_files_lemma. Qed.
Print Assumptions C69_written_files.

(* The prelude for C mentions only its own names and those that the headers it includes are
   sure to declare, whatever the compiler defines. *)
Theorem C69_prelude_c : forall c o first num,
  cpp c = false ->
  exists items, parse_text (prelude_text c o first num) = Some items /\
    forall defined,
      items_known false (provided false defined (prelude_text c o first num)) items = true.
Proof. exact C69_c_lemma. Qed.
Print Assumptions C69_prelude_c.

(* The prelude for C++ does so but for three names.  Missing: these names. *)
Theorem C69_prelude_cpp_partial : forall c o first num,
  cpp c = true ->
  exists items, parse_text (prelude_text c o first num) = Some items /\
    forall defined, items_known true
      (["std::getenv"; "size_t"; "uint64_t"]
         ++ provided true defined (prelude_text c o first num)) items = true.
Proof. exact C69_cpp_lemma. Qed.
Print Assumptions C69_prelude_cpp_partial.

(* It mentions each of the three, or in coverage mode the first, and no header that it
   includes is sure to declare it. *)
Theorem C69_prelude_cpp_needs : forall c o first num,
  cpp c = true ->
  exists items, parse_text (prelude_text c o first num) = Some items /\
    forall defined x,
      In x (if track o then ["std::getenv"] else ["std::getenv"; "size_t"; "uint64_t"]) ->
      items_known true
        (filter (fun y => negb (String.eqb x y)) ["std::getenv"; "size_t"; "uint64_t"]
         ++ provided true defined (prelude_text c o first num)) items = false.
Proof. exact C69_cpp_needs_lemma. Qed.
Print Assumptions C69_prelude_cpp_needs.

Definition somewhere_cpp : ctx :=
  {| cpp := true; prints_bool := true; char_signed := true; wchar_signed := true |}.
Theorem C69_prelude_cpp_refuted : exists c o first num items,
  cpp c = true /\ parse_text (prelude_text c o first num) = Some items /\
  forall defined x, In x ["std::getenv"; "size_t"; "uint64_t"] ->
    items_known true
      (filter (fun y => negb (String.eqb x y)) ["std::getenv"; "size_t"; "uint64_t"]
       ++ provided true defined (prelude_text c o first num)) items = false.
Proof.
  exists somewhere_cpp, default_options, 0, 1.
  destruct (C69_cpp_needs_lemma somewhere_cpp default_options 0 1 eq_refl) as (items & P & N).
  exists items. split; [reflexivity|]. split; [exact P|exact N].
Qed.
Print Assumptions C69_prelude_cpp_refuted.

(* A placeholder after a mutated function *)
Definition late_text : string := add_c ++ "void __dredd_prelude_start();" ++ nl.
Definition late_unit : unit_info :=
  {| ui_ctx := ui_ctx add_c_unit; ui_tree := ui_tree add_c_unit; ui_rewrites := [];
     ui_prelude_offset := String.length add_c |}.
Definition late_file : source_file :=
  {| Run.f_name := "late.c"; f_text := late_text; f_unit := Some late_unit |}.

Theorem C69_placeholder_refuted : exists o fs n t first num before after,
  (forall f, In f fs -> well_placed f) /\
  (forall f u m, In f fs -> f_unit f = Some u -> In m (post (ui_tree u)) ->
     clang_node (ui_ctx u) m) /\
  In (n, t) (rs_written (run o true fs)) /\
  t = before ++ prelude_text (ui_ctx late_unit) o first num ++ after /\
  In "__dredd_enabled_mutation" (words_in before) /\ ~ In "static" (words_in before).
Proof.
  set (t := snd (nth 0 (rs_written (run default_options true [late_file])) ("", ""))).
  exists default_options, [late_file], "late.c", t, 0, 57.
  exists (substring 0 558 t), (substring (558 + String.length (prelude_text c_ctx default_options 0 57))
     (String.length t) t).
  split; [|split; [|split; [|split; [|split]]]].
  - intros f [<-|[]] u; simpl; intros [= <-]; simpl; lia.
  - intros f u m [<-|[]] [= <-] H. cbn in H.
    repeat match type of H with
           | _ \/ _ => destruct H as [<-|H]
           | False => destruct H
           end; cbn; unfold clang_expr, clang_binary; cbn; repeat split; intros; congruence.
  - vm_compute. now left.
  - vm_compute. reflexivity.
  - vm_compute. tauto.
  - vm_compute. intuition discriminate.
Qed.
Print Assumptions C69_placeholder_refuted.

Example C69_example :
  (forall f, In f [add_c_file] -> well_placed f) /\
  (forall f u m, In f [add_c_file] -> f_unit f = Some u -> In m (post (ui_tree u)) ->
     clang_node (ui_ctx u) m) /\
  In ("add.c", add_c_expected) (rs_written (run default_options true [add_c_file])) /\
  nothing_before default_options add_c_unit.
Proof.
  split; [|split; [|split]].
  - intros f [<-|[]] u; simpl; intros [= <-]; simpl; lia.
  - intros f u m [<-|[]] [= <-] H. cbn in H.
    repeat match type of H with
           | _ \/ _ => destruct H as [<-|H]
           | False => destruct H
           end; cbn; unfold clang_expr, clang_binary; cbn; repeat split; intros; congruence.
  - rewrite add_c_reproduced. left. reflexivity.
  - split; intros; apply Nat.le_0_l.
Qed.

(* What the readers find: headers and macros on two systems, names in an edit, and a function
   that mentions an unknown name *)
Example C69_readers :
  (let text := prelude_text c_ctx default_options 0 1 in
   rev (included (preprocessed (fun _ => false) text)) =
     ["<inttypes.h>"; "<stdatomic.h>"; "<stdbool.h>"; "<stdio.h>"; "<stdlib.h>"; "<string.h>";
      "<threads.h>"] /\
   macros (preprocessed (String.eqb "__APPLE__") text) = ["thread_local"] /\
   List.length (included (preprocessed (String.eqb "__APPLE__") text)) = 6) /\
  filter reserved (words_in "if (!__dredd_enabled_mutation(3)) { ") = ["__dredd_enabled_mutation"] /\
  match read_functions ("static int f(int arg, int id) { if (g(id)) return 1; return arg; }" ++ nl) with
  | Some [d] => function_known true ["g"] d = true /\ function_known true ["h"] d = false
  | _ => False
  end /\
  match parse_text ("static int x = 1;" ++ nl ++ "static bool f(int y) { return y < x; }" ++ nl) with
  | Some items => items_known true [] items = true /\ items_known false [] items = false /\
                  items_known true [] (rev items) = false
  | None => False
  end.
Proof. vm_compute. repeat split. Qed.
