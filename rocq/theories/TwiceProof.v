(* Proofs for C88. *)
From Coq Require Import String Ascii List Arith Bool Lia.
From Verif Require Import Base Clang Gen GenExpr GenBinary GenUnary GenStmt Mutation MutTree TreeSpec
  Rewriter RewriterProof PreludeText Run RunSpec RunProof RunProof2 LineSpec LineProof LineTop TwiceSpec.
Import ListNotations.
Local Open Scope string_scope.

Lemma prelude_defines c o id num :
  exists a b, prelude_text c o id num = a ++ nl ++ definition_line (track o) ++ nl ++ b.
Proof.
  unfold prelude_text, definition_line. destruct (cpp c), (track o).
  - exists (prelude_start_comment ++ prelude_headers_cpp). eexists.
    unfold tracking_prelude_cpp. rewrite !sapp_assoc. reflexivity.
  - exists (prelude_start_comment ++ prelude_headers_cpp ++ nl
      ++ "#ifdef _MSC_VER" ++ nl
      ++ "#define thread_local __declspec(thread)" ++ nl
      ++ "#elif __APPLE__" ++ nl
      ++ "#define thread_local __thread" ++ nl
      ++ "#endif" ++ nl
      ++ nl
      ++ "static thread_local bool __dredd_some_mutation_enabled = true;"). eexists.
    unfold regular_prelude_cpp. rewrite !sapp_assoc. reflexivity.
  - exists (prelude_start_comment ++ prelude_headers_c). eexists.
    unfold tracking_prelude_c. rewrite !sapp_assoc. reflexivity.
  - exists (prelude_start_comment ++ prelude_headers_c ++ nl
      ++ "#ifdef _MSC_VER" ++ nl
      ++ "#define thread_local __declspec(thread)" ++ nl
      ++ "#elif __APPLE__" ++ nl
      ++ "#define thread_local __thread" ++ nl
      ++ "#else" ++ nl
      ++ "#include <threads.h>" ++ nl
      ++ "#endif" ++ nl
      ++ nl
      ++ "static thread_local int __dredd_some_mutation_enabled = 1;"). eexists.
    unfold regular_prelude_c. rewrite !sapp_assoc. reflexivity.
Qed.

Lemma line_in a b line : whole_line (a ++ nl ++ line ++ nl ++ b) (S (String.length a)) line.
Proof.
  split; [|split].
  - right. exists (String.length a). split; [reflexivity|]. rewrite get_app. reflexivity.
  - replace (a ++ nl ++ line ++ nl ++ b) with ((a ++ nl) ++ line ++ nl ++ b) by now rewrite sapp_assoc.
    replace (S (String.length a)) with (String.length (a ++ nl)) by (rewrite append_length; cbn; lia).
    apply substring_mid.
  - right. replace (a ++ nl ++ line ++ nl ++ b) with ((a ++ nl ++ line) ++ nl ++ b)
      by now rewrite !sapp_assoc.
    replace (S (String.length a) + String.length line) with (String.length (a ++ nl ++ line))
      by (rewrite !append_length; cbn; lia).
    rewrite get_app. reflexivity.
Qed.

Lemma defined_lemma : forall o bt fs n t,
  (forall f, In f fs -> well_placed f) ->
  In (n, t) (rs_written (run o bt fs)) -> exists i, whole_line t i (definition_line (track o)).
Proof.
  intros o bt fs n t W H. destruct (C71_full o bt fs n t W H)
    as (f & u & added & front & back & I & N & U & T & (id & num & rest & P) & _).
  destruct (prelude_defines (ui_ctx u) o id num) as (a & b & E).
  exists (S (String.length (front ++ a))).
  replace t with ((front ++ a) ++ nl ++ definition_line (track o) ++ nl ++ b ++ rest ++ back).
  - apply line_in.
  - rewrite T, P, E, !sapp_assoc. reflexivity.
Qed.

Lemma twice_lemma : forall o bt fs n t,
  (forall f, In f fs -> well_placed f) ->
  (forall f u, In f fs -> Run.f_name f = n -> f_unit f = Some u ->
     in_one_line u (f_text f) /\
     exists i, let j := i + String.length (definition_line (track o)) in
       whole_line (f_text f) i (definition_line (track o)) /\ j <= String.length (f_text f) /\
       untouched u i j /\ (ui_prelude_offset u <= i \/ j < ui_prelude_offset u)) ->
  In (n, t) (rs_written (run o bt fs)) ->
  exists p q, p < q /\
    whole_line t p (definition_line (track o)) /\ whole_line t q (definition_line (track o)).
Proof.
  intros o bt fs n t W A H. destruct (C71_full o bt fs n t W H)
    as (f & u & added & front & back & I & N & U & T & (id & num & rest & P) & R).
  destruct (A f u I N U) as (One & i & (Lb & Ls & Le) & Lt & Un & Off).
  destruct (R One) as (pos & Mono & _ & Low & High & _ & _ & Ln).
  set (line := definition_line (track o)) in *.
  destruct (Ln i (i + String.length line) ltac:(lia) Lt Lb Le Un Off) as (B1 & B2 & B3 & B4).
  replace (i + String.length line - i) with (String.length line) in * by lia.
  rewrite Ls in B4. rewrite B3 in B2.
  assert (Old : whole_line t (pos i) line) by (split; [assumption|split; assumption]).
  destruct (prelude_defines (ui_ctx u) o id num) as (a & b & E). fold line in E.
  assert (New : whole_line t (S (String.length (front ++ a))) line).
  { replace t with ((front ++ a) ++ nl ++ line ++ nl ++ b ++ rest ++ back).
    - apply line_in.
    - rewrite T, P, E, !sapp_assoc. reflexivity. }
  rewrite append_length in New.
  destruct Off as [Off|Off].
  - exists (S (String.length front + String.length a)), (pos i). split; [|split; assumption].
    assert (Q := High i Off ltac:(lia)). rewrite P, E in Q. rewrite !append_length in Q.
    cbn [String.length nl] in Q. lia.
  - exists (pos i), (S (String.length front + String.length a)). split; [|split; assumption].
    assert (Q := Low i ltac:(lia)). lia.
Qed.
