(* A function whose operators are words *)
From Coq Require Import String Ascii List NArith ZArith Bool Arith Lia.
From Verif Require Import Base Clang Gen GenExpr GenBinary GenUnary Mutation MutTree GenSpec
  Rewriter Run RunTest SourceRange QueryText Query QuerySpec ShownSpec ShownProof.
Import ListNotations.
Local Open Scope string_scope.

Definition words_cc : string := "int f(int a, int b, int c) { return a bitor b bitor c; }" ++ nl.
Definition e_ab : expr := mk_expr false None None (Some Or) None 36 45.
Definition e_c : expr := mk_expr false None None None None 52 53.
Definition b_or : binary :=
  {| b_op := Or; b_ty := TInt; b_lhs := e_ab; b_rhs := e_c; b_op_offset := 46;
     b_range := {| r_begin := 36; r_end := 53 |} |}.
Definition i_or := mk_info 1 37 1 54 "a bitor b bitor c".
Definition i_ab := mk_info 1 37 1 46 "a bitor b".
Definition i_c := mk_info 1 53 1 54 "c".
Definition words_unit : unit_info :=
  {| ui_ctx := cpp_literals;
     ui_tree := Node [] [Node [MutBinary b_or i_or i_ab i_c] [Node [MutExpr e_ab i_ab] []; Node [MutExpr e_c i_c] []]];
     ui_rewrites := []; ui_prelude_offset := 0 |}.
Definition words_file : source_file :=
  {| f_name := "words.cc"; f_text := words_cc; f_unit := Some words_unit |}.
Definition words_run := run default_options true [words_file].
Definition show id := show_info (rs_info words_run) (fun _ => words_cc) id.


Ltac read_unary :=
  first
    [ eapply unary_prefix; [reflexivity | reflexivity | read_unary]
    | eapply unary_postfix;
      [first [apply primary_word; reflexivity | apply primary_paren; read_expression] | read_suffixes] ]
with read_suffixes :=
  first
    [ apply no_suffix; first [exact Logic.I | reflexivity]
    | eapply suffix_member; [reflexivity | reflexivity | read_suffixes]
    | eapply suffix_step; [reflexivity | read_suffixes]
    | eapply suffix_call_nothing; read_suffixes
    | eapply suffix_index; [read_expression | read_suffixes]
    | eapply suffix_call; [read_expression | read_suffixes] ]
with read_expression := eapply expression_intro; [read_unary | read_operators]
with read_operators :=
  first
    [ apply no_operator; cbn; first [exact Logic.I | lia]
    | eapply left_operator;
      [cbv; reflexivity | lia | discriminate | discriminate | read_expression | read_operators]
    | eapply assignment; [cbv; reflexivity | lia | read_expression | read_operators]
    | eapply conditional;
      [cbv; reflexivity | lia | read_expression | read_expression | read_operators] ].
Ltac read := eexists; split; [vm_compute; reflexivity | read_expression].

Example a_reading : reads_as false "*p++ = -a.b[i + 1] * f(x, y) + z"
  (Bin "=" (Pre "*" (Post (Atom "p") "++"))
     (Bin "+" (Bin "*" (Pre "-" (Index (Member (Atom "a") "." "b") (Bin "+" (Atom "i") (Atom "1"))))
                 (Call (Atom "f") (Some (Bin "," (Atom "x") (Atom "y"))))) (Atom "z"))).
Proof. read. Qed.
Example a_conditional : reads_as false "a ? b , c : d ? e : f = 1 /* comment */"
  (Cond (Atom "a") (Bin "," (Atom "b") (Atom "c"))
     (Cond (Atom "d") (Atom "e") (Bin "=" (Atom "f") (Atom "1")))).
Proof. read. Qed.
Example read_words : reads_as true "- a bitor b" (Bin "|" (Pre "-" (Atom "a")) (Atom "b")).
Proof. read. Qed.
Example shown_words : show 2 = Shown "- a bitor b" /\ show 12 = Shown "a bitor b & c".
Proof. vm_compute. split; reflexivity. Qed.

Lemma words_expr :
  exists fs original id n ns p i l k a r e e' s,
    let info := rs_info (run default_options true fs) in
    In (n, ns) info /\ In p ns /\ In (GroupReplaceExpr i l) (p_groups p) /\
    nth_error l k = Some (id, a) /\ expr_meaning cpp_literals a = Some r /\
    reads_as true (text_for_source_range (original n) i) e /\
    show_info info original id = Shown s /\ reads_as true s e' /\
    e' <> mutated_expression r e e.
Proof.
  exists [words_file], (fun _ => words_cc), 2, "words.cc". do 10 eexists. cbv zeta.
  split. { left. vm_compute. reflexivity. }
  split. { right. left. reflexivity. }
  split. { left. reflexivity. }
  split. { instantiate (1 := InsertMinus). instantiate (1 := 2). reflexivity. }
  split. { reflexivity. }
  split. { read. }
  split. { vm_compute. reflexivity. }
  split. { read. }
  cbn. discriminate.
Qed.
Lemma words_binary :
  exists fs original id n ns p i i1 i2 o l k a r e1 e2 e' s,
    let info := rs_info (run default_options true fs) in
    In (n, ns) info /\ In p ns /\ In (GroupReplaceBinary i i1 i2 o l) (p_groups p) /\
    nth_error l k = Some (id, a) /\ bin_meaning a = Some r /\
    reads_as true (text_for_source_range (original n) i1) e1 /\
    reads_as true (text_for_source_range (original n) i2) e2 /\
    show_info info original id = Shown s /\ reads_as true s e' /\
    e' <> mutated_expression r e1 e2.
Proof.
  exists [words_file], (fun _ => words_cc), 12, "words.cc". do 14 eexists. cbv zeta.
  split. { left. vm_compute. reflexivity. }
  split. { left. reflexivity. }
  split. { left. reflexivity. }
  split. { instantiate (1 := BReplaceWithAnd). instantiate (1 := 0). reflexivity. }
  split. { reflexivity. }
  split. { read. }
  split. { read. }
  split. { vm_compute. reflexivity. }
  split. { read. }
  cbn. discriminate.
Qed.
