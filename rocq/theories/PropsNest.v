(* Properties C29, C30, C41: the text of rewritten expressions and statements. *)
From Coq Require Import String Ascii List Bool Arith ZArith Lia.
From Verif Require Import Base Clang Gen GenExpr GenBinary GenUnary GenStmt Rewriter Mutation
  MutTree PreludeText Run TreeSpec RunSpec RunProof RunProof2 RewriterProof Lang Cst SimExample
  RewriteBuffer RewriteBufferSpec RewriteBufferProof NestSpec NestProof NestProof2 FuseProof
  NestStmt NestBuffer RunTest.
Import ListNotations.
Local Open Scope string_scope.

(* C29: the edits of a tree of mutated nodes, made in id order, turn its text into the text
   in which every node is wrapped in its call, and leave the rest of the file alone. *)
Theorem C29_nested : forall L c o pre (t : cst L) post ms first,
  placed t (String.length pre) -> separated (places t) -> map place_of ms = places t ->
  rewrite (pre ++ text t ++ post) (edits_from c o first first ms) =
  pre ++ text (fst (mutate L c o t 0)) ++ post.
Proof. exact nested_rewrite. Qed.
Print Assumptions C29_nested.

(* C29: every bracket that is inserted has its partner. *)
Theorem C29_balanced : forall L c o (t : cst L), sites_balanced t ->
  forall id stack, scan (text (fst (mutate L c o t id))) stack = scan (text t) stack.
Proof. exact scan_mutated. Qed.
Print Assumptions C29_balanced.

(* C29 for the files that a run writes: before the functions of the file, each with its
   mutated body, come the prelude and the generated functions. *)
Theorem C29_file : forall o bt fs n t,
  In (n, t) (rs_written (run o bt fs)) ->
  exists d1 f d2 u,
    distinct [] fs = (d1 ++ f :: d2)%list /\ f_name f = n /\ f_unit f = Some u /\
    forall L pre gaps (p : list (string * cst L)) last,
      f_text f = pre ++ source gaps p ++ last ->
      ui_prelude_offset u = String.length pre -> ui_rewrites u = [] ->
      map place_of (post (ui_tree u)) = source_places p ->
      source_placed gaps p (String.length pre) -> separated (source_places p) ->
      exists l, NoDup l /\
        (forall d, In d l <-> exists m g, In m (post (ui_tree u)) /\
                                In g (site_functions (ui_ctx u) o m) /\ d = print_mfun g) /\
        t = pre ++ prelude_text (ui_ctx u) o (list_sum (map (offers o) d1)) (offers o f)
            ++ concat_strings l
            ++ source gaps (fst (mutate_program L (ui_ctx u) o p 0)) ++ last.
Proof. exact written_nested. Qed.
Print Assumptions C29_file.

(* C29: the cells of Rewriter.v stand for Clang's buffer.  The buffer shows the same text for
   any edits of which none replaces what another one replaces or inserts into, *)
Theorem C29_buffer : forall text es, compatible_edits text es ->
  buffer_rewrite text es = rewrite text es.
Proof. exact buffer_refines. Qed.
Print Assumptions C29_buffer.

(* and the edits of a run are such edits. *)
Theorem C29_buffer_file : forall o bt fs n t,
  In (n, t) (rs_written (run o bt fs)) ->
  exists f u, In f fs /\ f_name f = n /\ f_unit f = Some u /\
    forall L pre gaps (p : list (string * cst L)) last,
      f_text f = (pre ++ source gaps p ++ last)%string ->
      ui_prelude_offset u = String.length pre -> ui_rewrites u = [] ->
      map place_of (post (ui_tree u)) = source_places p ->
      source_placed gaps p (String.length pre) ->
      exists first num,
        t = buffer_rewrite (f_text f)
              (edits_from (ui_ctx u) o first first (post (ui_tree u)) ++
               prelude_edits (ui_ctx u) o first num (ui_prelude_offset u)
                 (map print_mfun (flat_map (site_functions (ui_ctx u) o) (post (ui_tree u)))))%list.
Proof. exact written_buffer. Qed.
Print Assumptions C29_buffer_file.

(* a == b with both kinds of insertions at one offset *)
Example C29_buffer_example :
  let es := [ReplaceText 2 2 ","; InsertBefore 2 "("; InsertAfterToken 2 ")"; InsertBefore 5 "<"] in
  compatible_edits "a == b" es /\ buffer_rewrite "a == b" es = "a (), <b".
Proof.
  cbv zeta. split; [|reflexivity]. split.
  - repeat constructor; cbn; lia.
  - repeat constructor; cbn; lia.
Qed.

(* add.c of the test suite *)
Definition add_body : cst toy :=
  CNode KSeq
    [("{" ++ nl ++ "  int x = ", CExpr e_one (CNode (KVar "1") [] "1"));
     (";" ++ nl ++ "  int y = ", CExpr e_two (CNode (KVar "2") [] "2"));
     (";" ++ nl ++ "  ",
      CStmt s_return
        (CNode KReturn
          [("return ",
            CExpr e_sum2 (CBin b_sum2
              (CExpr e_sum1 (CBin b_sum1
                (CExpr r_x1 (CExpr l_x1 (CNode (KVar "x") [] "x"))) " " " "
                (CExpr r_y (CExpr l_y (CNode (KVar "y") [] "y")))))
              " " " "
              (CExpr r_x2 (CExpr l_x2 (CNode (KVar "x") [] "x")))))] ";"))]
    (nl ++ "}").
Example C29_example :
  f_text add_c_file = "" ++ source ["int main() "] [("main", add_body)] ++ nl /\
  map place_of (post (ui_tree add_c_unit)) = source_places [("main", add_body)] /\
  source_placed ["int main() "] [("main", add_body)] 0 /\
  separated (source_places [("main", add_body)]) /\ sites_balanced add_body.
Proof.
  split; [reflexivity|]. split; [reflexivity|]. split; [|split].
  - cbn. unfold from_to. cbn. repeat split; discriminate.
  - intros i Hb He. cbn in Hb, He.
    repeat match type of Hb with
           | _ \/ _ => destruct Hb as [<-|Hb]
           end; try contradiction; repeat destruct He as [He|He]; try discriminate; contradiction.
  - cbn. repeat split; intro; reflexivity.
Qed.

(* C30: with something between each statement and the next, each wrapper contains exactly
   its own statement. *)
Theorem C30_spaced_partial : forall c o first pre l last ms,
  items_placed l (String.length pre) -> spaced l ->
  map place_of ms = map (fun i => PStmt (snd i)) l ->
  rewrite (pre ++ items_text l ++ last) (edits_from c o first first ms) =
  pre ++ wrapped_apart o l 0 ++ last.
Proof. exact C30_lemma. Qed.
Print Assumptions C30_spaced_partial.

(* C30: of two statements with nothing between them, the first wrapper always contains the
   whole of the second one, and the second wrapper contains nothing. *)
Theorem C30_touching : forall c o first pre x y last s1 s2 i1 i2,
  track o = false ->
  from_to (String.length pre) (String.length x) (s_range s1) ->
  from_to (String.length (pre ++ x)) (String.length y) (s_range s2) ->
  rewrite (pre ++ x ++ y ++ last)
    (edits_from c o first first [MutStmt s1 i1; MutStmt s2 i2]) =
  pre ++ stmt_open o 0 ++ x ++ stmt_open o 1 ++ stmt_close s1 ++ y ++ stmt_close s2 ++ last.
Proof. exact C30_touching_lemma. Qed.
Print Assumptions C30_touching.

Definition stmt_at (a b : nat) : stmt_site :=
  {| s_range := {| r_begin := a; r_end := b |}; s_ext_comment := false; s_ext_semi := true;
     s_next_hash := false |}.
Definition no_info : loc_info := mk_info 1 1 1 1 "".

Example C30_example :
  let l := [("{", "x = 1;", stmt_at 1 7); (" ", "y = 2;", stmt_at 8 14)] in
  items_placed l 0 /\ spaced l /\
  wrapped_apart default_options l 0 =
    "{if (!__dredd_enabled_mutation(0)) { x = 1; } if (!__dredd_enabled_mutation(1)) { y = 2; }".
Proof.
  cbn. unfold from_to. cbn. repeat split; try discriminate. repeat constructor. discriminate.
Qed.

(* C30 is false of two statements without white space between them. *)
Theorem C30_refuted : exists c o first l ms,
  items_placed l 0 /\ map place_of ms = map (fun i => PStmt (snd i)) l /\
  items_text l = "{x=1;y=2;" /\
  rewrite (items_text l) (edits_from c o first first ms) =
    "{if (!__dredd_enabled_mutation(0)) { x=1;if (!__dredd_enabled_mutation(1)) {  }y=2; }" /\
  rewrite (items_text l) (edits_from c o first first ms) <> wrapped_apart o l 0.
Proof.
  exists RunTest.c_ctx, default_options, 0, [("{", "x=1;", stmt_at 1 5); ("", "y=2;", stmt_at 5 9)],
    [MutStmt (stmt_at 1 5) no_info; MutStmt (stmt_at 5 9) no_info].
  split; [cbn; unfold from_to; cbn; repeat split; discriminate|].
  split; [reflexivity|]. split; [reflexivity|]. split; [vm_compute; reflexivity|].
  vm_compute. discriminate.
Qed.
Print Assumptions C30_refuted.

(* C41: no inserted text joins up with a text inserted at the same offset, or with the
   original text that follows it. *)
Theorem C41_inserted : forall c o first id ms i s,
  (In s (in_front (edits_from c o first id ms) i) -> ends_ident s = false) /\
  (In s (behind (edits_from c o first id ms) i) -> starts_ident s = false /\ ends_ident s = false).
Proof. exact C41_inserted_lemma. Qed.
Print Assumptions C41_inserted.

(* C41: if the last mutation at an offset replaces an expression, then what is inserted there
   does not join up with the original text before it; unless that ends with a dollar sign or a
   character outside ASCII.  Not covered: offsets where the last mutation is one of an
   operator, see C41_refuted. *)
Theorem C41_outermost_partial : forall c o first id ms1 e info ms2 text i s rest,
  r_begin (e_range e) = i ->
  knows_before text (MutExpr e info) ->
  before ident_char text i = before alnum text i ->
  in_front (edits_from c o first
    (id + total c (optimise o) ms1 + mutant_count c (optimise o) (MutExpr e info)) ms2) i = [] ->
  in_front (edits_from c o first id (ms1 ++ MutExpr e info :: ms2)) i = (s :: rest)%list ->
  starts_ident s = true -> before ident_char text i = false.
Proof. exact C41_outermost_lemma. Qed.
Print Assumptions C41_outermost_partial.

Definition minus_x : expr := mk_expr false None None None None 6 8.
Definition preceded (b : bool) (e : expr) : expr :=
  {| e_ty := e_ty e; e_lvalue := e_lvalue e; e_volatile := false; e_const := false;
     e_bitfield := false; e_side_effects := false; e_int := e_int e; e_float := None;
     e_boolval := e_boolval e; e_cxx11_constant := false; e_binop := e_binop e;
     e_logical_operand := false; e_cast_parent_lvalue := e_cast_parent_lvalue e;
     e_init_list_cast := None; e_preceded_by_ident := b; e_range := e_range e |}.
Definition un_minus_x : unary :=
  {| u_op := Minus; u_ty := TInt; u_lvalue := false; u_volatile := false; u_const := false;
     u_side_effects := false; u_sub := mk_expr false None None None None 7 8; u_op_offset := 6;
     u_range := {| r_begin := 6; r_end := 8 |} |}.
(* return-x; *)
Example C41_example :
  knows_before "return-x;" (MutExpr (preceded true minus_x) no_info) /\
  in_front (edits_from RunTest.c_ctx default_options 0 0
    ([MutUnary un_minus_x no_info no_info] ++ MutExpr (preceded true minus_x) no_info :: [])) 6 =
  [" __dredd_replace_expr_int("; "__dredd_replace_unary_operator_Minus_int("].
Proof. split; vm_compute; reflexivity. Qed.
(* (-x) *)
Example C41_example_front :
  knows_before "     (-x)" (MutExpr (preceded false minus_x) no_info) /\
  in_front (edits_from RunTest.c_ctx default_options 0 0
    ([] ++ MutExpr (preceded false minus_x) no_info :: [])) 6 = ["__dredd_replace_expr_int("] /\
  starts_ident "__dredd_replace_expr_int(" = true.
Proof. repeat split; vm_compute; reflexivity. Qed.

(* C41 is false.  In C++ ++x is an l-value whose only mutation is that of the operator, and
   no space is inserted before it: *)
Theorem C41_refuted : exists c o text ms i s,
  cpp c = true /\ Forall (knows_before text) ms /\
  in_front (edits_from c o 0 0 ms) i = [s] /\ starts_ident s = true /\
  before ident_char text i = true /\
  text = "if(y);else++x;" /\
  rewrite text (edits_from c o 0 0 ms) =
    "if(y);else__dredd_replace_unary_operator_PreInc_int(x, 0);".
Proof.
  exists cpp_ctx, default_options, "if(y);else++x;",
    [MutUnary {| u_op := PreInc; u_ty := TInt; u_lvalue := true; u_volatile := false;
                 u_const := false; u_side_effects := false;
                 u_sub := mk_expr true None None None None 12 13; u_op_offset := 10;
                 u_range := {| r_begin := 10; r_end := 13 |} |} no_info no_info], 10.
  eexists. split; [reflexivity|]. split; [repeat constructor|].
  repeat split; vm_compute; reflexivity.
Qed.
Print Assumptions C41_refuted.

(* C41 is also false of a macro whose name ends with a dollar sign: only letters, digits and
   the underscore are taken to be part of an identifier. *)
Theorem C41_dollar_refuted : exists c o text ms i s,
  Forall (knows_before text) ms /\
  in_front (edits_from c o 0 0 ms) i = [s] /\ starts_ident s = true /\
  before ident_char text i = true /\
  text = "YIELD$(x);" /\
  rewrite text (edits_from c o 0 0 ms) = "YIELD$__dredd_replace_expr_int((x), 0);".
Proof.
  exists cpp_ctx, unoptimised, "YIELD$(x);",
    [MutExpr (mk_expr false None None None None 6 9) no_info], 6.
  eexists. split; [repeat constructor; vm_compute; reflexivity|].
  repeat split; vm_compute; reflexivity.
Qed.
Print Assumptions C41_dollar_refuted.
