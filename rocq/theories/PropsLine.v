(* Property C71: the lines of the original file in the written file. *)
From Coq Require Import String Ascii List Arith ZArith Bool Lia.
From Verif Require Import Base Clang Gen GenExpr GenBinary GenUnary GenStmt Mutation MutTree TreeSpec
  Run RunSpec RunTest StmtEnd LineSpec LineProof LineTop.
Import ListNotations.
Local Open Scope string_scope.

(* C71: a file that is written is the original one with a block added at one place, and
   changes that are local.  Provided that no operator or constant that is replaced goes over
   the end of a line, the characters that are kept stand in their order, before or after the
   block, each with its number of line moved by the number of lines of the block, if it is after the place, and by one more
   for every statement before it that is followed by a comment but no semicolon.  Lines in which
   nothing is mutated are still whole lines, character by character. *)
Theorem C71_lines : forall o bt fs n t,
  (forall f, In f fs -> well_placed f) ->
  In (n, t) (rs_written (run o bt fs)) ->
  exists f u added front back,
    In f fs /\ f_name f = n /\ f_unit f = Some u /\
    t = front ++ added ++ back /\ String.prefix "// DREDD PRELUDE START" added = true /\
    let text := f_text f in
    let off := ui_prelude_offset u in
    (in_one_line u text ->
     exists pos : nat -> nat,
       (forall i j, i <= j -> j <= String.length text -> pos i <= pos j) /\
       (forall i j, i < j -> j <= String.length text -> kept u i -> pos i < pos j) /\
       (forall i, i < off -> pos i <= String.length front) /\
       (forall i, off <= i -> i <= String.length text ->
          String.length front + String.length added <= pos i) /\
       (forall i, i < String.length text -> kept u i -> get (pos i) t = get i text) /\
       (forall i, i <= String.length text ->
          line_at t (pos i) =
          line_at text i + (if Nat.leb off i then newlines added else 0) + new_lines_by o u i) /\
       (forall i j, i <= j -> j <= String.length text -> line_begins text i -> line_ends text j ->
          untouched u i j -> off <= i \/ j < off ->
          line_begins t (pos i) /\ line_ends t (pos j) /\ pos j = pos i + (j - i) /\
          substring (pos i) (j - i) t = substring i (j - i) text)).
Proof. exact C71_lemma. Qed.
Print Assumptions C71_lines.

(* In a coverage build, or if there is no statement of that kind, all lines after the block
   are moved by the same number. *)
Theorem C71_constant_shift_partial : forall o bt fs n t,
  (forall f, In f fs -> well_placed f) ->
  (track o = true \/
   forall f u m, In f fs -> f_unit f = Some u -> In m (post (ui_tree u)) -> breaks_line m = false) ->
  In (n, t) (rs_written (run o bt fs)) ->
  exists f u shift,
    In f fs /\ f_name f = n /\ f_unit f = Some u /\
    let text := f_text f in
    (in_one_line u text ->
     exists pos : nat -> nat,
       (forall i, i < String.length text -> kept u i -> get (pos i) t = get i text) /\
       (forall i, i <= String.length text ->
          line_at t (pos i) =
          line_at text i + (if Nat.leb (ui_prelude_offset u) i then shift else 0))).
Proof. exact C71_constant_lemma. Qed.
Print Assumptions C71_constant_shift_partial.

Example C71_example :
  (forall f, In f [add_c_file] -> well_placed f) /\
  In ("add.c", add_c_expected) (rs_written (run default_options true [add_c_file])) /\
  in_one_line add_c_unit add_c /\
  (forall f u m, In f [add_c_file] -> f_unit f = Some u -> In m (post (ui_tree u)) ->
     breaks_line m = false) /\
  (* the first line and the last one are untouched, + is not kept *)
  line_begins add_c 59 /\ line_ends add_c 60 /\ untouched add_c_unit 59 60 /\
  substring 59 1 add_c = "}" /\
  line_begins add_c 0 /\ line_ends add_c 12 /\ untouched add_c_unit 0 12 /\
  ~ kept add_c_unit 50.
Proof.
  assert (K : forall k, k <> 50 -> k <> 54 -> kept add_c_unit k).
  { intros k A B. split; [|intros e []]. intros m Hm. cbn in Hm.
    repeat match type of Hm with
           | _ \/ _ => destruct Hm as [<-|Hm]
           | False => destruct Hm
           end; cbn; lia. }
  assert (U : forall i j, i <= j -> j < 23 \/ 58 < i -> untouched add_c_unit i j).
  { intros i j L D k Hk. split; [apply K; lia|]. split; [|intros e []]. intros m Hm.
    cbn in Hm.
    repeat match type of Hm with
           | _ \/ _ => destruct Hm as [<-|Hm]
           | False => destruct Hm
           end; cbn; lia. }
  split; [|split; [|split; [|split; [|split; [|split; [|split; [|split; [|split; [|split; [|split]]]]]]]]]].
  - intros f [<-|[]] u; simpl; intros [= <-]; simpl; lia.
  - rewrite add_c_reproduced. left. reflexivity.
  - split; [|intros e []]. intros i H. apply K; intros ->; discriminate H.
  - intros f u m [<-|[]] [= <-] Hm. cbn in Hm.
    repeat match type of Hm with
           | _ \/ _ => destruct Hm as [<-|Hm]
           | False => destruct Hm
           end; reflexivity.
  - right. exists 58. split; reflexivity.
  - right. reflexivity.
  - apply U; lia.
  - reflexivity.
  - now left.
  - right. reflexivity.
  - apply U; lia.
  - intros [H _]. refine (H (MutBinary b_sum1 i_sum1 i_x1 i_y) _ _); [vm_compute; tauto|].
    split; [right; reflexivity|]. cbn. lia.
Qed.

(* A statement that is followed by a comment but no semicolon *)
Definition commented_text : string :=
  "void f() {" ++ nl
  ++ "  while (1) { } // waits" ++ nl
  ++ "  return;" ++ nl
  ++ "}" ++ nl.
Definition commented_stmt : stmt_site := site_at 13 26 (substring 26 100 commented_text).
Definition commented_unit : unit_info :=
  {| ui_ctx := c_ctx;
     ui_tree := Node [MutStmt commented_stmt (mk_info 2 3 2 16 "while (1) { }")] [];
     ui_rewrites := []; ui_prelude_offset := 0 |}.
Definition commented_file : source_file :=
  {| f_name := "waits.c"; f_text := commented_text; f_unit := Some commented_unit |}.
Definition line_of (word s : string) : option nat :=
  option_map (line_at s) (String.index 0 word s).

Theorem C71_constant_shift_refuted : exists o fs n t f u,
  (forall f, In f fs -> well_placed f) /\ In f fs /\ f_unit f = Some u /\ f_name f = n /\
  in_one_line u (f_text f) /\ In (n, t) (rs_written (run o true fs)) /\
  exists a b a' b',
    line_of "while (1) { } //" (f_text f) = Some a /\ line_of "while (1) { } //" t = Some a' /\
    line_of "  return;" (f_text f) = Some b /\ line_of "  return;" t = Some b' /\
    b = a + 1 /\ b' = a' + 2.
Proof.
  set (t := snd (nth 0 (rs_written (run default_options true [commented_file])) ("", ""))).
  exists default_options, [commented_file], "waits.c", t, commented_file, commented_unit.
  split; [|split; [now left|split; [reflexivity|split; [reflexivity|split; [|split]]]]].
  - intros f [<-|[]] u; simpl; intros [= <-]; simpl; lia.
  - split; [|intros e []]. intros i _. split; [|intros e []]. intros m [<-|[]]. intros [].
  - vm_compute. now left.
  - exists 1, 2, 52, 54. vm_compute. repeat split; reflexivity.
Qed.
Print Assumptions C71_constant_shift_refuted.

(* A byte order mark is no longer at the beginning of the file. *)
Definition byte_order_mark : string :=
  String (ascii_of_nat 239) (String (ascii_of_nat 187) (String (ascii_of_nat 191) "")).
Definition marked_file : source_file :=
  {| f_name := "marked.c"; f_text := byte_order_mark ++ "int f() { return 1; }" ++ nl;
     f_unit := Some {| ui_ctx := c_ctx;
       ui_tree := Node [MutExpr (mk_expr false (Some 1%Z) (Some true) None None 20 21)
                          (mk_info 1 18 1 19 "1")] [];
       ui_rewrites := []; ui_prelude_offset := 0 |} |}.
Theorem C71_byte_order_mark_refuted : exists o fs n t f,
  (forall f, In f fs -> well_placed f) /\ In f fs /\ f_name f = n /\
  String.prefix byte_order_mark (f_text f) = true /\
  In (n, t) (rs_written (run o true fs)) /\
  String.prefix byte_order_mark t = false /\ String.index 0 byte_order_mark t <> None.
Proof.
  set (t := snd (nth 0 (rs_written (run default_options true [marked_file])) ("", ""))).
  exists default_options, [marked_file], "marked.c", t, marked_file.
  split; [|split; [now left|split; [reflexivity|split; [reflexivity|split; [|split]]]]].
  - intros f [<-|[]] u; simpl; intros [= <-]; simpl; lia.
  - vm_compute. now left.
  - vm_compute. reflexivity.
  - vm_compute. discriminate.
Qed.
Print Assumptions C71_byte_order_mark_refuted.
