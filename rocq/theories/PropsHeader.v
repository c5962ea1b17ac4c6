(* Property C72: the preprocessing directives of the original file in the written file. *)
From Coq Require Import String Ascii List Arith ZArith Bool Lia.
From Verif Require Import Base Clang Gen GenExpr GenBinary GenUnary GenStmt Mutation MutTree TreeSpec
  Run RunSpec RunTest NameSpec LineSpec HeaderSpec HeaderTop.
Import ListNotations.
Local Open Scope string_scope.

(* C72: if nothing is mutated in lines that begin with #, the directives of a file that is
   written are those of the original file, in the same order and with the same text, and at
   one place those of the added block. *)
Theorem C72_directives : forall o bt fs n t,
  (forall f, In f fs -> well_placed f) ->
  In (n, t) (rs_written (run o bt fs)) ->
  exists f u, In f fs /\ f_name f = n /\ f_unit f = Some u /\
    let text := f_text f in
    (in_one_line u text -> directives_left_alone u text ->
     exists ds1 ds2,
       ds1 = directives_of (substring 0 (ui_prelude_offset u) text) /\
       directives_of text = (ds1 ++ ds2)%list /\
       directives_of t = (ds1 ++ block_directives (cpp (ui_ctx u)) (track o) ++ ds2)%list).
Proof. exact C72_lemma. Qed.
Print Assumptions C72_directives.

(* Hence a header that is included before the block is first included after the same
   directives, and one that is not among those of the block after the same directives and those
   of the block.  Missing: headers of the block that the file includes only after it. *)
Theorem C72_headers_partial : forall o bt fs n t,
  (forall f, In f fs -> well_placed f) ->
  In (n, t) (rs_written (run o bt fs)) ->
  exists f u, In f fs /\ f_name f = n /\ f_unit f = Some u /\
    let text := f_text f in
    let block := block_directives (cpp (ui_ctx u)) (track o) in
    (in_one_line u text -> directives_left_alone u text ->
     forall h ds, first_included h (directives_of text) = Some ds ->
       (In ("include " ++ h) (directives_of (substring 0 (ui_prelude_offset u) text)) ->
        first_included h (directives_of t) = Some ds) /\
       (~ In ("include " ++ h) (directives_of (substring 0 (ui_prelude_offset u) text)) ->
        ~ In ("include " ++ h) block ->
        exists ds', ds = (directives_of (substring 0 (ui_prelude_offset u) text) ++ ds')%list /\
          first_included h (directives_of t) =
          Some (directives_of (substring 0 (ui_prelude_offset u) text) ++ block ++ ds')%list)).
Proof. exact C72_headers_lemma. Qed.
Print Assumptions C72_headers_partial.

(* A file that defines a macro which changes what headers declare, before it includes them *)
Definition gnu_text : string :=
  "#define _GNU_SOURCE" ++ nl
  ++ "#include <string.h>" ++ nl
  ++ "#include <net/if.h>" ++ nl
  ++ "int f() { return 1; }" ++ nl.
Definition gnu_unit : unit_info :=
  {| ui_ctx := c_ctx;
     ui_tree := Node [MutExpr (mk_expr false (Some 1%Z) (Some true) None None 77 78)
                        (mk_info 4 18 4 19 "1")] [];
     ui_rewrites := []; ui_prelude_offset := 0 |}.
Definition gnu_file : source_file :=
  {| f_name := "gnu.c"; f_text := gnu_text; f_unit := Some gnu_unit |}.
Definition gnu_written : string :=
  snd (nth 0 (rs_written (run default_options true [gnu_file])) ("", "")).

Lemma gnu_kept k : kept gnu_unit k.
Proof. split; [|intros e []]. intros m [<-|[]] []. Qed.
Lemma gnu_hashes i : get i gnu_text = Some hash -> i = 0 \/ i = 20 \/ i = 40.
Proof. intros G. do 83 (destruct i as [|i]; [discriminate G || lia|]). destruct i; discriminate G. Qed.
Lemma gnu_left_alone : directives_left_alone gnu_unit gnu_text.
Proof.
  split; [|split; [|split; [|split]]].
  - intros i j _ G L _ F. assert (J : j < 60).
    { destruct (Nat.lt_ge_cases j 60) as [|J]; [assumption|]. exfalso.
      destruct (gnu_hashes i G) as [->|[->| ->]].
      - apply (F 19); [lia|reflexivity].
      - apply (F 39); [lia|reflexivity].
      - apply (F 59); [lia|reflexivity]. }
    split; [|left; cbn; lia]. intros k Hk. split; [apply gnu_kept|]. split; [|intros e []].
    intros m [<-|[]]. cbn. lia.
  - intros _. now left.
  - intros; apply gnu_kept.
  - intros; apply gnu_kept.
  - intros e i [].
Qed.

Example C72_example :
  (forall f, In f [gnu_file] -> well_placed f) /\
  In ("gnu.c", gnu_written) (rs_written (run default_options true [gnu_file])) /\
  in_one_line gnu_unit gnu_text /\ directives_left_alone gnu_unit gnu_text /\
  directives_of gnu_text = ["define _GNU_SOURCE"; "include <string.h>"; "include <net/if.h>"] /\
  first_included "<net/if.h>" (directives_of gnu_text) =
    Some ["define _GNU_SOURCE"; "include <string.h>"] /\
  ~ In ("include " ++ "<net/if.h>") (block_directives (cpp (ui_ctx gnu_unit)) false).
Proof.
  split; [|split; [|split; [|split; [|split; [|split]]]]].
  - intros f [<-|[]] u; simpl; intros [= <-]; simpl; lia.
  - vm_compute. now left.
  - split; [|intros e []]. intros; apply gnu_kept.
  - exact gnu_left_alone.
  - vm_compute. reflexivity.
  - vm_compute. reflexivity.
  - cbn. intuition discriminate.
Qed.

(* Its header <string.h> is then first included before the macro is defined. *)
Theorem C72_feature_macros_refuted : exists o fs n t f u h x,
  (forall f, In f fs -> well_placed f) /\ In f fs /\ f_name f = n /\ f_unit f = Some u /\
  in_one_line u (f_text f) /\ directives_left_alone u (f_text f) /\
  In (n, t) (rs_written (run o true fs)) /\
  (exists ds, first_included h (directives_of (f_text f)) = Some ds /\ defines ds x = true) /\
  (exists ds, first_included h (directives_of t) = Some ds /\ defines ds x = false).
Proof.
  exists default_options, [gnu_file], "gnu.c", gnu_written, gnu_file, gnu_unit, "<string.h>", "_GNU_SOURCE".
  destruct C72_example as (A & B & C & D & _).
  split; [exact A|]. split; [now left|]. split; [reflexivity|]. split; [reflexivity|].
  split; [exact C|]. split; [exact D|]. split; [exact B|]. split.
  - eexists. split; [vm_compute; reflexivity|reflexivity].
  - eexists. split; [vm_compute; reflexivity|vm_compute; reflexivity].
Qed.
Print Assumptions C72_feature_macros_refuted.

(* A file in C that has its own type bool: when its declaration is reached, bool has become a
   macro of <stdbool.h>, which the file itself does not include. *)
Definition own_bool_text : string :=
  "typedef int bool;" ++ nl
  ++ "bool f() { return 1; }" ++ nl.
Definition own_bool_file : source_file :=
  {| f_name := "bool.c"; f_text := own_bool_text;
     f_unit := Some {| ui_ctx := c_ctx;
       ui_tree := Node [MutExpr (mk_expr false (Some 1%Z) (Some true) None None 36 37)
                          (mk_info 2 19 2 20 "1")] [];
       ui_rewrites := []; ui_prelude_offset := 0 |} |}.
Theorem C72_own_names_refuted : exists o fs n t f before after rest,
  (forall f, In f fs -> well_placed f) /\ In f fs /\ f_name f = n /\
  In (n, t) (rs_written (run o true fs)) /\
  f_text f = "typedef int bool;" ++ rest /\ t = before ++ "typedef int bool;" ++ after /\
  forall defined, In "bool" (provided false defined before) /\
                  ~ In "bool" (provided false defined (f_text f)).
Proof.
  set (t := snd (nth 0 (rs_written (run default_options true [own_bool_file])) ("", ""))).
  pose (at_typedef := match String.index 0 "typedef" t with Some i => i | None => 0 end).
  exists default_options, [own_bool_file], "bool.c", t, own_bool_file,
    (substring 0 at_typedef t), (substring (at_typedef + 17) (String.length t) t),
    (substring 17 100 own_bool_text).
  split; [|split; [now left|split; [reflexivity|split; [|split; [|split]]]]].
  - intros f [<-|[]] u; simpl; intros [= <-]; simpl; lia.
  - vm_compute. now left.
  - vm_compute. reflexivity.
  - vm_compute. reflexivity.
  - intros defined. split.
    + eapply bool_provided. vm_compute. reflexivity.
    + vm_compute. tauto.
Qed.
Print Assumptions C72_own_names_refuted.
