(* An example for C85: a function in C++ with an array whose size is an expression. *)
From Coq Require Import String List Arith NArith ZArith Bool Lia.
From Verif Require Import VisitorExample Base Clang Gen GenExpr GenBinary GenUnary GenStmt Rewriter
  Mutation MutTree PreludeText Run TreeSpec RunSpec RunTest ClashSpec ConstRewrite.
From Verif Require Import NestSpec Lang Cst SimSpec SimTop Visitor VisitorSpec VisitorProof SimExample
  EndSpec EndProof TextLang TextTop RespellSpec.
Import ListNotations.
Local Open Scope string_scope.

Definition sized_text : string :=
  "enum { n = 2 };" ++ nl ++ "int f() { int a[n + 1]; return 1 + 1; }" ++ nl.
Definition sized_ctx : ctx :=
  {| cpp := true; prints_bool := true; char_signed := true; wchar_signed := true |}.

Definition one_literal : expr := mk_expr false (Some 1%Z) (Some true) None None 47 48.
Definition other_one : expr := mk_expr false (Some 1%Z) (Some true) None None 51 52.
Definition one_and_one : expr := mk_expr false (Some 2%Z) (Some true) (Some Add) None 47 52.
Definition sum_of_ones : binary :=
  {| b_op := Add; b_ty := TInt; b_lhs := one_literal; b_rhs := other_one; b_op_offset := 49;
     b_range := e_range one_and_one |}.
Definition sum_returned : stmt_site :=
  {| s_range := {| r_begin := 40; r_end := 53 |}; s_ext_comment := false; s_ext_semi := true;
     s_next_hash := false |}.
Definition sized_ast : node :=
  program [function [
    stmt SDeclStmt 26 [(ROther, decl (DVar (variable 30)) 26 [])];
    Ast (KStmt SOther) (here_with no_loc sum_returned 40)
      [(ROther, at_ one_and_one (EBinary sum_of_ones no_loc no_loc) no_loc
          [(RLhs, at_ one_literal EOther no_loc []); (RRhs, at_ other_one EOther no_loc [])])]]].
Definition sized_body : cst toy :=
  CNode KSeq
    [("{ int a[n + 1]; ",
      CStmt sum_returned
        (CNode KReturn
           [("return ",
             CExpr one_and_one
               (CBin sum_of_ones (CExpr one_literal (CNode (KVar "1") [] "1")) " " " "
                  (CExpr other_one (CNode (KVar "1") [] "1"))))] ";"))]
    " }".
Definition sized_gaps : list string := ["enum { n = 2 };" ++ nl ++ "int f() "].
Definition sized_program : list (string * cst toy) := [("f", sized_body)].

(* The size n + 1 at offset 32, whose value is 3 *)
Definition size_constant : const_expr :=
  {| ce_range := Some (32, 5);
     ce_value := Some {| ap_width := 64; ap_unsigned := true; ap_bits := 3 |} |}.
Definition sized_rewrites : list edit :=
  map (fun r => ReplaceText (fst (fst r)) (snd (fst r)) (snd r)) (rewrite_array_sizes [size_constant]).
Definition sized_unit : unit_info :=
  {| ui_ctx := sized_ctx; ui_tree := mutation_tree true true sized_ast;
     ui_rewrites := sized_rewrites; ui_prelude_offset := 0 |}.
Definition sized_file : source_file :=
  {| f_name := "sized.cc"; f_text := sized_text; f_unit := Some sized_unit |}.

(* The program with the size replaced *)
Definition replaced_body : cst toy :=
  CNode KSeq
    [("{ int a[3]; ",
      CStmt sum_returned
        (CNode KReturn
           [("return ",
             CExpr one_and_one
               (CBin sum_of_ones (CExpr one_literal (CNode (KVar "1") [] "1")) " " " "
                  (CExpr other_one (CNode (KVar "1") [] "1"))))] ";"))]
    " }".

(* The written file: what is put in front, and the declarations with calls *)
Definition sized_output : string :=
  concat_strings (map snd (rs_written (Run.run default_options true [sized_file]))).
Definition sized_rest : string :=
  "enum { n = 2 };" ++ nl ++ "int f() { int a[3]; if (!__dredd_enabled_mutation(13)) { return "
  ++ "__dredd_replace_expr_int_constant("
  ++ "__dredd_replace_binary_operator_Add_arg1_int_arg2_int_rhs_one_lhs_one("
  ++ "__dredd_replace_expr_int_one(1, 0) , __dredd_replace_expr_int_one(1, 3), 6), 8); } }" ++ nl.
Definition sized_front : string :=
  substring 0 (String.length sized_output - String.length sized_rest) sized_output.

Lemma sized_written :
  rs_written (Run.run default_options true [sized_file]) = [("sized.cc", sized_front ++ sized_rest)] /\
  sized_rest =
  source sized_gaps (fst (mutate_program toy sized_ctx default_options [("f", replaced_body)] 0)) ++ nl.
Proof. split; vm_compute; reflexivity. Qed.

Lemma sized_meets :
  sized_text = "" ++ source sized_gaps sized_program ++ nl /\
  sized_rewrites = [ReplaceText 32 5 "3"] /\
  beside_operators sized_rewrites (source_places sized_program) /\
  (exists ps, corresponds true true sized_ast ps (source_places sized_program)) /\
  source_placed sized_gaps sized_program 0 /\ separated (source_places sized_program) /\
  (forall m, In m (post (ui_tree sized_unit)) -> clang_node sized_ctx m) /\
  well_formed_program toy sized_ctx sized_program = true /\
  rewrite sized_text sized_rewrites = source sized_gaps [("f", replaced_body)] ++ nl /\
  respelled sized_program [("f", replaced_body)].
Proof.
  split; [reflexivity|]. split; [vm_compute; reflexivity|]. split; [|split; [|split; [|split; [|split]]]].
  - intros e [<-|[]]. exists 32, 5, "3". split; [vm_compute; reflexivity|]. split; [discriminate|].
    intros p j m H T. cbn in H.
    repeat match type of H with
           | _ \/ _ => destruct H as [<-|H]
           | False => destruct H
           end; cbn in T; try discriminate. injection T as <- <-. lia.
  - pose proof (visited_correspondence true true sized_ast) as H.
    replace (map place_of (post (mutation_tree true true sized_ast)))
      with (source_places sized_program) in H by (vm_compute; reflexivity).
    eexists. exact H.
  - cbn. unfold from_to. cbn. repeat split; discriminate.
  - intros i Hb He. cbn in Hb, He.
    repeat match type of Hb with
           | _ \/ _ => destruct Hb as [<-|Hb]
           end; try contradiction; repeat destruct He as [He|He]; try discriminate; contradiction.
  - intros m H.
    replace (post (ui_tree sized_unit))
      with [MutExpr one_literal no_loc; MutExpr other_one no_loc;
            MutBinary sum_of_ones no_loc no_loc no_loc; MutExpr one_and_one no_loc;
            MutStmt sum_returned no_loc] in H by (vm_compute; reflexivity).
    cbn [In] in H.
    repeat match type of H with
           | _ \/ _ => destruct H as [<-|H]
           | False => destruct H
           end; cbn; unfold clang_expr, clang_binary; cbn; repeat split; intros; congruence.
  - split; [vm_compute; reflexivity|]. split; [vm_compute; reflexivity|]. vm_compute. reflexivity.
Qed.
