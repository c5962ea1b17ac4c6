(* scripts/query_mutant_info.py: looking mutants up and showing them. *)
From Coq Require Import String Ascii List NArith ZArith Bool Arith.
From Verif Require Import Base Clang Gen GenExpr GenBinary GenUnary Mutation Run SourceRange
  QueryText.
Import ListNotations.
Local Open Scope string_scope.

(* The instance of a mutant: the "action" field, missing for removed statements. *)
Inductive shown_action :=
| ShowExpr (a : expr_action) | ShowUnary (a : un_action) | ShowBinary (a : bin_action)
| ShowRemove.

(* query_mutant_info.py:28-33, class MutantInfo; the kind is that of the group *)
Record mutant_info := {
  mi_file : string;            (* file_info["filename"] *)
  mi_group : group;
  mi_instance : shown_action
}.

(* query_mutant_info.py:41-48, for one group *)
Definition group_entries (file : string) (g : group) : list (nat * mutant_info) :=
  let entry a := {| mi_file := file; mi_group := g; mi_instance := a |} in
  match g with
  | GroupRemoveStmt id _ => [(id, entry ShowRemove)]
  | GroupReplaceExpr _ l => map (fun x => (fst x, entry (ShowExpr (snd x)))) l
  | GroupReplaceBinary _ _ _ _ l => map (fun x => (fst x, entry (ShowBinary (snd x)))) l
  | GroupReplaceUnary _ _ _ l => map (fun x => (fst x, entry (ShowUnary (snd x)))) l
  end.

(* query_mutant_info.py:36-49.  The dictionary is the list of assignments made to it; the
   last assignment to a key counts. *)
Definition build_mapping (info : list (string * list pnode)) : list (nat * mutant_info) :=
  flat_map (fun f => flat_map (fun p => flat_map (group_entries (fst f)) (p_groups p))
                              (snd f)) info.

Fixpoint dict_get (d : list (nat * mutant_info)) (k : nat) : option mutant_info :=
  match d with
  | [] => None
  | (x, v) :: d => match dict_get d k with
                   | Some v => Some v
                   | None => if Nat.eqb x k then Some v else None
                   end
  end.

(* query_mutant_info.py:320-323 *)
Definition largest_mutant_id (d : list (nat * mutant_info)) : Z :=
  match map fst d with
  | [] => -1
  | x :: l => Z.of_nat (fold_left Nat.max l x)
  end.

(* The table of replacements, query_mutant_info.py:95-104 *)
Definition expr_replacements (a : expr_action) : option string :=
  match a with
  | ReplaceWithZeroFloat => Some "0.0"
  | ReplaceWithOneFloat => Some "1.0"
  | ReplaceWithMinusOneFloat => Some "-1.0"
  | ReplaceWithZeroInt => Some "0"
  | ReplaceWithOneInt => Some "1"
  | ReplaceWithMinusOneInt => Some "-1"
  | ReplaceWithTrue => Some "true"
  | ReplaceWithFalse => Some "false"
  | _ => None
  end.
(* query_mutant_info.py:105-111 *)
Definition expr_insertions (a : expr_action) : option string :=
  match a with
  | InsertPreInc => Some "++"
  | InsertPreDec => Some "--"
  | InsertLNot => Some "!"
  | InsertNot => Some "~"
  | InsertMinus => Some "-"
  | _ => None
  end.
(* query_mutant_info.py:142-148 *)
Definition unary_pre_replacements (a : un_action) : option string :=
  match a with
  | ReplaceWithMinus => Some "-"
  | ReplaceWithNot => Some "~"
  | ReplaceWithPreDec => Some "--"
  | ReplaceWithPreInc => Some "++"
  | ReplaceWithLNot => Some "!"
  | _ => None
  end.
(* query_mutant_info.py:149-152 *)
Definition unary_post_replacements (a : un_action) : option string :=
  match a with
  | ReplaceWithPostDec => Some "--"
  | ReplaceWithPostInc => Some "++"
  | _ => None
  end.
(* query_mutant_info.py:195-225 *)
Definition action_to_operator (a : bin_action) : option string :=
  match a with
  | BReplaceWithAdd => Some "+" | BReplaceWithDiv => Some "/" | BReplaceWithMul => Some "*"
  | BReplaceWithRem => Some "%" | BReplaceWithSub => Some "-"
  | BReplaceWithAddAssign => Some "+=" | BReplaceWithAndAssign => Some "&="
  | BReplaceWithAssign => Some "=" | BReplaceWithDivAssign => Some "/="
  | BReplaceWithMulAssign => Some "*=" | BReplaceWithOrAssign => Some "|="
  | BReplaceWithRemAssign => Some "%=" | BReplaceWithShlAssign => Some "<<="
  | BReplaceWithShrAssign => Some ">>=" | BReplaceWithSubAssign => Some "-="
  | BReplaceWithXorAssign => Some "^="
  | BReplaceWithAnd => Some "&" | BReplaceWithOr => Some "|" | BReplaceWithXor => Some "^"
  | BReplaceWithLAnd => Some "&&" | BReplaceWithLOr => Some "||"
  | BReplaceWithEQ => Some "==" | BReplaceWithGE => Some ">=" | BReplaceWithGT => Some ">"
  | BReplaceWithLE => Some "<=" | BReplaceWithLT => Some "<" | BReplaceWithNE => Some "!="
  | BReplaceWithShl => Some "<<" | BReplaceWithShr => Some ">>"
  | ReplaceWithLHS | ReplaceWithRHS | BReplaceWithUnknown => None
  end.

(* query_mutant_info.py:52-57.  The pattern is [a-zA-Z0-9_\.] and white space; inside a
   character class of a raw string, \\. is a backslash and a dot.  Simplified: the dollar
   sign also matches before a final line feed, but that is white space anyway; letters and
   spaces beyond ASCII do not occur in the class a-zA-Z but do count as white space in
   Python, which is not modelled. *)
Definition plain_char (c : ascii) : bool :=
  is_alnum c || Ascii.eqb c "_" || Ascii.eqb c "092" || Ascii.eqb c "." ||
  Ascii.eqb c " " || in_range c 9 13 || in_range c 28 31.
Definition parenthesise_if_needed (s : string) : string :=
  if negb (String.eqb s "") && string_forall plain_char s then s
  else "(" ++ s ++ ")".

(* query_mutant_info.py:75 *)
Fixpoint blanks (n : nat) : string :=
  match n with 0 => "" | S n => String " " (blanks n) end.
Definition blank_prefix (info : loc_info) : string :=
  if Nat.eqb (start_line info) (end_line info) then ""
  else blanks (start_column info - 1).

(* The replacement text that is printed, query_mutant_info.py:83-253; None: an exception.
   For a removed statement this is the removed text. *)
Definition shown_text (source : string) (mi : mutant_info) : option string :=
  let text := text_for_source_range source in
  match mi_group mi, mi_instance mi with
  | GroupReplaceExpr i _, ShowExpr a =>
      match expr_replacements a with
      | Some s => Some s
      | None =>
          match expr_insertions a with
          | Some s => Some (blank_prefix i ++ s ++ " " ++ parenthesise_if_needed (text i))
          | None => None
          end
      end
  | GroupReplaceUnary i i_sub _ _, ShowUnary a =>
      match a with
      | ReplaceWithOperand => Some (blank_prefix i_sub ++ text i_sub)
      | _ =>
          match unary_pre_replacements a with
          | Some s =>
              Some (blank_prefix i_sub ++ s ++ " " ++ parenthesise_if_needed (text i_sub))
          | None =>
              match unary_post_replacements a with
              | Some s =>
                  Some (blank_prefix i_sub ++ parenthesise_if_needed (text i_sub) ++ " " ++ s)
              | None => None
              end
          end
      end
  | GroupReplaceBinary i i_lhs i_rhs _ _, ShowBinary a =>
      match a with
      | ReplaceWithLHS => Some (blank_prefix i_lhs ++ text i_lhs)
      | ReplaceWithRHS => Some (blank_prefix i_rhs ++ text i_rhs)
      | _ =>
          match action_to_operator a with
          | Some s =>
              let sep := if Nat.eqb (start_line i) (end_line i) then " " else nl in
              Some (blank_prefix i_lhs ++ parenthesise_if_needed (text i_lhs)
                    ++ sep ++ s ++ sep
                    ++ blank_prefix i_rhs ++ parenthesise_if_needed (text i_rhs))
          | None => None
          end
      end
  | GroupRemoveStmt _ i, ShowRemove => Some (blank_prefix i ++ text i)
  | _, _ => None
  end.

(* query_mutant_info.py:256-288: the outcome of --show-info-for-mutant.  The original file
   is found by exchanging a path prefix; here original gives its contents by the name in
   the info file. *)
Inductive query_result := UnknownMutant | Shown (s : string) | Crash.
Definition show_info (info : list (string * list pnode)) (original : string -> string)
  (id : nat) : query_result :=
  match dict_get (build_mapping info) id with
  | None => UnknownMutant
  | Some mi => match shown_text (original (mi_file mi)) mi with
               | Some s => Shown s
               | None => Crash
               end
  end.
