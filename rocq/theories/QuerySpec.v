(* What the query script should show. *)
From Coq Require Import String Ascii List ZArith Bool Arith.
From Verif Require Import Base Clang Gen GenExpr GenBinary GenUnary Mutation GenSpec QueryText
  Query.
Import ListNotations.
Local Open Scope string_scope.

(* Operands are parenthesised, unless they consist of these characters: those of words and
   numbers, the dot, the backslash and white space. *)
Definition white_space : list ascii :=
  map ascii_of_nat [9; 10; 11; 12; 13; 28; 29; 30; 31; 32].
Definition bare_chars : list ascii :=
  (list_ascii_of_string
     "abcdefghijklmnopqrstuvwxyzABCDEFGHIJKLMNOPQRSTUVWXYZ0123456789_.\" ++ white_space)%list.
Definition operand_text (s : string) : string :=
  match list_ascii_of_string s with
  | [] => "()"
  | l => if forallb (fun c => existsb (Ascii.eqb c) bare_chars) l then s else "(" ++ s ++ ")"
  end.

(* A replacement expression in words: operand texts a1, a2 (with their indentation b1, b2),
   sep between an operator and its operands.  Operands of operators are parenthesised. *)
Definition phrase (a1 b1 a2 b2 sep : string) (r : rhs) : string :=
  let p := operand_text in
  match r with
  | RArg1 => b1 ++ a1
  | RArg2 => b2 ++ a2
  | RPre o | RPreParen o => b1 ++ uop_str o ++ " " ++ p a1
  | RPost o => b1 ++ p a1 ++ " " ++ uop_str o
  | RBin o => b1 ++ p a1 ++ sep ++ bop_str o ++ sep ++ b2 ++ p a2
  | RLit l => print_lit l
  end.

(* Literals are shown as in C++. *)
Definition cpp_literals : ctx :=
  {| cpp := true; prints_bool := true; char_signed := true; wchar_signed := true |}.

(* A text of several lines is shown at the column at which it stands in the file (columns
   count from 1), one of a single line at the margin. *)
Definition indentation (i : loc_info) : string :=
  if Nat.eqb (start_line i) (end_line i) then ""
  else string_of_list_ascii (repeat " "%char (pred (start_column i))).

(* The k-th mutant of a group, in words: by what its action means. *)
Definition group_phrase (source : string) (g : group) (k : nat) : option string :=
  let text i := text_for_source_range source i in
  let sep i := if Nat.eqb (start_line i) (end_line i) then " " else nl in
  match g with
  | GroupRemoveStmt _ i => Some (indentation i ++ text i)
  | GroupReplaceExpr i l =>
      match nth_error l k with
      | Some (_, a) => option_map (phrase (text i) (indentation i) "" "" "")
                         (expr_meaning cpp_literals a)
      | None => None
      end
  | GroupReplaceUnary i i_sub _ l =>
      match nth_error l k with
      | Some (_, a) => option_map (phrase (text i_sub) (indentation i_sub) "" "" "")
                         (un_meaning a)
      | None => None
      end
  | GroupReplaceBinary i i_lhs i_rhs _ l =>
      match nth_error l k with
      | Some (_, a) => option_map (phrase (text i_lhs) (indentation i_lhs)
                                     (text i_rhs) (indentation i_rhs) (sep i))
                         (bin_meaning a)
      | None => None
      end
  end.
