(* Lines of the original and of the written file. *)
From Coq Require Import String Ascii List Arith Bool.
From Verif Require Import Base Clang Gen GenExpr GenBinary GenUnary GenStmt Mutation MutTree TreeSpec
  Run.
Import ListNotations.
Local Open Scope string_scope.

Definition line_feed : ascii := "010"%char.
Fixpoint newlines (s : string) : nat :=
  match s with
  | EmptyString => 0
  | String c s => (if Ascii.eqb c line_feed then 1 else 0) + newlines s
  end.

(* The number of the line, from 0, in which the character at an offset stands *)
Definition line_at (s : string) (i : nat) : nat := newlines (substring 0 i s).

(* A line begins, or ends, at an offset. *)
Definition line_begins (s : string) (i : nat) : Prop :=
  i = 0 \/ exists k, i = S k /\ get k s = Some line_feed.
Definition line_ends (s : string) (i : nat) : Prop :=
  get i s = None \/ get i s = Some line_feed.

(* The character at an offset belongs to an operator that the tool takes over; && and || of C
   are left in place. *)
Definition in_operator (c : ctx) (m : mutation) (i : nat) : Prop :=
  match m with
  | MutBinary b _ _ _ =>
      (cpp c = true \/ is_logical (b_op b) = false) /\
      b_op_offset b <= i < b_op_offset b + String.length (bop_str (b_op b))
  | MutUnary u _ _ => u_op_offset u <= i < u_op_offset u + String.length (uop_str (u_op u))
  | _ => False
  end.
(* A constant that the tool replaces by its value *)
Definition in_constant (e : edit) (i : nat) : Prop :=
  match e with
  | ReplaceText off len _ => i = off \/ off <= i < off + len
  | _ => False
  end.
Definition inserted_text (e : edit) : string :=
  match e with InsertBefore _ s | InsertAfterToken _ s | ReplaceText _ _ s => s end.
Definition inserted_at (e : edit) : nat :=
  match e with InsertBefore i _ | InsertAfterToken i _ | ReplaceText i _ _ => i end.

(* Where constructs that are mutated begin and end *)
Definition ends_of (r : range) : list nat := [r_begin r; r_end r].
Definition site_ends (m : mutation) : list nat :=
  match m with
  | MutExpr e _ => ends_of (e_range e)
  | MutBinary b _ _ _ =>
      ends_of (b_range b) ++ ends_of (e_range (b_lhs b)) ++ ends_of (e_range (b_rhs b))
  | MutUnary u _ _ => ends_of (u_range u)
  | MutStmt s _ => ends_of (s_range s)
  end.

(* The character at an offset is kept. *)
Definition kept (u : unit_info) (i : nat) : Prop :=
  (forall m, In m (post (ui_tree u)) -> ~ in_operator (ui_ctx u) m i) /\
  (forall e, In e (ui_rewrites u) -> ~ in_constant e i).
(* Nothing that is mutated begins, ends or is replaced from one offset to another. *)
Definition untouched (u : unit_info) (i j : nat) : Prop :=
  forall k, i <= k <= j ->
    kept u k /\
    (forall m, In m (post (ui_tree u)) -> ~ In k (site_ends m)) /\
    (forall e, In e (ui_rewrites u) -> inserted_at e <> k).
(* Operators and constants that are replaced do not go over the end of a line, and the values
   of constants are written in one line. *)
Definition in_one_line (u : unit_info) (text : string) : Prop :=
  (forall i, get i text = Some line_feed -> kept u i) /\
  (forall e, In e (ui_rewrites u) -> newlines (inserted_text e) = 0).

(* Statements that are followed by a comment on their line but by no semicolon: the text that
   is inserted after the comment has to begin a new line.  How many there are up to an
   offset, unless only coverage is recorded *)
Definition breaks_line (m : mutation) : bool :=
  match m with
  | MutStmt s _ => s_ext_comment s && negb (s_ext_semi s)
  | _ => false
  end.
Definition site_ends_by (i : nat) (m : mutation) : bool :=
  match m with
  | MutStmt s _ => Nat.leb (r_end (s_range s)) i
  | _ => false
  end.
Definition new_lines_by (o : options) (u : unit_info) (i : nat) : nat :=
  if track o then 0
  else List.length (filter (fun m => breaks_line m && site_ends_by i m) (post (ui_tree u))).
