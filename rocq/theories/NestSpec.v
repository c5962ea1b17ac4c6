(* Vocabulary for stating that nested rewrites come out nested: where the nodes of a tree lie in
   the source text, and in which order they are mutated. *)
From Coq Require Import String Ascii List Bool Arith.
From Verif Require Import Base Clang Gen GenExpr GenBinary GenUnary GenStmt Rewriter Mutation Lang
  Cst.
Import ListNotations.

(* Places that are mutated, without the locations that are only reported. *)
Inductive place := PExpr (e : expr) | PBin (b : binary) | PUn (u : unary) | PStmt (s : stmt_site).
Definition place_of (m : mutation) : place :=
  match m with
  | MutExpr e _ => PExpr e
  | MutBinary b _ _ _ => PBin b
  | MutUnary u _ _ => PUn u
  | MutStmt s _ => PStmt s
  end.

Section Nest.
Variable L : lang.
Notation cst := (cst L).

(* The places of a tree in the order of their ids: operands first, from left to right
   (mutate_ast_consumer.cc:475-506). *)
Fixpoint places (t : cst) : list place :=
  match t with
  | CVal _ _ => []
  | CNode _ ps _ => flat_map (fun p => places (snd p)) ps
  | CExpr e sub => places sub ++ [PExpr e]
  | CBin b l _ _ r => places l ++ places r ++ [PBin b]
  | CUn u _ sub => places sub ++ [PUn u]
  | CStmt s sub => places sub ++ [PStmt s]
  end.

Definition size (t : cst) : nat := String.length (text t).
Definition from_to (off n : nat) (r : range) : Prop :=
  n <> 0 /\ r_begin r = off /\ r_end r = off + n.

(* The tree begins at offset off: the source ranges that Clang reports for its places are
   where their texts are. *)
Fixpoint placed (t : cst) (off : nat) : Prop :=
  match t with
  | CVal _ _ => True
  | CNode _ ps _ =>
      (fix go ps off :=
         match ps with
         | [] => True
         | (s, p) :: ps =>
             placed p (off + String.length s) /\ go ps (off + String.length s + size p)
         end) ps off
  | CExpr e sub => from_to off (size sub) (e_range e) /\ placed sub off
  | CBin b l w1 w2 r =>
      let op := off + size l + String.length w1 in
      let right := op + String.length (bop_str (b_op b)) + String.length w2 in
      from_to off (size l) (e_range (b_lhs b)) /\ placed l off /\
      b_op_offset b = op /\
      from_to right (size r) (e_range (b_rhs b)) /\ placed r right /\
      from_to off (size t) (b_range b)
  | CUn u w sub =>
      from_to off (size t) (u_range u) /\
      if is_prefix (u_op u)
      then u_op_offset u = off /\
           placed sub (off + String.length (uop_str (u_op u)) + String.length w)
      else u_op_offset u = off + size sub + String.length w /\ placed sub off
  | CStmt s sub => from_to off (size sub) (s_range s) /\ placed sub off
  end.
End Nest.
Arguments places {L}. Arguments size {L}. Arguments placed {L}.

(* Where the text of a place, or of an operand of a binary operator, begins and ends. *)
Definition begins (p : place) : list nat :=
  match p with
  | PExpr e => [r_begin (e_range e)]
  | PBin b => [r_begin (b_range b); r_begin (e_range (b_lhs b)); r_begin (e_range (b_rhs b))]
  | PUn u => [r_begin (u_range u)]
  | PStmt s => [r_begin (s_range s)]
  end.
Definition ends (p : place) : list nat :=
  match p with
  | PExpr e => [r_end (e_range e)]
  | PBin b => [r_end (b_range b); r_end (e_range (b_lhs b)); r_end (e_range (b_rhs b))]
  | PUn u => [r_end (u_range u)]
  | PStmt s => [r_end (s_range s)]
  end.
(* No place ends where another one begins. *)
Definition separated (ps : list place) : Prop :=
  forall i, In i (flat_map begins ps) -> ~ In i (flat_map ends ps).

(* Matching of brackets: the stack holds the closing brackets that are still to come; None if
   a closing bracket does not fit. *)
Fixpoint scan (s : string) (stack : list ascii) : option (list ascii) :=
  match s with
  | EmptyString => Some stack
  | String a s =>
      if Ascii.eqb a "(" then scan s (")" :: stack)%char
      else if Ascii.eqb a "[" then scan s ("]" :: stack)%char
      else if Ascii.eqb a "{" then scan s ("}" :: stack)%char
      else if Ascii.eqb a ")" || Ascii.eqb a "]" || Ascii.eqb a "}" then
        match stack with
        | b :: stack => if Ascii.eqb a b then scan s stack else None
        | [] => None
        end
      else scan s stack
  end%char.
Definition balanced (s : string) : Prop := forall stack, scan s stack = Some stack.

(* The brackets within each mutated expression or statement, and within each operand, match. *)
Fixpoint sites_balanced {L} (t : cst L) : Prop :=
  match t with
  | CVal _ _ => True
  | CNode _ ps _ =>
      (fix go ps := match ps with
                    | [] => True
                    | (_, p) :: ps => sites_balanced p /\ go ps
                    end) ps
  | CExpr _ sub => balanced (text sub) /\ sites_balanced sub
  | CBin _ l w1 w2 r =>
      (balanced (text l) /\ sites_balanced l) /\ (balanced (text r) /\ sites_balanced r) /\
      balanced w1 /\ balanced w2
  | CUn _ w sub => (balanced (text sub) /\ sites_balanced sub) /\ balanced w
  | CStmt _ sub => balanced (text sub) /\ sites_balanced sub
  end.

(* A file: the text before the body of each function, and the bodies. *)
Fixpoint source {L} (gaps : list string) (p : list (string * cst L)) : string :=
  match gaps, p with
  | g :: gaps, (_, t) :: p => (g ++ text t ++ source gaps p)%string
  | _, _ => EmptyString
  end.
Fixpoint source_placed {L} (gaps : list string) (p : list (string * cst L)) (off : nat) : Prop :=
  match gaps, p with
  | g :: gaps, (_, t) :: p =>
      placed t (off + String.length g) /\ source_placed gaps p (off + String.length g + size t)
  | [], [] => True
  | _, _ => False
  end.
Definition source_places {L} (p : list (string * cst L)) : list place :=
  flat_map (fun f => places (snd f)) p.

(** * Neighbouring tokens *)

(* Characters that can be part of an identifier: also the dollar sign and, in UTF-8, all
   bytes outside ASCII. *)
Definition alnum (a : ascii) : bool :=
  let n := nat_of_ascii a in
  (Nat.leb 48 n && Nat.leb n 57) || (Nat.leb 65 n && Nat.leb n 90) || Nat.eqb n 95
  || (Nat.leb 97 n && Nat.leb n 122).
Definition ident_char (a : ascii) : bool :=
  alnum a || Ascii.eqb a "$" || Nat.leb 128 (nat_of_ascii a).
Definition starts_ident (s : string) : bool :=
  match s with EmptyString => false | String a _ => ident_char a end.
Fixpoint ends_ident (s : string) : bool :=
  match s with
  | EmptyString => false
  | String a EmptyString => ident_char a
  | String _ s => ends_ident s
  end.
(* The character of a text before an offset *)
Definition before (p : ascii -> bool) (text : string) (i : nat) : bool :=
  match i with
  | 0 => false
  | S i => match String.get i text with Some a => p a | None => false end
  end.
(* What edits insert in front of the character at offset i, in the order of the resulting
   text, and what they insert behind the character at offset i - 1 *)
Fixpoint in_front (es : list edit) (i : nat) : list string :=
  match es with
  | [] => []
  | InsertBefore j s :: es =>
      in_front es i ++ (if Nat.eqb j i && negb (String.eqb s "") then [s] else [])
  | _ :: es => in_front es i
  end.
Fixpoint behind (es : list edit) (i : nat) : list string :=
  match es with
  | [] => []
  | InsertAfterToken j s :: es =>
      (if Nat.eqb j i && negb (String.eqb s "") then [s] else []) ++ behind es i
  | _ :: es => behind es i
  end.
(* Clang's answers about the character before an expression are those for this text. *)
Definition knows_before (text : string) (m : mutation) : Prop :=
  match m with
  | MutExpr e _ => e_preceded_by_ident e = before alnum text (r_begin (e_range e))
  | _ => True
  end.

(** * Sequences of statements *)

(* Statements to be removed, each with the text before it. *)
Definition item : Type := string * string * stmt_site.
Fixpoint items_text (l : list item) : string :=
  match l with
  | [] => EmptyString
  | (g, x, _) :: l => (g ++ x ++ items_text l)%string
  end.
Fixpoint items_placed (l : list item) (off : nat) : Prop :=
  match l with
  | [] => True
  | (g, x, s) :: l =>
      from_to (off + String.length g) (String.length x) (s_range s) /\
      items_placed l (off + String.length g + String.length x)
  end.
(* There is something between each statement and the next. *)
Definition spaced (l : list item) : Prop :=
  match l with
  | [] => True
  | _ :: l => Forall (fun i : item => fst (fst i) <> EmptyString) l
  end.
(* Each statement in its own wrapper *)
Fixpoint wrapped_apart (o : options) (l : list item) (id : nat) : string :=
  match l with
  | [] => EmptyString
  | (g, x, s) :: l =>
      (g ++ stmt_open o id ++ x ++ (if track o then EmptyString else stmt_close s)
       ++ wrapped_apart o l (S id))%string
  end.
