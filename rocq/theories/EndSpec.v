(* From the syntax tree to the program: where a file is changed, stated over the syntax tree
   that Clang builds. *)
From Coq Require Import List Bool Arith Sorted.
From Verif Require Import Base Clang Gen GenStmt MutTree Mutation Visitor VisitorSpec ExactSpec
  NestSpec.
Import ListNotations.

(* What the description of the tool says about position pos of the syntax tree: there, exactly
   these changes are made. *)
Definition changed_at (is_cpp opt : bool) (root : node) (pos : list nat) (p : place) : Prop :=
  match p with
  | PExpr y => exists e x i up ks, in_reach is_cpp opt root pos e x i up ks /\
      replaceable opt e x up ks /\ y = x_expr x
  | PUn u => exists sub x i up ks, in_reach is_cpp opt root pos (EUnary u sub) x i up ks /\
      unary_replaceable opt u ks
  | PBin b => exists lhs rhs x i up ks,
      in_reach is_cpp opt root pos (EBinary b lhs rhs) x i up ks /\ binary_replaceable opt b ks
  | PStmt s => exists up n, open_path is_cpp opt root [] pos up n /\ in_block up /\
      removable opt (node_kind n) (node_info n) /\ ~ discarded opt (node_kind n) up /\
      s = n_site (node_info n)
  end.

Definition place_rank (p : place) : nat :=
  match p with PStmt _ => 2 | PExpr _ => 1 | _ => 0 end.
Definition marked_before (a b : list nat * place) : Prop :=
  earlier (fst a) (fst b) \/ (fst a = fst b /\ place_rank (snd a) < place_rank (snd b)).

(* The places l of a text, from left to right and from the inside out, are at the positions ps
   of the syntax tree: those at which something is changed. *)
Record corresponds (is_cpp opt : bool) (root : node) (ps : list (list nat)) (l : list place)
  : Prop := {
  co_length : length ps = length l;
  co_order : StronglySorted marked_before (combine ps l);
  co_places : forall pos p, In (pos, p) (combine ps l) <-> changed_at is_cpp opt root pos p
}.
