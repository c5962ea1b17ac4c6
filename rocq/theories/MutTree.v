(* mutation_tree_node.cc *)
From Coq Require Import List Bool.
Import ListNotations.

(* mutation_tree_node.h: a node has mutations and children. *)
Inductive tree (M : Type) : Type :=
| Node (mutations : list M) (children : list (tree M)).
Arguments Node {M}.

Definition mutations {M} (t : tree M) : list M := match t with Node ms _ => ms end.
Definition children {M} (t : tree M) : list (tree M) := match t with Node _ ks => ks end.

(* mutation_tree_node.cc:34-44 *)
Fixpoint is_empty {M} (t : tree M) : bool :=
  match t with
  | Node (_ :: _) _ => false
  | Node [] ks => forallb is_empty ks
  end.

(* mutation_tree_node.cc:64-74 *)
Fixpoint prune {M} (t : tree M) : tree M :=
  match t with
  | Node ms ks =>
      Node ms ((fix go (ks : list (tree M)) :=
                  match ks with
                  | [] => []
                  | k :: ks => if is_empty k then go ks else prune k :: go ks
                  end) ks)
  end.

(* mutation_tree_node.cc:46-62.  One turn of the while loop replaces the node's content by
   that of its only child; the recursive call on that child stands for the remaining turns
   and for the loop over the children. *)
Fixpoint compress {M} (t : tree M) : tree M :=
  match t with
  | Node [] [k] => compress k
  | Node ms ks => Node ms (map compress ks)
  end.

(* mutation_tree_node.cc:29-32 *)
Definition tidy {M} (t : tree M) : tree M := compress (prune t).
