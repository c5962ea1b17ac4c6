(* Vocabulary for stating properties of mutation trees. *)
From Coq Require Import List Bool.
From Verif Require Import MutTree.
Import ListNotations.

(* What a tree says about each mutation, in creation order (children first): the mutations
   at enclosing nodes, outermost first, and the mutations at the same node. *)
Fixpoint entries {M} (anc : list M) (t : tree M) : list (M * list M * list M) :=
  match t with
  | Node ms ks => flat_map (entries (anc ++ ms)) ks ++ map (fun m => (m, anc, ms)) ms
  end.

Inductive subtree {M} : tree M -> tree M -> Prop :=
| sub_here t : subtree t t
| sub_child s ms ks k : In k ks -> subtree s k -> subtree s (Node ms ks).

(* Some mutation occurs in the tree *)
Inductive has_mutation {M} : tree M -> Prop :=
| has_here m ms ks : has_mutation (Node (m :: ms) ks)
| has_child ms ks k : In k ks -> has_mutation k -> has_mutation (Node ms ks).

(* The mutations of a tree in creation order *)
Fixpoint post {M} (t : tree M) : list M :=
  match t with
  | Node ms ks => flat_map post ks ++ ms
  end.
