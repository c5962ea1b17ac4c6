(* The order of mutations and their nesting: C52. *)
From Coq Require Import List Bool Arith Sorted.
From Verif Require Import Base Clang Gen GenStmt Mutation MutTree TreeSpec Visitor VisitorSpec
  VisitorProof VisitorExample VisitorTree.
Import ListNotations.

(* C52.  Above a mutation in the mutation tree are exactly the mutations of code that encloses
   the code it changes, and in its node are exactly the mutations of the same code. *)
Theorem C52_tree_follows_nesting : forall is_cpp opt root s above same,
  let t := tidy (visited_tree is_cpp opt root) in
  In (s, above, same) (entries [] t) ->
  (forall a, In a above <-> In a (post t) /\ encloses a s) /\
  (forall a, In a same <-> In a (post t) /\ beside a s).
Proof. exact nesting. Qed.
Print Assumptions C52_tree_follows_nesting.

(* Mutations are numbered from left to right and from the inside out. *)
Theorem C52_order : forall is_cpp opt root,
  StronglySorted comes_before (post (tidy (visited_tree is_cpp opt root))).
Proof. exact creation_order. Qed.
Print Assumptions C52_order.

(* The tree of which the two speak is, without the positions, the one that is written. *)
Theorem C52_positions_added : forall is_cpp opt root,
  tidy (mutation_tree is_cpp opt root) =
  map_tree snd (tidy (visited_tree is_cpp opt root)).
Proof. exact (fun is_cpp opt root => map_tidy snd (visited_tree is_cpp opt root)). Qed.
Print Assumptions C52_positions_added.

(* int f() { int x = 1; int y = 2; return x + y + x; }: position, rank, and the mutations above
   and beside *)
Definition outline (l : list (list nat * mutation)) : list (list nat * nat) :=
  map (fun a => (fst a, rank (snd a))) l.
Example C52_example :
  let described := map (fun e => match e with (s, above, same) =>
        (fst s, rank (snd s), outline above, outline same) end)
    (entries [] (tidy (visited_tree false true add_c_ast))) in
  length described = 13 /\
  nth_error described 6 = Some ([0; 0; 2; 0; 0], 0,
    [([0; 0; 2], 2); ([0; 0; 2; 0], 0); ([0; 0; 2; 0], 1)],
    [([0; 0; 2; 0; 0], 0); ([0; 0; 2; 0; 0], 1)]) /\
  nth_error described 12 = Some ([0; 0; 2], 2, [], [([0; 0; 2], 2)]).
Proof. vm_compute. auto. Qed.
