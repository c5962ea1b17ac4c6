(* Vocabulary for coverage runs. *)
From Coq Require Import String List Arith Bool Permutation.
From Verif Require Import Base Clang Gen GenExpr GenBinary GenUnary GenStmt Mutation RunSpec
  Tracking.
Import ListNotations.

(* Id x belongs to the site of call c. *)
Definition covers (initial : nat -> nat) (c : call) (x : nat) : Prop :=
  initial (c_file c) + c_local c <= x < initial (c_file c) + c_local c + c_num c.

(* The sites of a program: each lies in the block of its file and has at least one mutant,
   and different sites have no mutant in common. *)
Record sites_ok (initial num : nat -> nat) (sites : list call) : Prop := {
  sites_fit : forall c, In c sites -> c_local c + c_num c <= num (c_file c);
  sites_nonempty : forall c, In c sites -> 0 < c_num c;
  sites_apart : forall c c' x, In c sites -> In c' sites ->
                covers initial c x -> covers initial c' x -> c = c'
}.

(* All threads are done. *)
Definition finished (p : tproc) : Prop :=
  Forall (fun th => pending th = [] /\ todo th = []) (tthreads p).

(* The sites of file k, whose mutations ms get their ids in this order: local id and number
   of mutants of each *)
Fixpoint layout (c : ctx) (opt : bool) (k local : nat) (ms : list mutation) : list call :=
  match ms with
  | [] => []
  | m :: ms => {| c_file := k; c_local := local; c_num := mutant_count c opt m |}
               :: layout c opt k (local + mutant_count c opt m) ms
  end.

(* The sites of a program: the mutations of its files (with their language), the files in
   the order in which they were given to the tool *)
Fixpoint program_sites (opt : bool) (k : nat) (files : list (ctx * list mutation))
  : list call :=
  match files with
  | [] => []
  | (c, ms) :: files => layout c opt k 0 ms ++ program_sites opt (S k) files
  end.
Definition file_size (opt : bool) (f : ctx * list mutation) : nat :=
  list_sum (map (mutant_count (fst f) opt) (snd f)).
Definition file_num (opt : bool) (files : list (ctx * list mutation)) (k : nat) : nat :=
  match nth_error files k with Some f => file_size opt f | None => 0 end.
Definition file_initial (opt : bool) (files : list (ctx * list mutation)) (k : nat) : nat :=
  list_sum (map (file_size opt) (firstn k files)).
