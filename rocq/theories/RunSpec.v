(* Vocabulary for stating properties of a run. *)
From Coq Require Import String List Arith Bool Permutation.
From Verif Require Import Base Clang Gen GenExpr GenBinary GenUnary GenStmt Mutation MutTree
  TreeSpec Run.
Import ListNotations.

(* The number of mutants that a mutation offers. *)
Definition mutant_count (c : ctx) (opt : bool) (m : mutation) : nat :=
  match m with
  | MutExpr e _ => List.length (expr_mutants c opt e)
  | MutBinary b _ _ _ => List.length (binary_actions c opt b)
  | MutUnary u _ _ => List.length (unary_mutants opt u)
  | MutStmt _ _ => 1
  end.

(* The number of mutants that a file offers. *)
Definition offers (o : options) (f : source_file) : nat :=
  match f_unit f with
  | None => 0
  | Some u => list_sum (map (mutant_count (ui_ctx u) (optimise o)) (post (ui_tree u)))
  end.

(* A group of the info file describes a mutation: same kind, same place, and one instance
   for each of its mutants, in order. *)
Definition describes_group (c : ctx) (opt : bool) (m : mutation) (g : group) : Prop :=
  match m, g with
  | MutExpr e i, GroupReplaceExpr i' l =>
      i' = i /\ map snd l = map fst (expr_mutants c opt e)
  | MutBinary b i il ir, GroupReplaceBinary i' il' ir' o l =>
      i' = i /\ il' = il /\ ir' = ir /\ o = b_op b /\ map snd l = binary_actions c opt b
  | MutUnary u i is, GroupReplaceUnary i' is' o l =>
      i' = i /\ is' = is /\ o = u_op u /\ map snd l = map fst (unary_mutants opt u)
  | MutStmt s i, GroupRemoveStmt _ i' => i' = i
  | _, _ => False
  end.

(* Mutations without mutants are not described. *)
Definition described (c : ctx) (opt : bool) (ms : list mutation) : list mutation :=
  filter (fun m => negb (Nat.eqb (mutant_count c opt m) 0)) ms.

(* A tree of groups describes a tree of mutations. *)
Inductive describes (c : ctx) (opt : bool) : tree mutation -> tree group -> Prop :=
| describes_node ms ks gs Ks :
    Forall2 (describes_group c opt) (described c opt ms) gs ->
    Forall2 (describes c opt) ks Ks ->
    describes c opt (Node ms ks) (Node gs Ks).

(* Reading the flat list of nodes of an info file entry as a tree. *)
Inductive decodes (ns : list pnode) : nat -> tree group -> Prop :=
| decodes_node i p ts :
    nth_error ns i = Some p ->
    Forall2 (decodes ns) (p_children p) ts ->
    decodes ns i (Node (p_groups p) ts).

(* The ids in an entry, node by node; the ids in a tree of groups, in creation order. *)
Definition entry_ids (ns : list pnode) : list nat :=
  flat_map (fun p => flat_map group_ids (p_groups p)) ns.
Definition tree_ids (T : tree group) : list nat := flat_map group_ids (post T).

(* Files with the same name are the same file. *)
Definition names_identify (fs : list source_file) : Prop :=
  forall f g, In f fs -> In g fs -> f_name f = f_name g -> f = g.

(* The first occurrences of the files of a list, those named in seen left out. *)
Fixpoint distinct (seen : list string) (fs : list source_file) : list source_file :=
  match fs with
  | [] => []
  | f :: fs => if in_dec string_dec (f_name f) seen then distinct seen fs
               else f :: distinct (f_name f :: seen) fs
  end.

(* The functions that the code generated for a mutation calls. *)
Definition site_functions (c : ctx) (o : options) (m : mutation) : list mfun :=
  match m with
  | MutExpr e _ => [expr_function c o e]
  | MutBinary b _ _ _ => if c_logical c b then c_logical_functions c o b
                         else [binary_function c o b]
  | MutUnary u _ _ => [unary_function c o u]
  | MutStmt _ _ => []
  end.

(* The prelude location lies in the file. *)
Definition well_placed (f : source_file) : Prop :=
  forall u, f_unit f = Some u -> ui_prelude_offset u <= String.length (f_text f).

(* The same options in coverage mode or not. *)
Definition with_track (o : options) (b : bool) : options :=
  {| optimise := optimise o; track := b |}.

(* What a run produces: number of ids used, info file, rewritten files. *)
Definition core (st : rstate) := (rs_id st, rs_info st, rs_written st).

(* The flat list is a tree rooted at 0: every other index is the child of exactly one
   node, and children come after their parents. *)
Definition flat_tree_ok (ns : list pnode) : Prop :=
  Permutation (flat_map p_children ns) (seq 1 (List.length ns - 1)) /\
  (forall i p j, nth_error ns i = Some p -> In j (p_children p) -> i < j < List.length ns).
