(* Source-level mutants with one change, sets of mutants at a site, and sets of mutants that
   need all operands: vocabulary for the properties about enabled mutants. *)
From Coq Require Import String List ZArith Bool.
From Verif Require Import Base Clang Gen GenExpr GenBinary GenUnary GenStmt Mutation GenSpec
  PreludeSpec Prelude Lang Cst Runtime SimSpec.
Import ListNotations.

Section Mutants.
Variable L : lang.
Variable c : ctx.
Variable opt : bool.
Notation den := (den L c).

(* The number of mutants of a tree. *)
Fixpoint mutants_in (t : cst L) : nat :=
  match t with
  | CVal _ _ => 0
  | CNode _ ps _ => fold_right (fun p n => mutants_in (snd p) + n) 0 ps
  | CExpr e sub => mutants_in sub + List.length (expr_mutants c opt e)
  | CBin b l _ _ r => mutants_in l + mutants_in r + List.length (binary_actions c opt b)
  | CUn u _ sub => mutants_in sub + List.length (unary_mutants opt u)
  | CStmt _ sub => S (mutants_in sub)
  end.
Definition mutants_of (p : list (string * cst L)) : nat :=
  fold_right (fun x n => mutants_in (snd x) + n) 0 p.

(* The meaning of t in which exactly one site is changed, by the mutant number i of t. *)
Inductive one_change : cst L -> nat -> tm L -> Prop :=
| change_below_node k pre s p post last i x :
    one_change p i x ->
    one_change (CNode k (pre ++ (s, p) :: post) last) (mutants_of pre + i)
      (N k (map (fun p => den (snd p)) pre ++ x :: map (fun p => den (snd p)) post))
| change_below_expr e sub i x :
    one_change sub i x -> one_change (CExpr e sub) i (expr_term L c e RArg1 x)
| change_expr e sub k a op :
    nth_error (map fst (expr_mutants c opt e)) k = Some a -> expr_meaning c a = Some op ->
    one_change (CExpr e sub) (mutants_in sub + k) (expr_term L c e op (den sub))
| change_left b l w1 w2 r i x :
    one_change l i x ->
    one_change (CBin b l w1 w2 r) i (binary_term L c b (RBin (b_op b)) x (den r))
| change_right b l w1 w2 r i x :
    one_change r i x ->
    one_change (CBin b l w1 w2 r) (mutants_in l + i)
      (binary_term L c b (RBin (b_op b)) (den l) x)
| change_binary b l w1 w2 r k a op :
    nth_error (binary_actions c opt b) k = Some a -> bin_meaning a = Some op ->
    one_change (CBin b l w1 w2 r) (mutants_in l + mutants_in r + k)
      (if c_logical c b then c_logical_term L c b op (den l) (den r)
       else binary_term L c b op (den l) (den r))
| change_below_unary u w sub i x :
    one_change sub i x ->
    one_change (CUn u w sub) i (unary_term L c u (written_unary (u_op u)) x)
| change_unary u w sub k a op :
    nth_error (map fst (unary_mutants opt u)) k = Some a -> un_meaning a = Some op ->
    one_change (CUn u w sub) (mutants_in sub + k) (unary_term L c u op (den sub))
| change_below_stmt s sub i x : one_change sub i x -> one_change (CStmt s sub) i x
| change_stmt s sub : one_change (CStmt s sub) (mutants_in sub) skip.

(* The bodies of a program in which one function is changed, in one place. *)
Inductive one_change_program (p : list (string * cst L)) (i : nat) : list (string * tm L) -> Prop :=
| change_function p1 f t p2 j x :
    p = p1 ++ (f, t) :: p2 -> i = mutants_of p1 + j -> one_change t j x ->
    one_change_program p i
      (map (fun x => (fst x, den (snd x))) p1 ++ (f, x) ::
       map (fun x => (fst x, den (snd x))) p2).

(* The sites: first mutant and number of mutants. *)
Fixpoint sites_in (t : cst L) (id : nat) : list (nat * nat) :=
  match t with
  | CVal _ _ => []
  | CNode _ ps _ =>
      (fix go ps id :=
         match ps with
         | [] => []
         | (_, p) :: ps => sites_in p id ++ go ps (id + mutants_in p)
         end) ps id
  | CExpr e sub =>
      sites_in sub id ++ [(id + mutants_in sub, List.length (expr_mutants c opt e))]
  | CBin b l _ _ r =>
      sites_in l id ++ sites_in r (id + mutants_in l) ++
      [(id + mutants_in l + mutants_in r, List.length (binary_actions c opt b))]
  | CUn u _ sub =>
      sites_in sub id ++ [(id + mutants_in sub, List.length (unary_mutants opt u))]
  | CStmt _ sub => sites_in sub id ++ [(id + mutants_in sub, 1)]
  end.
Fixpoint sites_of (p : list (string * cst L)) (id : nat) : list (nat * nat) :=
  match p with
  | [] => []
  | (_, t) :: p => sites_in t id ++ sites_of p (id + mutants_in t)
  end.

(* The smallest enabled mutant of a site. *)
Definition smallest (E : nat -> bool) (site : nat * nat) : option nat :=
  find E (seq (fst site) (snd site)).

(* At each site the enabled mutant with the smallest id, if any, needs all operands that are
   evaluated before the generated function is called.  In C, the second and third
   mutant of && and || do not. *)
Definition operand_kept (used delayed : bool) : bool := used || delayed.
Definition kept (f : rhs -> bool) (r : option rhs) : bool :=
  match r with Some r => f r | None => true end.
Fixpoint keeps (E : nat -> bool) (t : cst L) (id : nat) : bool :=
  match t with
  | CVal _ _ => true
  | CNode _ ps _ =>
      (fix go ps id :=
         match ps with
         | [] => true
         | (_, p) :: ps => keeps E p id && go ps (id + mutants_in p)
         end) ps id
  | CExpr e sub =>
      keeps E sub id &&
      kept (fun r => operand_kept (uses1 r) (cpp c && e_side_effects e))
        (expr_choice c opt E e (id + mutants_in sub))
  | CBin b l _ _ r =>
      let id' := id + mutants_in l + mutants_in r in
      keeps E l id && keeps E r (id + mutants_in l) &&
      kept (fun op =>
              operand_kept (uses1 op) (left_late c b) &&
              operand_kept
                (uses2 op || is_logical (b_op b) && match op with RBin _ => true | _ => false end)
                (right_late c b))
        (binary_choice c opt E b id') &&
      (negb (c_logical c b) || E id' || negb (E (S id')) || negb (E (S (S id'))))
  | CUn u _ sub =>
      keeps E sub id &&
      kept (fun r => operand_kept (uses1 r) (operator_late c u))
        (unary_choice opt E u (id + mutants_in sub))
  | CStmt _ sub => keeps E sub id
  end.
Fixpoint keeps_program (E : nat -> bool) (p : list (string * cst L)) (id : nat) : bool :=
  match p with
  | [] => true
  | (_, t) :: p => keeps E t id && keeps_program E p (id + mutants_in t)
  end.

(* The mutant i is the first one of a && or || in C. *)
Fixpoint c_logical_first (t : cst L) (id i : nat) : bool :=
  match t with
  | CVal _ _ => false
  | CNode _ ps _ =>
      (fix go ps id :=
         match ps with
         | [] => false
         | (_, p) :: ps => c_logical_first p id i || go ps (id + mutants_in p)
         end) ps id
  | CExpr _ sub | CUn _ _ sub | CStmt _ sub => c_logical_first sub id i
  | CBin b l _ _ r =>
      c_logical_first l id i || c_logical_first r (id + mutants_in l) i ||
      c_logical c b && Nat.eqb i (id + mutants_in l + mutants_in r)
  end.
Fixpoint c_logical_first_program (p : list (string * cst L)) (id i : nat) : bool :=
  match p with
  | [] => false
  | (_, t) :: p => c_logical_first t id i || c_logical_first_program p (id + mutants_in t) i
  end.

(* In C, the second and third mutant of a && or || are enabled together only if the first one
   is enabled as well. *)
Fixpoint apart (E : nat -> bool) (t : cst L) (id : nat) : bool :=
  match t with
  | CVal _ _ => true
  | CNode _ ps _ =>
      (fix go ps id :=
         match ps with
         | [] => true
         | (_, p) :: ps => apart E p id && go ps (id + mutants_in p)
         end) ps id
  | CExpr _ sub | CUn _ _ sub | CStmt _ sub => apart E sub id
  | CBin b l _ _ r =>
      let id' := id + mutants_in l + mutants_in r in
      apart E l id && apart E r (id + mutants_in l) &&
      (negb (c_logical c b) || E id' || negb (E (S id')) || negb (E (S (S id'))))
  end.
Fixpoint apart_program (E : nat -> bool) (p : list (string * cst L)) (id : nat) : bool :=
  match p with
  | [] => true
  | (_, t) :: p => apart E t id && apart_program E p (id + mutants_in t)
  end.
End Mutants.

(* A call in the mutated program behaves like a call in the program with the bodies bs: the
   file has the first id f, and the variable has the value v. *)
Definition mutated_behaves (L : lang) (c : ctx) (o : options) (cpp17 : bool) (f : nat)
  (v : option string) (p : list (string * cst L)) (g : string) (args : list (val L + loc L))
  (bs : string -> option (tm L)) : Prop :=
  let n := snd (mutate_program L c o p 0) in
  behaves_like L c cpp17 (selecting f n (cpp c) v) (initial_tls n)
    (body_of L c (fst (mutate_program L c o p 0))) (call L g args) bs (call L g args).
(* ... in a coverage build *)
Definition recorded_behaves (L : lang) (c : ctx) (o : options) (cpp17 : bool) (f : nat)
  (tracking can_open : bool) (p : list (string * cst L)) (g : string)
  (args : list (val L + loc L)) (bs : string -> option (tm L)) : Prop :=
  let n := snd (mutate_program L c o p 0) in
  behaves_like L c cpp17 (recording f (cpp c) tracking can_open) (track_start n)
    (body_of L c (fst (mutate_program L c o p 0))) (call L g args) bs (call L g args).
(* The variable lists the ids zs, none of which is too large or too small. *)
Definition enables (f : nat) (v : option string) (zs : list Z) : Prop :=
  variable_lists v zs /\ Forall (int_safe f) zs.
