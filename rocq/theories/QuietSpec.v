(* Expression statements without side effects, and mutants that are in them. *)
From Coq Require Import String List ZArith Bool.
From Verif Require Import Base Clang Gen GenExpr GenBinary GenUnary GenStmt Mutation GenSpec
  Prelude Lang Cst Runtime SimSpec MutantSpec.
Import ListNotations.

Section Quiet.
Variable L : lang.
Variable c : ctx.
Variable opt : bool.

(* Expressions that, according to Clang (Expr::HasSideEffects), have no side effects:
   everything but calls, assignments and increments.  Reading a volatile object is a side
   effect; programs with such objects are left out by reads_are_quiet. *)
Definition quiet_kind (k : kind L) : bool :=
  match k with
  | KVar _ | KLoad | KDeref | KAddr | KField _ | KAt _ | KLv | KUn _ | KBin _ | KLogic _
  | KTruth | KCond | KComma => true
  | _ => false
  end.
Fixpoint no_effects (t : cst L) : bool :=
  match t with
  | CVal _ _ => true
  | CNode k ps _ => quiet_kind k && forallb (fun p => no_effects (snd p)) ps
  | CExpr _ sub => no_effects sub
  | CBin b l _ _ r => negb (is_assign (b_op b)) && no_effects l && no_effects r
  | CUn u _ sub => negb (is_incdec (u_op u)) && no_effects sub
  | CStmt _ _ => false
  end.
Definition reads_are_quiet : Prop :=
  forall l m v m', load L l m = Some (v, m') -> m' = m.

(* The operands of a construct that are statements *)
Definition component (k : kind L) (i : nat) : bool :=
  match k with
  | KSeq => true
  | KIf | KSwitch _ => Nat.leb 1 i
  | KWhile => Nat.eqb i 1
  | KDo => Nat.eqb i 0
  | KFor => Nat.eqb i 2
  | _ => false
  end.

(* Source as it is written, before execution has begun *)
Fixpoint as_written (t : cst L) : bool :=
  match t with
  | CVal _ _ => true
  | CNode k ps _ =>
      match k with KLoop | KSwitched => false | _ => forallb (fun p => as_written (snd p)) ps end
  | CExpr _ sub | CUn _ _ sub | CStmt _ sub => as_written sub
  | CBin _ l _ _ r => as_written l && as_written r
  end.
Definition as_written_program (p : list (string * cst L)) : bool :=
  forallb (fun x => as_written (snd x)) p.

(* None of the ids in use from id on, n of them, is enabled. *)
Definition none_of (E : nat -> bool) (id n : nat) : Prop :=
  forall i, id <= i < id + n -> E i = false.
(* The mutant that is enabled at each site of a tree inserts neither ++ nor --. *)
Definition increments (a : expr_action) : bool :=
  match a with InsertPreInc | InsertPreDec => true | _ => false end.
Definition inserts_increment (E : nat -> bool) (e : expr) (id : nat) : Prop :=
  exists a, first_enabled E id (map fst (expr_mutants c opt e)) = Some a /\ increments a = true.
Definition next (E : nat -> bool) (t : cst L) (id : nat) : nat := snd (spec L c opt false E t id).
Fixpoint no_increment (E : nat -> bool) (t : cst L) (id : nat) : Prop :=
  match t with
  | CVal _ _ => True
  | CNode _ ps _ =>
      (fix go ps id :=
         match ps with
         | [] => True
         | (_, p) :: ps => no_increment E p id /\ go ps (next E p id)
         end) ps id
  | CExpr e sub => no_increment E sub id /\ ~ inserts_increment E e (next E sub id)
  | CBin _ l _ _ r => no_increment E l id /\ no_increment E r (next E l id)
  | CUn _ _ sub | CStmt _ sub => no_increment E sub id
  end.

(* All enabled mutants are in, or remove, expression statements without side effects, and none
   inserts ++ or --.  here: the tree is a component of a block, or the like. *)
Definition quiet_statement (t : cst L) : bool :=
  match t with
  | CStmt _ (CNode KExpr [(_, e)] _) => no_effects e
  | _ => false
  end.
Fixpoint quiet_only (here : bool) (E : nat -> bool) (t : cst L) (id : nat) : Prop :=
  here = true /\ quiet_statement t = true /\ no_increment E t id \/
  match t with
  | CVal _ _ => True
  | CNode k ps _ =>
      (fix go i ps id :=
         match ps with
         | [] => True
         | (_, p) :: ps =>
             quiet_only (here && component k i) E p id /\ go (S i) ps (next E p id)
         end) 0 ps id
  | CExpr e sub =>
      quiet_only false E sub id /\
      none_of E (next E sub id) (List.length (expr_mutants c opt e))
  | CBin b l _ _ r =>
      quiet_only false E l id /\ quiet_only false E r (next E l id) /\
      none_of E (next E r (next E l id)) (List.length (binary_actions c opt b))
  | CUn u _ sub =>
      quiet_only false E sub id /\
      none_of E (next E sub id) (List.length (unary_mutants opt u))
  | CStmt _ sub => quiet_only here E sub id /\ E (next E sub id) = false
  end.
Fixpoint quiet_only_program (E : nat -> bool) (p : list (string * cst L)) (id : nat) : Prop :=
  match p with
  | [] => True
  | (_, t) :: p => quiet_only true E t id /\ quiet_only_program E p (next E t id)
  end.
End Quiet.

(* What the mutated program does, the original program does too, unless its
   behaviour is undefined anyway: final results, states of memory that are reached (with the
   output so far), running for ever.  The file has the first id f, and the variable has the
   value v. *)
Record unnoticed (L : lang) (c : ctx) (o : options) (cpp17 : bool) (f : nat) (v : option string)
  (p : list (string * cst L)) (g : string) (args : list (val L + loc L)) : Prop := {
  unnoticed_results : forall e m m' r,
    finishes L (selecting f (snd (mutate_program L c o p 0)) (cpp c) v) c
      (body_of L c (fst (mutate_program L c o p 0))) cpp17 e m
      (initial_tls (snd (mutate_program L c o p 0))) (call L g args) m' r ->
    undefined L no_runtime c (body_of L c p) cpp17 e m tt (call L g args) \/
    finishes L no_runtime c (body_of L c p) cpp17 e m tt (call L g args) m' r;
  unnoticed_memories : forall e m m',
    reaches L (selecting f (snd (mutate_program L c o p 0)) (cpp c) v) c
      (body_of L c (fst (mutate_program L c o p 0))) cpp17 e m
      (initial_tls (snd (mutate_program L c o p 0))) (call L g args) m' ->
    undefined L no_runtime c (body_of L c p) cpp17 e m tt (call L g args) \/
    reaches L no_runtime c (body_of L c p) cpp17 e m tt (call L g args) m';
  unnoticed_divergence : forall e m,
    diverges L (selecting f (snd (mutate_program L c o p 0)) (cpp c) v) c
      (body_of L c (fst (mutate_program L c o p 0))) cpp17 e m
      (initial_tls (snd (mutate_program L c o p 0))) (call L g args) ->
    ~ undefined L no_runtime c (body_of L c p) cpp17 e m tt (call L g args) ->
    diverges L no_runtime c (body_of L c p) cpp17 e m tt (call L g args)
}.
