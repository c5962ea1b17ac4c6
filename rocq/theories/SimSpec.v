(* What the source-level mutants of a program are, and vocabulary for stating that the mutated
   program behaves like them. *)
From Coq Require Import String List ZArith Bool.
From Verif Require Import Base Clang Gen GenExpr GenBinary GenUnary GenStmt Mutation GenSpec
  Lang Cst.
Import ListNotations.

(* The enabled action with the smallest id; the actions have the ids id, id + 1, ... *)
Fixpoint first_enabled {A} (E : nat -> bool) (id : nat) (acts : list A) : option A :=
  match acts with
  | [] => None
  | a :: acts => if E id then Some a else first_enabled E (S id) acts
  end.

Section Spec.
Variable L : lang.
Variable c : ctx.
Variable opt : bool.              (* optimisations are on *)

(* What is to be executed at a site instead of the original operation. *)
Definition choice {A} (meaning : A -> option rhs) (original : rhs) (a : option A)
  : option rhs :=
  match a with None => Some original | Some a => meaning a end.

Definition expr_choice (E : nat -> bool) (e : expr) (id : nat) : option rhs :=
  choice (expr_meaning c) RArg1 (first_enabled E id (map fst (expr_mutants c opt e))).
Definition binary_choice (E : nat -> bool) (b : binary) (id : nat) : option rhs :=
  choice bin_meaning (RBin (b_op b)) (first_enabled E id (binary_actions c opt b)).
Definition unary_choice (E : nat -> bool) (u : unary) (id : nat) : option rhs :=
  choice un_meaning (original_unary (u_op u))
    (first_enabled E id (map fst (unary_mutants opt u))).

Definition with_choice (f : rhs -> tm L) (r : option rhs) : tm L :=
  match r with Some r => f r | None => N KWrong [] end.

(* && and || in C: replacement by an operand gives the truth value of the operand, as the
   operator does. *)
Definition c_logical_term (b : binary) (r : rhs) (x y : tm L) : tm L :=
  match r with
  | RArg1 => N (KAt (b_ty b)) [N KTruth [N (KAt (e_ty (b_lhs b))) [x]]]
  | RArg2 => N (KAt (b_ty b)) [N KTruth [N (KAt (e_ty (b_rhs b))) [y]]]
  | _ => binary_term L c b r x y
  end.

(* A call of a generated function evaluates all operands that are not delayed, also those
   that the operation does not need.  If the operation evaluates a delayed operand, it does so
   afterwards. *)
Definition expression_with_rest (r : rhs) (delayed1 delayed2 : bool) (x1 x2 : operand L)
  : operand L :=
  let also (delayed : bool) (x rest : operand L) :=
    (fst x, if delayed then N KComma [snd rest; snd x] else N KFirst [snd x; snd rest]) in
  match r with
  | RLit _ => if delayed1 then expression L c r x1 x2
              else (false, N KComma [snd x1; snd (expression L c r x1 x2)])
  | RArg1 => if delayed2 then x1 else also delayed1 x1 x2
  | RArg2 => if delayed1 then x2 else also delayed2 x2 x1
  | _ => expression L c r x1 x2
  end.
Definition site_expression (rest : bool) (r : rhs) (delayed1 delayed2 : bool)
  (x1 x2 : operand L) : operand L :=
  if rest then expression_with_rest r delayed1 delayed2 x1 x2 else expression L c r x1 x2.
(* In C, the second and third mutant of && and || replace the value of the other operand by
   the one for which the operator gives the truth value of this operand. *)
Definition c_logical_with_rest (E : nat -> bool) (b : binary) (id : nat) (x y : tm L)
  : tm L :=
  if E id
  then binary_term L c b (RBin (match b_op b with LAnd => LOr | _ => LAnd end)) x y
  else
    let neutral := LInt (match b_op b with LAnd => 1 | _ => 0 end) in
    let operand (replaced : bool) (t : ty) (x : tm L) :=
      if replaced then N (KAt t) [N KComma [N (KAt t) [x]; RV (literal L neutral)]]
      else N (KAt t) [x] in
    N (KAt (b_ty b))
      [N (KLogic (b_op b)) [operand (E (S (S id))) (e_ty (b_lhs b)) x;
                            operand (E (S id)) (e_ty (b_rhs b)) y]].

(* In C++, operands with side effects and right operands of && and || are delayed (an operand
   of a unary operator, if the whole has side effects); in C, none. *)
Definition left_late (b : binary) : bool := cpp c && e_side_effects (b_lhs b).
Definition right_late (b : binary) : bool :=
  cpp c && (is_logical (b_op b) || e_side_effects (b_rhs b)).
Definition operator_late (u : unary) : bool := cpp c && u_side_effects u.

(* The program in which the mutants E are enabled: at each site the enabled action with the
   smallest id replaces the original operation, and enabled removals replace the statement
   by nothing.

   [rest = false]: the source-level mutants.  [rest = true]: the source-level mutants in which
   operands that are not needed are evaluated all the same, if the call of the generated
   function does so. *)
Fixpoint spec (rest : bool) (E : nat -> bool) (t : cst L) (id : nat) : tm L * nat :=
  match t with
  | CVal _ v => (RV v, id)
  | CNode k ps _ =>
      let fix go ps id :=
        match ps with
        | [] => ([], id)
        | (_, p) :: ps =>
            let (a, id) := spec rest E p id in
            let (args, id) := go ps id in
            (a :: args, id)
        end in
      let (args, id) := go ps id in
      (N k args, id)
  | CExpr e sub =>
      let (x, id) := spec rest E sub id in
      (with_choice (fun r =>
         expr_site L e (fun a => site_expression rest r (cpp c && e_side_effects e) true
                                   a no_operand) x) (expr_choice E e id),
       id + List.length (expr_mutants c opt e))
  | CBin b l _ _ r =>
      let (x, id) := spec rest E l id in
      let (y, id) := spec rest E r id in
      (if rest && c_logical c b then c_logical_with_rest E b id x y
       else with_choice (fun r =>
         if c_logical c b then c_logical_term b r x y
         else binary_site L c b (site_expression rest r (left_late b) (right_late b))
                x y) (binary_choice E b id),
       id + List.length (binary_actions c opt b))
  | CUn u _ sub =>
      let (x, id) := spec rest E sub id in
      (with_choice (fun r =>
         unary_site L c u (fun a => site_expression rest r (operator_late u) true
                                      a no_operand) x) (unary_choice E u id),
       id + List.length (unary_mutants opt u))
  | CStmt _ sub =>
      let (x, id) := spec rest E sub id in
      (if E id then skip else x, S id)
  end.

Fixpoint spec_program (rest : bool) (E : nat -> bool) (p : list (string * cst L)) (id : nat)
  : list (string * tm L) * nat :=
  match p with
  | [] => ([], id)
  | (f, t) :: p =>
      let (x, id) := spec rest E t id in
      let (p, id) := spec_program rest E p id in
      ((f, x) :: p, id)
  end.
Fixpoint lookup_body (p : list (string * tm L)) (f : string) : option (tm L) :=
  match p with
  | [] => None
  | (g, x) :: p => if String.eqb f g then Some x else lookup_body p f
  end.

(** * Well-formed source *)

(* Constructs of source programs. *)
Definition source_kind (k : kind L) : bool :=
  match k with
  | KM _ _ | KLambda _ | KRemovable _ | KRecord _ _ | KInCall _ | KFirst => false
  | _ => true
  end.

(* Facts that Clang and the visitor guarantee (mutate_visitor.cc:493-583 and 367-491):
   l-values are mutated only if they are not const; comma operators are not mutated; the
   operands of == and != have been promoted; exactly the operands of ++ and -- are l-values;
   only a prefix ++ or -- in C++ is an l-value itself; what ++, -- and assignments modify is
   not const; unary plus is not mutated. *)
Definition good_expr (e : expr) : bool := negb (e_lvalue e) || can_mutate_lvalue e.
Definition good_binary (b : binary) : bool :=
  negb (bop_eqb (b_op b) Comma) &&
  negb (is_bool (e_ty (b_lhs b)) && (bop_eqb (b_op b) EQ || bop_eqb (b_op b) NE)).
Definition good_places (u : unary) : bool :=
  Bool.eqb (e_lvalue (u_sub u)) (is_incdec (u_op u)) &&
  Bool.eqb (u_lvalue u) (cpp c && is_incdec (u_op u) && is_prefix (u_op u)) &&
  negb (e_lvalue (u_sub u) && negb (e_volatile (u_sub u)) && e_const (u_sub u)) &&
  negb (u_lvalue u && negb (u_volatile u) && u_const u).
Definition good_unary (u : unary) : bool := negb (uop_eqb (u_op u) Plus) && good_places u.

Fixpoint well_formed (t : cst L) : bool :=
  match t with
  | CVal _ _ => true
  | CNode k ps _ => source_kind k && forallb (fun p => well_formed (snd p)) ps
  | CExpr e sub => good_expr e && well_formed sub
  | CBin b l _ _ r => good_binary b && well_formed l && well_formed r
  | CUn u _ sub => good_unary u && well_formed sub
  | CStmt _ sub => well_formed sub
  end.

(* From C++17 on the right operand of an assignment is evaluated before the left one, and the
   left operand of a shift before the right one.  The generated function for such an operator
   keeps to this if the operand that comes second is delayed. *)
Definition in_sequence (b : binary) : bool :=
  if is_assign (b_op b) then left_late b
  else match b_op b with Shl | Shr => right_late b | _ => true end.
Fixpoint sequenced (t : cst L) : bool :=
  match t with
  | CVal _ _ => true
  | CNode _ ps _ => forallb (fun p => sequenced (snd p)) ps
  | CExpr _ sub | CUn _ _ sub | CStmt _ sub => sequenced sub
  | CBin b l _ _ r => in_sequence b && sequenced l && sequenced r
  end.

(* Every site has a mutant. *)
Fixpoint productive (t : cst L) : bool :=
  match t with
  | CVal _ _ => true
  | CNode _ ps _ => forallb (fun p => productive (snd p)) ps
  | CExpr e sub => negb (Nat.eqb (List.length (expr_mutants c opt e)) 0) && productive sub
  | CBin b l _ _ r =>
      negb (Nat.eqb (List.length (binary_actions c opt b)) 0) && productive l && productive r
  | CUn u _ sub => negb (Nat.eqb (List.length (unary_mutants opt u)) 0) && productive sub
  | CStmt _ sub => productive sub
  end.

(** * Operands that can be evaluated without anybody noticing *)

(* No function calls, loops or statements. *)
Fixpoint simple (t : cst L) : bool :=
  match t with
  | CVal _ _ => true
  | CNode k ps _ =>
      match k with
      | KVar _ | KLoad | KDeref | KAddr | KField _ | KAt _ | KLv | KUn _ | KIncDec _ | KBin _
      | KLogic _ | KTruth | KAssign _ | KCond | KComma => true
      | _ => false
      end && forallb (fun p => simple (snd p)) ps
  | CExpr _ sub => simple sub
  | CBin _ l _ _ r => simple l && simple r
  | CUn _ _ sub => simple sub
  | CStmt _ _ => false
  end.

Variable R : runtime.
Variable bodies : string -> option (tm L).
Variable cpp17 : bool.            (* C++17 or later: the order of some operands is fixed *)

(* Evaluation neither changes memory nor is undefined, whenever it takes place. *)
CoInductive harmless (t : tm L) : Prop :=
| harmless_intro :
    (forall e m d x, step L R c bodies cpp17 e m d t x ->
       exists d' t', x = Some (m, d', t') /\ harmless t') ->
    harmless t.

(* Operands that the operation r evaluates. *)
Definition uses1 (r : rhs) : bool :=
  match r with RArg2 | RLit _ => false | _ => true end.
Definition uses2 (r : rhs) : bool :=
  match r with RArg2 => true | RBin o => negb (is_logical o) | _ => false end.

(* The operands that a mutant drops but that a generated function has evaluated already are
   harmless.  In C++ only operands without side effects are evaluated early; in C all are. *)
Definition dropped_ok (used delayed : bool) (sub : cst L) (t : tm L) : Prop :=
  used = true \/ delayed = true \/ (simple sub = true /\ harmless t).

Definition operand_term (lv : bool) (t : ty) (x : tm L) : tm L :=
  snd (if lv then object x else value_of_type t x).

Definition expr_drops (E : nat -> bool) (e : expr) (id : nat) (sub : cst L) (x : tm L)
  : Prop :=
  forall r, expr_choice E e id = Some r ->
    dropped_ok (uses1 r) (cpp c && e_side_effects e) sub
      (operand_term (e_lvalue e) (e_ty e) x).
Definition unary_drops (E : nat -> bool) (u : unary) (id : nat) (sub : cst L) (x : tm L)
  : Prop :=
  forall r, unary_choice E u id = Some r ->
    dropped_ok (uses1 r) (operator_late u) sub
      (operand_term (e_lvalue (u_sub u)) (e_ty (u_sub u)) x).
(* In C, && and || do not delay anything; the unused operand is evaluated when the
   original operator would evaluate it. *)
Definition binary_drops (E : nat -> bool) (b : binary) (id : nat) (l r : cst L) (x y : tm L)
  : Prop :=
  forall op, binary_choice E b id = Some op ->
    dropped_ok (uses1 op) (left_late b) l
      (operand_term (is_assign (b_op b)) (e_ty (b_lhs b)) x) /\
    dropped_ok (uses2 op || is_logical (b_op b) && match op with RBin _ => true | _ => false end)
      (right_late b) r (operand_term false (e_ty (b_rhs b)) y).

(* In C, the second and third mutant of && and || are not enabled together, unless the first
   one is as well. *)
Definition c_logical_apart (E : nat -> bool) (b : binary) (id : nat) : Prop :=
  c_logical c b = true -> E id = true \/ E (S id) = false \/ E (S (S id)) = false.

(* All these conditions, at each site of a tree. *)
Fixpoint drops (E : nat -> bool) (t : cst L) (id : nat) : Prop :=
  match t with
  | CVal _ _ => True
  | CNode _ ps _ =>
      (fix go ps id :=
         match ps with
         | [] => True
         | (_, p) :: ps => drops E p id /\ go ps (snd (spec false E p id))
         end) ps id
  | CExpr e sub =>
      drops E sub id /\
      (let (x, id) := spec false E sub id in expr_drops E e id sub x)
  | CBin b l _ _ r =>
      drops E l id /\ drops E r (snd (spec false E l id)) /\
      (let (x, id) := spec false E l id in
       let (y, id) := spec false E r id in
       binary_drops E b id l r x y /\ c_logical_apart E b id)
  | CUn u _ sub =>
      drops E sub id /\
      (let (x, id) := spec false E sub id in unary_drops E u id sub x)
  | CStmt _ sub => drops E sub id
  end.
Fixpoint drops_program (E : nat -> bool) (p : list (string * cst L)) (id : nat) : Prop :=
  match p with
  | [] => True
  | (_, t) :: p => drops E t id /\ drops_program E p (snd (spec false E t id))
  end.
End Spec.

(* Ids below [lim_queried] may be queried, those below [lim_recorded] recorded; the files that
   mutants belong to. *)
Record limits := { lim_queried : nat; lim_recorded : nat; lim_file : nat -> nat }.
Definition one_file (queried recorded : nat) : limits :=
  {| lim_queried := queried; lim_recorded := recorded; lim_file := fun _ => 0 |}.

(* The runtime works for the file, or the files, in which ids below [lim_queried bounds] may be
   queried and ids below [lim_recorded bounds] may be recorded, the mutants E being enabled: in
   the states Inv it answers queries according to E and accepts recordings of mutants of one
   file, and the flag of a file is off only if no mutant of the file is enabled.  One of the
   bounds is 0, as builds either query or record. *)
Record working (R : runtime) (E : nat -> bool) (bounds : limits) (Inv : rt_state R -> Prop)
  : Prop := {
  working_flag : forall d i, Inv d -> rt_flag R i d = false ->
                 forall id, id < lim_queried bounds -> lim_file bounds id = lim_file bounds i ->
                 E id = false;
  working_query : forall d id, Inv d -> id < lim_queried bounds ->
                  exists d', rt_query R id d = Some (d', E id) /\ Inv d';
  working_record : forall d id n, Inv d -> 0 < n -> id + n <= lim_recorded bounds ->
                   lim_file bounds (id + (n - 1)) = lim_file bounds id ->
                   exists d', rt_record R id n d = Some d' /\ Inv d'
}.

(** * Behaviour of programs *)

(* The mutants of a file that a list of global ids enables; the first id of the file is f. *)
Definition listed (f : nat) (zs : list Z) (i : nat) : bool :=
  existsb (Z.eqb (Z.of_nat (f + i))) zs.

(* The runtime of programs without generated code. *)
Definition no_runtime : runtime :=
  {| rt_state := unit; rt_flag := fun _ _ => true; rt_query := fun _ _ => None;
     rt_record := fun _ _ _ => None |}.

Section Behaviour.
Variable L : lang.
Variable c : ctx.
Variable cpp17 : bool.

(* Everything that the term t can do in a program with bodies bt and the runtime R, s can do
   in a program with bodies bs and without runtime.  Memory includes input and output. *)
Record behaves_like (R : runtime) (d : rt_state R) (bt : string -> option (tm L)) (t : tm L)
  (bs : string -> option (tm L)) (s : tm L) : Prop := {
  same_results : forall e m m' r, finishes L R c bt cpp17 e m d t m' r ->
                 finishes L no_runtime c bs cpp17 e m tt s m' r;
  same_undefined : forall e m, undefined L R c bt cpp17 e m d t ->
                   undefined L no_runtime c bs cpp17 e m tt s;
  same_memories : forall e m m', reaches L R c bt cpp17 e m d t m' ->
                  reaches L no_runtime c bs cpp17 e m tt s m';
  same_divergence : forall e m, diverges L R c bt cpp17 e m d t ->
                    diverges L no_runtime c bs cpp17 e m tt s
}.

(* A call with evaluated arguments. *)
Definition call (g : string) (args : list (val L + loc L)) : tm L :=
  N (KCall g) (map (fun a => match a with inl v => RV v | inr l => RL l end) args).

(* No mutant of an expression, or of an operator, is enabled. *)
Variable opt : bool.
Definition off (E : nat -> bool) (id n : nat) : Prop := forall i, id <= i < id + n -> E i = false.
Fixpoint removals_only (E : nat -> bool) (t : cst L) (id : nat) : Prop :=
  match t with
  | CVal _ _ => True
  | CNode _ ps _ =>
      (fix go ps id :=
         match ps with
         | [] => True
         | (_, p) :: ps => removals_only E p id /\ go ps (snd (spec L c opt false E p id))
         end) ps id
  | CExpr e sub =>
      removals_only E sub id /\
      off E (snd (spec L c opt false E sub id)) (List.length (expr_mutants c opt e))
  | CBin b l _ _ r =>
      removals_only E l id /\ removals_only E r (snd (spec L c opt false E l id)) /\
      off E (snd (spec L c opt false E r (snd (spec L c opt false E l id))))
        (List.length (binary_actions c opt b))
  | CUn u _ sub =>
      removals_only E sub id /\
      off E (snd (spec L c opt false E sub id)) (List.length (unary_mutants opt u))
  | CStmt _ sub => removals_only E sub id
  end.
Fixpoint removals_only_program (E : nat -> bool) (p : list (string * cst L)) (id : nat)
  : Prop :=
  match p with
  | [] => True
  | (_, t) :: p => removals_only E t id /\ removals_only_program E p (snd (spec L c opt false E t id))
  end.
End Behaviour.

(* Every execution goes on until the term is final. *)
Definition never_stuck (L : lang) (c : ctx) (cpp17 : bool) (R : runtime) (bodies : string -> option (tm L))
  (d : rt_state R) (t : tm L) : Prop :=
  forall e m m' d' t', steps L R c bodies cpp17 e (m, d, t) (m', d', t') ->
    final t' = true \/ exists x, step L R c bodies cpp17 e m' d' t' x.
