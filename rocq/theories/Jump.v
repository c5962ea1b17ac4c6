(* Statement removal in a language with labels, goto, switch, break, continue and return.  What
   expressions do is left open (their mutation is the matter of Lang.v); only the flow of control
   between statements is modelled. *)
From Coq Require Import ZArith List Bool.
Import ListNotations.

(* What is known of the expressions of a function: the events (calls, output, accesses to volatile
   objects) and new memory that come with a value.  No result: undefined behaviour. *)
Record machine := {
  memory : Type;
  event : Type;
  expression : Type;
  evaluates : expression -> memory -> list event -> Z -> memory -> Prop
}.

Section Machine.
Context {M : machine}.

(* Statements of C.  A compound statement is built with Then (a component and the rest) and
   Skip (no more components, and the null statement).  A for statement has a condition and what
   follows each turn; while is a for statement without the latter. *)
Inductive stmt :=
| Skip
| Do (e : expression M)
| Declare (e : expression M)
| Then (s rest : stmt)
| If (e : expression M) (s1 s2 : stmt)
| For (e : option (expression M)) (step : option (expression M)) (s : stmt)
| DoWhile (s : stmt) (e : expression M)
| Switch (e : expression M) (s : stmt)
| Case (v : option Z) (s : stmt)            (* None: default *)
| Label (l : nat) (s : stmt)
| Goto (l : nat)
| Break
| Continue
| Return (e : option (expression M))
(* if (!__dredd_enabled_mutation(id)) { s }, mutation_remove_stmt.cc:124-130 *)
| Unless (id : nat) (s : stmt).

(* mutate_visitor.cc:696-706: what is not removed *)
Definition removable (s : stmt) : bool :=
  match s with
  | Skip | Declare _ | Label _ _ | Case _ _ => false
  | _ => true
  end.

(* The statements that are mutated: MutateVisitor::TraverseCompoundStmt,
   mutate_visitor.cc:662-721.  Components of a compound statement may be wrapped, after the case
   labels before them.  Which of the removable ones are wrapped depends on options and source
   ranges and is left open here, and so are the ids. *)
Inductive mutated : stmt -> stmt -> Prop :=
| m_skip : mutated Skip Skip
| m_do e : mutated (Do e) (Do e)
| m_declare e : mutated (Declare e) (Declare e)
| m_then s s' r r' : component s s' -> mutated r r' -> mutated (Then s r) (Then s' r')
| m_if e s1 s1' s2 s2' : mutated s1 s1' -> mutated s2 s2' -> mutated (If e s1 s2) (If e s1' s2')
| m_for e i s s' : mutated s s' -> mutated (For e i s) (For e i s')
| m_do_while s s' e : mutated s s' -> mutated (DoWhile s e) (DoWhile s' e)
| m_switch e s s' : mutated s s' -> mutated (Switch e s) (Switch e s')
| m_case v s s' : mutated s s' -> mutated (Case v s) (Case v s')
| m_label l s s' : mutated s s' -> mutated (Label l s) (Label l s')
| m_goto l : mutated (Goto l) (Goto l)
| m_break : mutated Break Break
| m_continue : mutated Continue Continue
| m_return e : mutated (Return e) (Return e)
with component : stmt -> stmt -> Prop :=
| c_case v s s' : component s s' -> component (Case v s) (Case v s')
| c_keep s s' : mutated s s' -> component s s'
| c_wrap id s s' : removable s = true -> mutated s s' -> component s (Unless id s').

(** * Execution *)

(* What remains to be done after a statement *)
Inductive cont :=
| KStop
| KThen (s : stmt) (k : cont)
| KFor (e i : option (expression M)) (s : stmt) (k : cont)
| KDoWhile (s : stmt) (e : expression M) (k : cont)
| KSwitch (k : cont).

Definition or_else {A} (a b : option A) : option A := match a with Some x => Some x | None => b end.

(* The statement at a label and what remains to be done after it *)
Fixpoint find_label (l : nat) (s : stmt) (k : cont) : option (stmt * cont) :=
  match s with
  | Then a b => or_else (find_label l a (KThen b k)) (find_label l b k)
  | If _ a b => or_else (find_label l a k) (find_label l b k)
  | For e i a => find_label l a (KFor e i a k)
  | DoWhile a e => find_label l a (KDoWhile a e k)
  | Switch _ a => find_label l a (KSwitch k)
  | Case _ a => find_label l a k
  | Label l' a => if Nat.eqb l l' then Some (a, k) else find_label l a k
  | Unless _ a => find_label l a k
  | _ => None
  end.

(* The statement at a case label (None: at default), not in inner switch statements *)
Definition same_case (v w : option Z) : bool :=
  match v, w with
  | Some a, Some b => Z.eqb a b
  | None, None => true
  | _, _ => false
  end.
Fixpoint find_case (v : option Z) (s : stmt) (k : cont) : option (stmt * cont) :=
  match s with
  | Then a b => or_else (find_case v a (KThen b k)) (find_case v b k)
  | If _ a b => or_else (find_case v a k) (find_case v b k)
  | For e i a => find_case v a (KFor e i a k)
  | DoWhile a e => find_case v a (KDoWhile a e k)
  | Case w a => if same_case v w then Some (a, k) else find_case v a k
  | Label _ a => find_case v a k
  | Unless _ a => find_case v a k
  | _ => None
  end.

(* Where a switch statement goes *)
Definition switch_target (v : Z) (s : stmt) (k : cont) : stmt * cont :=
  match or_else (find_case (Some v) s (KSwitch k)) (find_case None s (KSwitch k)) with
  | Some t => t
  | None => (Skip, k)
  end.

(* Where break and continue go *)
Fixpoint after_break (k : cont) : option cont :=
  match k with
  | KStop => None
  | KThen _ k => after_break k
  | KFor _ _ _ k | KDoWhile _ _ k | KSwitch k => Some k
  end.
Fixpoint after_continue (k : cont) : option cont :=
  match k with
  | KStop => None
  | KThen _ k | KSwitch k => after_continue k
  | KFor _ _ _ _ | KDoWhile _ _ _ => Some k
  end.

Inductive state :=
| Running (s : stmt) (k : cont) (m : memory M)
| Returned (v : option Z) (m : memory M).

Definition branch (v : Z) (s1 s2 : stmt) : stmt := if Z.eqb v 0 then s2 else s1.

(* One step in the function with this body, with these mutants enabled *)
Inductive step (body : stmt) (on : nat -> bool) : state -> list (event M) -> state -> Prop :=
| s_end m : step body on (Running Skip KStop m) [] (Returned None m)
| s_next s k m : step body on (Running Skip (KThen s k) m) [] (Running s k m)
| s_do e k m t v m' : evaluates M e m t v m' ->
    step body on (Running (Do e) k m) t (Running Skip k m')
| s_declare e k m t v m' : evaluates M e m t v m' ->
    step body on (Running (Declare e) k m) t (Running Skip k m')
| s_then s r k m : step body on (Running (Then s r) k m) [] (Running s (KThen r k) m)
| s_if e s1 s2 k m t v m' : evaluates M e m t v m' ->
    step body on (Running (If e s1 s2) k m) t (Running (branch v s1 s2) k m')
| s_for_always i s k m :
    step body on (Running (For None i s) k m) [] (Running s (KFor None i s k) m)
| s_for e i s k m t v m' : evaluates M e m t v m' ->
    step body on (Running (For (Some e) i s) k m) t
      (if Z.eqb v 0 then Running Skip k m' else Running s (KFor (Some e) i s k) m')
| s_for_again e s k m :
    step body on (Running Skip (KFor e None s k) m) [] (Running (For e None s) k m)
| s_for_step e i s k m t v m' : evaluates M i m t v m' ->
    step body on (Running Skip (KFor e (Some i) s k) m) t (Running (For e (Some i) s) k m')
| s_do_while s e k m :
    step body on (Running (DoWhile s e) k m) [] (Running s (KDoWhile s e k) m)
| s_do_while_again s e k m t v m' : evaluates M e m t v m' ->
    step body on (Running Skip (KDoWhile s e k) m) t
      (if Z.eqb v 0 then Running Skip k m' else Running (DoWhile s e) k m')
| s_switch e s k m t v m' : evaluates M e m t v m' ->
    step body on (Running (Switch e s) k m) t
      (Running (fst (switch_target v s k)) (snd (switch_target v s k)) m')
| s_switch_end k m : step body on (Running Skip (KSwitch k) m) [] (Running Skip k m)
| s_case v s k m : step body on (Running (Case v s) k m) [] (Running s k m)
| s_label l s k m : step body on (Running (Label l s) k m) [] (Running s k m)
| s_goto l k m s' k' : find_label l body KStop = Some (s', k') ->
    step body on (Running (Goto l) k m) [] (Running s' k' m)
| s_break k m k' : after_break k = Some k' ->
    step body on (Running Break k m) [] (Running Skip k' m)
| s_continue k m k' : after_continue k = Some k' ->
    step body on (Running Continue k m) [] (Running Skip k' m)
| s_return k m : step body on (Running (Return None) k m) [] (Returned None m)
| s_return_value e k m t v m' : evaluates M e m t v m' ->
    step body on (Running (Return (Some e)) k m) t (Returned (Some v) m')
| s_unless id s k m :
    step body on (Running (Unless id s) k m) [] (Running (if on id then Skip else s) k m).

Inductive steps (body : stmt) (on : nat -> bool) : state -> list (event M) -> state -> Prop :=
| steps_refl st : steps body on st [] st
| steps_step st t st' t' st'' : step body on st t st' -> steps body on st' t' st'' ->
    steps body on st (t ++ t') st''.

(* Running for ever without further events *)
CoInductive silent (body : stmt) (on : nat -> bool) : state -> Prop :=
| silent_step st st' : step body on st [] st' -> silent body on st' -> silent body on st.

(* What can be observed of a call *)
Inductive outcome :=
| Performs (t : list (event M))                       (* these events, and maybe more *)
| Returns (t : list (event M)) (v : option Z) (m : memory M)
| Hangs (t : list (event M))
| Fails (t : list (event M)).                         (* undefined behaviour *)

Definition observed (body : stmt) (on : nat -> bool) (m : memory M) (o : outcome) : Prop :=
  let start := Running body KStop m in
  match o with
  | Performs t => exists st, steps body on start t st
  | Returns t v m' => steps body on start t (Returned v m')
  | Hangs t => exists st, steps body on start t st /\ silent body on st
  | Fails t => exists s k m', steps body on start t (Running s k m') /\
                 forall t' st, ~ step body on (Running s k m') t' st
  end.

End Machine.
Arguments stmt : clear implicits.
Arguments cont : clear implicits.
Arguments state : clear implicits.
Arguments outcome : clear implicits.
