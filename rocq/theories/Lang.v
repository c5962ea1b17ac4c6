(* A core of C and C++: terms, their evaluation in steps, and the meaning of calls of
   generated functions.  The operations on values and memory are parameters.  Nothing here
   is dredd code; the language is used to say what programs do before and after mutation.

   Coverage: r-values and l-values, conversions, unary and binary operators, short-circuit
   operators, assignments, increments, conditional and comma operators, calls of functions with
   bodies and of library functions, conditionals, loops, switch with labels at the top level
   of its body, break, continue, return.  Not covered: goto, exceptions, threads,
   destructors, variables with block lifetime (a function's variables live as long as the
   call). *)
From Coq Require Import String List ZArith Bool.
From Verif Require Import Base Clang Gen.
Import ListNotations.

(* Values, memory, and operations on them.  None is undefined behaviour. *)
Record lang := {
  val : Type;
  loc : Type;                                     (* objects *)
  mem : Type;                                     (* contents of memory, and input and output *)
  env : Type;                                     (* where the variables of a call live *)
  lookup : env -> string -> option loc;
  load : loc -> mem -> option (val * mem);        (* reading a volatile object is an effect *)
  store : loc -> val -> mem -> option (val * mem);(* the value as converted and stored *)
  field : string -> loc -> loc;                   (* member of an object *)
  pointer : loc -> val;
  pointee : val -> option loc;
  pointee_pointer : forall l, pointee (pointer l) = Some l;
  conv : ty -> val -> val;                        (* conversion to a builtin type *)
  conv_idempotent : forall t v, conv t (conv t v) = conv t v;
  unop : uop -> val -> option val;
  incdec : uop -> val -> option val;              (* the value after ++ or -- *)
  binop : bop -> val -> val -> option val;
  truth : val -> bool;
  boolean : bool -> val;                          (* result of !, &&, || *)
  literal : lit -> val;
  lnot_truth : forall v, unop LNot v = Some (boolean (negb (truth v)));
  truth_boolean : forall b, truth (boolean b) = b;
  truth_converted : forall t b, truth (conv t (boolean b)) = b;
  truth_literal : forall t b, truth (conv t (literal (LInt (if b : bool then 1 else 0)))) = b;
  label_matches : Z -> val -> bool;               (* case labels *)
  void : val;
  enter : string -> list (val + loc) -> mem -> option (env * mem); (* start of a call *)
  leave : env -> mem -> mem;                      (* end of a call *)
  library : string -> list (val + loc) -> mem -> option (val * mem)
}.

(* What a program needs to know of the dredd runtime of a file, or of its files: the flag for
   some mutation being enabled (that of the file which has the mutant), the query for a mutant,
   the recording of mutants.  None is undefined behaviour. *)
Record runtime := {
  rt_state : Type;
  rt_flag : nat -> rt_state -> bool;
  rt_query : nat -> rt_state -> option (rt_state * bool);
  rt_record : nat -> nat -> rt_state -> option rt_state
}.

Section Lang.
Variable L : lang.
Variable R : runtime.

(* The constructs of the language. *)
Inductive kind :=
(* expressions *)
| KVar (x : string) | KLoad | KDeref | KAddr | KField (n : string)
| KAt (t : ty)                    (* r-value of this type: conversion *)
| KLv                             (* l-value: nothing to do in a well-typed program *)
| KUn (o : uop) | KIncDec (o : uop)
| KBin (o : bop) | KLogic (o : bop) | KTruth
| KAssign (o : bop) | KCond | KComma
| KFirst                          (* not in programs: evaluates its operands in any order;
                                     the result is the first one *)
| KCall (f : string)
| KInCall (e : env L)             (* a call being executed *)
(* statements *)
| KSkip | KExpr | KSeq | KIf
| KWhile | KDo | KFor
| KLoop                           (* loop body being executed, and what comes next *)
| KSwitch (labels : list (list (option Z)))  (* None: default *)
| KSwitched                       (* switch body being executed *)
| KBreak | KContinue | KReturn
(* generated code *)
| KM (f : mfun) (id : nat)        (* call of a mutator function *)
| KLambda (t : string)            (* [&]() -> t { return ...; } *)
| KRemovable (id : nat)           (* if (!__dredd_enabled_mutation(id)) { ... } *)
| KRecord (id n : nat)            (* __dredd_record_covered_mutants(id, n); ... *)
| KWrong.                         (* not a program *)

Inductive tm :=
| RV (v : val L)
| RL (l : loc L)
| N (k : kind) (args : list tm).

(* Evaluated expressions. *)
Definition is_result (t : tm) : bool := match t with RV _ | RL _ => true | _ => false end.

(* Terms that are not evaluated any further by themselves. *)
Definition final (t : tm) : bool :=
  match t with
  | RV _ | RL _ => true
  | N KSkip [] | N KBreak [] | N KContinue [] => true
  | N KReturn [] => true
  | N KReturn [r] => is_result r
  | N (KLambda _) _ => true
  | _ => false
  end.

(* The operands that are evaluated before the construct itself. *)
Definition evaluated (k : kind) (i : nat) : bool :=
  match k with
  | KLoad | KDeref | KAddr | KField _ | KAt _ | KLv | KUn _ | KIncDec _ | KTruth
  | KInCall _ | KExpr | KSwitched | KReturn => true
  | KBin _ | KAssign _ | KCall _ | KM _ _ | KFirst => true
  | KLogic _ | KCond | KComma | KSeq | KIf | KLoop | KSwitch _ => Nat.eqb i 0
  | _ => false
  end.

(* A call is being executed inside. *)
Fixpoint active (t : tm) : bool :=
  match t with
  | N (KInCall _) _ => true
  | N _ args => existsb active args
  | _ => false
  end.

Definition child_env (k : kind) (e : env L) : env L :=
  match k with KInCall e' => e' | _ => e end.

(** * Generated functions *)

(* Kinds of parameter and result types. *)
Inductive passing := ByValue | ByReference | ByPointer.
Inductive mode := Direct (p : passing) (t : ty) | Delayed (p : passing) (t : ty).

Definition all_types : list ty :=
  [TBool; TChar; TSChar; TUChar; TWChar; TChar8; TChar16; TChar32; TShort; TUShort; TInt; TUInt;
   TLong; TULong; TLongLong; TULongLong; TInt128; TUInt128; THalf; TFloat16; TBFloat16; TFloat;
   TDouble; TLongDouble; TFloat128; TIbm128].

(* The ways of writing a parameter type, with its meaning. *)
Definition spellings (c : ctx) (t : ty) : list (string * passing) :=
  [(ty_name c t, ByValue);
   ((ty_name c t ++ "&")%string, ByReference);
   (("volatile " ++ ty_name c t ++ "&")%string, ByReference);
   ((ty_name c t ++ "*")%string, ByPointer);
   (("volatile " ++ ty_name c t ++ "*")%string, ByPointer)].
Definition declared (c : ctx) (s : string) : option mode :=
  option_map snd
    (find (fun x => String.eqb (fst x) s)
       (flat_map (fun t => flat_map (fun x =>
          [(fst x, Direct (snd x) t);
           (("std::function<" ++ fst x ++ "()>")%string, Delayed (snd x) t)])
          (spellings c t)) all_types)).

Variable c : ctx.

(* An expression inside a generated function or a source-level mutant: its value category
   and term. *)
Definition operand : Type := bool * tm.
Definition rvalue (x : operand) : tm := if fst x then N KLoad [snd x] else snd x.
Definition lvalue (x : operand) : tm := if fst x then snd x else N KWrong [].

Definition as_prefix (o : uop) : uop :=
  match o with PostInc => PreInc | PostDec => PreDec | _ => o end.
Definition as_postfix (o : uop) : uop :=
  match o with PreInc => PostInc | PreDec => PostDec | _ => o end.

(* The expression that a rhs writes, with the given operands. *)
Definition unary_expression (o : uop) (x : operand) : operand :=
  if is_incdec o then (cpp c, N (KIncDec o) [lvalue x]) else (false, N (KUn o) [rvalue x]).
Definition expression (r : rhs) (x1 x2 : operand) : operand :=
  match r with
  | RArg1 => x1
  | RArg2 => x2
  | RPre o | RPreParen o => unary_expression (as_prefix o) x1
  | RPost o => if is_incdec o then (false, N (KIncDec (as_postfix o)) [lvalue x1])
               else (false, N KWrong [])
  | RBin o =>
      if is_logical o then (false, N (KLogic o) [rvalue x1; rvalue x2])
      else if is_assign o then (cpp c, N (KAssign o) [lvalue x1; rvalue x2])
      else if bop_eqb o Comma then (false, N KWrong [])
      else (false, N (KBin o) [rvalue x1; rvalue x2])
  | RLit l => (false, RV (literal L l))
  end.

(* An argument as the call site writes it, given the parameter: the implicit conversion
   that initialises the parameter is made explicit. *)
Definition pass (param : string) (a : tm) : tm :=
  match declared c param with
  | Some (Direct ByValue t) => N (KAt t) [a]
  | Some (Direct ByPointer _) => a
  | Some (Direct ByReference _) => N KLv [a]
  | Some (Delayed p t) =>
      match a with
      | N (KLambda s) [b] =>
          if String.eqb param (wrap_function true s)
          then N (KLambda s) [match p with ByValue => N (KAt t) [b] | _ => N KLv [b] end]
          else N KWrong []
      | _ => N KWrong []
      end
  | None => N KWrong []
  end.
Fixpoint pass_all (params : list (string * string)) (args : list tm) : list tm :=
  match params, args with
  | (t, _) :: params, a :: args => pass t a :: pass_all params args
  | [], [] => []
  | _, _ => [N KWrong []]
  end.

(* A parameter as the body of the function accesses it. *)
Definition accessed (param : string) (a : access) (arg : tm) : operand :=
  match declared c param, a, arg with
  | Some (Direct ByValue _), AVal, RV _ => (false, arg)
  | Some (Direct ByReference _), AVal, RL _ => (true, arg)
  | Some (Direct ByPointer _), APtr, RV _ => (true, N KDeref [arg])
  | Some (Delayed ByReference _), ALam, N (KLambda _) [b] => (true, b)
  | Some (Delayed ByValue _), ALam, N (KLambda _) [b] => (false, b)
  | _, _, _ => (false, N KWrong [])
  end.

Definition parameter (f : mfun) (i : nat) : string :=
  match nth_error (mf_params f) i with Some p => fst p | None => "" end.
Definition argument (args : list tm) (i : nat) : tm := nth i args (N KWrong []).

(* return x; *)
Definition returned (result : string) (x : operand) : tm :=
  match declared c result with
  | Some (Direct ByValue t) => N (KAt t) [rvalue x]
  | Some (Direct ByReference _) => lvalue x
  | _ => N KWrong []
  end.

(* The tests of a function, in order. *)
Fixpoint first_test (lines : list (nat * rhs)) (id : nat) (d : rt_state R)
  : option (rt_state R * option rhs) :=
  match lines with
  | [] => Some (d, None)
  | (k, r) :: lines =>
      match rt_query R (id + k) d with
      | Some (d, true) => Some (d, Some r)
      | Some (d, false) => first_test lines id d
      | None => None
      end
  end.
Definition tested (f : mfun) (id : nat) (d : rt_state R)
  : option (rt_state R * option rhs) :=
  if mf_fast f && negb (rt_flag R id d) then Some (d, None) else first_test (mf_lines f) id d.
Definition recorded_call (f : mfun) (id : nat) (d : rt_state R) : option (rt_state R) :=
  match mf_track f with Some n => rt_record R id n d | None => Some d end.

(* The body of a generated function, in which the parameters have been replaced by the
   arguments. *)
Definition mutator_body (f : mfun) (args : list tm) (r : rhs) : tm :=
  returned (mf_result f)
    (expression r
       (accessed (parameter f 0) (fst (mf_access f)) (argument args 0))
       (accessed (parameter f 1) (snd (mf_access f)) (argument args 1))).

Definition call_mutator (f : mfun) (id : nat) (args : list tm) (d : rt_state R)
  : option (rt_state R * tm) :=
  match tested f id d with
  | None => None
  | Some (d, Some r) => Some (d, mutator_body f args r)
  | Some (d, None) =>
      match recorded_call f id d with
      | None => None
      | Some d => Some (d, mutator_body f args (mf_orig f))
      end
  end.

(** * Evaluation *)

(* Bodies of the functions of the program. *)
Variable bodies : string -> option tm.

(* None: undefined behaviour *)
Definition outcome : Type := option (mem L * rt_state R * tm).

Definition results (args : list tm) : list (val L + loc L) :=
  flat_map (fun t => match t with RV v => [inl v] | RL l => [inr l] | _ => [] end) args.

(* The operation of a compound assignment. *)
Definition assign_op (o : bop) : option bop :=
  match o with
  | MulAssign => Some Mul | DivAssign => Some Div | RemAssign => Some Rem
  | AddAssign => Some Add | SubAssign => Some Sub | ShlAssign => Some Shl
  | ShrAssign => Some Shr | AndAssign => Some And | XorAssign => Some Xor
  | OrAssign => Some Or | _ => None
  end.

(* The value to be stored by an assignment. *)
Definition assigned (o : bop) (l : loc L) (v : val L) (m : mem L) : option (val L * mem L) :=
  match o with
  | Assign => Some (v, m)
  | _ => match assign_op o with
         | None => None
         | Some o' => match load L l m with
                      | None => None
                      | Some (w, m) => match binop L o' w v with
                                       | None => None
                                       | Some r => Some (r, m)
                                       end
                      end
         end
  end.

Definition skip : tm := N KSkip [].

Fixpoint sequence (l : list tm) : tm :=
  match l with [] => skip | s :: l => N KSeq [s; sequence l] end.

(* The statements that a switch executes. *)
Definition has_label (p : option Z -> bool) (ls : list (option Z)) : bool := existsb p ls.
Fixpoint from_label (p : option Z -> bool) (labels : list (list (option Z))) (ss : list tm)
  : option (list tm) :=
  match labels, ss with
  | ls :: labels, s :: ss' => if has_label p ls then Some ss else from_label p labels ss'
  | _, _ => None
  end.
Definition switch_body (labels : list (list (option Z))) (v : val L) (ss : list tm)
  : list tm :=
  match from_label (fun x => match x with Some z => label_matches L z v | None => false end)
          labels ss with
  | Some l => l
  | None => match from_label (fun x => match x with None => true | _ => false end)
                    labels ss with
            | Some l => l
            | None => []
            end
  end.

(* What a construct does once its operands have been evaluated. *)
Definition head (e : env L) (m : mem L) (d : rt_state R) (k : kind) (args : list tm)
  : outcome :=
  let next t := Some (m, d, t) in
  match k, args with
  | KVar x, [] => match lookup L e x with Some l => next (RL l) | None => None end
  | KLoad, [RL l] => match load L l m with Some (v, m) => Some (m, d, RV v) | None => None end
  | KDeref, [RV v] => match pointee L v with Some l => next (RL l) | None => None end
  | KAddr, [RL l] => next (RV (pointer L l))
  | KField n, [RL l] => next (RL (field L n l))
  | KAt t, [RV v] => next (RV (conv L t v))
  | KLv, [RL l] => next (RL l)
  | KUn o, [RV v] => match unop L o v with Some w => next (RV w) | None => None end
  | KIncDec o, [RL l] =>
      match load L l m with
      | None => None
      | Some (v, m) =>
          match incdec L o v with
          | None => None
          | Some w =>
              match store L l w m with
              | None => None
              | Some (w, m) =>
                  Some (m, d, match o with
                              | PostInc | PostDec => RV v
                              | _ => if cpp c then RL l else RV w
                              end)
              end
          end
      end
  | KBin o, [RV v; RV w] =>
      match binop L o v w with Some r => next (RV r) | None => None end
  | KLogic o, [RV v; b] =>
      if Bool.eqb (truth L v) (bop_eqb o LAnd) then next (N KTruth [b])
      else next (RV (boolean L (truth L v)))
  | KTruth, [RV v] => next (RV (boolean L (truth L v)))
  | KAssign o, [RL l; RV v] =>
      match assigned o l v m with
      | None => None
      | Some (w, m) => match store L l w m with
                       | None => None
                       | Some (w, m) => Some (m, d, if cpp c then RL l else RV w)
                       end
      end
  | KCond, [RV v; a; b] => next (if truth L v then a else b)
  | KComma, [a; b] => if is_result a then next b else None
  | KFirst, a :: _ => if forallb is_result args then next a else None
  | KCall f, _ =>
      if forallb is_result args then
        match bodies f with
        | Some s => match enter L f (results args) m with
                    | Some (e, m) => Some (m, d, N (KInCall e) [s])
                    | None => None
                    end
        | None => match library L f (results args) m with
                  | Some (v, m) => Some (m, d, RV v)
                  | None => None
                  end
        end
      else None
  | KInCall e, [N KReturn [r]] => Some (leave L e m, d, r)
  | KInCall e, [N KReturn []] => Some (leave L e m, d, RV (void L))
  | KInCall e, [N KSkip []] => Some (leave L e m, d, RV (void L))
  | KExpr, [a] => if is_result a then next skip else None
  | KSeq, [N KSkip []; s] => next s
  | KSeq, [N KBreak a; s] => next (N KBreak a)
  | KSeq, [N KContinue a; s] => next (N KContinue a)
  | KSeq, [N KReturn a; s] => next (N KReturn a)
  | KIf, [RV v; a; b] => next (if truth L v then a else b)
  | KWhile, [b; s] => next (N KIf [b; N KLoop [s; N KWhile [b; s]]; skip])
  | KDo, [s; b] => next (N KLoop [s; N KIf [b; N KDo [s; b]; skip]])
  | KFor, [b; i; s] => next (N KIf [b; N KLoop [s; N KSeq [i; N KFor [b; i; s]]]; skip])
  | KLoop, [N KSkip []; s] => next s
  | KLoop, [N KContinue a; s] => next s
  | KLoop, [N KBreak a; s] => next skip
  | KLoop, [N KReturn a; s] => next (N KReturn a)
  | KSwitch labels, RV v :: ss => next (N KSwitched [sequence (switch_body labels v ss)])
  | KSwitched, [N KSkip []] => next skip
  | KSwitched, [N KBreak a] => next skip
  | KSwitched, [N KContinue a] => next (N KContinue a)
  | KSwitched, [N KReturn a] => next (N KReturn a)
  | KM f id, _ => match call_mutator f id args d with
                  | Some (d, t) => Some (m, d, t)
                  | None => None
                  end
  | KRemovable id, [s] =>
      match rt_query R id d with
      | Some (d, b) => Some (m, d, if b then skip else s)
      | None => None
      end
  | KRecord id n, [s] =>
      match rt_record R id n d with Some d => Some (m, d, s) | None => None end
  | _, _ => None
  end.

(* Operands are unsequenced, except that from C++17 on the right operand of an assignment
   comes before the left one, and the left operand of a shift before the right one. *)
Variable cpp17 : bool.
Definition its_turn (k : kind) (pre post : list tm) : bool :=
  if cpp17 then
    match k with
    | KAssign _ => forallb final post
    | KBin Shl | KBin Shr => forallb final pre
    | _ => true
    end
  else true.

Definition put (o : outcome) (f : tm -> tm) : outcome :=
  match o with Some (m, d, t) => Some (m, d, f t) | None => None end.

(* A step.  Nothing else happens while a call is being executed. *)
Inductive step (e : env L) (m : mem L) (d : rt_state R) : tm -> outcome -> Prop :=
| step_head k args :
    final (N k args) = false ->
    (forall i a, nth_error args i = Some a -> evaluated k i = true -> final a = true) ->
    step e m d (N k args) (head e m d k args)
| step_operand k pre a post o :
    evaluated k (length pre) = true -> its_turn k pre post = true ->
    existsb active pre = false -> existsb active post = false ->
    step (child_env k e) m d a o ->
    step e m d (N k (pre ++ a :: post)) (put o (fun a => N k (pre ++ a :: post))).

(* Any number of steps. *)
Inductive steps (e : env L) : mem L * rt_state R * tm -> mem L * rt_state R * tm -> Prop :=
| steps_refl x : steps e x x
| steps_more m d t x y : step e m d t (Some x) -> steps e x y -> steps e (m, d, t) y.

(* What a term can do: finish, or run into undefined behaviour. *)
Definition finishes (e : env L) (m : mem L) (d : rt_state R) (t : tm) (m' : mem L) (r : tm)
  : Prop :=
  exists d', steps e (m, d, t) (m', d', r) /\ final r = true.
Definition undefined (e : env L) (m : mem L) (d : rt_state R) (t : tm) : Prop :=
  exists m' d' t', steps e (m, d, t) (m', d', t') /\ step e m' d' t' None.
(* Reaching a state of memory, which includes the input and output so far. *)
Definition reaches (e : env L) (m : mem L) (d : rt_state R) (t : tm) (m' : mem L) : Prop :=
  exists d' t', steps e (m, d, t) (m', d', t').
(* Running for ever *)
CoInductive diverges (e : env L) : mem L -> rt_state R -> tm -> Prop :=
| diverges_step m d t m' d' t' :
    step e m d t (Some (m', d', t')) -> diverges e m' d' t' -> diverges e m d t.
End Lang.

Arguments RV {L}. Arguments RL {L}. Arguments N {L}.
Arguments KVar {L}. Arguments KLoad {L}. Arguments KDeref {L}. Arguments KAddr {L}.
Arguments KField {L}. Arguments KAt {L}. Arguments KLv {L}. Arguments KUn {L}.
Arguments KIncDec {L}. Arguments KBin {L}. Arguments KLogic {L}. Arguments KTruth {L}.
Arguments KAssign {L}. Arguments KCond {L}. Arguments KComma {L}. Arguments KFirst {L}. Arguments KCall {L}.
Arguments KInCall {L}. Arguments KSkip {L}. Arguments KExpr {L}. Arguments KSeq {L}.
Arguments KIf {L}. Arguments KWhile {L}. Arguments KDo {L}. Arguments KFor {L}.
Arguments KLoop {L}. Arguments KSwitch {L}. Arguments KSwitched {L}. Arguments KBreak {L}.
Arguments KContinue {L}. Arguments KReturn {L}. Arguments KM {L}. Arguments KLambda {L}.
Arguments KRemovable {L}. Arguments KRecord {L}. Arguments KWrong {L}.
Arguments skip {L}. Arguments final {L}. Arguments active {L}. Arguments evaluated {L}.
Arguments is_result {L}. Arguments rvalue {L}. Arguments lvalue {L}.
Arguments sequence {L}. Arguments results {L}. Arguments argument {L}.
Arguments child_env {L}. Arguments its_turn {L}.
