(* The C prelude at the granularity of calls of strtok, whose state is shared by the whole
   process: mutate_ast_consumer.cc:404-438. *)
From Coq Require Import String Ascii List NArith ZArith Bool.
From Verif Require Import Base PreludeText Rewriter Prelude.
Import ListNotations.
Local Open Scope string_scope.

(* strtok's saved pointer: the buffer that it points into and the text from there on.
   Buffer 0 is the program's own; the buffer of thread t's prelude is S t. *)
Record strtok_state := {
  saved : option (nat * string);
  freed : nat -> bool
}.

(* strtok(arg, ","), C11 7.24.5.8.  With a null argument it continues from the saved
   pointer, which must exist and must not point into freed memory. *)
Definition call_strtok (arg : option (nat * string)) (s : strtok_state)
  : strtok_state * outcome (option string) :=
  match (match arg with Some a => Some a | None => saved s end) with
  | None => (s, Undefined)
  | Some (b, text) =>
      if freed s b then (s, Undefined)
      else let (t, rest) := strtok text in
           ({| saved := Some (b, rest); freed := freed s |}, Ok t)
  end.
Definition free_buffer (b : nat) (s : strtok_state) : strtok_state :=
  {| saved := saved s; freed := fun b' => Nat.eqb b' b || freed s b' |}.

(** * Threads that initialise concurrently *)

(* A thread in __dredd_enabled_mutation: not started, in the while loop at line 418 with
   the given token, past the initialisation, or stopped by undefined behaviour *)
Inductive phase :=
| Idle
| Loop (token : option string) (ws : list N) (some : bool)
| Ready (ws : list N) (some : bool)
| Stuck.

Record cstate := { lib : strtok_state; phases : nat -> phase }.

Definition set_phase (t : nat) (x : phase) (l : strtok_state) (s : cstate) : cstate :=
  {| lib := l; phases := fun t' => if Nat.eqb t' t then x else phases s t' |}.

(* Thread t goes on up to and including its next call of strtok (lines 417, 428) or to the
   end of the initialisation (430-433). *)
Definition c_step (initial num : nat) (v : option string) (t : nat) (s : cstate) : cstate :=
  match phases s t with
  | Idle =>
      match v with
      | None => set_phase t (Ready (repeat 0%N (words_required num)) false) (lib s) s
      | Some text =>
          match call_strtok (Some (S t, text)) (lib s) with
          | (l, Ok tok) => set_phase t (Loop tok (repeat 0%N (words_required num)) false) l s
          | (l, _) => set_phase t Stuck l s
          end
      end
  | Loop None ws some => set_phase t (Ready ws some) (free_buffer (S t) (lib s)) s
  | Loop (Some tok) ws some =>
      match atoi tok with
      | PInt z =>
          match enable initial num z ws some with
          | Ok (ws', some') =>
              match call_strtok None (lib s) with
              | (l, Ok tok') => set_phase t (Loop tok' ws' some') l s
              | (l, _) => set_phase t Stuck l s
              end
          | _ => set_phase t Stuck (lib s) s
          end
      | _ => set_phase t Stuck (lib s) s
      end
  | Ready _ _ | Stuck => s
  end.

Definition c_start : cstate :=
  {| lib := {| saved := None; freed := fun _ => false |}; phases := fun _ => Idle |}.

(* A schedule lists the threads in the order in which they make a step. *)
Fixpoint c_execute (initial num : nat) (v : option string) (schedule : list nat) (s : cstate)
  : cstate :=
  match schedule with
  | [] => s
  | t :: schedule => c_execute initial num v schedule (c_step initial num v t s)
  end.

(** * A program that uses strtok itself *)

(* What the program does: a call of strtok or the evaluation of a mutated expression *)
Inductive program_action :=
| AppStrtok (arg : option string)
| Mutated (local : nat).

(* The original program: only its own calls matter. *)
Fixpoint original_results (l : list program_action) (s : strtok_state)
  : list (outcome (option string)) :=
  match l with
  | [] => []
  | AppStrtok arg :: l =>
      let (s', r) := call_strtok (option_map (fun a => (0, a)) arg) s in
      r :: original_results l s'
  | Mutated _ :: l => original_results l s
  end.

(* strtok's state after the calls made by the initialisation of thread 0: unchanged in
   C++ (which does not use strtok), if the variable is unset, or if the initialisation has
   been done before; otherwise the saved pointer refers to the end of the freed buffer. *)
Definition after_query (cpp : bool) (v : option string) (done : bool) (s : strtok_state)
  : strtok_state :=
  if cpp || done then s
  else match v with
       | None => s
       | Some _ => free_buffer 1 {| saved := Some (1, ""); freed := freed s |}
       end.

Fixpoint mutated_results (cpp : bool) (v : option string) (done : bool)
  (l : list program_action) (s : strtok_state) : list (outcome (option string)) :=
  match l with
  | [] => []
  | AppStrtok arg :: l =>
      let (s', r) := call_strtok (option_map (fun a => (0, a)) arg) s in
      r :: mutated_results cpp v done l s'
  | Mutated _ :: l => mutated_results cpp v true l (after_query cpp v done s)
  end.
