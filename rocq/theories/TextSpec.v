(* What running the inserted prelude should come to (C66, C67). *)
From Coq Require Import String Ascii List NArith ZArith Bool.
From Verif Require Import Base Rewriter Prelude PreludeC CText CRun.
Import ListNotations.
Local Open Scope string_scope.

(* The number is a value of type int. *)
Definition is_int (n : nat) : Prop := (Z.of_nat n <= 2 ^ 31 - 1)%Z.

(** * The function that tells whether a mutant is enabled *)

(* The surroundings: the environment and the library's strtok; memory obtained by thread t
   is buffer S t. *)
Definition libc (v : option string) (t : nat) (w : strtok_state) (e : event)
  : strtok_state * answer :=
  match e with
  | EvGetenv "DREDD_ENABLED_MUTATION" => (w, AText v)
  | EvStrtok arg "," =>
      match call_strtok (option_map (fun p => (S (fst p + t), snd p)) arg) w with
      | (w', Ok r) => (w', AText r)
      | (w', _) => (w', AUndefined)
      end
  | EvFree k => (free_buffer (S (k + t)) w, ADone)
  | _ => (w, AUndefined)
  end.

(* The variables of a thread *)
Definition truth_value (cpp b : bool) : cval :=
  if cpp then VBool b else VInt (if b then 1 else 0)%Z.
Definition own (e i : cval) (ws : list N) : list (string * cval) :=
  [("__dredd_some_mutation_enabled", e); ("initialized", i);
   ("enabled_bitset", VArr (map VU64 ws))].
Definition view (cpp : bool) (s : tls) : list (string * cval) :=
  own (truth_value cpp (some_enabled s)) (truth_value cpp (initialized s)) (bitset s).

(* Enough steps for its loop *)
Definition enough (v : option string) (fuel : nat) : Prop :=
  match v with Some v => String.length v < fuel | None => True end.

(* The library's state when a thread of a C program has initialised: strtok is left
   pointing to the end of memory that has been freed. *)
Definition after (cpp : bool) (v : option string) (t : nat) (w : strtok_state)
  : strtok_state :=
  match v with
  | Some _ =>
      if cpp then w else free_buffer (S t) {| saved := Some (S t, ""); freed := freed w |}
  | None => w
  end.

(* A thread calls the function with these arguments, one after the other. *)
Fixpoint thread_runs (items : list item) (fuel : nat)
  (answers : strtok_state -> event -> strtok_state * answer) (w : strtok_state)
  (st : list (string * cval)) (locals : list nat) : list (option cval) :=
  match locals with
  | [] => []
  | l :: locals =>
      match interpret answers w
              (call items fuel "__dredd_enabled_mutation" [VInt (Z.of_nat l)] st) with
      | (w', Done (st', r)) => r :: thread_runs items fuel answers w' st' locals
      | _ => []
      end
  end.

(** * The function that records that a site is reached *)

Definition ask_text {A} (e : event) (k : option string -> run A) : run A :=
  Do e (fun a => match a with AText t => k t | AUndefined => Wrong | _ => Unknown end).
Definition ask_bool {A} (e : event) (k : bool -> run A) : run A :=
  Do e (fun a => match a with ABool b => k b | AUndefined => Wrong | _ => Unknown end).
Definition ask {A} (e : event) (k : run A) : run A :=
  Do e (fun a => match a with ADone => k | AUndefined => Wrong | _ => Unknown end).

Fixpoint writes {A} (l : list string) (k : run A) : run A :=
  match l with
  | [] => k
  | s :: l => ask (EvWrite s) (writes l k)
  end.
(* A line holds an id; in C++ its end is written separately. *)
Definition line (cpp : bool) (id : nat) : list string :=
  if cpp then [string_of_nat id; nl] else [string_of_nat id ++ nl].

(* The ids of a call of the function of a file with the given first id *)
Definition ids (first local n : nat) : list nat :=
  map (fun i => first + local + i) (seq 0 n).

(* All that the function asks of its surroundings.  If the file cannot be opened, C++
   ignores what is written to the stream; C has undefined behaviour. *)
Definition records (cpp : bool) (first local n : nat) : run unit :=
  ask_bool (EvExchange "already_recorded" (Z.of_nat local) true) (fun before =>
  if before then Done tt
  else ask_text (EvGetenv "DREDD_MUTANT_TRACKING_FILE") (fun f =>
  match f with
  | None => Done tt
  | Some f =>
      ask_bool (EvOpen f) (fun opened =>
      if opened then
        writes (flat_map (line cpp) (ids first local n))
          (if cpp then Done tt else ask EvClose (Done tt))
      else if cpp then Done tt else Wrong)
  end)).
Definition whole (r : run unit) : run (list (string * cval) * option cval) :=
  bind r (fun _ => Done ([], Some VVoid)).

(* Surroundings: the array, the variable, whether files can be opened, those that have been
   opened, and what has been written *)
Record disk := {
  marks : list bool;
  variable : option string;
  openable : bool;
  opened : list string;
  written : string
}.
Definition with_mark (l : nat) (d : disk) : disk :=
  {| marks := update_nth l (fun _ => true) (marks d); variable := variable d;
     openable := openable d; opened := opened d; written := written d |}.
Definition with_open (f : string) (d : disk) : disk :=
  {| marks := marks d; variable := variable d; openable := openable d;
     opened := opened d ++ [f]; written := written d |}.
Definition with_text (s : string) (d : disk) : disk :=
  {| marks := marks d; variable := variable d; openable := openable d; opened := opened d;
     written := written d ++ s |}.
Definition disk_answers (d : disk) (e : event) : disk * answer :=
  match e with
  | EvExchange "already_recorded" z true =>
      match (if (z <? 0)%Z then None else nth_error (marks d) (Z.to_nat z)) with
      | Some b => (with_mark (Z.to_nat z) d, ABool b)
      | None => (d, AUndefined)
      end
  | EvGetenv "DREDD_MUTANT_TRACKING_FILE" => (d, AText (variable d))
  | EvOpen f => (with_open f d, ABool (openable d))
  | EvWrite s => (with_text s d, ADone)
  | EvClose => (d, ADone)
  | _ => (d, AUndefined)
  end.

(* The lines for a list of ids *)
Definition lines (l : list nat) : string :=
  concat_strings (map (fun id => string_of_nat id ++ nl) l).

(* What the function does: the new surroundings and whether the behaviour is defined *)
Definition recorded_by (cpp : bool) (first local n : nat) (d : disk) : disk * bool :=
  match nth_error (marks d) local with
  | None => (d, false)
  | Some true => (d, true)
  | Some false =>
      let d := with_mark local d in
      match variable d with
      | None => (d, true)
      | Some f =>
          let d := with_open f d in
          if openable d then (with_text (lines (ids first local n)) d, true) else (d, cpp)
      end
  end.
