(* The preprocessed source, and which tokens of it a location denotes. *)
From Coq Require Import String List Arith Bool.
From Verif Require Import Macro.
Import ListNotations.

Fixpoint tokens_of (e : expansion) : list string :=
  match e with
  | Token s _ => [s]
  | Nested body => flat_map tokens_of body
  | Argument ts => map fst ts
  end.
Definition item_tokens (i : item) : list string :=
  match i with Plain _ s => [s] | Invocation _ body => flat_map tokens_of body end.
(* What the compiler sees *)
Definition preprocess (f : list item) : list string := flat_map item_tokens f.

(* The way leads to the n-th token of an expansion. *)
Inductive in_expansion : expansion -> list nat -> nat -> Prop :=
| in_token s b : in_expansion (Token s b) [] 0
| in_nested body k e path n : nth_error body k = Some e -> in_expansion e path n ->
    in_expansion (Nested body) (k :: path) (length (flat_map tokens_of (firstn k body)) + n)
| in_argument ts j : j < length ts -> in_expansion (Argument ts) [j] j.

(* The location is that of the n-th token of the preprocessed source. *)
Definition denotes (f : list item) (l : location) (n : nat) : Prop :=
  exists i m, nth_error f (l_item l) = Some i /\
    n = length (preprocess (firstn (l_item l) f)) + m /\
    match i with
    | Plain _ _ => l_path l = [] /\ m = 0
    | Invocation _ body => in_expansion (Nested body) (l_path l) m
    end.

(* Items i to j (inclusive); tokens a to b (inclusive) *)
Definition slice {A} (a b : nat) (l : list A) : list A := firstn (S b - a) (skipn a l).

(* The text of items i to j put between others *)
Definition wrap {A} (i j : nat) (before after : list A) (l : list A) : list A :=
  firstn i l ++ before ++ slice i j l ++ after ++ skipn (S j) l.

Definition written_in_main (i : item) : bool :=
  match i with Plain m _ => m | Invocation m _ => m end.

(* The first (last) token is one that can be traced: the invocation begins (ends) with a token of
   its definition, or with a parameter or nested macro for which this holds. *)
Inductive begins_plainly : expansion -> Prop :=
| begins_token s : begins_plainly (Token s false)
| begins_nested e body : begins_plainly e -> begins_plainly (Nested (e :: body))
| begins_argument s ts : begins_plainly (Argument ((s, false) :: ts)).
Inductive ends_plainly : expansion -> Prop :=
| ends_token s : ends_plainly (Token s false)
| ends_nested e body : ends_plainly e -> ends_plainly (Nested (body ++ [e]))
| ends_argument s ts : ends_plainly (Argument (ts ++ [(s, false)])).
Definition starts_well (i : item) : Prop :=
  match i with Plain _ _ => True | Invocation _ body => begins_plainly (Nested body) end.
Definition ends_well (i : item) : Prop :=
  match i with Plain _ _ => True | Invocation _ body => ends_plainly (Nested body) end.

(* Tokens a to b are those of the items i to j, of which the first and the last one are in the
   main file, begin and end with a token that can be traced. *)
Definition at_items f i j a b : Prop :=
  (exists it, nth_error f i = Some it /\ written_in_main it = true /\ starts_well it) /\
  (exists it, nth_error f j = Some it /\ written_in_main it = true /\ ends_well it) /\
  a = length (preprocess (firstn i f)) /\ S b = length (preprocess (firstn (S j) f)).
