(* Edits that do not get in each other's way. *)
From Coq Require Import String List Arith.
From Verif Require Import Base Clang Gen.

Definition edit_fits (n : nat) (e : edit) : Prop :=
  match e with
  | InsertBefore off _ | InsertAfterToken off _ => off <= n
  | ReplaceText off len _ => 0 < len /\ off + len <= n
  end.

(* Nothing is replaced twice, and nothing is inserted in the middle of what is replaced. *)
Definition clear_of (off len : nat) (e : edit) : Prop :=
  match e with
  | InsertBefore i _ | InsertAfterToken i _ => i <= off \/ off + len <= i
  | ReplaceText off' len' _ => off' + len' <= off \/ off + len <= off'
  end.
Definition edits_compatible (e e' : edit) : Prop :=
  match e, e' with
  | ReplaceText off len _, _ => clear_of off len e'
  | _, ReplaceText off len _ => clear_of off len e
  | _, _ => True
  end.

Definition compatible_edits (text : string) (es : list edit) : Prop :=
  Forall (edit_fits (String.length text)) es /\ ForallOrdPairs edits_compatible es.
