(* The buffer that clang::Rewriter maintains for a file (llvm/clang, RewriteBuffer.h,
   Rewriter.cpp and DeltaTree.cpp, which are not part of /repo): the current text and a map
   from positions to changes of length.  The original offset i has two positions, 2i for
   what is inserted there and 2i + 1 for what replaces the original text from there on.
   Simplified: the rope is a string and the tree of deltas a list. *)
From Coq Require Import String Ascii List Bool Arith ZArith.
From Verif Require Import Base Clang Gen.
Import ListNotations.
Local Open Scope string_scope.

Record buffer := { bu_text : string; bu_deltas : list (nat * Z) }.

(* RewriteBuffer::Initialize *)
Definition initial_buffer (text : string) : buffer := {| bu_text := text; bu_deltas := [] |}.

(* DeltaTree::getDeltaAt: the sum of the deltas before a position *)
Definition delta_at (ds : list (nat * Z)) (pos : nat) : Z :=
  fold_right (fun d s => if Nat.ltb (fst d) pos then (snd d + s)%Z else s) 0%Z ds.

(* RewriteBuffer::getMappedOffset *)
Definition mapped_offset (b : buffer) (off : nat) (add_inserts : bool) : nat :=
  Z.to_nat (delta_at (bu_deltas b) (2 * off + if add_inserts then 1 else 0) + Z.of_nat off).

Fixpoint take (n : nat) (s : string) : string :=
  match n, s with
  | S n, String c s => String c (take n s)
  | _, _ => ""
  end.
Fixpoint drop (n : nat) (s : string) : string :=
  match n, s with
  | 0, _ => s
  | S n, String _ s => drop n s
  | S _, EmptyString => ""
  end.
(* RewriteRope::insert and erase *)
Definition rope_insert (p : nat) (new s : string) : string := take p s ++ new ++ drop p s.
Definition rope_erase (p len : nat) (s : string) : string := take p s ++ drop len (drop p s).

(* RewriteBuffer::InsertText *)
Definition buffer_insert (off : nat) (s : string) (after : bool) (b : buffer) : buffer :=
  if String.eqb s "" then b
  else {| bu_text := rope_insert (mapped_offset b off after) s (bu_text b);
          bu_deltas := (2 * off, Z.of_nat (String.length s)) :: bu_deltas b |}.

(* RewriteBuffer::ReplaceText *)
Definition buffer_replace (off len : nat) (s : string) (b : buffer) : buffer :=
  let real := mapped_offset b off true in
  {| bu_text := rope_insert real s (rope_erase real len (bu_text b));
     bu_deltas :=
       if Nat.eqb len (String.length s) then bu_deltas b
       else (2 * off + 1, (Z.of_nat (String.length s) - Z.of_nat len)%Z) :: bu_deltas b |}.

(* Rewriter::InsertTextBefore, InsertTextAfterToken (whose offset is that of the end of the
   token: both ends of the range that it measures are the same location) and ReplaceText *)
Definition buffer_edit (b : buffer) (e : edit) : buffer :=
  match e with
  | InsertBefore off s => buffer_insert off s false b
  | InsertAfterToken off s => buffer_insert off s true b
  | ReplaceText off len s => buffer_replace off len s b
  end.

Definition buffer_rewrite (text : string) (es : list edit) : string :=
  bu_text (fold_left buffer_edit es (initial_buffer text)).
