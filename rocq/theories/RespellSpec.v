(* Vocabulary for stating what becomes of a program some of whose constants are replaced by
   their values in the text. *)
From Coq Require Import String List Arith.
From Verif Require Import Base Clang Gen GenExpr GenBinary GenUnary GenStmt Rewriter Mutation Lang
  Cst NestSpec.
Import ListNotations.

(* A tree without its spelling: what it means stays, and what is to be mutated *)
Fixpoint bare {L} (t : cst L) : cst L :=
  match t with
  | CVal _ v => CVal EmptyString v
  | CNode k ps _ => CNode k (map (fun p => (EmptyString, bare (snd p))) ps) EmptyString
  | CExpr e sub => CExpr e (bare sub)
  | CBin b l _ _ r => CBin b (bare l) EmptyString EmptyString (bare r)
  | CUn u _ sub => CUn u EmptyString (bare sub)
  | CStmt s sub => CStmt s (bare sub)
  end.
(* The same functions, possibly spelled differently *)
Definition respelled {L} (p p' : list (string * cst L)) : Prop :=
  map (fun f => (fst f, bare (snd f))) p' = map (fun f => (fst f, bare (snd f))) p.

(* The token of a mutated operator: where it is and how long it is *)
Definition operator_token (p : place) : option (nat * nat) :=
  match p with
  | PBin b => Some (b_op_offset b, String.length (bop_str (b_op b)))
  | PUn u => Some (u_op_offset u, String.length (uop_str (u_op u)))
  | _ => None
  end.
(* The edits replace parts of the text, none of which has characters of a mutated operator. *)
Definition beside_operators (es : list edit) (ps : list place) : Prop :=
  forall e, In e es -> exists i n s, e = ReplaceText i n s /\ n <> 0 /\
    forall p j m, In p ps -> operator_token p = Some (j, m) -> i + n <= j \/ j + m <= i.
