(* What a coverage build says about the mutants: vocabulary for property C76. *)
From Coq Require Import String List ZArith Bool.
From Verif Require Import Base Clang Gen GenExpr GenBinary GenUnary GenStmt Mutation GenSpec
  PreludeSpec Prelude Tracking Lang Cst Runtime SimSpec MutantSpec.
Import ListNotations.

Section Cover.
Variable L : lang.
Variable c : ctx.
Variable cpp17 : bool.

(* From the environment e and memory m, everything that t can do in a program with bodies bt
   and runtime R, s can do in a program with bodies bs and runtime R'. *)
Record no_more (R R' : runtime) (e : env L) (m : mem L)
  (d : rt_state R) (bt : string -> option (tm L)) (t : tm L)
  (d' : rt_state R') (bs : string -> option (tm L)) (s : tm L) : Prop := {
  no_more_results : forall m' r, finishes L R c bt cpp17 e m d t m' r ->
                    finishes L R' c bs cpp17 e m d' s m' r;
  no_more_undefined : undefined L R c bt cpp17 e m d t -> undefined L R' c bs cpp17 e m d' s;
  no_more_memories : forall m', reaches L R c bt cpp17 e m d t m' ->
                     reaches L R' c bs cpp17 e m d' s m';
  no_more_divergence : diverges L R c bt cpp17 e m d t -> diverges L R' c bs cpp17 e m d' s
}.

(* A call of a function of a file with first id f: in the build with coverage tracking, whose
   tracking file can be opened, *)
Definition covered_run (o : options) (f : nat) (p : list (string * cst L)) (e : env L)
  (m : mem L) (g : string) (args : list (val L + loc L)) (m' : mem L) (d' : tracked)
  (t' : tm L) : Prop :=
  steps L (recording f (cpp c) true true) c (body_of L c (fst (mutate_program L c o p 0))) cpp17 e
    (m, track_start (snd (mutate_program L c o p 0)), call L g args) (m', d', t').

(* wherever it has got to, it can finish. *)
Definition always_finishes (o : options) (f : nat) (p : list (string * cst L)) (e : env L)
  (m : mem L) (g : string) (args : list (val L + loc L)) : Prop :=
  forall m' d' t', covered_run o f p e m g args m' d' t' ->
  exists m2 r, finishes L (recording f (cpp c) true true) c
                 (body_of L c (fst (mutate_program L c o p 0))) cpp17 e m' d' t' m2 r.

(* No execution writes the id of a mutant of the list to the tracking file. *)
Definition unrecorded (o : options) (f : nat) (p : list (string * cst L)) (e : env L)
  (m : mem L) (g : string) (args : list (val L + loc L)) (zs : list Z) : Prop :=
  forall m' d' t', covered_run o f p e m g args m' d' t' ->
  forall x, In x (t_lines d') -> ~ In (Z.of_nat x) zs.

(* The mutants of && and || in C, which have three functions each. *)
Variable opt : bool.
Fixpoint logical_in (t : cst L) (id : nat) : list nat :=
  match t with
  | CVal _ _ => []
  | CNode _ ps _ =>
      (fix go ps id :=
         match ps with
         | [] => []
         | (_, p) :: ps => logical_in p id ++ go ps (id + mutants_in L c opt p)
         end) ps id
  | CExpr _ sub | CUn _ _ sub | CStmt _ sub => logical_in sub id
  | CBin b l _ _ r =>
      logical_in l id ++ logical_in r (id + mutants_in L c opt l) ++
      (if c_logical c b
       then seq (id + mutants_in L c opt l + mutants_in L c opt r)
              (List.length (binary_actions c opt b))
       else [])
  end.
Fixpoint logical_of (p : list (string * cst L)) (id : nat) : list nat :=
  match p with
  | [] => []
  | (_, t) :: p => logical_in t id ++ logical_of p (id + mutants_in L c opt t)
  end.
End Cover.
