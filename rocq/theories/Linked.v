(* Programs linked from several mutated files. *)
From Coq Require Import String List Arith Bool.
From Verif Require Import Base Clang Gen PreludeText Prelude Tracking Lang Cst Runtime.
Import ListNotations.

(* The functions that a mutated file adds, their flag and their arrays are static
   (mutate_ast_consumer.cc:278-283, 355-357, 403-406, 450-452): each file of a program has its
   own, and the calls in a file are to those of the file.  The call in file k with local id i
   has, in this model of a whole program, the number (mutants of the files before k) + i.
   Simplified: a call without mutants at the end of a file gets the number of the first mutant
   of the next file.  Except in coverage mode such a call does nothing but look at a flag, and
   it returns its argument whatever the flag is; for coverage mode the theorems leave such
   calls out. *)
Fixpoint locate (counts : list nat) (id : nat) : nat * nat :=
  match counts with
  | [] => (0, id)
  | n :: counts =>
      if Nat.ltb id n then (0, id)
      else let (k, i) := locate counts (id - n) in (S k, i)
  end.

(* The state of one file is changed. *)
Definition set_state {S : nat -> Type} (k : nat) (x : S k) (d : forall j, S j) : forall j, S j :=
  fun j => match Nat.eq_dec k j with
           | left e => eq_rect k S x j e
           | right _ => d j
           end.

(* The runtimes of all files, the files having the given numbers of mutants.  As in Runtime.v,
   there is one thread. *)
Definition linked (counts : list nat) (R : nat -> runtime) : runtime :=
  {| rt_state := forall k, rt_state (R k);
     rt_flag := fun id d =>
       let (k, i) := locate counts id in rt_flag (R k) i (d k);
     rt_query := fun id d =>
       let (k, i) := locate counts id in
       match rt_query (R k) i (d k) with
       | Some (x, b) => Some (set_state (S := fun j => rt_state (R j)) k x d, b)
       | None => None
       end;
     rt_record := fun id n d =>
       let (k, i) := locate counts id in
       match rt_record (R k) i n (d k) with
       | Some x => Some (set_state (S := fun j => rt_state (R j)) k x d)
       | None => None
       end |}.

Section Files.
Variable L : lang.
Variable c : ctx.
Variable o : options.

(* A file: the first id that it gets, and its functions.  Simplifications: all files are in the
   same language; there is one name space of functions, so that static functions of the same
   name are not covered. *)
Definition source : Type := nat * list (string * cst L).

Definition count (s : source) : nat := snd (mutate_program L c o (snd s) 0).
Definition counts (files : list source) : list nat := map count files.

(* The files of one run of the tool: each gets the ids that follow those of the file before
   (main.cc:119, mutate_ast_consumer.cc:108-110).  Files of several runs have arbitrary first
   ids. *)
Fixpoint one_run (files : list (list (string * cst L))) (id : nat) : list source :=
  match files with
  | [] => []
  | p :: files => (id, p) :: one_run files (id + count (id, p))
  end.

(* The functions of all mutated files.  In the text of a mutated file there are local ids, from
   0 on in each file (mutate_ast_consumer.cc:475-506, mutation_remove_stmt.cc:119-124); in the
   program they get the numbers above. *)
Definition renumber (a : nat) (k : kind L) : kind L :=
  match k with
  | KM f id => KM f (a + id)
  | KRemovable id => KRemovable (a + id)
  | KRecord id n => KRecord (a + id) n
  | _ => k
  end.
Fixpoint move (a : nat) (t : tm L) : tm L :=
  match t with
  | N k args => N (renumber a k) (map (move a) args)
  | _ => t
  end.
Fixpoint linked_body (files : list source) (before : nat) (g : string) : option (tm L) :=
  match files with
  | [] => None
  | (_, p) :: files =>
      let (q, n) := mutate_program L c o p 0 in
      match body_of L c q g with
      | Some t => Some (move before t)
      | None => linked_body files (before + n) g
      end
  end.

(* The preludes of the files, and their states when the program begins *)
Definition first_of (files : list source) (k : nat) : nat := nth k (map fst files) 0.
Definition count_in (files : list source) (k : nat) : nat := nth k (counts files) 0.
Definition linked_selecting (files : list source) (v : option string) : runtime :=
  linked (counts files) (fun k => selecting (first_of files k) (count_in files k) (cpp c) v).
Definition linked_initial (files : list source) (v : option string)
  : rt_state (linked_selecting files v) :=
  fun k => initial_tls (count_in files k).
Definition linked_recording (files : list source) (tracking can_open : bool) : runtime :=
  linked (counts files) (fun k => recording (first_of files k) (cpp c) tracking can_open).
Definition linked_track (files : list source) (tracking can_open : bool)
  : rt_state (linked_recording files tracking can_open) :=
  fun k => track_start (count_in files k).
End Files.
