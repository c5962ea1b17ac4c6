(* Generated mutator functions: structure and text.  The C++ code streams the text
   directly; here a function is first built as a value of type [mfun] and then printed,
   so that the same value can be given a meaning.  [print_mfun] yields the exact text. *)
From Coq Require Import String Ascii List NArith ZArith Bool.
From Verif Require Import Base Clang.
Import ListNotations.
Local Open Scope string_scope.

(* util.cc:93-97 *)
Definition space_to_underscore (s : string) : string :=
  map_string (fun c => if Ascii.eqb c " "%char then "_"%char else c) s.

(* How a parameter is accessed in the body: mutation_replace_expr.cc:473-481,
   mutation_replace_binary_operator.cc:470-487, mutation_replace_unary_operator.cc:198-207.
   AVal: by value or C++ reference; ALam: std::function called with no argument;
   APtr: C pointer dereferenced. *)
Inductive access := AVal | ALam | APtr.

Definition print_access (a : access) (name : string) : string :=
  match a with
  | AVal => name
  | ALam => name ++ "()"
  | APtr => "(*" ++ name ++ ")"
  end.

(* Literals that occur as replacement. *)
Inductive lit := LInt (z : Z) | LFloat (z : Z) | LBool (b : bool).

Definition print_lit (l : lit) : string :=
  match l with
  | LInt z => string_of_Z z
  | LFloat z => string_of_Z z ++ ".0"
  | LBool b => if b then "true" else "false"
  end.

(* The expressions that mutator functions return. *)
Inductive rhs :=
| RArg1                  (* arg1 (or arg) *)
| RArg2                  (* arg2 *)
| RPre (o : uop)         (* op arg *)
| RPost (o : uop)        (* arg op *)
| RPreParen (o : uop)    (* op(arg) *)
| RBin (o : bop)         (* arg1 op arg2 *)
| RLit (l : lit).

(* A mutator function.  Lines are pairs of id offset and returned expression. *)
Record mfun := {
  mf_result : string;                      (* result type *)
  mf_name : string;
  mf_params : list (string * string);      (* parameter type and name *)
  mf_access : access * access;             (* access to first and second parameter *)
  mf_fast : bool;                          (* has the fast path *)
  mf_lines : list (nat * rhs);
  mf_track : option nat;                   (* records coverage of so many mutants *)
  mf_orig : rhs;                           (* the original expression *)
  mf_close : string                        (* closing text *)
}.

Definition arg_name (f : mfun) (i : nat) : string :=
  match nth_error (mf_params f) i with
  | Some (_, n) => n
  | None => ""
  end.

Definition print_rhs (f : mfun) (r : rhs) : string :=
  let a1 := print_access (fst (mf_access f)) (arg_name f 0) in
  let a2 := print_access (snd (mf_access f)) (arg_name f 1) in
  match r with
  | RArg1 => a1
  | RArg2 => a2
  | RPre o => uop_str o ++ a1
  | RPost o => a1 ++ uop_str o
  | RPreParen o => uop_str o ++ "(" ++ a1 ++ ")"
  | RBin o => a1 ++ " " ++ bop_str o ++ " " ++ a2
  | RLit l => print_lit l
  end.

Definition print_line (f : mfun) (l : nat * rhs) : string :=
  "  if (__dredd_enabled_mutation(local_mutation_id + " ++ string_of_nat (fst l)
  ++ ")) return " ++ print_rhs f (snd l) ++ ";" ++ nl.

Definition print_params (ps : list (string * string)) : string :=
  concat_strings (map (fun p => fst p ++ " " ++ snd p ++ ", ") ps).

Definition print_header (f : mfun) : string :=
  "static " ++ mf_result f ++ " " ++ mf_name f ++ "(" ++ print_params (mf_params f)
  ++ "int local_mutation_id) {" ++ nl.

Definition print_fast (f : mfun) : string :=
  if mf_fast f
  then "  if (!__dredd_some_mutation_enabled) return " ++ print_rhs f (mf_orig f)
       ++ ";" ++ nl
  else "".

Definition print_track (f : mfun) : string :=
  match mf_track f with
  | Some n => "  __dredd_record_covered_mutants(local_mutation_id, " ++ string_of_nat n
              ++ ");" ++ nl
  | None => ""
  end.

Definition print_mfun (f : mfun) : string :=
  print_header f ++ print_fast f
  ++ concat_strings (map (print_line f) (mf_lines f))
  ++ print_track f
  ++ "  return " ++ print_rhs f (mf_orig f) ++ ";" ++ nl ++ mf_close f.

(* Number the replacements of a function: the k-th has offset k
   (mutation_replace_expr.cc:718-726 and its two siblings: AddMutationInstance
   increments the offset once per instance). *)
Fixpoint number_from {A} (k : nat) (l : list A) : list (nat * A) :=
  match l with
  | [] => []
  | x :: l => (k, x) :: number_from (S k) l
  end.

(* Rewriter requests (clang::Rewriter): InsertTextBefore at an offset, InsertTextAfterToken
   given by the offset just after the token, ReplaceText of a run of characters. *)
Inductive edit :=
| InsertBefore (off : nat) (s : string)
| InsertAfterToken (off : nat) (s : string)
| ReplaceText (off len : nat) (s : string).

(* Parameter type of a possibly delayed argument. *)
Definition wrap_function (delayed : bool) (t : string) : string :=
  if delayed then "std::function<" ++ t ++ "()>" else t.
