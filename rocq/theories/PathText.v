(* The paths among the arguments of scripts/query_mutant_info.py. *)
From Coq Require Import String Ascii List ZArith Bool.
From Verif Require Import Base InfoScript.
Import ListNotations.
Local Open Scope string_scope.

(* str.split with a slash *)
Fixpoint split_slash (s : string) : list string :=
  match s with
  | EmptyString => [""]
  | String c r =>
      if Ascii.eqb c "/" then "" :: split_slash r
      else match split_slash r with
           | [] => [String c ""]
           | x :: l => String c x :: l
           end
  end.
(* str.join with a slash *)
Fixpoint join_slash (l : list string) : string :=
  match l with
  | [] => ""
  | [x] => x
  | x :: l => x ++ "/" ++ join_slash l
  end.

(* The arguments of query_mutant_info.py:292-309 that have the type Path are read by
   pathlib.Path of Python's library, and str gives the text back.  That is the root - two
   slashes are left alone, three or more are one - and the parts, without those that are empty
   or a dot. *)
Definition path_root (s : string) : string :=
  match s with
  | String a (String b (String c _)) =>
      if Ascii.eqb a "/"
      then if (Ascii.eqb b "/" && negb (Ascii.eqb c "/"))%bool then "//" else "/"
      else ""
  | String a (String b EmptyString) =>
      if Ascii.eqb a "/" then if Ascii.eqb b "/" then "//" else "/" else ""
  | String a EmptyString => if Ascii.eqb a "/" then "/" else ""
  | EmptyString => ""
  end.
Definition is_part (x : string) : bool := negb (String.eqb x "") && negb (String.eqb x ".").
Definition path_parts (s : string) : list string := filter is_part (split_slash s).
Definition path_str (s : string) : string :=
  let t := path_root s ++ join_slash (path_parts s) in
  if String.eqb t "" then "." else t.

(* query_mutant_info.py:290-329: main.  Simplified: arguments that argparse does not accept
   are left out, as is the order of printing and errors (see query_script). *)
Definition query_command (opens : string -> option string) (info_file : string)
  (path_prefix_replacement : option (string * string)) (largest : bool) (show : option Z)
  : outcome :=
  query_script opens (path_str info_file)
    (option_map (fun p => (path_str (fst p), path_str (snd p))) path_prefix_replacement)
    largest show.
