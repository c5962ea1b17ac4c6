(* Paths that mean the same. *)
From Coq Require Import String Ascii List Bool.
Import ListNotations.
Local Open Scope string_scope.

Definition slash : ascii := "/"%char.
Definition starts_with_slash (s : string) : Prop := exists t, s = String slash t.

(* Two texts are the same path, whatever the files are: slashes may be repeated, a dot stands
   for the directory it is in, and a slash at the end makes no difference for directories.
   Two slashes at the beginning are left alone; POSIX lets them have a meaning of their
   own. *)
Inductive same_path : string -> string -> Prop :=
| sp_refl s : same_path s s
| sp_sym s t : same_path s t -> same_path t s
| sp_trans s t u : same_path s t -> same_path t u -> same_path s u
| sp_slashes s a t : a <> slash ->
    same_path (s ++ String a "//" ++ t) (s ++ String a "/" ++ t)
| sp_many t : same_path ("////" ++ t) ("///" ++ t)
| sp_three t : ~ starts_with_slash t -> same_path ("///" ++ t) ("/" ++ t)
| sp_dot s t : ~ starts_with_slash t -> same_path (s ++ "/./" ++ t) (s ++ "/" ++ t)
| sp_last_dot s : same_path (s ++ "/.") (s ++ "/")
| sp_first_dot t : t <> "" -> ~ starts_with_slash t -> same_path ("./" ++ t) t
| sp_last_slash s a : a <> slash -> same_path (s ++ String a "/") (s ++ String a "").

(* A file name without repeated slashes and dots *)
Definition neat (n : string) : Prop :=
  (forall s t, n <> s ++ "//" ++ t) /\ (forall s t, n <> s ++ "/./" ++ t) /\
  (forall t, n <> "./" ++ t).

(* n is the name of the file in the directory d *)
Definition name_in (d file n : string) : Prop :=
  d <> "" /\
  if String.eqb d "." then n = file
  else if String.eqb d "/" then n = "/" ++ file
  else n = d ++ "/" ++ file.
