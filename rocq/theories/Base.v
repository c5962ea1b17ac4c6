(* Strings and decimal numbers. *)
From Coq Require Import String Ascii List NArith ZArith Bool Lia.
From Coq Require Import DecimalString DecimalN DecimalZ.
Import ListNotations.
Local Open Scope string_scope.

(* std::string newline character, written \n in the C++ sources. *)
Definition nl : string := String "010"%char EmptyString.
(* The double quote character. *)
Definition dq : string := String "034"%char EmptyString.

(* std::to_string and operator<< on unsigned integers: decimal, no leading zeros. *)
Definition string_of_N (n : N) : string := NilEmpty.string_of_uint (N.to_uint n).
Definition string_of_nat (n : nat) : string := string_of_N (N.of_nat n).
(* The same for signed integers. *)
Definition string_of_Z (z : Z) : string :=
  match z with
  | Z0 => "0"
  | Zpos p => string_of_N (Npos p)
  | Zneg p => "-" ++ string_of_N (Npos p)
  end.

Fixpoint concat_strings (l : list string) : string :=
  match l with
  | [] => ""
  | s :: l => s ++ concat_strings l
  end.

(* A character as one-element string. *)
Definition char_string (c : ascii) : string := String c EmptyString.

Fixpoint map_string (f : ascii -> ascii) (s : string) : string :=
  match s with
  | EmptyString => EmptyString
  | String c s => String (f c) (map_string f s)
  end.

Fixpoint string_forall (p : ascii -> bool) (s : string) : bool :=
  match s with
  | EmptyString => true
  | String c s => p c && string_forall p s
  end.

Definition in_range (c : ascii) (lo hi : N) : bool :=
  (N.leb lo (N_of_ascii c) && N.leb (N_of_ascii c) hi)%bool.

Definition is_digit (c : ascii) : bool := in_range c 48 57.
(* std::isalnum in the default locale. *)
Definition is_alnum (c : ascii) : bool :=
  is_digit c || in_range c 65 90 || in_range c 97 122.
