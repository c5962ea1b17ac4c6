(* Vocabulary for stating properties of constant rewriting. *)
From Coq Require Import String Ascii List NArith ZArith Bool.
From Verif Require Import ConstRewrite.
Import ListNotations.
Local Open Scope N_scope.

Definition well_formed (a : apsint) : Prop := 0 < ap_width a /\ ap_bits a < 2 ^ ap_width a.

(* The integer that a C or C++ constant of this type and representation is. *)
Definition integer (a : apsint) : Z :=
  if ap_unsigned a then Z.of_N (ap_bits a)
  else if ap_bits a <? 2 ^ (ap_width a - 1) then Z.of_N (ap_bits a)
  else (Z.of_N (ap_bits a) - 2 ^ Z.of_N (ap_width a))%Z.

(* Integer literals without prefix or suffix: octal if they begin with 0, else decimal. *)
Fixpoint digits (base : N) (acc : N) (s : string) : option N :=
  match s with
  | EmptyString => Some acc
  | String c s =>
      let d := N_of_ascii c - 48 in
      if (48 <=? N_of_ascii c) && (d <? base) then digits base (acc * base + d) s else None
  end.
Definition literal (s : string) : option N :=
  match s with
  | EmptyString => None
  | String "0" s => digits 8 0 s
  | _ => digits 10 0 s
  end.

(* Types of template parameters and arguments. *)
Inductive ctype := TInteger (width : N) (unsigned : bool) | TEnumeration (name : string).

(* The value fits the type. *)
Definition representable (w : N) (u : bool) (v : Z) : Prop :=
  if u then (0 <= v < 2 ^ Z.of_N w)%Z
  else (- 2 ^ (Z.of_N w - 1) <= v < 2 ^ (Z.of_N w - 1))%Z.

(* An argument of a type and value is allowed for a template parameter: converted constant
   expressions exclude narrowing, and there is no conversion to an enumeration. *)
Definition allowed (param : ctype) (arg : ctype) (v : Z) : Prop :=
  match param, arg with
  | TInteger w u, _ => representable w u v
  | TEnumeration n, TEnumeration m => n = m
  | TEnumeration _, TInteger _ _ => False
  end.

(* The type of a decimal literal in LP64. *)
Definition literal_type (v : N) : ctype :=
  if v <? 2 ^ 31 then TInteger 32 false
  else if v <? 2 ^ 63 then TInteger 64 false
  else TInteger 64 true.
