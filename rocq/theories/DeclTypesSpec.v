(* Specification for C84. *)
From Coq Require Import String List NArith ZArith Arith Bool.
From Verif Require Import Base ConstRewrite ConstSpec DeclTypes.
Import ListNotations.

(* The compiler needs the constant to know the type. *)
Inductive needs : dtype -> constant -> Prop :=
| needs_size e t : needs (TyArray e t) e
| needs_element e t x : needs t x -> needs (TyArray e t) x
| needs_argument args e : In (ArgExpr e) args -> needs (TyTemplate args) e
| needs_inside args t x : In (ArgType t) args -> needs t x -> needs (TyTemplate args) x
| needs_alias t x : needs t x -> needs (TyAlias t) x
| needs_derived t x : needs t x -> needs (TyDerived t) x.

Definition type_of (d : declaration) : dtype :=
  match d with DeclVar t | DeclField t | DeclParameter t | DeclTypedef t => t end.

Definition plain (t : dtype) : Prop := forall x, ~ needs t x.

(* Templates whose arguments are constants and such templates, also by other names *)
Inductive templates : dtype -> Prop :=
| templates_plain t : plain t -> templates t
| templates_args args : (forall t, In (ArgType t) args -> templates t) ->
    templates (TyTemplate args)
| templates_alias t : templates t -> templates (TyAlias t).

(* Arrays of arrays of something without constants *)
Inductive arrays : dtype -> Prop :=
| arrays_plain t : plain t -> arrays t
| arrays_array e t : arrays t -> arrays (TyArray e t).

(* Numbers stand for constants, whose values, if they are integers, fit 64 bits. *)
Definition good_constants (ds : list declaration) : Prop :=
  (forall d d' p e e', In d ds -> In d' ds -> needs (type_of d) (p, e) ->
     needs (type_of d') (p, e') -> e = e') /\
  (forall d p e v, In d ds -> needs (type_of d) (p, e) -> ce_value e = Some v ->
     well_formed v /\ (0 <= integer v < 2 ^ 64)%Z).

(* If the constant is in the main file and is an integer, it is replaced by its value. *)
Definition replaced (x : constant) (edits : list (nat * nat * string)) : Prop :=
  forall b l v, ce_range (snd x) = Some (b, l) -> ce_value (snd x) = Some v ->
  exists s n, In (b, l, s) edits /\ literal s = Some n /\ Z.of_N n = integer v.
