(* Property C84: the constants in the types of declarations are replaced by their values (C++).

   [needs]: the compiler needs the constant to know the type.  [templates], [arrays]: types that
   are nests of templates, and arrays of arrays.  [good_constants]: numbers stand for constants,
   and integers among them fit 64 bits.  [replaced]: the constant, if it is an integer in the
   main file, is replaced by a literal for its value (DeclTypesSpec.v). *)
From Coq Require Import String List NArith ZArith Arith Bool.
From Verif Require Import Base ConstRewrite ConstSpec DeclTypes DeclTypesSpec DeclTypesProof
  DeclTypesExample.
Import ListNotations.
Local Open Scope string_scope.

(* However deep it is in a nest of templates or arrays, each constant needed by the type of a
   variable is replaced; for members, in a nest of arrays.  Not so in general: see below. *)
Theorem C84_variables_partial ds t x :
  good_constants ds -> In (DeclVar t) ds -> templates t \/ arrays t -> needs t x ->
  replaced x (rewrites ds).
Proof. exact (replaced_lemma ds (DeclVar t) x). Qed.
Print Assumptions C84_variables_partial.

Theorem C84_members_partial ds t x :
  good_constants ds -> In (DeclField t) ds -> arrays t -> needs t x ->
  replaced x (rewrites ds).
Proof. exact (replaced_lemma ds (DeclField t) x). Qed.
Print Assumptions C84_members_partial.

(* Nothing but needed constants is replaced, and by nothing but their values. *)
Theorem C84_only_constants ds b l s :
  good_constants ds -> In (b, l, s) (rewrites ds) ->
  exists d x v n, In d ds /\ needs (type_of d) x /\ ce_range (snd x) = Some (b, l) /\
    ce_value (snd x) = Some v /\ literal s = Some n /\ Z.of_N n = integer v.
Proof. exact (only_constants_lemma ds b l s). Qed.
Print Assumptions C84_only_constants.

(* If several variables share a type, its constants are replaced once. *)
Theorem C84_once ds :
  (forall d, In d ds -> exists t, d = DeclVar t /\ templates t) ->
  (forall d d' p p' e e' r, In d ds -> In d' ds -> needs (type_of d) (p, e) ->
     needs (type_of d') (p', e') -> ce_range e = Some r -> ce_range e' = Some r -> p = p') ->
  NoDup (map fst (rewrites ds)).
Proof. exact (once_lemma ds). Qed.
Print Assumptions C84_once.

Example C84_example :
  good_constants some_declarations /\
  In (DeclVar nested) some_declarations /\ templates nested /\ needs nested (at_ 30) /\
  In (DeclVar (TyArray (at_ 50) (TyArray (at_ 53) TyName))) some_declarations /\
  arrays (TyArray (at_ 50) (TyArray (at_ 53) TyName)) /\
  In (DeclField (TyArray (at_ 70) TyName)) some_declarations /\
  arrays (TyArray (at_ 70) TyName) /\
  rewrites some_declarations
  = [(50, 1, "7"); (53, 1, "7"); (70, 1, "7"); (30, 1, "7"); (34, 1, "7")] /\
  rewrites [DeclVar nested; DeclVar nested] = [(30, 1, "7"); (34, 1, "7")].
Proof.
  split; [exact some_good|]. split; [left; reflexivity|]. split; [exact nested_templates|].
  split.
  { apply needs_alias. eapply needs_inside; [left; reflexivity|]. apply needs_argument.
    right. left. reflexivity. }
  split; [right; right; left; reflexivity|]. split; [exact array_arrays|].
  split; [do 3 right; left; reflexivity|]. split; [exact member_arrays|].
  split; reflexivity.
Qed.
Print Assumptions C84_example.

Example C84_once_example :
  (forall d, In d [DeclVar nested; DeclVar nested] -> exists t, d = DeclVar t /\ templates t) /\
  (forall d d' p p' e e' r,
     In d [DeclVar nested; DeclVar nested] -> In d' [DeclVar nested; DeclVar nested] ->
     needs (type_of d) (p, e) -> needs (type_of d') (p', e') ->
     ce_range e = Some r -> ce_range e' = Some r -> p = p').
Proof.
  split.
  - intros d [<-|[<-|[]]]; exists nested; split; auto using nested_templates.
  - exact nested_places.
Qed.
Print Assumptions C84_once_example.

(* Parameters, pointers, arrays of templates, templates of arrays, arrays by another name,
   members and typedefs whose constant stays as it is. *)
Theorem C84_forgotten_refuted :
  exists v, integer v = 7%Z /\ List.length forgotten = 8 /\
  forall d, In d forgotten ->
    good_constants [d] /\
    exists x, needs (type_of d) x /\ ce_range (snd x) = Some (20, 1) /\
      ce_value (snd x) = Some v /\ ~ replaced x (rewrites [d]).
Proof.
  exists seven. split; [reflexivity|]. split; [reflexivity|]. intros d I.
  destruct (forgotten_refuted d I) as (G & N & R & V & F). split; [exact G|].
  exists (at_ 20). auto.
Qed.
Print Assumptions C84_forgotten_refuted.
