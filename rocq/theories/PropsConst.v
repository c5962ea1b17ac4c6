(* Properties of constant rewriting: C33. *)
From Coq Require Import String Ascii List NArith ZArith Bool Lia.
From Verif Require Import ConstRewrite ConstSpec ConstProof.
Import ListNotations.
Local Open Scope string_scope.
Local Open Scope list_scope.
Local Open Scope N_scope.

(* C33, array sizes: each size in the main file is replaced by a literal for its value, and
   nothing else is replaced. *)
Theorem C33_array_sizes : forall sizes,
  Forall (fun e => exists v, ce_value e = Some v /\ well_formed v /\
                   ap_unsigned v = true /\ ap_width v <= 64) sizes ->
  forall b l s, In (b, l, s) (rewrite_array_sizes sizes) <->
    exists e v n, In e sizes /\ ce_range e = Some (b, l) /\ ce_value e = Some v /\
      s = print_uint64 n /\ literal s = Some n /\ Z.of_N n = integer v.
Proof. exact array_lemma. Qed.
Print Assumptions C33_array_sizes.

Example C33_array_example :
  let size b n := {| ce_range := Some (b, 1%nat);
                     ce_value := Some {| ap_width := 64; ap_unsigned := true; ap_bits := n |} |} in
  rewrite_array_sizes [size 6%nat 120; size 9%nat 0]
  = [(6%nat, 1%nat, "120"); (9%nat, 1%nat, "0")] /\
  literal "120" = Some 120 /\ literal "0120" = Some 80.
Proof. vm_compute. auto. Qed.

(* C33, arguments of templates and builtins: if no value is negative or needs more than 64
   bits, each argument in the main file is replaced by a literal for its value, and nothing
   else is replaced. *)
Theorem C33_arguments_partial : forall args,
  (forall p e e', In (p, e) args -> In (p, e') args -> e = e') ->
  (forall p e v, In (p, e) args -> ce_value e = Some v ->
     well_formed v /\ (0 <= integer v < 2 ^ 64)%Z) ->
  forall b l s, In (b, l, s) (rewrite_arguments [] args) <->
    exists p e v n, In (p, e) args /\ ~ In p [] /\
      ce_range e = Some (b, l) /\ ce_value e = Some v /\
      s = print_uint64 n /\ literal s = Some n /\ Z.of_N n = integer v.
Proof. exact (fun args => arguments_lemma args []). Qed.
Print Assumptions C33_arguments_partial.

Example C33_arguments_example :
  let e b n := {| ce_range := Some (b, 1%nat);
                  ce_value := Some {| ap_width := 32; ap_unsigned := false; ap_bits := n |} |} in
  (0 <= integer {| ap_width := 32; ap_unsigned := false; ap_bits := 7 |} < 2 ^ 64)%Z /\
  rewrite_arguments [] [(1%nat, e 4%nat 7); (2%nat, e 8%nat 9); (1%nat, e 4%nat 7)]
  = [(4%nat, 1%nat, "7"); (8%nat, 1%nat, "9")].
Proof. vm_compute. repeat split; discriminate. Qed.

(* C33, static assertions: the literal is true. *)
Theorem C33_static_assertions : forall e b l,
  ce_range e = Some (b, l) ->
  exists s n, rewrite_static_assertion e = [(b, l, s)] /\ literal s = Some n /\ n <> 0.
Proof.
  intros e b l R. unfold rewrite_static_assertion, rewrite_to_constant. rewrite R.
  exists "1", 1. repeat split. discriminate.
Qed.
Print Assumptions C33_static_assertions.

Example C33_static_assertions_example :
  ce_range {| ce_range := Some (14%nat, 9%nat); ce_value := None |} = Some (14%nat, 9%nat).
Proof. reflexivity. Qed.

(* C33 fails for every negative value: the literal is larger by two to the width. *)
Theorem C33_negative_values : forall v,
  well_formed v -> ap_width v <= 64 -> (integer v < 0)%Z ->
  exists n, literal (print_uint64 (limited_value v)) = Some n /\
    Z.of_N n = (2 ^ Z.of_N (ap_width v) + integer v)%Z /\ Z.of_N n <> integer v.
Proof. exact negative_lemma. Qed.
Print Assumptions C33_negative_values.

Definition minus_one : apsint := {| ap_width := 32; ap_unsigned := false; ap_bits := 4294967295 |}.

(* So an argument -1 for a parameter of type int is allowed, but what replaces it is not. *)
Theorem C33_refuted : exists v n,
  well_formed v /\ integer v = (-1)%Z /\
  allowed (TInteger 32 false) (TInteger 32 false) (integer v) /\
  rewrite_arguments [] [(0%nat, {| ce_range := Some (2%nat, 2%nat); ce_value := Some v |})]
    = [(2%nat, 2%nat, "4294967295")] /\
  literal "4294967295" = Some n /\
  ~ allowed (TInteger 32 false) (literal_type n) (Z.of_N n).
Proof.
  exists minus_one, 4294967295. vm_compute.
  repeat split; try discriminate; try lia. intros [_ H]. discriminate H.
Qed.
Print Assumptions C33_refuted.

(* C33 also fails for an argument of an unscoped enumeration: a literal is no longer of the
   parameter's type. *)
Theorem C33_enumeration_refuted : exists v n,
  well_formed v /\ integer v = 1%Z /\
  allowed (TEnumeration "colour") (TEnumeration "colour") (integer v) /\
  rewrite_arguments [] [(0%nat, {| ce_range := Some (2%nat, 2%nat); ce_value := Some v |})]
    = [(2%nat, 2%nat, "1")] /\
  literal "1" = Some n /\
  ~ allowed (TEnumeration "colour") (literal_type n) (Z.of_N n).
Proof.
  exists {| ap_width := 32; ap_unsigned := true; ap_bits := 1 |}, 1. vm_compute.
  repeat split; auto.
Qed.
Print Assumptions C33_enumeration_refuted.
