(* Property C56: constructs that are written with macros. *)
From Coq Require Import String List Arith Bool.
From Verif Require Import Macro MacroSpec MacroProof.
Import ListNotations.
Local Open Scope string_scope.

(* When a construct is taken to be in the main file, and where *)
Theorem C56_when : forall f first last a b i j,
  denotes f first a -> denotes f last b ->
  (range_in_main f first last = Some (i, j) <-> at_items f i j a b).
Proof. exact range_found. Qed.
Print Assumptions C56_when.

(* What is between the two ends in the file, the compiler sees as the tokens of the construct; so
   what is written around it is written around the construct. *)
Theorem C56_exact : forall f first last a b i j before after,
  denotes f first a -> denotes f last b -> a <= b ->
  range_in_main f first last = Some (i, j) ->
  (i <= j < List.length f) /\
  preprocess (slice i j f) = slice a b (preprocess f) /\
  preprocess (wrap i j before after f) =
    wrap a b (preprocess before) (preprocess after) (preprocess f).
Proof.
  exact (fun f first last a b i j before after D D' L R =>
    let H := proj1 (range_found f first last a b i j D D') R in
    conj (items_order f i j a b H L)
      (conj (items_exact f i j a b H L) (items_wrap f i j a b before after H L))).
Qed.
Print Assumptions C56_exact.

(* Places are nested as the constructs are. *)
Theorem C56_nested : forall f first last a b i j first' last' a' b' i' j',
  denotes f first a -> denotes f last b -> range_in_main f first last = Some (i, j) ->
  denotes f first' a' -> denotes f last' b' -> range_in_main f first' last' = Some (i', j') ->
  (a' <= a -> b <= b' -> i' <= i /\ j <= j') /\ (b < a' -> j < i').
Proof.
  exact (fun f first last a b i j first' last' a' b' i' j' D E R D' E' R' =>
    let H := proj1 (range_found f first last a b i j D E) R in
    let H' := proj1 (range_found f first' last' a' b' i' j' D' E') R' in
    conj (items_nested f i j a b i' j' a' b' H H') (items_disjoint f i j a b i' j' a' b' H H')).
Qed.
Print Assumptions C56_nested.

(* #define ID(x) x
   #define SUM ID(a) + b
   return SUM * c ;
   The sum a + b * c is SUM * c in the file; its operands are not to be found there. *)
Example C56_example :
  let f := [Plain true "return";
            Invocation true [Nested [Argument [("a", false)]]; Token "+" false; Token "b" false];
            Plain true "*"; Plain true "c"; Plain true ";"] in
  let at_ k p := {| l_item := k; l_path := p |} in
  preprocess f = ["return"; "a"; "+"; "b"; "*"; "c"; ";"] /\
  denotes f (at_ 1 [0; 0; 0]) 1 /\ denotes f (at_ 3 []) 5 /\ denotes f (at_ 1 [2]) 3 /\
  range_in_main f (at_ 1 [0; 0; 0]) (at_ 3 []) = Some (1, 3) /\
  range_in_main f (at_ 1 [0; 0; 0]) (at_ 1 [0; 0; 0]) = None /\
  range_in_main f (at_ 1 [2]) (at_ 3 []) = None /\
  preprocess (wrap 1 3 [Plain true "g"; Plain true "("] [Plain true ")"] f) =
    ["return"; "g"; "("; "a"; "+"; "b"; "*"; "c"; ")"; ";"].
Proof.
  cbv zeta. repeat split.
  - exists (Invocation true [Nested [Argument [("a", false)]]; Token "+" false; Token "b" false]), 0.
    repeat split. cbn [l_path].
    eapply (in_nested _ 0 _ [0; 0] 0); [reflexivity|]. eapply (in_nested _ 0 _ [0] 0); [reflexivity|].
    apply in_argument. cbn. repeat constructor.
  - exists (Plain true "c"), 0. repeat split.
  - exists (Invocation true [Nested [Argument [("a", false)]]; Token "+" false; Token "b" false]), 2.
    repeat split. exact (in_nested [Nested [Argument [("a", false)]]; Token "+" false; Token "b" false]
      2 _ [] 0 eq_refl (in_token _ _)).
Qed.
