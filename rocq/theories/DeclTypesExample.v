(* Examples and counterexamples for C84. *)
From Coq Require Import String List NArith ZArith Arith Bool Lia.
From Verif Require Import Base ConstRewrite ConstSpec ConstProof DeclTypes DeclTypesSpec DeclTypesProof.
Import ListNotations.
Local Open Scope string_scope.

(* The constant N, of value 7, written at an offset *)
Definition seven : apsint := {| ap_width := 32; ap_unsigned := false; ap_bits := 7 |}.
Definition at_ (b : nat) : constant :=
  (b, {| ce_range := Some (b, 1); ce_value := Some seven |}).

(* std::array<std::array<int, N>, N> x, y; int z[N][N]; with A for the type of x and y;
   struct { int w[N]; };  *)
Definition nested : dtype :=
  TyAlias (TyTemplate [ArgType (TyTemplate [ArgType TyName; ArgExpr (at_ 30)]); ArgExpr (at_ 34);
                       ArgOther]).
Definition some_declarations : list declaration :=
  [DeclVar nested; DeclVar nested; DeclVar (TyArray (at_ 50) (TyArray (at_ 53) TyName));
   DeclField (TyArray (at_ 70) TyName)].

Lemma plain_name : plain TyName.
Proof. intros x N. inversion N. Qed.

Lemma nested_templates : templates nested.
Proof.
  apply templates_alias, templates_args. simpl. intros t [E|[E|[E|[]]]]; try discriminate.
  injection E as <-. apply templates_args. simpl. intros t [E|[E|[]]]; try discriminate.
  injection E as <-. apply templates_plain. exact plain_name.
Qed.
Lemma array_arrays : arrays (TyArray (at_ 50) (TyArray (at_ 53) TyName)).
Proof. apply arrays_array, arrays_array, arrays_plain. exact plain_name. Qed.
Lemma member_arrays : arrays (TyArray (at_ 70) TyName).
Proof. apply arrays_array, arrays_plain. exact plain_name. Qed.

(* All constants of a type, as a list *)
Fixpoint constants (t : dtype) : list constant :=
  match t with
  | TyName => []
  | TyTemplate args =>
      (fix go (args : list targ) : list constant :=
         match args with
         | [] => []
         | ArgExpr e :: args => e :: go args
         | ArgType t :: args => constants t ++ go args
         | ArgOther :: args => go args
         end) args
  | TyArray e t => e :: constants t
  | TyAlias t | TyDerived t => constants t
  end%list.
Lemma needs_constants t x : needs t x -> In x (constants t).
Proof.
  induction 1 as [| | args e I | args t x I N IH | |]; simpl; auto.
  - induction args as [|a args IHa]; [destruct I|].
    destruct I as [->|I]; [left; reflexivity|].
    destruct a; simpl; [right; auto|apply in_or_app; right; auto|auto].
  - induction args as [|a args IHa]; [destruct I|].
    destruct I as [->|I]; [apply in_or_app; left; exact IH|].
    destruct a; simpl; [right; auto|apply in_or_app; right; auto|auto].
Qed.

Lemma all_sevens ds :
  (forall d x, In d ds -> In x (constants (type_of d)) -> exists b, x = at_ b) ->
  good_constants ds.
Proof.
  intros H. split.
  - intros d d' p e e' I I' N N'. apply needs_constants in N, N'.
    destruct (H d _ I N) as [b E]. destruct (H d' _ I' N') as [b' E'].
    injection E as -> ->. injection E' as -> ->. reflexivity.
  - intros d p e v I N V. apply needs_constants in N. destruct (H d _ I N) as [b E].
    injection E as _ ->. simpl in V. injection V as <-. vm_compute. repeat split; discriminate.
Qed.

Lemma some_good : good_constants some_declarations.
Proof.
  apply all_sevens. intros d x [<-|[<-|[<-|[<-|[]]]]]; simpl;
    intuition (subst; unfold at_; eauto).
Qed.

Lemma some_rewrites :
  rewrites some_declarations
  = [(50, 1, "7"); (53, 1, "7"); (70, 1, "7"); (30, 1, "7"); (34, 1, "7")].
Proof. reflexivity. Qed.

Lemma nested_places d d' p p' e e' r :
  In d [DeclVar nested; DeclVar nested] -> In d' [DeclVar nested; DeclVar nested] ->
  needs (type_of d) (p, e) -> needs (type_of d') (p', e') ->
  ce_range e = Some r -> ce_range e' = Some r -> p = p'.
Proof.
  intros I I' N N' R R'.
  assert (d = DeclVar nested) by (destruct I as [<-|[<-|[]]]; reflexivity).
  assert (d' = DeclVar nested) by (destruct I' as [<-|[<-|[]]]; reflexivity). subst.
  apply needs_constants in N, N'. simpl in N, N'.
  destruct N as [E|[E|[]]]; destruct N' as [E'|[E'|[]]]; injection E as <- <-;
    injection E' as <- <-; simpl in *; congruence.
Qed.

(* Declarations whose constants stay as they are:
   - a parameter: void f(std::array<int, N> a)
   - a pointer: std::array<int, N> *p;   int ( *q)[N];
   - an array of templates: std::array<int, N> a[2];
   - a template with an array: std::vector<int[N]> v;
   - an array by another name: typedef int A[N]; A a;   int (b)[N];
   - a member: struct { std::array<int, N> a; };
   - a typedef: typedef int A[N]; *)
Definition forgotten : list declaration :=
  let template := TyTemplate [ArgType TyName; ArgExpr (at_ 20)] in
  [DeclParameter template;
   DeclVar (TyDerived template);
   DeclVar (TyDerived (TyArray (at_ 20) TyName));
   DeclVar (TyArray (at_ 40) template);
   DeclVar (TyTemplate [ArgType (TyArray (at_ 20) TyName)]);
   DeclVar (TyAlias (TyArray (at_ 20) TyName));
   DeclField template;
   DeclTypedef (TyArray (at_ 20) TyName)].

Lemma forgotten_refuted : forall d, In d forgotten ->
  good_constants [d] /\ needs (type_of d) (at_ 20) /\
  ce_range (snd (at_ 20)) = Some (20, 1) /\ ce_value (snd (at_ 20)) = Some seven /\
  ~ replaced (at_ 20) (rewrites [d]).
Proof.
  intros d I. split; [|split; [|split; [reflexivity|split; [reflexivity|]]]].
  - apply all_sevens. intros d' x [<-|[]].
    destruct I as [<-|[<-|[<-|[<-|[<-|[<-|[<-|[<-|[]]]]]]]]]; simpl;
      intuition (subst; unfold at_; eauto).
  - destruct I as [<-|[<-|[<-|[<-|[<-|[<-|[<-|[<-|[]]]]]]]]]; simpl;
      repeat first [apply needs_size | apply needs_element | apply needs_alias
                   | apply needs_derived
                   | apply needs_argument; simpl; solve [auto]
                   | eapply needs_inside; [left; reflexivity|]].
  - intros R. destruct (R 20 1 seven eq_refl eq_refl) as (s & n & H & _).
    destruct I as [<-|[<-|[<-|[<-|[<-|[<-|[<-|[<-|[]]]]]]]]]; vm_compute in H;
      intuition discriminate.
Qed.
