(* Reading the text of mutator functions. *)
From Coq Require Import String Ascii List Arith NArith ZArith Bool Lia.
From Verif Require Import Base Clang Gen GenExpr GenBinary GenUnary Mutation GenSpec ClashSpec
  TypeSpec CText FunText FunSpec GenProof CTextProof.
Import ListNotations.
Local Open Scope string_scope.

(** * Tokens of pieces of text *)

Definition lexes (s : string) (ts : list token) : Prop := forall acc,
  read_from {| tokens := acc; reading := Between |} s =
  {| tokens := (rev ts ++ acc)%list; reading := Between |}.

Lemma append_assoc (a b c : string) : ((a ++ b) ++ c = a ++ (b ++ c))%string.
Proof. induction a as [|x a IH]; cbn; [reflexivity|now rewrite IH]. Qed.

Lemma lexes_app a b ts us : lexes a ts -> lexes b us -> lexes (a ++ b) (ts ++ us).
Proof.
  intros A B acc. rewrite read_app, A, B, rev_app_distr, app_assoc. reflexivity.
Qed.
Lemma lexes_nil : lexes "" [].
Proof. intros acc. reflexivity. Qed.

(* Words *)
Definition is_word (s : string) : bool :=
  match s with
  | EmptyString => false
  | String c s => word_char c && negb (is_digit c) && string_forall word_char s
  end.

Lemma word_rest acc s w : string_forall word_char s = true -> forall t,
  read_from {| tokens := acc; reading := InWord w |} (s ++ t) =
  read_from {| tokens := acc; reading := InWord (w ++ s) |} t.
Proof.
  revert w. induction s as [|c s IH]; intros w H t; cbn [String.append].
  - replace (w ++ "") with w; [reflexivity|].
    clear. induction w as [|x w IH]; cbn; [reflexivity|now rewrite <- IH].
  - cbn [string_forall] in H. apply andb_true_iff in H. destruct H as [H H'].
    cbn [read_from read_char reading tokens]. rewrite H, IH by assumption.
    unfold snoc. rewrite append_assoc. reflexivity.
Qed.

Lemma word_read acc s t : is_word s = true ->
  read_from {| tokens := acc; reading := Between |} (s ++ t) =
  read_from {| tokens := acc; reading := InWord s |} t.
Proof.
  destruct s as [|c s]; [discriminate|]. cbn [is_word]. rewrite !andb_true_iff.
  intros [[H D] F]. cbn [String.append read_from read_char reading tokens]. unfold begin.
  apply negb_true_iff in D. rewrite D, H. rewrite word_rest by assumption. reflexivity.
Qed.

Lemma lexes_name s : is_word s = true -> lexes (s ++ "(") [Word s; Sign "("].
Proof. intros H acc. rewrite word_read by assumption. reflexivity. Qed.

(* Numbers *)
Lemma lexes_number n : lexes (string_of_nat n ++ ")") [Number (N.of_nat n); Sign ")"].
Proof. intros acc. rewrite read_number. reflexivity. Qed.

(* Types *)
Definition sign_tokens (p : plain) : list token :=
  match p with ByValue _ => [] | ByReference _ _ _ => [Sign "&"] | ByPointer _ _ _ => [Sign "*"] end.
Definition qualifier_tokens (p : plain) : list token :=
  match p with
  | ByValue _ => []
  | ByReference _ v k | ByPointer _ v k =>
      ((if k then [Word "const"] else []) ++ (if v then [Word "volatile"] else []))%list
  end.
Definition plain_ty (p : plain) : ty :=
  match p with ByValue t => t | ByReference t _ _ => t | ByPointer t _ _ => t end.
Definition plain_tokens (c : ctx) (p : plain) : list token :=
  (qualifier_tokens p ++ map Word (words c (plain_ty p)) ++ sign_tokens p)%list.
Definition param_tokens (c : ctx) (p : param) : list token :=
  match p with
  | Direct p => plain_tokens c p
  | Delayed p => ([Word "std"; Sign "::"; Word "function"; Sign "<"] ++ plain_tokens c p
                  ++ [Sign "("; Sign ")"; Sign ">"])%list
  end.
Lemma lexes_param c p : lexes (param_text c p ++ " ") (param_tokens c p).
Proof.
  intros acc. unfold param_text, plain_text, qualified, ty_name. destruct c as [? pb ? ?].
  cbn [prints_bool].
  destruct p as [[ty|ty [] []|ty [] []]|[ty|ty [] []|ty [] []]]; destruct ty;
    try destruct pb; vm_compute; reflexivity.
Qed.

Lemma base_words c t n x : specifiers x = ([], x) ->
  parse_base (S n) (map Word (words c t) ++ x) = Some (FName (words c t), x).
Proof.
  intros H. destruct t; cbn [words]; try destruct (prints_bool c);
    cbn [map app parse_base specifiers]; rewrite H; reflexivity.
Qed.
Definition stops (x : list token) : Prop :=
  match x with
  | Word w :: _ => specifier w = false
  | Sign s :: _ => s = "("
  | _ => False
  end.
Lemma stops_specifiers x : stops x -> specifiers x = ([], x).
Proof. destruct x as [|[w|?|?|?|s] x]; cbn; try tauto; intros ->; reflexivity. Qed.
Lemma stops_signs x t : stops x -> declarator_signs t x = (t, x).
Proof.
  destruct x as [|[w|?|?|?|s] x]; cbn; try tauto. intros ->. reflexivity.
Qed.
Lemma base_const n r : parse_base (S n) (Word "const" :: r) =
  match parse_base n r with Some (t, r) => Some (FConst t, r) | None => None end.
Proof. reflexivity. Qed.
Lemma base_volatile n r : parse_base (S n) (Word "volatile" :: r) =
  match parse_base n r with Some (t, r) => Some (FVolatile t, r) | None => None end.
Proof. reflexivity. Qed.
Lemma parse_plain c p n x : stops x ->
  parse_fty (4 + n) (plain_tokens c p ++ x) = Some (plain_type c p, x).
Proof.
  intros H. unfold plain_tokens, plain_type.
  destruct p as [t|t v k|t v k]; cbn [qualifier_tokens plain_ty sign_tokens];
    rewrite ?app_nil_r; cbn [app].
  - change (4 + n) with (S (S (2 + n))). cbn [parse_fty].
    rewrite base_words by now apply stops_specifiers. rewrite stops_signs by assumption.
    reflexivity.
  - rewrite <- !app_assoc. change (4 + n) with (S (S (S (S n)))). cbn [parse_fty].
    destruct k, v; cbn [app]; rewrite ?base_const, ?base_volatile;
      rewrite base_words by reflexivity; reflexivity.
  - rewrite <- !app_assoc. change (4 + n) with (S (S (S (S n)))). cbn [parse_fty].
    destruct k, v; cbn [app]; rewrite ?base_const, ?base_volatile;
      rewrite base_words by reflexivity;
      cbn [declarator_signs]; rewrite stops_signs by assumption; reflexivity.
Qed.
Lemma parse_param c p n x : stops x ->
  parse_fty (6 + n) (param_tokens c p ++ x) = Some (param_type c p, x).
Proof.
  destruct p as [p|p]; intros H.
  - apply (parse_plain c p (2 + n)). assumption.
  - cbn [param_tokens param_type]. rewrite <- !app_assoc.
    change (6 + n) with (S (S (4 + n))). cbn [parse_fty app].
    change (parse_base (S (4 + n)) (Word "std" :: Sign "::" :: Word "function" :: Sign "<" ::
      (plain_tokens c p ++ Sign "(" :: Sign ")" :: Sign ">" :: x))) with
      (match parse_fty (4 + n) (plain_tokens c p ++ Sign "(" :: Sign ")" :: Sign ">" :: x) with
       | Some (t, Sign "(" :: Sign ")" :: Sign ">" :: r) => Some (FFunction t, r)
       | _ => None
       end).
    rewrite (parse_plain c p n) by reflexivity. rewrite stops_signs by assumption. reflexivity.
Qed.

(** * Returned expressions *)

(* What a parameter is called, depending on whether there are two *)
Definition name1 (two : bool) : string := if two then "arg1" else "arg".
Definition rhs_text (two : bool) (x y : access) (r : rhs) : string :=
  let a1 := print_access x (name1 two) in
  let a2 := print_access y "arg2" in
  match r with
  | RArg1 => a1
  | RArg2 => a2
  | RPre o => uop_str o ++ a1
  | RPost o => a1 ++ uop_str o
  | RPreParen o => uop_str o ++ "(" ++ a1 ++ ")"
  | RBin o => a1 ++ " " ++ bop_str o ++ " " ++ a2
  | RLit l => print_lit l
  end.
Definition small (z : Z) : bool := (Z.eqb z 0 || Z.eqb z 1 || Z.eqb z (-1))%Z.
Definition usual (two : bool) (r : rhs) : bool :=
  match r with
  | RArg1 => true
  | RArg2 => two
  | RPre o | RPreParen o =>
      match o with UExtension | PostInc | PostDec => false | _ => true end
  | RPost o => match o with PostInc | PostDec => true | _ => false end
  | RBin o => two && negb (bop_eqb o Comma)
  | RLit (LInt z) => small z
  | RLit (LFloat z) => small z
  | RLit (LBool _) => true
  end.
Definition rhs_tokens (two : bool) (x y : access) (r : rhs) : list token :=
  match tokens_of (rhs_text two x y r ++ nl) with Some l => l | None => [] end.
Definition access_tree (x : access) (s : string) : cexpr :=
  match x with AVal => EVar s | ALam => ECall0 (EVar s) | APtr => EUn "*" (EVar s) end.
Definition rhs_tree (two : bool) (x y : access) (r : rhs) : cexpr :=
  tree (access_tree x (name1 two)) (access_tree y "arg2") r.

Lemma small_cases z : small z = true -> z = 0%Z \/ z = 1%Z \/ z = (-1)%Z.
Proof. unfold small. rewrite !orb_true_iff, !Z.eqb_eq. tauto. Qed.

Ltac each_rhs r :=
  destruct r as [| |o|o|o|o|l];
  [| |destruct o|destruct o|destruct o|destruct o|destruct l as [z|z|b]];
  try match goal with
      | H : usual _ (RLit (LBool ?v)) = true |- _ => destruct v
      | H : usual _ (RLit _) = true |- _ =>
          apply small_cases in H; destruct H as [->|[->| ->]]
      end.

Lemma rhs_lexes two x y r : usual two r = true ->
  lexes (rhs_text two x y r ++ ";" ++ nl) (rhs_tokens two x y r ++ [Sign ";"]).
Proof.
  intros H acc. each_rhs r; destruct two; try discriminate H; destruct x;
    destruct y; vm_compute; reflexivity.
Qed.

Lemma rhs_parse two x y r n rest : usual two r = true ->
  parse_stmt (30 + n) (Word "return" :: rhs_tokens two x y r ++ Sign ";" :: rest) =
  Some (CReturn (Some (rhs_tree two x y r)), rest).
Proof.
  intros H. each_rhs r; destruct two; try discriminate H; destruct x;
    destruct y; vm_compute; reflexivity.
Qed.

(** * Bodies *)

Definition enabled_text : string := "  if (__dredd_enabled_mutation(local_mutation_id + ".
Definition line_tokens (two : bool) (x y : access) (l : nat * rhs) : list token :=
  ([Word "if"; Sign "("; Word "__dredd_enabled_mutation"; Sign "("; Word "local_mutation_id";
    Sign "+"; Number (N.of_nat (fst l)); Sign ")"; Sign ")"; Word "return"]
   ++ rhs_tokens two x y (snd l) ++ [Sign ";"])%list.
Definition line_text (two : bool) (x y : access) (l : nat * rhs) : string :=
  enabled_text ++ string_of_nat (fst l) ++ ")) return " ++ rhs_text two x y (snd l) ++ ";" ++ nl.
Lemma line_lexes two x y l : usual two (snd l) = true ->
  lexes (line_text two x y l) (line_tokens two x y l).
Proof.
  intros H. unfold line_text, line_tokens.
  apply (lexes_app enabled_text _
    [Word "if"; Sign "("; Word "__dredd_enabled_mutation"; Sign "(";
     Word "local_mutation_id"; Sign "+"]); [intro; reflexivity|].
  replace (string_of_nat (fst l) ++ ")) return " ++ rhs_text two x y (snd l) ++ ";" ++ nl)
    with ((string_of_nat (fst l) ++ ")") ++ ") return " ++ rhs_text two x y (snd l) ++ ";" ++ nl)
    by (rewrite append_assoc; reflexivity).
  apply (lexes_app _ _ [Number (N.of_nat (fst l)); Sign ")"]); [apply lexes_number|].
  apply (lexes_app _ _ [Sign ")"; Word "return"]); [intro; reflexivity|].
  now apply rhs_lexes.
Qed.

(* What can follow a statement of a body *)
Definition goes_on (x : list token) : Prop :=
  match x with
  | Word w :: _ => In w ["if"; "return"; "__dredd_record_covered_mutants"]
  | _ => False
  end.
Definition line_stmt (two : bool) (x y : access) (l : nat * rhs) : cstmt :=
  CIf (ECall1 (EVar "__dredd_enabled_mutation")
         (EBin "+" (EVar "local_mutation_id") (ENum (N.of_nat (fst l)))))
    (CReturn (Some (rhs_tree two x y (snd l)))).
Definition fast_stmt (two : bool) (x y : access) (r : rhs) : cstmt :=
  CIf (EUn "!" (EVar "__dredd_some_mutation_enabled"))
    (CReturn (Some (rhs_tree two x y r))).

Lemma if_parse n c ts e s rest :
  parse_expr n c = Some (e, Sign ")" :: ts) -> parse_stmt n ts = Some (s, rest) ->
  goes_on rest ->
  parse_stmt (S n) (Word "if" :: Sign "(" :: c) = Some (CIf e s, rest).
Proof.
  intros A B C. cbn [parse_stmt]. rewrite A, B.
  destruct rest as [|[w| | | |] rest]; try contradiction.
  destruct C as [<-|[<-|[<-|[]]]]; reflexivity.
Qed.

Lemma line_parse two x y l n rest : usual two (snd l) = true -> goes_on rest ->
  parse_stmt (31 + n) (line_tokens two x y l ++ rest) = Some (line_stmt two x y l, rest).
Proof.
  intros H G. unfold line_tokens. rewrite <- !app_assoc. cbn [app].
  apply (if_parse (30 + n) _
    (Word "return" :: rhs_tokens two x y (snd l) ++ Sign ";" :: rest)).
  - generalize (N.of_nat (fst l)) as k, (rhs_tokens two x y (snd l) ++ Sign ";" :: rest)%list as z.
    intros k z. vm_compute. reflexivity.
  - now apply rhs_parse.
  - assumption.
Qed.

Definition fast_tokens (two : bool) (x y : access) (r : rhs) : list token :=
  ([Word "if"; Sign "("; Sign "!"; Word "__dredd_some_mutation_enabled"; Sign ")";
    Word "return"] ++ rhs_tokens two x y r ++ [Sign ";"])%list.
Definition fast_text (two : bool) (x y : access) (r : rhs) : string :=
  "  if (!__dredd_some_mutation_enabled) return " ++ rhs_text two x y r ++ ";" ++ nl.
Lemma fast_lexes two x y r : usual two r = true ->
  lexes (fast_text two x y r) (fast_tokens two x y r).
Proof.
  intros H. apply (lexes_app "  if (!__dredd_some_mutation_enabled) return " _
    [Word "if"; Sign "("; Sign "!"; Word "__dredd_some_mutation_enabled"; Sign ")";
     Word "return"]); [intro; reflexivity|]. now apply rhs_lexes.
Qed.
Lemma fast_parse two x y r n rest : usual two r = true -> goes_on rest ->
  parse_stmt (31 + n) (fast_tokens two x y r ++ rest) = Some (fast_stmt two x y r, rest).
Proof.
  intros H G. unfold fast_tokens. rewrite <- !app_assoc. cbn [app].
  apply (if_parse (30 + n) _ (Word "return" :: rhs_tokens two x y r ++ Sign ";" :: rest)).
  - generalize (rhs_tokens two x y r ++ Sign ";" :: rest)%list as z. intros z.
    vm_compute. reflexivity.
  - now apply rhs_parse.
  - assumption.
Qed.

Definition record_tokens (k : nat) : list token :=
  [Word "__dredd_record_covered_mutants"; Sign "("; Word "local_mutation_id"; Sign ",";
   Number (N.of_nat k); Sign ")"; Sign ";"].
Definition record_text (k : nat) : string :=
  "  __dredd_record_covered_mutants(local_mutation_id, " ++ string_of_nat k ++ ");" ++ nl.
Definition record_stmt (k : nat) : cstmt :=
  CExpr (ECall2 (EVar "__dredd_record_covered_mutants") (EVar "local_mutation_id")
           (ENum (N.of_nat k))).
Lemma record_lexes k : lexes (record_text k) (record_tokens k).
Proof.
  unfold record_text. apply (lexes_app _ _ [Word "__dredd_record_covered_mutants"; Sign "(";
    Word "local_mutation_id"; Sign ","]); [intro; reflexivity|].
  replace (string_of_nat k ++ ");" ++ nl) with ((string_of_nat k ++ ")") ++ ";" ++ nl)
    by (rewrite append_assoc; reflexivity).
  apply (lexes_app _ _ [Number (N.of_nat k); Sign ")"]); [apply lexes_number|].
  intro; reflexivity.
Qed.
Lemma record_parse k n rest :
  parse_stmt (31 + n) (record_tokens k ++ rest) = Some (record_stmt k, rest).
Proof.
  unfold record_tokens, record_stmt. generalize (N.of_nat k) as m. intros m. cbn [app].
  vm_compute. reflexivity.
Qed.
