(* Reading whole mutator functions. *)
From Coq Require Import String Ascii List Arith NArith ZArith Bool Lia.
From Verif Require Import Base Clang Gen GenExpr GenBinary GenUnary Mutation GenSpec ClashSpec
  TypeSpec CText FunText FunSpec GenProof CTextProof FunProof.
Import ListNotations.
Local Open Scope string_scope.

(** * Sequences of statements *)

Definition piece : Type := list token * cstmt.
Definition piece_ok (p : piece) : Prop :=
  goes_on (fst p) /\
  forall n rest, goes_on rest -> parse_stmt (31 + n) (fst p ++ rest) = Some (snd p, rest).

Definition goes_on_app a b : goes_on a -> goes_on (a ++ b)%list.
Proof. destruct a as [|[]]; cbn; tauto. Qed.

Lemma stmts_word n w ts : parse_stmts (S n) (Word w :: ts) =
  match parse_stmt n (Word w :: ts) with
  | Some (s, r) => match parse_stmts n r with Some (s', r) => Some (CSeq s s', r) | None => None end
  | None => None
  end.
Proof. reflexivity. Qed.

Lemma stmts_parse ps n w ts s rest : Forall piece_ok ps ->
  In w ["if"; "return"; "__dredd_record_covered_mutants"] ->
  parse_stmt (31 + n) (Word w :: ts) = Some (s, Sign "}" :: rest) ->
  parse_stmts (List.length ps + (32 + n)) (flat_map fst ps ++ Word w :: ts) =
  Some (fold_right (fun p s => CSeq (snd p) s) (CSeq s CSkip) ps, rest).
Proof.
  intros H W E. induction H as [|p ps [P Q] H IH]; cbn [List.length flat_map fold_right].
  - cbn [app]. change (0 + (32 + n)) with (S (31 + n)).
    rewrite stmts_word, E. reflexivity.
  - rewrite <- app_assoc.
    assert (G : goes_on (flat_map fst ps ++ Word w :: ts)).
    { destruct H as [|q qs [K _] _]; [exact W|]. cbn [flat_map]. rewrite <- app_assoc.
      now apply goes_on_app. }
    specialize (Q (List.length ps + (1 + n)) _ G).
    destruct (fst p) as [|[v| | | |] vs]; try contradiction P.
    cbn [app] in *. change (S (List.length ps) + (32 + n)) with (S (List.length ps + (32 + n))).
    rewrite stmts_word.
    replace (31 + (List.length ps + (1 + n))) with (List.length ps + (32 + n)) in Q by lia.
    rewrite Q, IH. reflexivity.
Qed.

(** * Functions *)

Definition access_of (p : param) : access :=
  match p with Direct (ByPointer _ _ _) => APtr | Delayed _ => ALam | _ => AVal end.

(* A function with these types *)
Record well_formed (c : ctx) (two : bool) (result : plain) (p1 p2 : param) (f : mfun) : Prop := {
  wf_result : mf_result f = plain_text c result;
  wf_params : mf_params f =
    if two then [(param_text c p1, "arg1"); (param_text c p2, "arg2")]
    else [(param_text c p1, "arg")];
  wf_access : mf_access f = (access_of p1, access_of p2);
  wf_name : is_word (mf_name f) = true;
  wf_new : specifier (mf_name f) = false;
  wf_lines : Forall (fun l => usual two (snd l) = true) (mf_lines f);
  wf_orig : usual two (mf_orig f) = true;
  wf_close : mf_close f = "}" ++ nl \/ mf_close f = "}" ++ nl ++ nl
}.

Section Function.
Variables (c : ctx) (two : bool) (result : plain) (p1 p2 : param) (f : mfun).
Hypothesis W : well_formed c two result p1 p2 f.
Let x := access_of p1.
Let y := access_of p2.

Lemma rhs_printed r : usual two r = true -> print_rhs f r = rhs_text two x y r.
Proof.
  intros H. unfold print_rhs, rhs_text, arg_name, x, y.
  rewrite (wf_access _ _ _ _ _ _ W), (wf_params _ _ _ _ _ _ W). cbn [fst snd].
  destruct two; cbn; [reflexivity|]. destruct r; cbn in H; try discriminate; reflexivity.
Qed.

Definition pieces : list piece :=
  ((if mf_fast f then [(fast_tokens two x y (mf_orig f), fast_stmt two x y (mf_orig f))] else [])
   ++ map (fun l => (line_tokens two x y l, line_stmt two x y l)) (mf_lines f)
   ++ match mf_track f with Some k => [(record_tokens k, record_stmt k)] | None => [] end)%list.
Definition body : cstmt :=
  fold_right (fun p s => CSeq (snd p) s)
    (CSeq (CReturn (Some (rhs_tree two x y (mf_orig f)))) CSkip) pieces.
Definition params : list (fty * string) :=
  ((if two then [(param_type c p1, "arg1"); (param_type c p2, "arg2")]
    else [(param_type c p1, "arg")]) ++ [(FName ["int"], "local_mutation_id")])%list.
Definition definition : fdef :=
  {| fd_result := plain_type c result; fd_name := mf_name f; fd_params := params;
     fd_body := body |}.
Definition params_tokens : list token :=
  ((if two then param_tokens c p1 ++ [Word "arg1"; Sign ","]
                ++ param_tokens c p2 ++ [Word "arg2"; Sign ","]
    else param_tokens c p1 ++ [Word "arg"; Sign ","])
   ++ [Word "int"; Word "local_mutation_id"; Sign ")"])%list.
Definition function_tokens : list token :=
  ([Word "static"] ++ param_tokens c (Direct result) ++ [Word (mf_name f); Sign "("]
   ++ params_tokens ++ [Sign "{"] ++ flat_map fst pieces
   ++ Word "return" :: rhs_tokens two x y (mf_orig f) ++ [Sign ";"; Sign "}"])%list.

Lemma pieces_ok : Forall piece_ok pieces.
Proof.
  unfold pieces. rewrite !Forall_app. split; [|split].
  - destruct (mf_fast f); [|constructor]. constructor; [|constructor]. split; [now left|].
    intros n rest G. apply fast_parse; [apply W|assumption].
  - apply Forall_map. eapply Forall_impl; [|apply (wf_lines _ _ _ _ _ _ W)].
    intros l H. cbn beta in H. split; [now left|]. intros n rest G. now apply line_parse.
  - destruct (mf_track f) as [k|]; [|constructor].
    constructor; [|constructor]. split; cbn [fst snd].
    + right. right. left. reflexivity.
    + intros n rest G. apply record_parse.
Qed.

Lemma lexes_flat {A} (text : A -> string) (toks : A -> list token) l :
  Forall (fun a => lexes (text a) (toks a)) l ->
  lexes (concat_strings (map text l)) (flat_map toks l).
Proof.
  intros H. induction H as [|a l A1 H IH]; cbn; [apply lexes_nil|]. now apply lexes_app.
Qed.

Lemma flat_map_pairs {A} (g : A -> list token) (h : A -> cstmt) l :
  flat_map fst (map (fun a => (g a, h a)) l) = flat_map g l.
Proof. induction l as [|a l IH]; cbn; [reflexivity|now rewrite IH]. Qed.

Lemma param_lexes p w : is_word w = true ->
  lexes (param_text c p ++ " " ++ w ++ ", ") (param_tokens c p ++ [Word w; Sign ","]).
Proof.
  intros H. rewrite <- (append_assoc (param_text c p) " ").
  apply lexes_app; [apply lexes_param|]. intros acc. rewrite word_read by assumption. reflexivity.
Qed.
Lemma params_lexes :
  lexes (print_params (mf_params f) ++ "int local_mutation_id) {" ++ nl)
    (params_tokens ++ [Sign "{"]).
Proof.
  unfold params_tokens. rewrite (wf_params _ _ _ _ _ _ W), <- app_assoc.
  apply lexes_app; [|intro; reflexivity].
  unfold print_params. destruct two; cbn [map]; unfold fst, snd.
  - rewrite app_assoc, <- (app_nil_r (param_tokens c p2 ++ _)).
    change (param_tokens c p1 ++ [Word "arg1"; Sign ","])%list with
      (param_tokens c p1 ++ [Word "arg1"; Sign ","])%list.
    apply (lexes_app _ (concat_strings [param_text c p2 ++ " " ++ "arg2" ++ ", "]));
      [now apply param_lexes|].
    apply lexes_app; [now apply param_lexes|apply lexes_nil].
  - rewrite <- (app_nil_r (param_tokens c p1 ++ _)).
    apply lexes_app; [now apply param_lexes|apply lexes_nil].
Qed.

Lemma function_lexes : lexes (print_mfun f) function_tokens.
Proof.
  unfold print_mfun, function_tokens, print_header.
  rewrite (wf_result _ _ _ _ _ _ W).
  rewrite !append_assoc.
  apply (lexes_app "static " _ [Word "static"]); [intro; reflexivity|].
  rewrite <- (append_assoc (plain_text c result) " ").
  apply lexes_app; [apply (lexes_param c (Direct result))|].
  rewrite <- (append_assoc (mf_name f) "(").
  apply lexes_app; [apply lexes_name, W|].
  rewrite <- (append_assoc "int local_mutation_id) {" nl),
    <- (append_assoc (print_params (mf_params f))), app_assoc.
  apply lexes_app; [apply params_lexes|].
  unfold pieces. rewrite !flat_map_app, flat_map_pairs, <- !app_assoc.
  apply lexes_app.
  { unfold print_fast. destruct (mf_fast f); [|apply lexes_nil]. cbn [flat_map fst].
    rewrite app_nil_r, rhs_printed by apply W. apply fast_lexes, W. }
  apply lexes_app.
  { replace (map (print_line f) (mf_lines f)) with (map (line_text two x y) (mf_lines f)).
    - apply lexes_flat. eapply Forall_impl; [|apply (wf_lines _ _ _ _ _ _ W)].
      intros l H. now apply line_lexes.
    - apply map_ext_in. intros l I. unfold line_text, print_line, enabled_text.
      rewrite rhs_printed; [reflexivity|].
      pose proof (wf_lines _ _ _ _ _ _ W) as F. rewrite Forall_forall in F. now apply F. }
  apply lexes_app.
  { unfold print_track. destruct (mf_track f); [|apply lexes_nil]. cbn [flat_map fst].
    rewrite app_nil_r. apply record_lexes. }
  rewrite rhs_printed by apply W.
  apply (lexes_app "  return " _ [Word "return"]); [intro; reflexivity|].
  replace (rhs_text two x y (mf_orig f) ++ ";" ++ nl ++ mf_close f)
    with ((rhs_text two x y (mf_orig f) ++ ";" ++ nl) ++ mf_close f)
    by (rewrite !append_assoc; reflexivity).
  change [Sign ";"; Sign "}"] with ([Sign ";"] ++ [Sign "}"])%list. rewrite app_assoc.
  apply lexes_app; [apply rhs_lexes, W|].
  destruct (wf_close _ _ _ _ _ _ W) as [-> | ->]; intro; reflexivity.
Qed.

Lemma fparams_more n w p ts : specifier w = false ->
  parse_fparams (7 + n) (param_tokens c p ++ Word w :: Sign "," :: ts) =
  match parse_fparams (6 + n) ts with
  | Some (ps, r) => Some ((param_type c p, w) :: ps, r)
  | None => None
  end.
Proof.
  intros H. change (parse_fparams (7 + n) (param_tokens c p ++ Word w :: Sign "," :: ts))
    with (match parse_fty (6 + n) (param_tokens c p ++ Word w :: Sign "," :: ts) with
      | Some (t, Word x :: Sign ")" :: r) => Some ([(t, x)], r)
      | Some (t, Word x :: Sign "," :: r) =>
          match parse_fparams (6 + n) r with
          | Some (ps, r) => Some ((t, x) :: ps, r)
          | None => None
          end
      | _ => None
      end).
  rewrite parse_param by exact H. reflexivity.
Qed.

Lemma params_parse n rest :
  parse_fparams (10 + n) (params_tokens ++ rest) = Some (params, rest).
Proof.
  unfold params_tokens, params. destruct two; rewrite <- !app_assoc; cbn [app].
  - change (10 + n) with (7 + (3 + n)). rewrite fparams_more by reflexivity.
    change (6 + (3 + n)) with (7 + (2 + n)). rewrite fparams_more by reflexivity. reflexivity.
  - change (10 + n) with (7 + (3 + n)). rewrite fparams_more by reflexivity. reflexivity.
Qed.

Lemma function_parse n rest :
  parse_fdef (100 + List.length (function_tokens ++ rest) + n) (function_tokens ++ rest) =
  Some (definition, rest).
Proof.
  assert (L : List.length pieces <= List.length (function_tokens ++ rest)).
  { unfold function_tokens. rewrite !app_length.
    assert (P : List.length pieces <= List.length (flat_map fst pieces)).
    { pose proof pieces_ok as H. induction H as [|q qs [A _] H IH]; cbn; [lia|].
      rewrite app_length. destruct (fst q); [contradiction|]. cbn. lia. }
    lia. }
  revert L. generalize (List.length (function_tokens ++ rest)) as len. intros len L.
  unfold function_tokens. rewrite <- !app_assoc. cbn [app].
  unfold parse_fdef.
  replace (100 + len + n) with (6 + (94 + len + n)) at 1 by lia.
  rewrite parse_param by apply (wf_new _ _ _ _ _ _ W).
  replace (100 + len + n) with (10 + (90 + len + n)) at 1 by lia.
  rewrite params_parse.
  replace (100 + len + n) with
    (List.length pieces + (32 + (68 + (len - List.length pieces) + n))) by lia.
  rewrite <- app_assoc. cbn [app].
  rewrite (stmts_parse pieces _ "return" _
    (CReturn (Some (rhs_tree two x y (mf_orig f)))) rest); [reflexivity|apply pieces_ok| |].
  - right. left. reflexivity.
  - apply (rhs_parse two x y (mf_orig f) (S _)), W.
Qed.
End Function.

Definition read_as (s : string) (d : fdef) : Prop := exists ts, ts <> [] /\ lexes s ts /\
  forall rest, parse_fdef (100 + List.length (ts ++ rest)) (ts ++ rest) = Some (d, rest).

Lemma function_read c two result p1 p2 f : well_formed c two result p1 p2 f ->
  read_as (print_mfun f) (definition c two result p1 p2 f).
Proof.
  intros W. exists (function_tokens c two result p1 p2 f). split; [discriminate|].
  split; [now apply function_lexes|]. intros rest.
  rewrite <- (Nat.add_0_r (100 + _)). now apply function_parse.
Qed.

Lemma functions_read ss ds : Forall2 read_as ss ds ->
  read_functions (concat_strings ss) = Some ds.
Proof.
  intros H.
  assert (E : exists ts, lexes (concat_strings ss) ts /\
    forall n, List.length ts < n -> parse_fdefs n ts = Some ds).
  { induction H as [|s d ss ds (ts & N & A & B) H (us & C & D)].
    - exists []. split; [apply lexes_nil|]. intros [|n] L; [lia|]. reflexivity.
    - exists (ts ++ us)%list. split; [now apply lexes_app|]. intros [|n] L; [lia|].
      specialize (B us). rewrite app_length in L.
      destruct ts as [|t ts]; [contradiction|]. cbn [app] in *.
      cbn [parse_fdefs]. rewrite B. rewrite D; [reflexivity|]. cbn in L. lia. }
  destruct E as (ts & A & B). unfold read_functions, tokens_of. cbv zeta. rewrite !A.
  cbn [reading tokens]. rewrite app_nil_r, rev_involutive. apply B. lia.
Qed.
