(* The meaning of a written file taken from its text (C70): the prelude and the mutator
   functions are what has been read (CText.v, FunText.v); calls of mutator functions are
   calls of the definitions that overload resolution finds among those read, and execute the
   statements of these definitions; queries and recordings execute the prelude (CRun.v).
   The rest of the program is that of Lang.v.  Nothing here is dredd code. *)
From Coq Require Import String Ascii List NArith ZArith Bool.
From Verif Require Import Base Clang Gen GenExpr GenBinary GenUnary CText FunText Lang Cst SimSpec
  CRun PreludeC TextSpec.
From Verif Require FunSpec.
Import ListNotations.
Local Open Scope string_scope.

(** * Types *)

Definition type_names : list (list string * ty) :=
  [(["bool"], TBool); (["_Bool"], TBool); (["char"], TChar); (["signed"; "char"], TSChar);
   (["unsigned"; "char"], TUChar); (["wchar_t"], TWChar); (["char8_t"], TChar8);
   (["char16_t"], TChar16); (["char32_t"], TChar32); (["short"], TShort);
   (["unsigned"; "short"], TUShort); (["int"], TInt); (["unsigned"; "int"], TUInt);
   (["long"], TLong); (["unsigned"; "long"], TULong); (["long"; "long"], TLongLong);
   (["unsigned"; "long"; "long"], TULongLong); (["__int128"], TInt128);
   (["unsigned"; "__int128"], TUInt128); (["__fp16"], THalf); (["_Float16"], TFloat16);
   (["__bf16"], TBFloat16); (["float"], TFloat); (["double"], TDouble);
   (["long"; "double"], TLongDouble); (["__float128"], TFloat128); (["__ibm128"], TIbm128)].
Fixpoint same_words (a b : list string) : bool :=
  match a, b with
  | [], [] => true
  | x :: a, y :: b => String.eqb x y && same_words a b
  | _, _ => false
  end.
Definition type_named (ws : list string) : option ty :=
  option_map snd (find (fun p => same_words (fst p) ws) type_names).

(* How a value or object of the type is passed; the qualifier volatile makes no difference. *)
Definition way (t : fty) : option (passing * ty) :=
  match t with
  | FName ws => option_map (pair ByValue) (type_named ws)
  | FRef (FName ws) | FRef (FVolatile (FName ws)) =>
      option_map (pair ByReference) (type_named ws)
  | FPtr (FName ws) | FPtr (FVolatile (FName ws)) =>
      option_map (pair ByPointer) (type_named ws)
  | _ => None
  end.

Fixpoint same_type (a b : fty) : bool :=
  match a, b with
  | FName x, FName y => same_words x y
  | FConst a, FConst b | FVolatile a, FVolatile b | FPtr a, FPtr b | FRef a, FRef b
  | FFunction a, FFunction b => same_type a b
  | _, _ => false
  end.
Definition read_type (s : string) : option fty :=
  match tokens_of (s ++ " ") with
  | Some ts => match parse_fty (10 + List.length ts) ts with
               | Some (t, []) => Some t
               | _ => None
               end
  | None => None
  end.
Definition writes_type (s : string) (t : fty) : bool :=
  match read_type s with Some t' => same_type t' t | None => false end.

(** * Overload resolution

    The definitions with the same name differ in which of their parameters are of type
    std::function; exactly the arguments that are lambda expressions suit such parameters.
    A call is resolved if exactly one definition is suitable.  (A simplification: the types
    of the other arguments are not taken into account.) *)

Definition is_function (t : fty) : bool := match t with FFunction _ => true | _ => false end.
Definition shape_text (l : list bool) : string :=
  concat_strings (map (fun b : bool => if b then "f" else "v") l).
Definition symbol (shape : list bool) (name : string) : string :=
  shape_text shape ++ "/" ++ name.
Definition symbol_of (d : fdef) : string :=
  symbol (map (fun p => is_function (fst p)) (fd_params d)) (fd_name d).
Definition resolved (ds : list fdef) (s : string) : option fdef :=
  match filter (fun d => String.eqb (symbol_of d) s) ds with
  | [d] => Some d
  | _ => None
  end.
(* The function that a call has been resolved to; only the name matters. *)
Definition called (s : string) : mfun :=
  {| mf_result := ""; mf_name := s; mf_params := []; mf_access := (AVal, AVal);
     mf_fast := false; mf_orig := RArg1; mf_lines := []; mf_track := None; mf_close := "" |}.

Section TextLang.
Variable L : lang.
Variable R : runtime.
Variable c : ctx.
Variable ds : list fdef.

Definition wrong : operand L := (false, N KWrong []).
Definition is_lambda (a : tm L) : bool := match a with N (KLambda _) _ => true | _ => false end.

(** * Calls *)

(* An argument, given the type of the parameter.  The lambda expression must return what the
   std::function does. *)
Definition given (t : fty) (a : tm L) : tm L :=
  match t with
  | FFunction r =>
      match a with
      | N (KLambda s) [b] =>
          if writes_type s r then
            match way r with
            | Some (ByValue, t) => N (KLambda s) [N (KAt t) [b]]
            | Some (ByReference, _) => N (KLambda s) [N KLv [b]]
            | _ => N KWrong []
            end
          else N KWrong []
      | _ => N KWrong []
      end
  | _ =>
      match way t with
      | Some (ByValue, t) => N (KAt t) [a]
      | Some (ByReference, _) => N KLv [a]
      | Some (ByPointer, _) => a
      | None => N KWrong []
      end
  end.
(* The last parameter is the id. *)
Fixpoint given_all (params : list (fty * string)) (args : list (tm L)) : list (tm L) :=
  match params, args with
  | [(t, _)], [] => if same_type t (FName ["int"]) then [] else [N KWrong []]
  | (t, _) :: params, a :: args => given t a :: given_all params args
  | _, _ => [N KWrong []]
  end.

Fixpoint text_den (t : cst L) : tm L :=
  match t with
  | CVal _ v => RV v
  | CNode k ps _ =>
      let args := map (fun p => text_den (snd p)) ps in
      match k with
      | KM f id =>
          match resolved ds (symbol (map is_lambda args ++ [false])%list (mf_name f)) with
          | Some d => N (KM (called (symbol_of d)) id) (given_all (fd_params d) args)
          | None => N KWrong []
          end
      | _ => N k args
      end
  | CExpr e sub => expr_term L c e RArg1 (text_den sub)
  | CBin b l _ _ r => binary_term L c b (RBin (b_op b)) (text_den l) (text_den r)
  | CUn u _ sub => unary_term L c u (written_unary (u_op u)) (text_den sub)
  | CStmt _ sub => text_den sub
  end.
Fixpoint text_body_of (p : list (string * cst L)) (f : string) : option (tm L) :=
  match p with
  | [] => None
  | (g, t) :: p => if String.eqb f g then Some (text_den t) else text_body_of p f
  end.

(** * Bodies *)

(* The parameters and what they are bound to *)
Definition bound (ps : list ((fty * string) * tm L)) (x : string) : option (fty * tm L) :=
  option_map (fun p => (fst (fst p), snd p)) (find (fun p => String.eqb x (snd (fst p))) ps).

Definition number_literal (e : cexpr) : option (val L) :=
  match e with
  | ENum n => Some (literal L (LInt (Z.of_N n)))
  | EReal n "0" => Some (literal L (LFloat (Z.of_N n)))
  | EUn "-" (ENum n) => Some (literal L (LInt (- Z.of_N n)))
  | EUn "-" (EReal n "0") => Some (literal L (LFloat (- Z.of_N n)))
  | EBool b => Some (literal L (LBool b))
  | _ => None
  end.

(* An expression: whether it is an l-value, and the term to be evaluated.  Parameters that
   are passed by value are only read, and the operator * is applied to parameters only
   (simplifications); a minus sign is part of the number that follows. *)
Fixpoint means (ps : list ((fty * string) * tm L)) (e : cexpr) : operand L :=
  match number_literal e with
  | Some v => (false, RV v)
  | None =>
  match e with
  | EVar x =>
      match bound ps x with
      | Some (FName _, RV v) => (false, RV v)
      | Some (FRef _, RL l) => (true, RL l)
      | _ => wrong
      end
  | ECall0 (EVar x) =>
      match bound ps x with
      | Some (FFunction (FName _), N (KLambda _) [b]) => (false, b)
      | Some (FFunction (FRef _), N (KLambda _) [b]) => (true, b)
      | _ => wrong
      end
  | EUn s a =>
      match FunSpec.prefix_operator s with
      | Some o =>
          if is_incdec o then (cpp c, N (KIncDec o) [lvalue (means ps a)])
          else (false, N (KUn o) [rvalue (means ps a)])
      | None =>
          match a with
          | EVar x =>
              match (if String.eqb s "*" then bound ps x else None) with
              | Some (FPtr _, RV v) => (true, N KDeref [RV v])
              | _ => wrong
              end
          | _ => wrong
          end
      end
  | EPost s a =>
      match FunSpec.postfix_operator s with
      | Some o => (false, N (KIncDec o) [lvalue (means ps a)])
      | None => wrong
      end
  | EBin s a b =>
      match FunSpec.infix_operator s with
      | Some ((LAnd | LOr) as o) =>
          (false, N (KLogic o) [rvalue (means ps a); rvalue (means ps b)])
      | Some o =>
          if FunSpec.assigns o then wrong
          else (false, N (KBin o) [rvalue (means ps a); rvalue (means ps b)])
      | None => wrong
      end
  | EAssign s a b =>
      match FunSpec.infix_operator s with
      | Some o =>
          if FunSpec.assigns o
          then (cpp c, N (KAssign o) [lvalue (means ps a); rvalue (means ps b)])
          else wrong
      | None => wrong
      end
  | _ => wrong
  end
  end.

(* Ids, given that of the call *)
Fixpoint id_of (id : nat) (e : cexpr) : option nat :=
  match e with
  | EVar x => if String.eqb x "local_mutation_id" then Some id else None
  | ENum n => Some (N.to_nat n)
  | EBin s a b =>
      if String.eqb s "+" then
        match id_of id a, id_of id b with Some x, Some y => Some (x + y) | _, _ => None end
      else None
  | _ => None
  end.
Definition condition (id : nat) (d : rt_state R) (e : cexpr)
  : option (rt_state R * bool) :=
  match e with
  | EUn s (EVar x) =>
      if String.eqb s "!" && String.eqb x "__dredd_some_mutation_enabled"
      then Some (d, negb (rt_flag R id d)) else None
  | ECall1 (EVar f) a =>
      if String.eqb f "__dredd_enabled_mutation" then
        match id_of id a with Some k => rt_query R k d | None => None end
      else None
  | _ => None
  end.

(* A statement: None if the behaviour is undefined, otherwise the state of the runtime and
   what is returned, if anything is *)
Fixpoint execute (id : nat) (s : cstmt) (d : rt_state R)
  : option (rt_state R * option cexpr) :=
  match s with
  | CSkip => Some (d, None)
  | CSeq a b =>
      match execute id a d with
      | Some (d, None) => execute id b d
      | x => x
      end
  | CIf e a =>
      match condition id d e with
      | Some (d, true) => execute id a d
      | Some (d, false) => Some (d, None)
      | None => None
      end
  | CReturn (Some e) => Some (d, Some e)
  | CText.CExpr (ECall2 (EVar f) a b) =>
      if String.eqb f "__dredd_record_covered_mutants" then
        match id_of id a, id_of id b with
        | Some i, Some n =>
            match rt_record R i n d with Some d => Some (d, None) | None => None end
        | _, _ => None
        end
      else None
  | _ => None
  end.

Definition gives_back (t : fty) (x : operand L) : tm L :=
  match way t with
  | Some (ByValue, t) => N (KAt t) [rvalue x]
  | Some (ByReference, _) => lvalue x
  | _ => N KWrong []
  end.

Definition call_text (f : fdef) (id : nat) (args : list (tm L)) (d : rt_state R)
  : option (rt_state R * tm L) :=
  match execute id (fd_body f) d with
  | Some (d, Some e) =>
      Some (d, gives_back (fd_result f) (means (combine (fd_params f) args) e))
  | _ => None
  end.

(** * Evaluation, as in Lang.v *)

Variable bodies : string -> option (tm L).
Variable cpp17 : bool.

Definition text_head (e : env L) (m : mem L) (d : rt_state R) (k : kind L) (args : list (tm L))
  : outcome L R :=
  match k with
  | KM f id =>
      match resolved ds (mf_name f) with
      | Some g => match call_text g id args d with
                  | Some (d, t) => Some (m, d, t)
                  | None => None
                  end
      | None => None
      end
  | _ => head L R c bodies e m d k args
  end.

Inductive text_step (e : env L) (m : mem L) (d : rt_state R) : tm L -> outcome L R -> Prop :=
| text_step_head k args :
    final (N k args) = false ->
    (forall i a, nth_error args i = Some a -> evaluated k i = true -> final a = true) ->
    text_step e m d (N k args) (text_head e m d k args)
| text_step_operand k pre a post o :
    evaluated k (List.length pre) = true -> its_turn cpp17 k pre post = true ->
    existsb active pre = false -> existsb active post = false ->
    text_step (child_env k e) m d a o ->
    text_step e m d (N k (pre ++ a :: post)%list)
      (put L R o (fun a => N k (pre ++ a :: post)%list)).
Inductive text_steps (e : env L)
  : mem L * rt_state R * tm L -> mem L * rt_state R * tm L -> Prop :=
| text_steps_refl x : text_steps e x x
| text_steps_more m d t x y :
    text_step e m d t (Some x) -> text_steps e x y -> text_steps e (m, d, t) y.
CoInductive text_diverges (e : env L) : mem L -> rt_state R -> tm L -> Prop :=
| text_diverges_step m d t m' d' t' :
    text_step e m d t (Some (m', d', t')) -> text_diverges e m' d' t' ->
    text_diverges e m d t.
End TextLang.

Arguments is_lambda {L}. Arguments wrong {L}.

(** * Runtimes *)

(* The flag, which is a variable of the thread *)
Definition flag_of (st : list (string * cval)) : bool :=
  match find (fun x => String.eqb (fst x) "__dredd_some_mutation_enabled") st with
  | Some (_, VBool b) => b
  | Some (_, VInt z) => negb (Z.eqb z 0)
  | _ => false
  end.
(* Queries run the prelude that was read, in a process whose environment has the value v for
   DREDD_ENABLED_MUTATION.  An exception is not distinguished from undefined behaviour. *)
Definition text_selecting (items : list item) (fuel : nat) (v : option string) : runtime :=
  {| rt_state := strtok_state * list (string * cval);
     rt_flag := fun _ s => flag_of (snd s);
     rt_query := fun id s =>
       match interpret (libc v 0) (fst s)
               (CRun.call items fuel "__dredd_enabled_mutation" [VInt (Z.of_nat id)] (snd s))
       with
       | (w, Done (st, Some (VBool b))) => Some ((w, st), b)
       | _ => None
       end;
     rt_record := fun _ _ _ => None |}.
(* Recording does, in a coverage build; the array and the file are part of the
   surroundings. *)
Definition text_recording (items : list item) (fuel : nat) : runtime :=
  {| rt_state := disk;
     rt_flag := fun _ _ => true;
     rt_query := fun _ _ => None;
     rt_record := fun id n s =>
       match interpret disk_answers s
               (CRun.call items fuel "__dredd_record_covered_mutants"
                  [VInt (Z.of_nat id); VInt (Z.of_nat n)] [])
       with
       | (s, Done ([], Some VVoid)) => Some s
       | _ => None
       end |}.

(** * Behaviour *)

(* As in SimSpec.v: what the program read from the text can do, the program with bodies bs
   and without runtime can do. *)
Record text_behaves_like (L : lang) (c : ctx) (cpp17 : bool) (ds : list fdef) (R : runtime)
  (d : rt_state R) (bt : string -> option (tm L)) (t : tm L)
  (bs : string -> option (tm L)) (s : tm L) : Prop := {
  text_results : forall e m m' d' r,
    text_steps L R c ds bt cpp17 e (m, d, t) (m', d', r) -> final r = true ->
    finishes L no_runtime c bs cpp17 e m tt s m' r;
  text_undefined : forall e m m' d' t',
    text_steps L R c ds bt cpp17 e (m, d, t) (m', d', t') ->
    text_step L R c ds bt cpp17 e m' d' t' None ->
    undefined L no_runtime c bs cpp17 e m tt s;
  text_memories : forall e m m' d' t',
    text_steps L R c ds bt cpp17 e (m, d, t) (m', d', t') ->
    reaches L no_runtime c bs cpp17 e m tt s m';
  text_divergence : forall e m, text_diverges L R c ds bt cpp17 e m d t ->
    diverges L no_runtime c bs cpp17 e m tt s
}.
