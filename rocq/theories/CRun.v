(* What a text in the fragment of C and C++ read by CText.v does when it runs, after the
   language standards; the fragment is the one in which the inserted code is written
   (mutate_ast_consumer.cc:253-473).  What a program asks of its surroundings is an event.
   Simplifications: text that pointers refer to contains no null character and is only
   changed through strcpy and strtok, malloc succeeds, size_t is unbounded with npos set
   apart, function-local static variables are known by their names. *)
From Coq Require Import String Ascii List NArith ZArith Bool.
From Verif Require Import Base Rewriter Prelude CText.
Import ListNotations.
Local Open Scope string_scope.

(** * Values and states *)

Inductive pointer :=
| PNull
| PText (s : string)          (* to a text that stays as it is *)
| PBlock (k : nat).           (* to the start of the k-th block obtained from malloc *)

Inductive cval :=
| VInt (z : Z)
| VBool (b : bool)
| VU64 (n : N)
| VSize (n : option nat)      (* size_t; None is std::string::npos *)
| VString (s : string)        (* std::string *)
| VPtr (p : pointer)          (* char* *)
| VFile (open : bool)         (* FILE*; false is the null pointer *)
| VStream (s : option bool)   (* std::ofstream: not opened, or whether this succeeded *)
| VArr (l : list cval)
| VAppend                     (* std::ios_base::app *)
| VVoid
| VUninit (t : cty).          (* not initialised *)

(* A block: its size and, if it holds one, the text in it *)
Record block := { b_size : nat; b_text : option string; b_freed : bool }.

Record cstate := {
  autos : list (string * cval);      (* automatic variables, innermost first *)
  statics : list (string * cval);    (* thread_local ones *)
  blocks : list block
}.

(** * Runs *)

Inductive event :=
| EvGetenv (name : string)
| EvStrtok (arg : option (nat * string)) (delimiters : string)
                               (* with the block and its text, or the null pointer *)
| EvFree (k : nat)
| EvExchange (array : string) (i : Z) (b : bool)  (* on an array of atomic booleans *)
| EvOpen (name : string)       (* for appending *)
| EvWrite (s : string)
| EvClose.

Inductive answer :=
| AText (s : option string)
| ABool (b : bool)
| ADone
| AUndefined.

Inductive run (A : Type) :=
| Done (a : A)
| Do (e : event) (k : answer -> run A)
| Wrong                        (* undefined behaviour *)
| Unknown.                     (* not in the fragment, or out of fuel *)
Arguments Done {A}. Arguments Do {A}. Arguments Wrong {A}. Arguments Unknown {A}.

Fixpoint bind {A B} (r : run A) (f : A -> run B) : run B :=
  match r with
  | Done a => f a
  | Do e k => Do e (fun a => bind (k a) f)
  | Wrong => Wrong
  | Unknown => Unknown
  end.

(** * Conversions and operators *)

Definition modulus : N := 2 ^ 64.

Definition convert (t : cty) (v : cval) : run cval :=
  match t, v with
  | CBool, VBool _ => Done v
  | CBool, VInt z => Done (VBool (negb (Z.eqb z 0)))
  | CBool, VU64 n => Done (VBool (negb (N.eqb n 0)))
  | CBool, VPtr p => Done (VBool (match p with PNull => false | _ => true end))
  | CBool, VFile b => Done (VBool b)
  | CInt, VInt _ => Done v
  | CInt, VBool b => Done (VInt (if b then 1 else 0)%Z)
  | CU64, VU64 _ => Done v
  | CU64, VInt z => Done (VU64 (Z.to_N (z mod Z.of_N modulus)))
  | CU64, VBool b => Done (VU64 (if b then 1 else 0)%N)
  | CSize, VSize _ => Done v
  | CString, VString _ => Done v
  | CString, VPtr (PText s) => Done (VString s)
  | CString, VPtr PNull => Wrong
  | CPtr CChar, VPtr _ => Done v
  | CPtr CFile, VFile _ => Done v
  | _, VUninit _ => Wrong
  | _, _ => Unknown
  end.

(* The type of a variable that holds v *)
Definition type_of (v : cval) : option cty :=
  match v with
  | VInt _ => Some CInt | VBool _ => Some CBool | VU64 _ => Some CU64 | VSize _ => Some CSize
  | VString _ => Some CString | VPtr _ => Some (CPtr CChar) | VFile _ => Some (CPtr CFile)
  | VUninit t => Some t
  | _ => None
  end.

Definition truth (v : cval) : run bool :=
  bind (convert CBool v) (fun w => match w with VBool b => Done b | _ => Unknown end).

Definition int_result (z : Z) : run cval := if fits_int z then Done (VInt z) else Wrong.

Definition int_operator (o : string) (x y : Z) : run cval :=
  match o with
  | "+" => int_result (x + y)
  | "-" => int_result (x - y)
  | "*" => int_result (x * y)
  | "/" => if Z.eqb y 0 then Wrong else int_result (Z.quot x y)
  | "%" => if Z.eqb y 0 then Wrong
           else if fits_int (Z.quot x y) then int_result (Z.rem x y) else Wrong
  | "<<" => if (0 <=? y)%Z && (y <? 32)%Z && (0 <=? x)%Z then int_result (x * 2 ^ y) else Wrong
  | "==" => Done (VBool (Z.eqb x y))
  | "!=" => Done (VBool (negb (Z.eqb x y)))
  | "<" => Done (VBool (Z.ltb x y))
  | ">" => Done (VBool (Z.ltb y x))
  | "<=" => Done (VBool (Z.leb x y))
  | ">=" => Done (VBool (Z.leb y x))
  | _ => Unknown
  end.

Definition u64_operator (o : string) (x y : N) : run cval :=
  match o with
  | "&" => Done (VU64 (N.land x y))
  | "|" => Done (VU64 (N.lor x y))
  | "^" => Done (VU64 (N.lxor x y))
  | "+" => Done (VU64 ((x + y) mod modulus))
  | "==" => Done (VBool (N.eqb x y))
  | "!=" => Done (VBool (negb (N.eqb x y)))
  | _ => Unknown
  end.

Definition is_null (p : pointer) : bool := match p with PNull => true | _ => false end.

Definition operator (o : string) (x y : cval) : run cval :=
  match x, y with
  | VInt a, VInt b => int_operator o a b
  | VBool a, VInt b => int_operator o (if a then 1 else 0) b
  | VInt a, VBool b => int_operator o a (if b then 1 else 0)
  | VU64 a, VInt b =>
      if String.eqb o "<<" then
        if (0 <=? b)%Z && (b <? 64)%Z
        then Done (VU64 (N.shiftl a (Z.to_N b) mod modulus)) else Wrong
      else u64_operator o a (Z.to_N (b mod Z.of_N modulus))
  | VInt a, VU64 b => u64_operator o (Z.to_N (a mod Z.of_N modulus)) b
  | VU64 a, VU64 b => u64_operator o a b
  | VSize a, VSize b =>
      let same := match a, b with
                  | Some a, Some b => Nat.eqb a b
                  | None, None => true
                  | _, _ => false
                  end in
      match o with
      | "==" => Done (VBool same)
      | "!=" => Done (VBool (negb same))
      | _ => Unknown
      end
  | VSize (Some a), VInt b =>
      if String.eqb o "+" && (0 <=? b)%Z then Done (VSize (Some (a + Z.to_nat b))) else Unknown
  | VPtr a, VPtr b =>
      if is_null a || is_null b then
        match o with
        | "==" => Done (VBool (is_null a && is_null b))
        | "!=" => Done (VBool (negb (is_null a && is_null b)))
        | _ => Unknown
        end
      else Unknown
  | VStream s, w =>
      (* output; nothing is written after a failure, or before the stream is opened *)
      if String.eqb o "<<" then
        match (match w with
               | VInt z => Some (string_of_Z z)
               | VPtr (PText t) => Some t
               | _ => None
               end) with
        | Some t =>
            match s with
            | Some true => Do (EvWrite t) (fun a => match a with
                                                    | ADone => Done x
                                                    | AUndefined => Wrong
                                                    | _ => Unknown
                                                    end)
            | _ => Done x
            end
        | None => Unknown
        end
      else Unknown
  | VUninit _, _ => Wrong
  | _, VUninit _ => Wrong
  | _, _ => Unknown
  end.

(** * Variables *)

Fixpoint lookup (x : string) (l : list (string * cval)) : option cval :=
  match l with
  | [] => None
  | (y, v) :: l => if String.eqb x y then Some v else lookup x l
  end.
Fixpoint replace (x : string) (v : cval) (l : list (string * cval)) : list (string * cval) :=
  match l with
  | [] => []
  | (y, w) :: l => if String.eqb x y then (y, v) :: l else (y, w) :: replace x v l
  end.
Definition get (x : string) (s : cstate) : option cval :=
  match lookup x (autos s) with
  | Some v => Some v
  | None => lookup x (statics s)
  end.
Definition set (x : string) (v : cval) (s : cstate) : cstate :=
  match lookup x (autos s) with
  | Some _ => {| autos := replace x v (autos s); statics := statics s; blocks := blocks s |}
  | None => {| autos := autos s; statics := replace x v (statics s); blocks := blocks s |}
  end.
Definition push (x : string) (v : cval) (s : cstate) : cstate :=
  {| autos := (x, v) :: autos s; statics := statics s; blocks := blocks s |}.
(* Variables declared since there were n are gone. *)
Definition leave (n : nat) (s : cstate) : cstate :=
  {| autos := skipn (List.length (autos s) - n) (autos s); statics := statics s;
     blocks := blocks s |}.

(** * Library functions *)

(* The result of an expression: a value or an exception *)
Inductive eresult := Val (v : cval) | Exc.

Definition text_answer (s : cstate) (a : answer) : run (cstate * eresult) :=
  match a with
  | AText None => Done (s, Val (VPtr PNull))
  | AText (Some t) => Done (s, Val (VPtr (PText t)))
  | AUndefined => Wrong
  | _ => Unknown
  end.
Definition bool_answer (s : cstate) (f : bool -> cval) (a : answer) : run (cstate * eresult) :=
  match a with
  | ABool b => Done (s, Val (f b))
  | AUndefined => Wrong
  | _ => Unknown
  end.
Definition done_answer (s : cstate) (a : answer) : run (cstate * eresult) :=
  match a with
  | ADone => Done (s, Val VVoid)
  | AUndefined => Wrong
  | _ => Unknown
  end.

Definition set_block (k : nat) (b : block) (s : cstate) : cstate :=
  {| autos := autos s; statics := statics s; blocks := update_nth k (fun _ => b) (blocks s) |}.

Definition call_function (f : string) (args : list cval) (s : cstate)
  : run (cstate * eresult) :=
  match f, args with
  | "std::getenv", [VPtr (PText n)] | "getenv", [VPtr (PText n)] =>
      Do (EvGetenv n) (text_answer s)
  | "std::stoi", [VString t] =>
      match stoi t with
      | PInt z => Done (s, Val (VInt z))
      | PThrow => Done (s, Exc)
      | PUndefined => Wrong
      end
  | "atoi", [VPtr (PText t)] =>
      match atoi t with
      | PInt z => Done (s, Val (VInt z))
      | PThrow => Done (s, Exc)
      | PUndefined => Wrong
      end
  | "atoi", [VPtr PNull] => Wrong
  | "strlen", [VPtr (PText t)] => Done (s, Val (VSize (Some (String.length t))))
  | "strlen", [VPtr PNull] => Wrong
  | "malloc", [VSize (Some n)] =>
      Done ({| autos := autos s; statics := statics s;
               blocks := blocks s ++ [{| b_size := n; b_text := None; b_freed := false |}] |},
            Val (VPtr (PBlock (List.length (blocks s)))))
  | "strcpy", [VPtr (PBlock k); VPtr (PText t)] =>
      match nth_error (blocks s) k with
      | Some b =>
          if b_freed b || Nat.leb (b_size b) (String.length t) then Wrong
          else Done (set_block k {| b_size := b_size b; b_text := Some t; b_freed := false |} s,
                     Val (VPtr (PBlock k)))
      | None => Unknown
      end
  | "strtok", [VPtr (PBlock k); VPtr (PText d)] =>
      match nth_error (blocks s) k with
      | Some b =>
          if b_freed b then Wrong
          else match b_text b with
               | Some t =>
                   Do (EvStrtok (Some (k, t)) d)
                     (text_answer
                        (set_block k {| b_size := b_size b; b_text := None; b_freed := false |}
                           s))
               | None => Wrong
               end
      | None => Unknown
      end
  | "strtok", [VPtr PNull; VPtr (PText d)] => Do (EvStrtok None d) (text_answer s)
  | "free", [VPtr (PBlock k)] =>
      match nth_error (blocks s) k with
      | Some b =>
          if b_freed b then Wrong
          else Do (EvFree k)
                 (done_answer
                    (set_block k {| b_size := b_size b; b_text := None; b_freed := true |} s))
      | None => Unknown
      end
  | "fopen", [VPtr (PText n); VPtr (PText "a")] => Do (EvOpen n) (bool_answer s VFile)
  | "fprintf", [VFile true; VPtr (PText f); VInt z] =>
      if String.eqb f ("%d" ++ nl) then Do (EvWrite (string_of_Z z ++ nl)) (done_answer s)
      else Unknown
  | "fprintf", VFile false :: _ => Wrong
  | "fclose", [VFile true] => Do EvClose (done_answer s)
  | "fclose", [VFile false] => Wrong
  | _, _ => Unknown
  end.

(* A member function called on the object v: what the object is afterwards, and the result *)
Definition call_member (v : cval) (m : string) (args : list cval) : run (cval * cval) :=
  match v, m, args with
  | VString t, "find", [VPtr (PText p)] => Done (v, VSize (String.index 0 p t))
  | VString t, "substr", [VInt 0; VSize n] =>
      Done (v, VString (match n with
                        | Some n => String.substring 0 n t
                        | None => t
                        end))
  | VString t, "empty", [] => Done (v, VBool (match t with "" => true | _ => false end))
  | VString t, "erase", [VInt 0; VSize n] =>
      let t' := match n with
                | Some n => String.substring n (String.length t - n) t
                | None => ""
                end in
      Done (VString t', VString t')
  | VStream None, "open", [VPtr (PText n); VAppend] =>
      Do (EvOpen n) (fun a => match a with
                              | ABool b => Done (VStream (Some b), VVoid)
                              | AUndefined => Wrong
                              | _ => Unknown
                              end)
  | _, _, _ => Unknown
  end.

(** * Expressions *)

(* To go on with the value if there is no exception *)
Definition on_value (r : run (cstate * eresult)) (k : cval -> cstate -> run (cstate * eresult))
  : run (cstate * eresult) :=
  bind r (fun p => match p with
                   | (s, Val v) => k v s
                   | (s, Exc) => Done (s, Exc)
                   end).
Definition result (s : cstate) (r : run cval) : run (cstate * eresult) :=
  bind r (fun v => Done (s, Val v)).

(* An element of an array: a valid index only *)
Definition element (l : list cval) (i : cval) : run (nat * cval) :=
  match i with
  | VInt z =>
      if (z <? 0)%Z then Wrong
      else match nth_error l (Z.to_nat z) with
           | Some v => Done (Z.to_nat z, v)
           | None => Wrong
           end
  | _ => Unknown
  end.

Definition assign_variable (x : string) (v : cval) (s : cstate) : run (cstate * eresult) :=
  match get x s with
  | Some old =>
      match type_of old with
      | Some t => bind (convert t v) (fun w => Done (set x w s, Val w))
      | None => Unknown
      end
  | None => Unknown
  end.
Definition assign_element (x : string) (i v : cval) (o : option string) (s : cstate)
  : run (cstate * eresult) :=
  match get x s with
  | Some (VArr l) =>
      bind (element l i) (fun p =>
      let (k, old) := p in
      bind (match o with Some o => operator o old v | None => Done v end) (fun v =>
      match type_of old with
      | Some t => bind (convert t v) (fun w =>
                    Done (set x (VArr (update_nth k (fun _ => w) l)) s, Val w))
      | None => Unknown
      end))
  | _ => Unknown
  end.

Fixpoint eval (e : cexpr) (s : cstate) {struct e} : run (cstate * eresult) :=
  match e with
  | EVar "std::string::npos" => Done (s, Val (VSize None))
  | EVar "std::ios_base::app" => Done (s, Val VAppend)
  | EVar x => match get x s with
              | Some (VUninit _) => Wrong
              | Some v => Done (s, Val v)
              | None => Unknown
              end
  | ENum n => if fits_int (Z.of_N n) then Done (s, Val (VInt (Z.of_N n))) else Unknown
  | EReal _ _ => Unknown
  | EText t => Done (s, Val (VPtr (PText t)))
  | EBool b => Done (s, Val (VBool b))
  | ENull => Done (s, Val (VPtr PNull))
  | EBin "&&" l r =>
      on_value (eval l s) (fun v s => bind (truth v) (fun b =>
        if b then on_value (eval r s) (fun w s => result s (convert CBool w))
        else Done (s, Val (VBool false))))
  | EBin "||" l r =>
      on_value (eval l s) (fun v s => bind (truth v) (fun b =>
        if b then Done (s, Val (VBool true))
        else on_value (eval r s) (fun w s => result s (convert CBool w))))
  | EBin o l r =>
      on_value (eval l s) (fun v s =>
      on_value (eval r s) (fun w s => result s (operator o v w)))
  | ECond c t f =>
      on_value (eval c s) (fun v s => bind (truth v) (fun b =>
        if b then eval t s else eval f s))
  | EUn "!" a =>
      on_value (eval a s) (fun v s => bind (truth v) (fun b => Done (s, Val (VBool (negb b)))))
  | EUn _ _ => Unknown
  | EPost "++" (EVar x) =>
      match get x s with
      | Some (VInt z) =>
          if fits_int (z + 1) then Done (set x (VInt (z + 1)) s, Val (VInt z)) else Wrong
      | _ => Unknown
      end
  | EPost _ _ => Unknown
  | ECast t a => on_value (eval a s) (fun v s => result s (convert t v))
  | EIndex (EVar x) i =>
      match get x s with
      | Some (VArr l) =>
          on_value (eval i s) (fun v s => bind (element l v) (fun p => Done (s, Val (snd p))))
      | _ => Unknown
      end
  | EIndex _ _ => Unknown
  | EMember _ _ => Unknown
  | ECall0 (EMember (EVar x) m) =>
      match get x s with
      | Some v => bind (call_member v m []) (fun p => Done (set x (fst p) s, Val (snd p)))
      | None => Unknown
      end
  | ECall0 _ => Unknown
  | ECall1 (EVar f) a => on_value (eval a s) (fun v s => call_function f [v] s)
  | ECall1 (EMember (EVar x) m) a =>
      on_value (eval a s) (fun v s =>
      match get x s with
      | Some o => bind (call_member o m [v]) (fun p => Done (set x (fst p) s, Val (snd p)))
      | None => Unknown
      end)
  | ECall1 (EMember (EIndex (EVar x) i) "exchange") (EBool b) =>
      on_value (eval i s) (fun v s =>
      match v with
      | VInt z => Do (EvExchange x z b) (bool_answer s VBool)
      | _ => Unknown
      end)
  | ECall1 _ _ => Unknown
  | ECall2 (EVar "atomic_exchange") (EUn "&" (EIndex (EVar x) i)) b =>
      on_value (eval i s) (fun v s =>
      on_value (eval b s) (fun w s =>
      match v with
      | VInt z => bind (truth w) (fun b => Do (EvExchange x z b) (bool_answer s VBool))
      | _ => Unknown
      end))
  | ECall2 (EVar f) a b =>
      on_value (eval a s) (fun v s =>
      on_value (eval b s) (fun w s => call_function f [v; w] s))
  | ECall2 (EMember (EVar x) m) a b =>
      on_value (eval a s) (fun v s =>
      on_value (eval b s) (fun w s =>
      match get x s with
      | Some o => bind (call_member o m [v; w]) (fun p => Done (set x (fst p) s, Val (snd p)))
      | None => Unknown
      end))
  | ECall2 _ _ _ => Unknown
  | ECall3 (EVar f) a b c =>
      on_value (eval a s) (fun u s =>
      on_value (eval b s) (fun v s =>
      on_value (eval c s) (fun w s => call_function f [u; v; w] s)))
  | ECall3 _ _ _ _ => Unknown
  | EAssign "=" (EVar x) r => on_value (eval r s) (fun v s => assign_variable x v s)
  | EAssign "=" (EIndex (EVar x) i) r =>
      on_value (eval i s) (fun k s =>
      on_value (eval r s) (fun v s => assign_element x k v None s))
  | EAssign "|=" (EIndex (EVar x) i) r =>
      on_value (eval i s) (fun k s =>
      on_value (eval r s) (fun v s => assign_element x k v (Some "|") s))
  | EAssign _ _ _ => Unknown
  end.

(** * Statements *)

Inductive signal :=
| Next
| Broke
| Returned (v : cval)
| Threw.

Definition outcome_run := run (cstate * signal).

Definition then_ (r : run (cstate * eresult)) (k : cval -> cstate -> outcome_run)
  : outcome_run :=
  bind r (fun p => match p with
                   | (s, Val v) => k v s
                   | (s, Exc) => Done (s, Threw)
                   end).
Definition next (r : outcome_run) (k : cstate -> outcome_run) : outcome_run :=
  bind r (fun p => match p with
                   | (s, Next) => k s
                   | _ => Done p
                   end).

Fixpoint loop (fuel : nat) (c : cstate -> run (cstate * eresult))
  (body step : cstate -> outcome_run) (s : cstate) : outcome_run :=
  match fuel with
  | 0 => Unknown
  | S fuel =>
      then_ (c s) (fun v s => bind (truth v) (fun b =>
        if b then
          bind (body s) (fun p =>
          match p with
          | (s, Next) => next (step s) (loop fuel c body step)
          | (s, Broke) => Done (s, Next)
          | _ => Done p
          end)
        else Done (s, Next)))
  end.

(* The value of a variable without initialiser *)
Definition default (t : cty) : cval :=
  match t with
  | CString => VString ""
  | CStream => VStream None
  | _ => VUninit t
  end.

Section Exec.
Variable fuel : nat.

Fixpoint exec (c : cstmt) (s : cstate) {struct c} : outcome_run :=
  match c with
  | CSkip => Done (s, Next)
  | CSeq a b => next (exec a s) (exec b)
  | CBlock a =>
      bind (exec a s) (fun p => Done (leave (List.length (autos s)) (fst p), snd p))
  | CDecl d =>
      if d_static d then Done (s, Next)
      else match d_size d, d_init d with
           | Some _, _ => Unknown
           | None, None => Done (push (d_name d) (default (d_ty d)) s, Next)
           | None, Some e =>
               then_ (eval e s) (fun v s =>
               bind (convert (d_ty d) v) (fun w => Done (push (d_name d) w s, Next)))
           end
  | CExpr e => then_ (eval e s) (fun _ s => Done (s, Next))
  | CIf e a => then_ (eval e s) (fun v s => bind (truth v) (fun b =>
                 if b then exec a s else Done (s, Next)))
  | CWhile e a => loop fuel (eval e) (exec a) (fun s => Done (s, Next)) s
  | CFor i e st a =>
      bind (next (exec i s)
              (loop fuel (eval e) (exec a)
                 (fun s => then_ (eval st s) (fun _ s => Done (s, Next)))))
        (fun p => Done (leave (List.length (autos s)) (fst p), snd p))
  | CBreak => Done (s, Broke)
  | CReturn None => Done (s, Returned VVoid)
  | CReturn (Some e) => then_ (eval e s) (fun v s => Done (s, Returned v))
  end.
End Exec.

(** * Programs *)

Fixpoint find_function (f : string) (l : list item) : option cfun :=
  match l with
  | [] => None
  | IFun g :: l => if String.eqb f (f_name g) then Some g else find_function f l
  | IVar _ :: l => find_function f l
  end.

Fixpoint bind_params (ps : list (cty * string)) (vs : list cval)
  : option (list (string * cval)) :=
  match ps, vs with
  | [], [] => Some []
  | (CInt, x) :: ps, VInt z :: vs => option_map (cons (x, VInt z)) (bind_params ps vs)
  | _, _ => None
  end.

(* A call of a function of the text, in a thread with the given static variables: how they
   are afterwards, and the value (None after an exception) *)
Definition call (p : list item) (fuel : nat) (f : string) (args : list cval)
  (st : list (string * cval)) : run (list (string * cval) * option cval) :=
  match find_function f p with
  | Some g =>
      match bind_params (f_params g) args with
      | Some l =>
          bind (exec fuel (f_body g) {| autos := l; statics := st; blocks := [] |}) (fun q =>
          match q with
          | (s, Returned v) =>
              match f_ty g with
              | CVoid => Done (statics s, Some VVoid)
              | t => bind (convert t v) (fun w => Done (statics s, Some w))
              end
          | (s, Next) =>
              match f_ty g with
              | CVoid => Done (statics s, Some VVoid)
              | _ => Wrong
              end
          | (s, Threw) => Done (statics s, None)
          | (_, Broke) => Unknown
          end)
      | None => Unknown
      end
  | None => Unknown
  end.

(** * Static variables when the program starts *)

Definition zero (t : cty) : option cval :=
  match t with
  | CBool => Some (VBool false)
  | CAtomicBool => Some (VBool false)
  | CInt => Some (VInt 0)
  | CU64 => Some (VU64 0)
  | _ => None
  end.
Definition constant (e : cexpr) : option cval :=
  match eval e {| autos := []; statics := []; blocks := [] |} with
  | Done (_, Val v) => Some v
  | _ => None
  end.
Definition initial_value (d : decl) : option cval :=
  match d_size d, d_init d with
  | None, None => zero (d_ty d)
  | None, Some e =>
      match constant e with
      | Some v => match convert (d_ty d) v with Done w => Some w | _ => None end
      | None => None
      end
  | Some n, None =>
      match constant n, zero (d_ty d) with
      | Some (VInt z), Some v => Some (VArr (repeat v (Z.to_nat z)))
      | _, _ => None
      end
  | Some _, Some _ => None
  end.

Fixpoint static_decls (c : cstmt) : list decl :=
  match c with
  | CSeq a b => static_decls a ++ static_decls b
  | CBlock a => static_decls a
  | CDecl d => if d_static d then [d] else []
  | CIf _ a | CWhile _ a => static_decls a
  | CFor i _ _ a => static_decls i ++ static_decls a
  | _ => []
  end.
Definition item_decls (i : item) : list decl :=
  match i with
  | IVar d => [d]
  | IFun f => static_decls (f_body f)
  end.
Fixpoint with_values (l : list decl) : option (list (string * cval)) :=
  match l with
  | [] => Some []
  | d :: l =>
      match initial_value d, with_values l with
      | Some v, Some r => Some ((d_name d, v) :: r)
      | _, _ => None
      end
  end.
(* Those that every thread has of its own, and those that the threads share *)
Definition own_statics (p : list item) : option (list (string * cval)) :=
  with_values (filter d_thread (flat_map item_decls p)).
Definition shared_statics (p : list item) : option (list (string * cval)) :=
  with_values (filter (fun d => negb (d_thread d)) (flat_map item_decls p)).

(** * Surroundings *)

(* To run with somebody who answers *)
Fixpoint interpret {A W} (answers : W -> event -> W * answer) (w : W) (r : run A)
  : W * run A :=
  match r with
  | Do e k => let (w', a) := answers w e in interpret answers w' (k a)
  | _ => (w, r)
  end.
