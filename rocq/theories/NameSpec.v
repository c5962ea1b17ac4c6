(* Which names a text may mention (C69): those of its surroundings, of the headers that it
   includes, and those that it has declared before. *)
From Coq Require Import String Ascii List NArith Bool.
From Verif Require Import Base Clang Gen Mutation MutTree TreeSpec Run CText FunText.
Import ListNotations.
Local Open Scope string_scope.

Definition known (names : list string) (x : string) : bool := existsb (String.eqb x) names.

(** * Headers

    Lines that begin with #, and what the preprocessor does with them; defined tells which
    names the compiler has as macros.  Simplification: the condition of an elif is a name that
    is true exactly if it is defined; no comments or continued lines. *)

Inductive place_in_line := LineStart | InDirectiveLine (s : string) | InOtherLine.
Record directives := { found : list string (* last first *); place : place_in_line }.
Definition line_char (r : directives) (c : ascii) : directives :=
  match place r with
  | LineStart =>
      if Ascii.eqb c "010" then r
      else if Ascii.eqb c "#" then {| found := found r; place := InDirectiveLine "" |}
      else {| found := found r; place := InOtherLine |}
  | InDirectiveLine s =>
      if Ascii.eqb c "010" then {| found := s :: found r; place := LineStart |}
      else {| found := found r; place := InDirectiveLine (snoc s c) |}
  | InOtherLine =>
      if Ascii.eqb c "010" then {| found := found r; place := LineStart |} else r
  end.
Fixpoint lines_from (r : directives) (s : string) : directives :=
  match s with
  | EmptyString => r
  | String c s => lines_from (line_char r c) s
  end.
Definition directives_of (s : string) : list string :=
  rev (found (lines_from {| found := []; place := LineStart |} s)).

Fixpoint until_space (s : string) : string * string :=
  match s with
  | EmptyString => ("", "")
  | String c s =>
      if Ascii.eqb c " " then ("", s)
      else let (a, b) := until_space s in (String c a, b)
  end.

(* C11 6.10.1; a condition that is being read: whether its current part is compiled, and
   whether one part has been *)
Record preprocessor := {
  included : list string;
  macros : list string;
  conditions : list (bool * bool)
}.
Definition compiled (p : preprocessor) : bool := forallb fst (conditions p).
Definition with_conditions (p : preprocessor) (l : list (bool * bool)) : preprocessor :=
  {| included := included p; macros := macros p; conditions := l |}.
Definition directive (defined : string -> bool) (p : preprocessor) (d : string)
  : preprocessor :=
  let (w, r) := until_space d in
  if String.eqb w "include" then
    if compiled p
    then {| included := r :: included p; macros := macros p; conditions := conditions p |}
    else p
  else if String.eqb w "define" then
    if compiled p
    then {| included := included p; macros := fst (until_space r) :: macros p;
            conditions := conditions p |}
    else p
  else if String.eqb w "ifdef" then
    with_conditions p ((defined r, defined r) :: conditions p)
  else
    match conditions p with
    | (_, t) :: l =>
        if String.eqb w "elif" then
          with_conditions p ((negb t && defined r, t || defined r) :: l)
        else if String.eqb w "else" then with_conditions p ((negb t, true) :: l)
        else if String.eqb w "endif" then with_conditions p l
        else p
    | [] => p
    end.
Definition preprocessed (defined : string -> bool) (s : string) : preprocessor :=
  fold_left (directive defined) (directives_of s)
    {| included := []; macros := []; conditions := [] |}.

(* What headers are sure to declare, as far as it matters: C11 clause 7 and C++17 [headers].
   The headers of C++ are only sure to declare names in namespace std ([headers]p4);
   std::ios_base is a base class of std::ofstream. *)
Definition c_header (h : string) : list string :=
  match h with
  | "<inttypes.h>" | "<stdint.h>" => ["uint64_t"; "int64_t"; "uint32_t"; "int32_t"]
  | "<stdatomic.h>" => ["atomic_bool"; "atomic_exchange"; "atomic_load"; "atomic_store"]
  | "<stdbool.h>" => ["bool"; "true"; "false"]
  | "<stddef.h>" => ["size_t"; "NULL"]
  | "<stdio.h>" => ["FILE"; "fopen"; "fprintf"; "fclose"; "fputs"; "printf"; "size_t"; "NULL"]
  | "<stdlib.h>" => ["getenv"; "malloc"; "free"; "atoi"; "strtol"; "exit"; "size_t"; "NULL"]
  | "<string.h>" => ["strlen"; "strcpy"; "strtok"; "strcmp"; "memcpy"; "size_t"; "NULL"]
  | "<threads.h>" => ["thread_local"; "mtx_lock"; "thrd_create"]
  | _ => []
  end.
Definition cpp_header (h : string) : list string :=
  match h with
  | "<atomic>" => ["std::atomic"]
  | "<cinttypes>" | "<cstdint>" => ["std::uint64_t"; "std::int64_t"]
  | "<cstddef>" => ["std::size_t"; "std::nullptr_t"]
  | "<cstdlib>" => ["std::getenv"; "std::malloc"; "std::free"; "std::atoi"; "std::size_t"]
  | "<fstream>" => ["std::ofstream"; "std::ifstream"; "std::ios_base::app"]
  | "<functional>" => ["std::function"]
  | "<sstream>" => ["std::stringstream"]
  | "<string>" => ["std::string"; "std::string::npos"; "std::stoi"]
  | _ => c_header h
  end.
Definition provided (cpp : bool) (defined : string -> bool) (s : string) : list string :=
  let p := preprocessed defined s in
  (flat_map (if cpp then cpp_header else c_header) (included p) ++ macros p)%list.

(** * Scopes

    stmt_scope gives the names that are declared afterwards, if every name was when it was
    mentioned.  Names of members are not considered.  In C++ bool, true, false, nullptr and
    thread_local are keywords. *)

Fixpoint type_known (cpp : bool) (names : list string) (t : cty) : bool :=
  match t with
  | CBool => cpp || known names "bool"
  | CInt | CChar | CVoid => true
  | CU64 => known names "uint64_t"
  | CSize => known names "size_t"
  | CString => known names "std::string"
  | CStream => known names "std::ofstream"
  | CFile => known names "FILE"
  | CAtomicBool => known names (if cpp then "std::atomic" else "atomic_bool")
  | CPtr t => type_known cpp names t
  end.
Fixpoint expr_known (cpp : bool) (names : list string) (e : cexpr) : bool :=
  match e with
  | EVar x => known names x
  | ENum _ | EReal _ _ | EText _ => true
  | EBool b => cpp || known names (if b then "true" else "false")
  | ENull => cpp || known names "NULL"
  | EBin _ a b | EAssign _ a b | EIndex a b | ECall1 a b =>
      expr_known cpp names a && expr_known cpp names b
  | ECond a b c | ECall2 a b c =>
      expr_known cpp names a && expr_known cpp names b && expr_known cpp names c
  | ECall3 a b c d =>
      expr_known cpp names a && expr_known cpp names b && expr_known cpp names c
      && expr_known cpp names d
  | EUn _ a | EPost _ a | EMember a _ | ECall0 a => expr_known cpp names a
  | ECast t a => type_known cpp names t && expr_known cpp names a
  end.
Definition opt_known (cpp : bool) (names : list string) (e : option cexpr) : bool :=
  match e with Some e => expr_known cpp names e | None => true end.
Definition decl_known (cpp : bool) (names : list string) (d : decl) : bool :=
  (negb (d_thread d) || cpp || known names "thread_local")
  && type_known cpp names (d_ty d) && opt_known cpp names (d_size d)
  && opt_known cpp names (d_init d).
Fixpoint stmt_scope (cpp : bool) (names : list string) (s : cstmt) : option (list string) :=
  match s with
  | CSkip | CBreak => Some names
  | CSeq a b =>
      match stmt_scope cpp names a with
      | Some names => stmt_scope cpp names b
      | None => None
      end
  | CBlock s => option_map (fun _ => names) (stmt_scope cpp names s)
  | CDecl d => if decl_known cpp names d then Some (d_name d :: names) else None
  | CExpr e => if expr_known cpp names e then Some names else None
  | CIf e s | CWhile e s =>
      if expr_known cpp names e
      then option_map (fun _ => names) (stmt_scope cpp names s) else None
  | CFor i e f s =>
      match stmt_scope cpp names i with
      | Some names' =>
          if expr_known cpp names' e && expr_known cpp names' f
          then option_map (fun _ => names) (stmt_scope cpp names' s) else None
      | None => None
      end
  | CReturn e => if opt_known cpp names e then Some names else None
  end.
Definition in_scope (cpp : bool) (names : list string) (s : cstmt) : bool :=
  match stmt_scope cpp names s with Some _ => true | None => false end.

Definition item_name (i : item) : string :=
  match i with IVar d => d_name d | IFun f => f_name f end.
Definition item_known (cpp : bool) (names : list string) (i : item) : bool :=
  match i with
  | IVar d => decl_known cpp names d
  | IFun f =>
      type_known cpp names (f_ty f)
      && forallb (fun p => type_known cpp names (fst p)) (f_params f)
      && in_scope cpp (map snd (f_params f) ++ f_name f :: names) (f_body f)
  end.
Fixpoint items_known (cpp : bool) (names : list string) (l : list item) : bool :=
  match l with
  | [] => true
  | i :: l => item_known cpp names i && items_known cpp (item_name i :: names) l
  end.

(* Functions on numbers; bool is no keyword in C, the other names of types are. *)
Fixpoint fty_known (cpp : bool) (names : list string) (t : fty) : bool :=
  match t with
  | FName ws => cpp || negb (known ws "bool") || known names "bool"
  | FConst t | FVolatile t | FPtr t => fty_known cpp names t
  | FRef t => cpp && fty_known cpp names t
  | FFunction t => known names "std::function" && fty_known cpp names t
  end.
Definition function_known (cpp : bool) (names : list string) (d : fdef) : bool :=
  fty_known cpp names (fd_result d)
  && forallb (fun p => fty_known cpp names (fst p)) (fd_params d)
  && in_scope cpp (map snd (fd_params d) ++ fd_name d :: names) (fd_body d).

(** * Words in a text *)

Fixpoint words_from (w : string) (s : string) : list string :=
  match s with
  | EmptyString => [w]
  | String c s => if word_char c then words_from (snoc w c) s else w :: words_from "" s
  end.
Definition words_in (s : string) : list string := words_from "" s.
(* The names that the tool reserves *)
Definition reserved (w : string) : bool := String.prefix "__dredd_" w.

Definition edit_text (e : edit) : string :=
  match e with InsertBefore _ s | InsertAfterToken _ s | ReplaceText _ _ s => s end.
Definition edit_offset (e : edit) : nat :=
  match e with InsertBefore n _ | InsertAfterToken n _ | ReplaceText n _ _ => n end.

(* Nothing is changed before the place of the prelude. *)
Definition nothing_before (o : options) (u : unit_info) : Prop :=
  (forall m first id e, In m (post (ui_tree u)) ->
     In e (a_edits (apply_mutation (ui_ctx u) o m first id)) ->
     ui_prelude_offset u <= edit_offset e) /\
  (forall e, In e (ui_rewrites u) -> ui_prelude_offset u <= edit_offset e).
