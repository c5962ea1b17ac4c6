(* A small concrete language and small programs in it, for examples and counterexamples
   about the behaviour of mutated programs. *)
From Coq Require Import String List ZArith Bool Lia.
From Verif Require Import Base Clang Gen GenExpr GenBinary GenUnary GenStmt Mutation GenSpec
  PreludeSpec Prelude Lang Cst Runtime SimSpec SimRel SimTop LangRun MutantSpec.
Import ListNotations.
Local Open Scope string_scope.

(* Integers without bounds, and pointers to cells. *)
Inductive tval := I (z : Z) | P (l : nat).

(* The cells of memory, and the output so far *)
Definition tmem : Type := list tval * list Z.

Definition tvars : list string := ["a"; "b"; "p"; "x"; "y"].
Fixpoint position (s : string) (l : list string) : option nat :=
  match l with
  | [] => None
  | x :: l => if String.eqb s x then Some 0 else option_map S (position s l)
  end.
Fixpoint set_nth (l : list tval) (n : nat) (v : tval) : option (list tval) :=
  match l, n with
  | [], _ => None
  | _ :: l, 0 => Some (v :: l)
  | x :: l, S n => option_map (cons x) (set_nth l n v)
  end.
Definition tstore (l : nat) (v : tval) (m : tmem) : option (tval * tmem) :=
  match set_nth (fst m) l v with Some cells => Some (v, (cells, snd m)) | None => None end.
Definition ttruth (v : tval) : bool := match v with I z => negb (Z.eqb z 0) | P _ => true end.
Definition tboolean (b : bool) : tval := I (if b then 1 else 0).
Definition tconv (t : ty) (v : tval) : tval :=
  match t with TBool => tboolean (ttruth v) | _ => v end.
Definition tunop (o : uop) (v : tval) : option tval :=
  match o, v with
  | LNot, _ => Some (tboolean (negb (ttruth v)))
  | Minus, I z => Some (I (- z))
  | Not, I z => Some (I (- z - 1))
  | Plus, I z => Some (I z)
  | _, _ => None
  end.
Definition tincdec (o : uop) (v : tval) : option tval :=
  match o, v with
  | PreInc, I z | PostInc, I z => Some (I (z + 1))
  | PreDec, I z | PostDec, I z => Some (I (z - 1))
  | _, _ => None
  end.
Definition tbinop (o : bop) (v w : tval) : option tval :=
  match v, w with
  | I a, I b =>
      match o with
      | Add => Some (I (a + b)) | Sub => Some (I (a - b)) | Mul => Some (I (a * b))
      | Div => if Z.eqb b 0 then None else Some (I (Z.quot a b))
      | Rem => if Z.eqb b 0 then None else Some (I (Z.rem a b))
      | EQ => Some (tboolean (Z.eqb a b)) | NE => Some (tboolean (negb (Z.eqb a b)))
      | LT => Some (tboolean (Z.ltb a b)) | LE => Some (tboolean (Z.leb a b))
      | GT => Some (tboolean (Z.ltb b a)) | GE => Some (tboolean (Z.leb b a))
      | _ => None
      end%Z
  | _, _ => None
  end.

(* next() increments x and returns the old value; redirect() makes p point to b and returns
   5; print(z) writes z. *)
Definition tlibrary (f : string) (args : list (tval + nat)) (m : tmem)
  : option (tval * tmem) :=
  match args with
  | [] =>
      if String.eqb f "next" then
        match nth_error (fst m) 3 with
        | Some (I z) => match tstore 3 (I (z + 1)) m with
                        | Some (_, m) => Some (I z, m)
                        | None => None
                        end
        | _ => None
        end
      else if String.eqb f "redirect" then
        match tstore 2 (P 1) m with Some (_, m) => Some (I 5, m) | None => None end
      else None
  | [inl (I z)] =>
      if String.eqb f "print" then Some (I 0, (fst m, (snd m ++ [z])%list)) else None
  | _ => None
  end.

Lemma tconv_idempotent t v : tconv t (tconv t v) = tconv t v.
Proof. destruct t; cbn; auto. destruct (ttruth v); reflexivity. Qed.
Lemma ttruth_boolean b : ttruth (tboolean b) = b.
Proof. destruct b; reflexivity. Qed.
Lemma ttruth_converted t b : ttruth (tconv t (tboolean b)) = b.
Proof. destruct t, b; reflexivity. Qed.

Definition toy : lang :=
  {| val := tval; loc := nat; mem := tmem; env := unit;
     lookup := fun _ x => position x tvars;
     load := fun l m => Some (nth l (fst m) (I 0), m);
     store := tstore; field := fun _ l => l;
     pointer := P; pointee := fun v => match v with P l => Some l | _ => None end;
     pointee_pointer := fun l => eq_refl;
     conv := tconv; conv_idempotent := tconv_idempotent;
     unop := tunop; incdec := tincdec; binop := tbinop; truth := ttruth; boolean := tboolean;
     literal := fun l => match l with LInt z => I z | LBool b => tboolean b | LFloat z => I z end;
     lnot_truth := fun v => eq_refl; truth_boolean := ttruth_boolean;
     truth_converted := ttruth_converted;
     truth_literal := fun t b => ttruth_converted t b;
     label_matches := fun z v => match v with I y => Z.eqb z y | _ => false end;
     void := I 0; enter := fun _ _ m => Some (tt, m); leave := fun _ m => m;
     library := tlibrary |}.

(* Facts about the nodes of the programs.  Offsets do not matter here. *)
Definition at_zero : range := {| r_begin := 0; r_end := 0 |}.
Definition value (t : ty) (effects : bool) (o : option bop) : expr :=
  {| e_ty := t; e_lvalue := false; e_volatile := false; e_const := false;
     e_bitfield := false; e_side_effects := effects; e_int := None; e_float := None;
     e_boolval := None; e_cxx11_constant := false; e_binop := o;
     e_logical_operand := false; e_cast_parent_lvalue := None; e_init_list_cast := None;
     e_preceded_by_ident := false; e_range := at_zero |}.
Definition place (t : ty) (effects : bool) : expr :=
  {| e_ty := t; e_lvalue := true; e_volatile := false; e_const := false;
     e_bitfield := false; e_side_effects := effects; e_int := None; e_float := None;
     e_boolval := None; e_cxx11_constant := false; e_binop := None;
     e_logical_operand := false; e_cast_parent_lvalue := Some false; e_init_list_cast := None;
     e_preceded_by_ident := false; e_range := at_zero |}.
Definition binary_of (o : bop) (t : ty) (l r : expr) : binary :=
  {| b_op := o; b_ty := t; b_lhs := l; b_rhs := r; b_op_offset := 0; b_range := at_zero |}.
Definition some_stmt : stmt_site :=
  {| s_range := at_zero; s_ext_comment := false; s_ext_semi := true; s_next_hash := false |}.

Definition c_ctx : ctx :=
  {| cpp := false; prints_bool := false; char_signed := true; wchar_signed := true |}.
Definition cpp_ctx : ctx :=
  {| cpp := true; prints_bool := true; char_signed := true; wchar_signed := true |}.
Definition optimised : options := {| optimise := true; track := false |}.
Definition unoptimised : options := {| optimise := false; track := false |}.
Definition coverage : options := {| optimise := true; track := true |}.

Definition var (x : string) : cst toy := CNode (KVar x) [] x.
(* the r-value of an int variable, with its two sites *)
Definition use (x : string) : cst toy :=
  CExpr (value TInt false None) (CExpr (place TInt false) (var x)).
(* the same without the l-value site *)
Definition read (x : string) : cst toy :=
  CExpr (value TInt false None) (CNode KLoad [("", var x)] "").
Definition call_of (f : string) : cst toy :=
  CExpr (value TInt true None) (CNode (KCall f) [] (f ++ "()")).
Definition statement (e : cst toy) : cst toy :=
  CStmt some_stmt (CNode KExpr [("", e)] ";").
Definition assign (x : string) (rhs : expr) (e : cst toy) : cst toy :=
  CBin (binary_of Assign TInt (place TInt false) rhs) (var x) " " " " e.

(* *p = redirect(); *)
Definition through_pointer : list (string * cst toy) :=
  [("f", statement
      (CBin (binary_of Assign TInt (place TInt false) (value TInt true None))
         (CNode KDeref [("*", CNode KLoad [("", var "p")] "")] "") " " " "
         (call_of "redirect")))].

(* a = next(); *)
Definition calls_next : list (string * cst toy) :=
  [("f", statement (assign "a" (value TInt true None) (call_of "next")))].

(* a = x / y; *)
Definition divides : list (string * cst toy) :=
  [("f", statement (assign "a" (value TInt false (Some Div))
      (CExpr (value TInt false (Some Div))
         (CBin (binary_of Div TInt (value TInt false None) (value TInt false None))
            (read "x") " " " " (read "y")))))].

(* a = x && y;  in C: the type is int *)
Definition conjunction : list (string * cst toy) :=
  [("f", statement (assign "a" (value TInt false (Some LAnd))
      (CExpr (value TInt false (Some LAnd))
         (CBin (binary_of LAnd TInt (value TInt false None) (value TInt false None))
            (read "x") " " " " (read "y")))))].

(* a = x && next();  in C *)
Definition conjunction_call : list (string * cst toy) :=
  [("f", statement (assign "a" (value TInt true (Some LAnd))
      (CExpr (value TInt true (Some LAnd))
         (CBin (binary_of LAnd TInt (value TInt false None) (value TInt true None))
            (read "b") " " " " (call_of "next")))))].

(* while (x > y) { print(x); x--; if (x == a) break; } *)
Definition loop : list (string * cst toy) :=
  [("f", CStmt some_stmt (CNode KWhile
      [("while (", CExpr (value TBool false (Some GT))
          (CBin (binary_of GT TBool (value TInt false None) (value TInt false None))
             (use "x") " " " " (use "y")));
       (") { ", CNode KSeq
          [("", statement (CExpr (value TInt true None)
                  (CNode (KCall "print") [("print(", use "x")] ")")));
           (" ", CNode KSeq
             [("", statement (CUn {| u_op := PostDec; u_ty := TInt; u_lvalue := false;
                     u_volatile := false; u_const := false; u_side_effects := true;
                     u_sub := place TInt false; u_op_offset := 0; u_range := at_zero |} ""
                     (var "x")));
              (" ", CStmt some_stmt (CNode KIf
                [("if (", CExpr (value TBool false (Some EQ))
                    (CBin (binary_of EQ TBool (value TInt false None) (value TInt false None))
                       (read "x") " " " " (read "a")));
                 (") ", CNode KBreak [] "break;"); ("", CNode KSkip [] "")] ""))] "")] "")]
      " }"))].

(* bool b = 2 != 1;  a declaration, which is not removable *)
Definition constant (z : Z) : expr :=
  {| e_ty := TInt; e_lvalue := false; e_volatile := false; e_const := false;
     e_bitfield := false; e_side_effects := false; e_int := Some z; e_float := None;
     e_boolval := None; e_cxx11_constant := true; e_binop := None;
     e_logical_operand := false; e_cast_parent_lvalue := None; e_init_list_cast := None;
     e_preceded_by_ident := false; e_range := at_zero |}.
Definition constant_ne : expr :=
  {| e_ty := TBool; e_lvalue := false; e_volatile := false; e_const := false;
     e_bitfield := false; e_side_effects := false; e_int := Some 1%Z; e_float := None;
     e_boolval := Some true; e_cxx11_constant := true; e_binop := Some NE;
     e_logical_operand := false; e_cast_parent_lvalue := None; e_init_list_cast := None;
     e_preceded_by_ident := false; e_range := at_zero |}.
Definition no_mutants_left : list (string * cst toy) :=
  [("f", CNode KExpr [("", CNode (KAssign Assign) [("bool ", var "b"); (" = ",
      CExpr constant_ne (CBin (binary_of NE TBool (constant 2) (constant 1))
        (CVal (L := toy) "2" (I 2)) " " " " (CVal (L := toy) "1" (I 1))))] "")] ";")].

(* Cells a, b, p, x, y. *)
Definition start (a b p x y : tval) : tmem := ([a; b; p; x; y], []).
