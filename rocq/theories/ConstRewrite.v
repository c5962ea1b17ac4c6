(* The constant expressions that are replaced by literals:
   mutate_ast_consumer.cc:177-251. *)
From Coq Require Import String Ascii List NArith ZArith Bool DecimalString.
From Verif Require Import Base.
Import ListNotations.
Local Open Scope N_scope.

(* llvm::APSInt: bits below 2^width, with a flag for unsigned. *)
Record apsint := { ap_width : N; ap_unsigned : bool; ap_bits : N }.

(* llvm::APInt::getLimitedValue() with its default limit UINT64_MAX, inherited by APSInt:
   the bits are read as unsigned, and a larger value becomes the limit. *)
Definition uint64_max : N := 18446744073709551615.
Definition limited_value (a : apsint) : N :=
  if uint64_max <? ap_bits a then uint64_max else ap_bits a.

(* stringstream << uint64_t, mutate_ast_consumer.cc:245-246 *)
Definition print_uint64 (n : N) : string := NilZero.string_of_uint (N.to_uint n).

(* An expression to rewrite: where it is in the main file, if it is, and its value if it
   has one.  The position is the token range as character offsets. *)
Record const_expr := {
  ce_range : option (nat * nat);
  ce_value : option apsint
}.

(* mutate_ast_consumer.cc:237-251 RewriteExpressionInMainFileToIntegerConstant: the
   replacement asked of the rewriter. *)
Definition rewrite_to_constant (e : const_expr) (n : N) : list (nat * nat * string) :=
  match ce_range e with
  | Some (b, l) => [(b, l, print_uint64 n)]
  | None => []
  end.

(* Lines 179-208: the sizes of a declared array, outermost first.  The size in the type is
   an APInt as wide as size_t. *)
Fixpoint rewrite_array_sizes (sizes : list const_expr) : list (nat * nat * string) :=
  match sizes with
  | [] => []
  | e :: sizes =>
      match ce_value e with
      | Some v => rewrite_to_constant e (limited_value v)
      | None => []
      end ++ rewrite_array_sizes sizes
  end.

(* Lines 210-217 *)
Definition rewrite_static_assertion (e : const_expr) : list (nat * nat * string) :=
  rewrite_to_constant e 1.

(* Lines 219-235.  Expressions are identified by their number, which stands for the
   pointer. *)
Fixpoint rewrite_arguments (already : list nat) (args : list (nat * const_expr))
  : list (nat * nat * string) :=
  match args with
  | [] => []
  | (p, e) :: args =>
      if existsb (Nat.eqb p) already then rewrite_arguments already args
      else match ce_value e with
           | Some v => rewrite_to_constant e (limited_value v)
           | None => []
           end ++ rewrite_arguments (p :: already) args
  end.
