(* Which mutant ids a value of DREDD_ENABLED_MUTATION lists, independently of how the
   preludes read it. *)
From Coq Require Import String Ascii List ZArith Bool.
From Verif Require Import Prelude.
Import ListNotations.

Definition digit_char (d : nat) : ascii := ascii_of_nat (48 + d).
Fixpoint digits_text (ds : list nat) : string :=
  match ds with
  | [] => ""
  | d :: ds => String (digit_char d) (digits_text ds)
  end.
(* The number written by a list of digits, least significant digit first *)
Fixpoint number (ds : list nat) : Z :=
  match ds with
  | [] => 0
  | d :: ds => Z.of_nat d + 10 * number ds
  end%Z.
(* White space in the C locale *)
Definition white (c : ascii) : Prop :=
  In c [" "; "009"; "010"; "011"; "012"; "013"]%char.
Definition white_text (s : string) : Prop := Forall white (list_ascii_of_string s).

(* Text that does not contain a comma; that does not begin with a digit *)
Definition comma_free (s : string) : Prop := ~ In ","%char (list_ascii_of_string s).
Definition no_digit_first (s : string) : Prop :=
  forall d, d < 10 -> String.get 0 s <> Some (digit_char d).

Inductive sign := NoSign | PlusSign | MinusSign.
Definition sign_text (s : sign) : string :=
  match s with NoSign => "" | PlusSign => "+" | MinusSign => "-" end.
Definition signed (s : sign) (z : Z) : Z := match s with MinusSign => - z | _ => z end.

(* An item that begins with a decimal number: white space, possibly a sign, digits and, as
   the library functions for reading numbers have it, any text that does not continue the
   number *)
Inductive denotes : string -> Z -> Prop :=
| denotes_intro w s ds rest :
    white_text w -> ds <> [] -> Forall (fun d => d < 10) ds ->
    comma_free rest -> no_digit_first rest ->
    denotes (w ++ sign_text s ++ digits_text ds ++ rest)%string
            (signed s (number (rev ds))).

Inductive item : string -> list Z -> Prop :=
| item_empty : item "" []
| item_number t z : denotes t z -> item t [z].

(* The variable lists these ids: it is unset, or items separated by commas. *)
Inductive variable_lists : option string -> list Z -> Prop :=
| lists_unset : variable_lists None []
| lists_items items zs :
    Forall2 item items zs ->
    variable_lists (Some (String.concat "," items)) (List.concat zs).

(* The numbers can be handled as C ints by a file whose first id is f. *)
Definition int_safe (f : nat) (z : Z) : Prop :=
  (- 2 ^ 31 + Z.of_nat f <= z < 2 ^ 31)%Z.

(* The value of the variable when thread t makes its first query *)
Fixpoint first_env (t : nat) (e : option string) (l : list action) : option string :=
  match l with
  | [] => e
  | Query t' _ :: l => if Nat.eqb t' t then e else first_env t e l
  | SetEnv e' :: l => first_env t e' l
  end.

(* Every value that the variable takes is a list of ints. *)
Definition well_formed (f : nat) (v : option string) : Prop :=
  exists zs, variable_lists v zs /\ Forall (int_safe f) zs.
Definition env_ok (f : nat) (a : action) : Prop :=
  match a with Query _ _ => True | SetEnv v => well_formed f v end.

(* An item that does not begin with a number: no digit follows the white space and the
   sign, if there is one *)
Inductive no_number : string -> Prop :=
| no_number_sign w s rest :
    white_text w -> s <> NoSign -> comma_free rest -> no_digit_first rest ->
    no_number (w ++ sign_text s ++ rest)%string
| no_number_plain w rest :
    white_text w -> comma_free rest -> no_digit_first rest ->
    (forall c, white c \/ c = "+"%char \/ c = "-"%char -> String.get 0 rest <> Some c) ->
    no_number (w ++ rest)%string.

(* What an item means to a file with first id f: the ids it lists ... *)
Inductive reads (cpp : bool) (f : nat) : string -> list Z -> Prop :=
| reads_empty : reads cpp f "" []
| reads_number t z : denotes t z -> int_safe f z -> reads cpp f t [z]
| reads_zero t : cpp = false -> t <> ""%string -> no_number t -> int_safe f 0 ->
    reads cpp f t [0%Z].

(* ... or how reading it fails *)
Inductive fails (cpp : bool) (f : nat) : string -> outcome bool -> Prop :=
| fails_no_number t : cpp = true -> t <> ""%string -> no_number t -> fails cpp f t Throws
| fails_range_cpp t z : cpp = true -> denotes t z -> ~ (- 2 ^ 31 <= z < 2 ^ 31)%Z ->
    fails cpp f t Throws
| fails_range_c t z : cpp = false -> denotes t z -> ~ (- 2 ^ 31 <= z < 2 ^ 31)%Z ->
    fails cpp f t Undefined
| fails_below t z : denotes t z -> (- 2 ^ 31 <= z < 2 ^ 31)%Z ->
    (z < - 2 ^ 31 + Z.of_nat f)%Z ->
    fails cpp f t Undefined.
