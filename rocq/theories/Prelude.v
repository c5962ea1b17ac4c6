(* What the prelude code does at run time: mutate_ast_consumer.cc:253-345 (C++) and
   383-440 (C).  PreludeText.v has its text. *)
From Coq Require Import String Ascii List NArith ZArith Bool.
From Verif Require Import Base PreludeText Rewriter.
Import ListNotations.
Local Open Scope string_scope.

(** * Library functions

    The C and C++ library functions called by the preludes, after the language standards;
    the calls are at mutate_ast_consumer.cc:296-307, 330 (C++) and 414-430 (C). *)

(* isspace in the C locale *)
Definition is_space (c : ascii) : bool := in_range c 9 13 || in_range c 32 32.

Definition digit_value (c : ascii) : Z := Z.of_N (N_of_ascii c) - 48.

(* strtol's digit loop: the digits at the start of a string, as a number; None if there
   are none *)
Fixpoint digits_from (acc : Z) (s : string) : Z :=
  match s with
  | String c s' => if is_digit c then digits_from (10 * acc + digit_value c) s' else acc
  | EmptyString => acc
  end.
Definition leading_number (s : string) : option Z :=
  match s with
  | String c _ => if is_digit c then Some (digits_from 0 s) else None
  | EmptyString => None
  end.

Fixpoint skip_space (s : string) : string :=
  match s with
  | String c s' => if is_space c then skip_space s' else s
  | EmptyString => s
  end.

(* strtol in base 10 without clamping: white space, optional sign, digits, anything;
   None if there are no digits. *)
Definition signed_parse (s : string) : option Z :=
  match s with
  | String "-" s' => option_map Z.opp (leading_number s')
  | String "+" s' => leading_number s'
  | s' => leading_number s'
  end.
Definition strtol (s : string) : option Z := signed_parse (skip_space s).

Definition int_min : Z := - 2 ^ 31.
Definition int_max : Z := 2 ^ 31 - 1.
Definition fits_int (z : Z) : bool := (int_min <=? z)%Z && (z <=? int_max)%Z.

Inductive parsed := PInt (z : Z) | PThrow | PUndefined.

(* std::stoi: invalid_argument if there are no digits, out_of_range if the value does not
   fit in an int *)
Definition stoi (s : string) : parsed :=
  match strtol s with
  | None => PThrow
  | Some z => if fits_int z then PInt z else PThrow
  end.

(* atoi: 0 if there are no digits; the behaviour is undefined if the value does not fit *)
Definition atoi (s : string) : parsed :=
  match strtol s with
  | None => PInt 0
  | Some z => if fits_int z then PInt z else PUndefined
  end.

(* std::string::find with a comma, substr(0, pos) and erase(0, pos + 1): the text before
   the first comma and, if there is a comma, the text after it. *)
Fixpoint next_token (s : string) : string * option string :=
  match s with
  | EmptyString => ("", None)
  | String c s' =>
      if Ascii.eqb c "," then ("", Some s')
      else let (t, r) := next_token s' in (String c t, r)
  end.

(* strtok with delimiters ",": leading commas are skipped; the token extends to the next
   comma, which is overwritten, or to the end.  The result is the token and the text that
   the saved pointer refers to afterwards. *)
Fixpoint skip_commas (s : string) : string :=
  match s with
  | String c s' => if Ascii.eqb c "," then skip_commas s' else s
  | EmptyString => s
  end.
Definition strtok (s : string) : option string * string :=
  match skip_commas s with
  | EmptyString => (None, "")
  | s' => let (t, r) := next_token s' in
          (Some t, match r with Some r => r | None => "" end)
  end.

(** * The state of a thread *)

(* The static thread_local variables of the prelude, mutate_ast_consumer.cc:278-284 (C++)
   and 403-407 (C); their initial values (statics are zeroed) *)
Record tls := {
  initialized : bool;
  bitset : list N;          (* enabled_bitset, 64 bit words *)
  some_enabled : bool       (* __dredd_some_mutation_enabled *)
}.
Definition initial_tls (num : nat) : tls :=
  {| initialized := false; bitset := repeat 0%N (words_required num); some_enabled := true |}.

Definition bit (i : nat) : N := N.shiftl 1 (N.of_nat (i mod 64)).
Definition set_bit (i : nat) (ws : list N) : list N :=
  update_nth (i / 64) (fun w => N.lor w (bit i)) ws.
(* None: the index is out of bounds *)
Definition get_bit (i : nat) (ws : list N) : option bool :=
  option_map (fun w => negb (N.eqb (N.land w (bit i)) 0)) (nth_error ws (i / 64)).

(* How a piece of prelude code ends; an exception can only come from std::stoi
   (mutate_ast_consumer.cc:307) *)
Inductive outcome (A : Type) := Ok (a : A) | Throws | Undefined.
Arguments Ok {A}. Arguments Throws {A}. Arguments Undefined {A}.

Section File.
(* First id and number of mutants of the file *)
Variables initial num : nat.

(* mutate_ast_consumer.cc:308-323 (C++), 420-427 (C).  One token whose value is known: the subtraction may overflow (undefined), the value is
   used if it belongs to the file.  The last component says that a bit was set.  An index
   that is out of bounds would be undefined. *)
Definition enable (value : Z) (ws : list N) (some : bool) : outcome (list N * bool) :=
  let local := (value - Z.of_nat initial)%Z in
  if negb (fits_int local) then Undefined
  else if ((0 <=? local) && (local <? Z.of_nat num))%Z then
    if Nat.ltb (Z.to_nat local / 64) (List.length ws)
    then Ok (set_bit (Z.to_nat local) ws, true) else Undefined
  else Ok (ws, some).

(* mutate_ast_consumer.cc:293-331: the C++ loop over the tokens, split into the sequence of
   tokens and their processing.  Empty tokens are ignored.  On an exception the words written so far remain in the
   static array. *)
Fixpoint cpp_tokens (contents : string) (fuel : nat) : list string :=
  match fuel with
  | 0 => []
  | S fuel => let (t, r) := next_token contents in
              t :: match r with Some r => cpp_tokens r fuel | None => [] end
  end.
Fixpoint cpp_loop (ts : list string) (ws : list N) (some : bool)
  : list N * outcome bool :=
  match ts with
  | [] => (ws, Ok some)
  | EmptyString :: ts => cpp_loop ts ws some
  | t :: ts =>
      match stoi t with
      | PThrow => (ws, Throws)
      | PUndefined => (ws, Undefined)
      | PInt v => match enable v ws some with
                  | Ok (ws', some') => cpp_loop ts ws' some'
                  | Throws => (ws, Throws)
                  | Undefined => (ws, Undefined)
                  end
      end
  end.

(* mutate_ast_consumer.cc:417-429: the C loop over the tokens that strtok delivers *)
Fixpoint c_tokens (text : string) (fuel : nat) : list string :=
  match fuel with
  | 0 => []
  | S fuel => match strtok text with
              | (None, _) => []
              | (Some t, r) => t :: c_tokens r fuel
              end
  end.
Fixpoint c_loop (ts : list string) (ws : list N) (some : bool) : list N * outcome bool :=
  match ts with
  | [] => (ws, Ok some)
  | t :: ts =>
      match atoi t with
      | PThrow => (ws, Throws)
      | PUndefined => (ws, Undefined)
      | PInt v => match enable v ws some with
                  | Ok (ws', some') => c_loop ts ws' some'
                  | Throws => (ws, Throws)
                  | Undefined => (ws, Undefined)
                  end
      end
  end.

(* mutate_ast_consumer.cc:285-337 (C++), 408-434 (C).  The initialisation, given the value of DREDD_ENABLED_MUTATION.  The fuel is enough:
   each token consumes at least one character but the last (PreludeProof.v).  In C, malloc
   is assumed to succeed. *)
Definition init (cpp : bool) (env : option string) (ws : list N) : list N * outcome bool :=
  match env with
  | None => (ws, Ok false)
  | Some v => if cpp then cpp_loop (cpp_tokens v (S (String.length v))) ws false
              else c_loop (c_tokens v (S (String.length v))) ws false
  end.

(* mutate_ast_consumer.cc:279-343 (C++), 404-438 (C): __dredd_enabled_mutation(local) *)
Definition query (cpp : bool) (env : option string) (local : nat) (s : tls)
  : tls * outcome bool :=
  let answer s := match get_bit local (bitset s) with
                  | Some b => (s, Ok b)
                  | None => (s, Undefined)
                  end in
  if initialized s then answer s
  else match init cpp env (bitset s) with
       | (ws, Ok some) => answer {| initialized := true; bitset := ws; some_enabled := some |}
       | (ws, Throws) => ({| initialized := false; bitset := ws;
                             some_enabled := some_enabled s |}, Throws)
       | (ws, Undefined) => ({| initialized := false; bitset := ws;
                                some_enabled := some_enabled s |}, Undefined)
       end.

(* A thread's successive queries *)
Fixpoint queries (cpp : bool) (env : option string) (locals : list nat) (s : tls)
  : list (outcome bool) :=
  match locals with
  | [] => []
  | l :: locals => let (s', r) := query cpp env l s in r :: queries cpp env locals s'
  end.
End File.

(** * Several threads *)

(* Threads calling the function of one file, mutate_ast_consumer.cc:279-343.
   The variable may be changed by the program between queries. *)
Inductive action :=
| Query (thread : nat) (local : nat)
| SetEnv (v : option string).

Record process := { env : option string; threads : nat -> tls }.

Definition set_thread (t : nat) (s : tls) (f : nat -> tls) : nat -> tls :=
  fun t' => if Nat.eqb t' t then s else f t'.

(* Queries run to completion: they only touch thread_local variables and read the
   environment (C++).  For C, where strtok has a state shared by all threads, see
   PreludeC.v. *)
Definition process_step (cpp : bool) (initial num : nat) (p : process) (a : action)
  : process * option (outcome bool) :=
  match a with
  | Query t local =>
      let (s, r) := query initial num cpp (env p) local (threads p t) in
      ({| env := env p; threads := set_thread t s (threads p) |}, Some r)
  | SetEnv v => ({| env := v; threads := threads p |}, None)
  end.

Definition start (num : nat) (v : option string) : process :=
  {| env := v; threads := fun _ => initial_tls num |}.

Fixpoint execute (cpp : bool) (initial num : nat) (p : process) (l : list action)
  : process :=
  match l with
  | [] => p
  | a :: l => execute cpp initial num (fst (process_step cpp initial num p a)) l
  end.
