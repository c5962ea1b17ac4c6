(* Vocabulary for stating properties of source ranges. *)
From Coq Require Import String Ascii List NArith Bool Arith.
From Verif Require Import Base SourceRange.
Local Open Scope string_scope.

(* The end of a range: the offset after its last token. *)
Definition tr_end (r : token_range) : nat := tr_last r + tr_last_length r.

(* The characters of a range *)
Definition text_of (text : string) (r : token_range) : string :=
  substring (tr_begin r) (tr_end r - tr_begin r) text.

(* A range that begins no later than its last token, and lies in the file *)
Definition in_file (text : string) (r : token_range) : Prop :=
  tr_begin r <= tr_last r /\ 0 < tr_last_length r /\ tr_end r <= String.length text.

Definition is_line_end (c : ascii) : bool := Ascii.eqb c lf || Ascii.eqb c cr.

(* The last token is on one line. *)
Definition last_token_on_one_line (text : string) (r : token_range) : Prop :=
  string_forall (fun c => negb (is_line_end c))
    (substring (tr_last r) (tr_last_length r) text) = true.

(* A range starts with a token, so not with a line feed. *)
Definition starts_with_token (text : string) (r : token_range) : Prop :=
  String.get (tr_begin r) text <> Some lf.

Definition ascii_only (text : string) : Prop :=
  string_forall (fun c => N.ltb (N_of_ascii c) 128) text = true.

(* The text with LF line ends *)
Fixpoint with_lf (s : string) : string :=
  match s with
  | EmptyString => EmptyString
  | String c rest =>
      if Ascii.eqb c cr
      then match rest with
           | String c' _ => if Ascii.eqb c' lf then with_lf rest
                            else String lf (with_lf rest)
           | EmptyString => String lf EmptyString
           end
      else String c (with_lf rest)
  end.

(* The UTF-8 encoding of a character (RFC 3629) *)
Local Open Scope N_scope.
Definition scalar (n : N) : Prop := n < 55296 \/ 57344 <= n < 1114112.
Definition continuation (n : N) : ascii := ascii_of_N (128 + n mod 64).
Definition encode (n : N) : string :=
  if n <? 128 then String (ascii_of_N n) EmptyString
  else if n <? 2048
  then String (ascii_of_N (192 + n / 64)) (String (continuation n) EmptyString)
  else if n <? 65536
  then String (ascii_of_N (224 + n / 4096))
         (String (continuation (n / 64)) (String (continuation n) EmptyString))
  else String (ascii_of_N (240 + n / 262144))
         (String (continuation (n / 4096))
            (String (continuation (n / 64)) (String (continuation n) EmptyString))).
Local Close Scope N_scope.

(* A file in UTF-8 *)
Inductive utf8 : string -> Prop :=
| utf8_nil : utf8 EmptyString
| utf8_cons n s : scalar n -> utf8 s -> utf8 (encode n ++ s).

(* What precedes an offset on its line is ASCII. *)
Definition ascii_before (text : string) (off : nat) : Prop :=
  forall a b, substring 0 off text = (a ++ b)%string ->
    string_forall (fun c => negb (is_line_end c)) b = true -> ascii_only b.
