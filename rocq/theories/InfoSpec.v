(* JSON texts, and what the query script should print. *)
From Coq Require Import String Ascii List NArith ZArith Bool Arith.
From Verif Require Import Base Clang Gen GenExpr GenBinary GenUnary Mutation Run SourceRange
  SourceRangeSpec QueryText QuerySpec InfoJson.
Import ListNotations.
Local Open Scope string_scope.

(* White space between the tokens of a JSON text (RFC 8259, section 2) *)
Definition blank (s : string) : Prop :=
  Forall (fun c => In c (map ascii_of_nat [32; 9; 10; 13])) (list_ascii_of_string s).

(* Four hexadecimal digits (section 7) *)
Definition hex_digits : list (ascii * N) :=
  (combine (list_ascii_of_string "0123456789abcdef") (map N.of_nat (seq 0 16)) ++
   combine (list_ascii_of_string "ABCDEF") (map N.of_nat (seq 10 6)))%list.
Inductive hex_text : N -> string -> Prop :=
| hex_text_intro a b c d w x y z :
    In (a, w) hex_digits -> In (b, x) hex_digits -> In (c, y) hex_digits ->
    In (d, z) hex_digits ->
    hex_text (4096 * w + 256 * x + 16 * y + z)%N
             (String a (String b (String c (String d "")))).

(* A character in a string: as itself, unless it is a quote, a backslash or a control
   character; with a short escape; by its number, or by those of a surrogate pair *)
Definition short_escapes : list (N * string) :=
  [(34, "\" ++ dq); (92, "\\"); (47, "\/"); (8, "\b"); (12, "\f"); (10, "\n"); (13, "\r");
   (9, "\t")]%N.
Inductive char_text : N -> string -> Prop :=
| as_itself n : (32 <= n)%N -> n <> 34%N -> n <> 92%N -> char_text n (encode n)
| escaped n s : In (n, s) short_escapes -> char_text n s
| numbered n s : hex_text n s -> char_text n ("\u" ++ s)
| as_pair h l s t : (h < 1024)%N -> (l < 1024)%N ->
    hex_text (55296 + h) s -> hex_text (56320 + l) t ->
    char_text (65536 + 1024 * h + l) ("\u" ++ s ++ "\u" ++ t).

(* A string, without its quotes: the string as it is meant, in UTF-8, and as it is
   written *)
Inductive string_text : string -> string -> Prop :=
| no_char : string_text "" ""
| a_char n s t u : scalar n -> char_text n t -> string_text s u ->
    string_text (encode n ++ s) (t ++ u).

(* A value (sections 3 to 6) *)
Inductive json_text : json -> string -> Prop :=
| number_text z : json_text (JNum z) (string_of_Z z)
| true_text : json_text (JBool true) "true"
| false_text : json_text (JBool false) "false"
| null_text : json_text JNull "null"
| quoted_text s t : string_text s t -> json_text (JStr s) (dq ++ t ++ dq)
| empty_array_text b : blank b -> json_text (JArr []) ("[" ++ b ++ "]")
| array_text l t : elements_text l t -> json_text (JArr l) ("[" ++ t ++ "]")
| empty_object_text b : blank b -> json_text (JObj []) ("{" ++ b ++ "}")
| object_text l t : members_text l t -> json_text (JObj l) ("{" ++ t ++ "}")
with elements_text : list json -> string -> Prop :=
| last_element b v t b' : blank b -> json_text v t -> blank b' ->
    elements_text [v] (b ++ t ++ b')
| more_elements b v t b' l u : blank b -> json_text v t -> blank b' ->
    elements_text l u -> elements_text (v :: l) (b ++ t ++ b' ++ "," ++ u)
with members_text : list (string * json) -> string -> Prop :=
| last_member b1 k kt b2 b3 v t b4 :
    blank b1 -> string_text k kt -> blank b2 -> blank b3 -> json_text v t -> blank b4 ->
    members_text [(k, v)] (b1 ++ dq ++ kt ++ dq ++ b2 ++ ":" ++ b3 ++ t ++ b4)
| more_members b1 k kt b2 b3 v t b4 l u :
    blank b1 -> string_text k kt -> blank b2 -> blank b3 -> json_text v t -> blank b4 ->
    members_text l u ->
    members_text ((k, v) :: l)
      (b1 ++ dq ++ kt ++ dq ++ b2 ++ ":" ++ b3 ++ t ++ b4 ++ "," ++ u).

(* A file that contains a JSON value *)
Definition json_file_text (v : json) (s : string) : Prop :=
  exists b t b', blank b /\ json_text v t /\ blank b' /\ s = b ++ t ++ b'.

(* The places that a group mentions *)
Definition places (g : group) : list loc_info :=
  match g with
  | GroupRemoveStmt _ i | GroupReplaceExpr i _ => [i]
  | GroupReplaceBinary i il ir _ _ => [i; il; ir]
  | GroupReplaceUnary i io _ _ => [i; io]
  end.

(* The lines of a place are there in a file. *)
Definition lines_there (source : string) (i : loc_info) : Prop :=
  1 <= start_line i <= List.length (readlines source) /\
  1 <= end_line i <= List.length (readlines source).

Definition line_column (l c : nat) : string := string_of_nat l ++ ":" ++ string_of_nat c.
Definition place_name (file : string) (i : loc_info) : string :=
  file ++ ", " ++ line_column (start_line i) (start_column i) ++ "--"
  ++ line_column (end_line i) (end_column i).

(* What should be printed about the k-th mutant of a group: what it does and where, the
   code, and the code that replaces it; texts are followed by an empty line. *)
Definition paragraph (s : string) : string := s ++ nl ++ nl.
Definition report (file source : string) (g : group) (k : nat) : option string :=
  let replaced what i new :=
    paragraph ("Replace " ++ what ++ "expression at " ++ place_name file i)
    ++ paragraph ("Original " ++ what ++ "expression:")
    ++ paragraph (indentation i ++ text_for_source_range source i)
    ++ paragraph "Replacement expression:" ++ paragraph new in
  option_map (fun new =>
    match g with
    | GroupRemoveStmt _ i =>
        paragraph ("Remove statement at " ++ place_name file i)
        ++ paragraph "This is the removed statement:" ++ new ++ nl
    | GroupReplaceExpr i _ => replaced "" i new
    | GroupReplaceBinary i _ _ _ _ => replaced "binary operator " i new
    | GroupReplaceUnary i _ _ _ => replaced "unary operator " i new
    end) (group_phrase source g k).

(* The strings of the mutation info that come from the input *)
Definition info_strings (info : list (string * list pnode)) : list string :=
  flat_map (fun f => fst f ::
    flat_map (fun p => flat_map (fun g => map snippet (places g)) (p_groups p)) (snd f)) info.
