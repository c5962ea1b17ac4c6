(* scripts/query_mutant_info.py on the text of the info file. *)
From Coq Require Import String Ascii List NArith ZArith Bool Arith.
From Verif Require Import Base Clang SourceRange QueryText Query InfoJson SourceRangeSpec.
Import ListNotations.
Local Open Scope string_scope.

Definition bind {A B} (x : option A) (f : A -> option B) : option B :=
  match x with Some a => f a | None => None end.
Notation "'let?' x ':=' a 'in' b" := (bind a (fun x => b))
  (at level 200, x pattern, a at level 100, b at level 200).

(* json.load of Python's library, as a function on the bytes of the file (the script opens
   it as text; line ends are white space in JSON, and characters outside ASCII occur in
   strings only).  None: an exception.  Simplified: numbers with a fraction or an exponent
   are not read, a lone surrogate is an error. *)
Definition is_space (c : ascii) : bool :=
  Ascii.eqb c " " || Ascii.eqb c "009" || Ascii.eqb c "010" || Ascii.eqb c "013".
Fixpoint skip_spaces (s : string) : string :=
  match s with
  | String c r => if is_space c then skip_spaces r else s
  | EmptyString => s
  end.

Definition hex_value (c : ascii) : option N :=
  let n := N_of_ascii c in
  if in_range c 48 57 then Some (n - 48)%N
  else if in_range c 97 102 then Some (n - 87)%N
  else if in_range c 65 70 then Some (n - 55)%N
  else None.
Definition hex4 (s : string) : option (N * string) :=
  match s with
  | String a (String b (String c (String d r))) =>
      let? w := hex_value a in let? x := hex_value b in
      let? y := hex_value c in let? z := hex_value d in
      Some (((w * 16 + x) * 16 + y) * 16 + z, r)%N
  | _ => None
  end.

(* What follows \u: a character, possibly as a surrogate pair (encode is its UTF-8 form) *)
Definition unicode_escape (s : string) : option (string * string) :=
  let? (h, r) := hex4 s in
  if (N.leb 55296 h && N.ltb h 56320)%bool
  then match r with
       | String b (String u r) =>
           if (Ascii.eqb b "\" && Ascii.eqb u "u")%bool
           then let? (l, r) := hex4 r in
                if (N.leb 56320 l && N.ltb l 57344)%bool
                then Some (encode (65536 + (h - 55296) * 1024 + (l - 56320)), r)%N
                else None
           else None
       | _ => None
       end
  else if (N.leb 56320 h && N.ltb h 57344)%bool then None
  else Some (encode h, r).

Definition simple_escape (c : ascii) : option ascii :=
  if Ascii.eqb c "034" then Some "034"%char
  else if Ascii.eqb c "\" then Some "\"%char
  else if Ascii.eqb c "/" then Some "/"%char
  else if Ascii.eqb c "b" then Some "008"%char
  else if Ascii.eqb c "f" then Some "012"%char
  else if Ascii.eqb c "n" then Some "010"%char
  else if Ascii.eqb c "r" then Some "013"%char
  else if Ascii.eqb c "t" then Some "009"%char
  else None.

(* The rest of a string after the opening quote; fuel is at least the length *)
Fixpoint read_string (fuel : nat) (s : string) : option (string * string) :=
  match fuel, s with
  | S fuel, String c r =>
      if Ascii.eqb c "034" then Some ("", r)
      else if N.ltb (N_of_ascii c) 32 then None
      else if Ascii.eqb c "\"
      then match r with
           | String e r =>
               if Ascii.eqb e "u"
               then let? (x, r) := unicode_escape r in
                    let? (y, r) := read_string fuel r in Some (x ++ y, r)
               else let? x := simple_escape e in
                    let? (y, r) := read_string fuel r in Some (String x y, r)
           | EmptyString => None
           end
      else let? (y, r) := read_string fuel r in Some (String c y, r)
  | _, _ => None
  end.

Fixpoint read_digits (acc : N) (s : string) : N * string :=
  match s with
  | String c r => if is_digit c then read_digits (acc * 10 + (N_of_ascii c - 48)) r
                  else (acc, s)
  | EmptyString => (acc, s)
  end.

(* strip p s: what follows p in s *)
Fixpoint strip (p s : string) : option string :=
  match p, s with
  | EmptyString, _ => Some s
  | String a p, String b s => if Ascii.eqb a b then strip p s else None
  | _, _ => None
  end.

Fixpoint read_value (fuel : nat) (s : string) : option (json * string) :=
  match fuel with
  | 0 => None
  | S fuel =>
      match skip_spaces s with
      | EmptyString => None
      | String c r =>
          if Ascii.eqb c "034"
          then let? (x, r) := read_string fuel r in Some (JStr x, r)
          else if Ascii.eqb c "["
          then match skip_spaces r with
               | String c' r' =>
                   if Ascii.eqb c' "]" then Some (JArr [], r')
                   else let? (l, r) := read_elements fuel r in Some (JArr l, r)
               | EmptyString => None
               end
          else if Ascii.eqb c "{"
          then match skip_spaces r with
               | String c' r' =>
                   if Ascii.eqb c' "}" then Some (JObj [], r')
                   else let? (l, r) := read_members fuel r in Some (JObj l, r)
               | EmptyString => None
               end
          else if is_digit c
          then let '(n, r) := read_digits 0 (String c r) in Some (JNum (Z.of_N n), r)
          else if Ascii.eqb c "-"
          then match r with
               | String d _ =>
                   if is_digit d
                   then let '(n, r) := read_digits 0 r in Some (JNum (- Z.of_N n), r)
                   else None
               | EmptyString => None
               end
          else match strip "true" (String c r) with
               | Some r => Some (JBool true, r)
               | None =>
               match strip "false" (String c r) with
               | Some r => Some (JBool false, r)
               | None =>
               match strip "null" (String c r) with
               | Some r => Some (JNull, r)
               | None => None
               end end end
      end
  end
with read_elements (fuel : nat) (s : string) : option (list json * string) :=
  match fuel with
  | 0 => None
  | S fuel =>
      let? (v, r) := read_value fuel s in
      match skip_spaces r with
      | String c r =>
          if Ascii.eqb c "," then let? (l, r) := read_elements fuel r in Some (v :: l, r)
          else if Ascii.eqb c "]" then Some ([v], r)
          else None
      | EmptyString => None
      end
  end
with read_members (fuel : nat) (s : string) : option (list (string * json) * string) :=
  match fuel with
  | 0 => None
  | S fuel =>
      match skip_spaces s with
      | String q r =>
          if Ascii.eqb q "034"
          then let? (k, r) := read_string fuel r in
               match skip_spaces r with
               | String c r =>
                   if Ascii.eqb c ":"
                   then let? (v, r) := read_value fuel r in
                        match skip_spaces r with
                        | String c r =>
                            if Ascii.eqb c ","
                            then let? (l, r) := read_members fuel r in Some ((k, v) :: l, r)
                            else if Ascii.eqb c "}" then Some ([(k, v)], r)
                            else None
                        | EmptyString => None
                        end
                   else None
               | EmptyString => None
               end
          else None
      | EmptyString => None
      end
  end.

Definition json_load (text : string) : option json :=
  let? (v, r) := read_value (2 * String.length text + 2) text in
  match skip_spaces r with EmptyString => Some v | _ => None end.

(* d[k] of a dictionary: the last member of that name *)
Fixpoint member (k : string) (l : list (string * json)) : option json :=
  match l with
  | [] => None
  | (x, v) :: l => match member k l with
                   | Some v => Some v
                   | None => if String.eqb x k then Some v else None
                   end
  end.
Definition get (k : string) (j : json) : option json :=
  match j with JObj l => member k l | _ => None end.
(* A list that is iterated over, a number, a string; None: an exception (or, as no such
   file is written, any other behaviour) *)
Definition items (j : json) : option (list json) :=
  match j with JArr l => Some l | _ => None end.
Definition number (j : json) : option Z := match j with JNum z => Some z | _ => None end.
Definition text (j : json) : option string := match j with JStr s => Some s | _ => None end.

(* query_mutant_info.py:28-33 *)
Record jinfo := {
  ji_kind : string; ji_file : json; ji_group : json; ji_instance : option json
}.

Fixpoint collect {A B} (f : A -> option (list B)) (l : list A) : option (list B) :=
  match l with
  | [] => Some []
  | x :: l => let? a := f x in let? b := collect f l in Some (a ++ b)%list
  end.

(* query_mutant_info.py:41-48 *)
Definition group_assignments (file group : json) : option (list (Z * jinfo)) :=
  match group with
  | JObj [(key, v)] =>
      let entry i := {| ji_kind := key; ji_file := file; ji_group := group;
                        ji_instance := i |} in
      if String.eqb key "replaceExpr" || String.eqb key "replaceUnaryOperator"
         || String.eqb key "replaceBinaryOperator"
      then let? instances := get "instances" v in
           let? instances := items instances in
           collect (fun i => let? id := get "mutationId" i in
                             let? id := number id in
                             Some [(id, entry (Some i))]) instances
      else if String.eqb key "removeStmt"
      then let? id := get "mutationId" v in
           let? id := number id in
           Some [(id, entry None)]
      else None
  | _ => None
  end.

(* query_mutant_info.py:36-49, as the list of assignments to the dictionary *)
Definition assignments (info : json) : option (list (Z * jinfo)) :=
  let? files := get "infoForFiles" info in
  let? files := items files in
  collect (fun file =>
    let? tree := get "mutationTree" file in
    let? tree := items tree in
    collect (fun node =>
      let? groups := get "mutationGroups" node in
      let? groups := items groups in
      collect (group_assignments file) groups) tree) files.

Fixpoint assigned (d : list (Z * jinfo)) (k : Z) : option jinfo :=
  match d with
  | [] => None
  | (x, v) :: d => match assigned d k with
                   | Some v => Some v
                   | None => if Z.eqb x k then Some v else None
                   end
  end.

(* query_mutant_info.py:62-80.  opens: the contents of the files.  A line that is not there
   is an IndexError (Simplified: also for line 0, which is never written). *)
Record range_text := {
  single_line : bool; description : string; prefix : string; range_chars : string
}.
Definition get_text_for_source_range (opens : string -> option string)
  (start finish : json) (path name : string) : option range_text :=
  let? start_l := bind (get "line" start) number in
  let? start_c := bind (get "column" start) number in
  let? end_l := bind (get "line" finish) number in
  let? end_c := bind (get "column" finish) number in
  let? source := opens path in
  let n := Z.of_nat (List.length (readlines source)) in
  let i := {| start_line := Z.to_nat start_l; start_column := Z.to_nat start_c;
              end_line := Z.to_nat end_l; end_column := Z.to_nat end_c; snippet := "" |} in
  if (Z.leb 1 start_l && Z.leb start_l n && Z.leb 1 end_l && Z.leb end_l n)%bool
  then Some {| single_line := Z.eqb start_l end_l;
               description := name ++ ", " ++ string_of_Z start_l ++ ":"
                 ++ string_of_Z start_c ++ "--" ++ string_of_Z end_l ++ ":"
                 ++ string_of_Z end_c;
               prefix := blank_prefix i;
               range_chars := text_for_source_range source i |}
  else None.

(* A dictionary of strings that is written in the script *)
Fixpoint table (l : list (string * string)) (k : string) : option string :=
  match l with
  | [] => None
  | (x, v) :: l => if String.eqb x k then Some v else table l k
  end.

(* print(...): each argument is followed by a line feed *)
Definition print (s : string) : string := s ++ nl.

(* query_mutant_info.py:83-120: what is printed *)
Definition replacements : list (string * string) :=
  [("ReplaceWithZeroFloat", "0.0"); ("ReplaceWithOneFloat", "1.0");
   ("ReplaceWithMinusOneFloat", "-1.0"); ("ReplaceWithZeroInt", "0");
   ("ReplaceWithOneInt", "1"); ("ReplaceWithMinusOneInt", "-1");
   ("ReplaceWithTrue", "true"); ("ReplaceWithFalse", "false")].
Definition insertions : list (string * string) :=
  [("InsertPreInc", "++"); ("InsertPreDec", "--"); ("InsertLNot", "!");
   ("InsertNot", "~"); ("InsertMinus", "-")].
Definition show_info_for_replace_expr (opens : string -> option string) (m : jinfo)
  (path name : string) : option string :=
  let? g := get "replaceExpr" (ji_group m) in
  let? start := get "start" g in
  let? finish := get "end" g in
  let? e := get_text_for_source_range opens start finish path name in
  let? i := ji_instance m in
  let? action := bind (get "action" i) text in
  let? new := match table replacements action with
              | Some s => Some s
              | None => let? s := table insertions action in
                        Some (prefix e ++ s ++ " " ++ parenthesise_if_needed (range_chars e))
              end in
  Some (print ("Replace expression at " ++ description e ++ nl)
        ++ print ("Original expression:" ++ nl)
        ++ print (prefix e ++ range_chars e ++ nl)
        ++ print ("Replacement expression:" ++ nl)
        ++ print (new ++ nl)).

(* query_mutant_info.py:123-165 *)
Definition pre_replacements : list (string * string) :=
  [("ReplaceWithMinus", "-"); ("ReplaceWithNot", "~"); ("ReplaceWithPreDec", "--");
   ("ReplaceWithPreInc", "++"); ("ReplaceWithLNot", "!")].
Definition post_replacements : list (string * string) :=
  [("ReplaceWithPostDec", "--"); ("ReplaceWithPostInc", "++")].
Definition show_info_for_replace_unary_operator (opens : string -> option string)
  (m : jinfo) (path name : string) : option string :=
  let? g := get "replaceUnaryOperator" (ji_group m) in
  let? e_start := get "exprStart" g in let? e_end := get "exprEnd" g in
  let? e := get_text_for_source_range opens e_start e_end path name in
  let? o_start := get "operandStart" g in let? o_end := get "operandEnd" g in
  let? o := get_text_for_source_range opens o_start o_end path name in
  let? i := ji_instance m in
  let? action := bind (get "action" i) text in
  let? new :=
    if String.eqb action "ReplaceWithOperand" then Some (prefix o ++ range_chars o)
    else match table pre_replacements action with
         | Some s => Some (prefix o ++ s ++ " " ++ parenthesise_if_needed (range_chars o))
         | None => let? s := table post_replacements action in
                   Some (prefix o ++ parenthesise_if_needed (range_chars o) ++ " " ++ s)
         end in
  Some (print ("Replace unary operator expression at " ++ description e ++ nl)
        ++ print ("Original unary operator expression:" ++ nl)
        ++ print (prefix e ++ range_chars e ++ nl)
        ++ print ("Replacement expression:" ++ nl)
        ++ print (new ++ nl)).

(* query_mutant_info.py:166-238 *)
Definition operators : list (string * string) :=
  [("ReplaceWithAdd", "+"); ("ReplaceWithDiv", "/"); ("ReplaceWithMul", "*");
   ("ReplaceWithRem", "%"); ("ReplaceWithSub", "-"); ("ReplaceWithAddAssign", "+=");
   ("ReplaceWithAndAssign", "&="); ("ReplaceWithAssign", "=");
   ("ReplaceWithDivAssign", "/="); ("ReplaceWithMulAssign", "*=");
   ("ReplaceWithOrAssign", "|="); ("ReplaceWithRemAssign", "%=");
   ("ReplaceWithShlAssign", "<<="); ("ReplaceWithShrAssign", ">>=");
   ("ReplaceWithSubAssign", "-="); ("ReplaceWithXorAssign", "^=");
   ("ReplaceWithAnd", "&"); ("ReplaceWithOr", "|"); ("ReplaceWithXor", "^");
   ("ReplaceWithLAnd", "&&"); ("ReplaceWithLOr", "||"); ("ReplaceWithEQ", "==");
   ("ReplaceWithGE", ">="); ("ReplaceWithGT", ">"); ("ReplaceWithLE", "<=");
   ("ReplaceWithLT", "<"); ("ReplaceWithNE", "!="); ("ReplaceWithShl", "<<");
   ("ReplaceWithShr", ">>")].
Definition show_info_for_replace_binary_operator (opens : string -> option string)
  (m : jinfo) (path name : string) : option string :=
  let? g := get "replaceBinaryOperator" (ji_group m) in
  let? e_start := get "exprStart" g in let? e_end := get "exprEnd" g in
  let? e := get_text_for_source_range opens e_start e_end path name in
  let? l_start := get "lhsStart" g in let? l_end := get "lhsEnd" g in
  let? l := get_text_for_source_range opens l_start l_end path name in
  let? r_start := get "rhsStart" g in let? r_end := get "rhsEnd" g in
  let? r := get_text_for_source_range opens r_start r_end path name in
  let? i := ji_instance m in
  let? action := bind (get "action" i) text in
  let? new :=
    if String.eqb action "ReplaceWithLHS" then Some (prefix l ++ range_chars l)
    else if String.eqb action "ReplaceWithRHS" then Some (prefix r ++ range_chars r)
    else let? s := table operators action in
         let sep := if single_line e then " " else nl in
         Some (prefix l ++ parenthesise_if_needed (range_chars l) ++ sep ++ s ++ sep
               ++ prefix r ++ parenthesise_if_needed (range_chars r)) in
  Some (print ("Replace binary operator expression at " ++ description e ++ nl)
        ++ print ("Original binary operator expression:" ++ nl)
        ++ print (prefix e ++ range_chars e ++ nl)
        ++ print ("Replacement expression:" ++ nl)
        ++ print (new ++ nl)).

(* query_mutant_info.py:241-253 *)
Definition show_info_for_remove_stmt (opens : string -> option string) (m : jinfo)
  (path name : string) : option string :=
  let? g := get "removeStmt" (ji_group m) in
  let? start := get "start" g in
  let? finish := get "end" g in
  let? e := get_text_for_source_range opens start finish path name in
  Some (print ("Remove statement at " ++ description e ++ nl)
        ++ print ("This is the removed statement:" ++ nl)
        ++ print (prefix e ++ range_chars e)).

(* The outcome of the script: exit status and output, or an exception (what was printed
   before it is left out) *)
Inductive outcome := Exits (status : Z) (out : string) | Raises.

(* query_mutant_info.py:256-288; os.sep is a slash.  Simplified: the length of the prefix
   is its number of bytes. *)
Definition show_info_for_mutant (opens : string -> option string)
  (prefixes : option (string * string)) (id : Z) (d : list (Z * jinfo)) : outcome :=
  match prefixes with
  | None =>
      Exits 1 (print ("Missing: path to the root of the mutated code, and path to the "
        ++ "root of the non-mutated code." ++ " From these prefixes onwards, the source trees "
        ++ "should have the same content."))
  | Some (mutated, original) =>
      match assigned d id with
      | None => Exits 1 (print ("Unknown mutant id: " ++ string_of_Z id))
      | Some m =>
          match bind (get "filename" (ji_file m)) text with
          | None => Raises
          | Some file =>
              let rest := substring (String.length mutated)
                            (String.length file - String.length mutated) file in
              let name := match rest with
                          | String c r => if Ascii.eqb c "/" then r else rest
                          | EmptyString => rest
                          end in
              let path := original ++ "/" ++ name in
              match (if String.eqb (ji_kind m) "replaceExpr"
                     then show_info_for_replace_expr opens m path name
                     else if String.eqb (ji_kind m) "replaceUnaryOperator"
                     then show_info_for_replace_unary_operator opens m path name
                     else if String.eqb (ji_kind m) "replaceBinaryOperator"
                     then show_info_for_replace_binary_operator opens m path name
                     else if String.eqb (ji_kind m) "removeStmt"
                     then show_info_for_remove_stmt opens m path name
                     else None) with
              | Some s => Exits 0 s
              | None => Raises
              end
          end
      end
  end.

(* query_mutant_info.py:315-329: main, after the arguments were parsed *)
Definition query_script (opens : string -> option string) (info_file : string)
  (prefixes : option (string * string)) (largest : bool) (show : option Z) : outcome :=
  match (let? t := opens info_file in let? j := json_load t in assignments j) with
  | None => Raises
  | Some d =>
      if largest
      then Exits 0 (print (string_of_Z (match map fst d with
                                        | [] => -1
                                        | x :: l => fold_left Z.max l x
                                        end)))
      else match show with
           | Some id => show_info_for_mutant opens prefixes id d
           | None => Exits 1 (print "No action specified.")
           end
  end.
