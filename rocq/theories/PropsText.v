(* Properties C66 and C67: the inserted prelude, read and run as C or C++. *)
From Coq Require Import String Ascii List NArith ZArith Bool Lia.
From Verif Require Import Base Clang PreludeText Rewriter Prelude PreludeC PreludeSpec Tracking
  CText CRun TextSpec TextProof.
Import ListNotations.
Local Open Scope string_scope.

(* C66: the text can be read; the variables of a thread start as in the model; and a call
   of the function in any state ends as in the model, in any surroundings in which the
   memory that a thread obtains has not been freed before. *)
Theorem C66_text_runs_as_modelled : forall c o f n,
  track o = false -> is_int f -> is_int n ->
  exists items,
    parse_text (prelude_text c o f n) = Some items /\
    own_statics items = Some (view (cpp c) (initial_tls n)) /\
    forall v t w s i fuel,
      is_int i -> enough v fuel -> (initialized s = false -> freed w (S t) = false) ->
      let r := interpret (libc v t) w
        (CRun.call items fuel "__dredd_enabled_mutation" [VInt (Z.of_nat i)]
           (view (cpp c) s)) in
      match query f n (cpp c) v i s with
      | (s', Ok b) => r = (if initialized s then w else after (cpp c) v t w,
                           Done (view (cpp c) s', Some (VBool b)))
      | (s', Throws) => r = (w, Done (view (cpp c) s', None))
      | (_, Undefined) => snd r = Wrong
      end.
Proof. exact C66_lemma. Qed.
Print Assumptions C66_text_runs_as_modelled.

(* C66: hence the text enables exactly the mutants that the variable lists. *)
Theorem C66_text_enables_the_listed : forall c o f n v zs t w locals fuel,
  track o = false -> is_int f -> is_int n ->
  variable_lists v zs -> Forall (int_safe f) zs -> Forall (fun i => i < n) locals ->
  enough v fuel -> freed w (S t) = false ->
  exists items st answers,
    parse_text (prelude_text c o f n) = Some items /\ own_statics items = Some st /\
    thread_runs items fuel (libc v t) w st locals = map (fun b => Some (VBool b)) answers /\
    Forall2 (fun i b => b = true <-> In (Z.of_nat (f + i)) zs) locals answers.
Proof. exact C66_selects_lemma. Qed.
Print Assumptions C66_text_enables_the_listed.

Definition lang (b : bool) : ctx :=
  {| cpp := b; prints_bool := b; char_signed := true; wchar_signed := true |}.
Definition ran (c : ctx) (v : string) (locals : list nat) : option (list (option cval)) :=
  match parse_text (prelude_text c {| optimise := true; track := false |} 3 100) with
  | Some items =>
      match own_statics items with
      | Some st => Some (thread_runs items 30 (libc (Some v) 0)
                           {| saved := None; freed := fun _ => false |} st locals)
      | None => None
      end
  | None => None
  end.
Example C66_example :
  ran (lang true) "3, -4,,+05 ,070.5" [0; 1; 2; 67; 99] =
    Some (map (fun b => Some (VBool b)) [true; false; true; true; false]) /\
  ran (lang false) "3, -4,,+05 ,070.5" [67; 0] =
    Some (map (fun b => Some (VBool b)) [true; true]) /\
  ran (lang true) "4,all" [1; 1] = Some [None; None] /\
  ran (lang false) "4,all" [1; 2] =
    Some (map (fun b => Some (VBool b)) [true; false]) /\
  enough (Some "3, -4,,+05 ,070.5") 30 /\ is_int 100.
Proof. split; [vm_compute; reflexivity|]. split; [vm_compute; reflexivity|].
  split; [vm_compute; reflexivity|]. split; [vm_compute; reflexivity|].
  split; [cbn; lia|unfold is_int; lia]. Qed.

(* C67: in coverage builds the text can be read; it has the array that it needs; and
   whatever the surroundings answer, a call does what the specification says, nothing else
   and in this order. *)
Theorem C67_text_asks : forall c o f n,
  track o = true -> is_int n ->
  exists items,
    parse_text (prelude_text c o f n) = Some items /\
    own_statics items = Some [] /\
    shared_statics items = Some [("already_recorded", VArr (repeat (VBool false) n))] /\
    forall W (answers : W -> event -> W * answer) w local k fuel,
      is_int (f + local + k - 1) -> is_int k -> k < fuel ->
      interpret answers w
        (CRun.call items fuel "__dredd_record_covered_mutants"
           [VInt (Z.of_nat local); VInt (Z.of_nat k)] []) =
      interpret answers w (whole (records (cpp c) f local k)).
Proof. exact C67_events_lemma. Qed.
Print Assumptions C67_text_asks.

(* C67: hence the first call for a site appends the ids of its mutants, one in a line, to
   the file that the variable names, *)
Theorem C67_text_records : forall c o f n local k fuel d,
  track o = true -> is_int n -> is_int (f + local + k - 1) -> is_int k -> k < fuel ->
  exists items, parse_text (prelude_text c o f n) = Some items /\
    interpret disk_answers d
      (CRun.call items fuel "__dredd_record_covered_mutants"
         [VInt (Z.of_nat local); VInt (Z.of_nat k)] []) =
    let (d', ok) := recorded_by (cpp c) f local k d in
    (d', if ok then Done ([], Some VVoid) else Wrong).
Proof. exact C67_records_lemma. Qed.
Print Assumptions C67_text_records.

(* and this is what the model of coverage builds has one thread do. *)
Theorem C67_records_as_modelled : forall cp f local k d,
  let p := texecute (fun _ => f) cp (match variable d with Some _ => true | None => false end)
    (openable d) (repeat 0 (S k))
    {| recorded := fun _ => marks d; out := [];
       tthreads := [{| pending := []; todo := [{| c_file := 0; c_local := local; c_num := k |}] |}];
       bad := false |} in
  let (d', ok) := recorded_by cp f local k d in
  marks d' = recorded p 0 /\ written d' = (written d ++ lines (out p))%string /\
  ok = negb (bad p).
Proof. exact tracking_model. Qed.
Print Assumptions C67_records_as_modelled.

Definition recorded_text (c : ctx) (d : disk) (local k : nat) : option (disk * run (list (string * cval) * option cval)) :=
  match parse_text (prelude_text c {| optimise := true; track := true |} 7 20) with
  | Some items =>
      Some (interpret disk_answers d
              (CRun.call items 30 "__dredd_record_covered_mutants"
                 [VInt (Z.of_nat local); VInt (Z.of_nat k)] []))
  | None => None
  end.
Definition some_disk (b : bool) : disk :=
  {| marks := repeat false 20; variable := Some "cov"; openable := b; opened := [];
     written := "" |}.
Example C67_example :
  let r := recorded_text (lang true) (some_disk true) 3 2 in
  option_map (fun p => written (fst p)) r = Some ("10" ++ nl ++ "11" ++ nl) /\
  option_map (fun p => opened (fst p)) r = Some ["cov"] /\
  option_map snd (recorded_text (lang false) (some_disk false) 3 2) = Some Wrong /\
  option_map snd (recorded_text (lang true) (some_disk false) 3 2) =
    Some (Done ([], Some VVoid)) /\
  is_int (7 + 3 + 2 - 1).
Proof. split; [vm_compute; reflexivity|]. split; [vm_compute; reflexivity|].
  split; [vm_compute; reflexivity|]. split; [vm_compute; reflexivity|unfold is_int; lia]. Qed.
