(* Reading the text of the preludes. *)
From Coq Require Import String Ascii List NArith ZArith Bool Lia.
From Coq Require Import DecimalString DecimalN DecimalFacts DecimalPos.
From Verif Require Import Base Clang PreludeText CText.
Import ListNotations.
Local Open Scope string_scope.

Lemma read_app s t r : read_from r (s ++ t) = read_from (read_from r s) t.
Proof. revert r. induction s as [|c s IH]; intros r; cbn; [reflexivity|apply IH]. Qed.

(* The value of digits read after n *)
Fixpoint digits_value (n : N) (u : Decimal.uint) : N :=
  match u with
  | Decimal.Nil => n
  | Decimal.D0 u => digits_value (10 * n + 0) u
  | Decimal.D1 u => digits_value (10 * n + 1) u
  | Decimal.D2 u => digits_value (10 * n + 2) u
  | Decimal.D3 u => digits_value (10 * n + 3) u
  | Decimal.D4 u => digits_value (10 * n + 4) u
  | Decimal.D5 u => digits_value (10 * n + 5) u
  | Decimal.D6 u => digits_value (10 * n + 6) u
  | Decimal.D7 u => digits_value (10 * n + 7) u
  | Decimal.D8 u => digits_value (10 * n + 8) u
  | Decimal.D9 u => digits_value (10 * n + 9) u
  end.

Lemma read_digits u ts n :
  read_from {| tokens := ts; reading := InNumber n |} (NilEmpty.string_of_uint u) =
  {| tokens := ts; reading := InNumber (digits_value n u) |}.
Proof.
  revert n. induction u; intros n; cbn [NilEmpty.string_of_uint read_from digits_value];
    [reflexivity|..]; cbn [read_char reading tokens]; rewrite <- IHu; reflexivity.
Qed.

Lemma digits_acc u p : digits_value (Npos p) u = Npos (Pos.of_uint_acc u p).
Proof.
  revert p. induction u; intros p; cbn [digits_value Pos.of_uint_acc]; [reflexivity|..];
    rewrite <- IHu; f_equal; try reflexivity; lia.
Qed.

Lemma digits_of_uint u : digits_value 0 u = N.of_uint u.
Proof.
  unfold N.of_uint. induction u; cbn [digits_value Pos.of_uint]; [reflexivity|exact IHu|..];
    apply digits_acc.
Qed.

Lemma read_number n ts t :
  read_from {| tokens := ts; reading := Between |} (string_of_nat n ++ t) =
  read_from {| tokens := ts; reading := InNumber (N.of_nat n) |} t.
Proof.
  rewrite read_app. f_equal. unfold string_of_nat, string_of_N.
  assert (V : digits_value 0 (N.to_uint (N.of_nat n)) = N.of_nat n).
  { rewrite digits_of_uint. apply DecimalN.Unsigned.of_to. }
  assert (E : N.to_uint (N.of_nat n) <> Decimal.Nil).
  { intros E. destruct n; [discriminate|]. rewrite E in V. discriminate. }
  revert V E. generalize (N.to_uint (N.of_nat n)). generalize (N.of_nat n). clear n.
  intros n u V E. rewrite <- V, <- read_digits.
  destruct u; [contradiction|..]; reflexivity.
Qed.

(* The items of a prelude with the numbers put in: those that its text has for first id
   777 and 640 mutants, with these and 10, the number of words, replaced. *)
Definition put (w i n : N) (t : token) : token :=
  match t with
  | Number k => if N.eqb k 10 then Number w else if N.eqb k 777 then Number i
                else if N.eqb k 640 then Number n else t
  | _ => t
  end.
Definition items_with (text : nat -> nat -> string) (w i n : N) : list item :=
  match tokens_of (text 777 640) with
  | Some ts => match parse_items (S (S (List.length ts)) * 2) (map (put w i n) ts) with
               | Some l => l
               | None => []
               end
  | None => []
  end.

Definition cpp_items (w i n : N) : list item :=
  Eval vm_compute in items_with regular_prelude_cpp w i n.
Definition c_items (w i n : N) : list item :=
  Eval vm_compute in items_with regular_prelude_c w i n.
Definition tracking_cpp_items (i n : N) : list item :=
  Eval vm_compute in items_with tracking_prelude_cpp 0 i n.
Definition tracking_c_items (i n : N) : list item :=
  Eval vm_compute in items_with tracking_prelude_c 0 i n.

(* To read a text piece by piece; the tokens of the pieces are computed. *)
Definition reads_as (s : string) (n : N) : Prop := forall ts t,
  read_from {| tokens := ts; reading := Between |} (s ++ t) =
  read_from {| tokens := ts; reading := InNumber n |} t.

Ltac read_pieces :=
  repeat match goal with
  | H : reads_as ?s ?n |- context [read_from {| tokens := ?ts; reading := Between |} (?s ++ ?t)] =>
      rewrite (H ts t)
  | |- context [read_from ?r (String.append ?p ?t)] =>
      rewrite (read_app p t r);
      let v := eval vm_compute in (read_from r p) in change (read_from r p) with v
  end.

Lemma cpp_parsed i n : parse_text (prelude_start_comment ++ regular_prelude_cpp i n) =
  Some (cpp_items (N.of_nat (words_required n)) (N.of_nat i) (N.of_nat n)).
Proof.
  unfold parse_text, tokens_of, regular_prelude_cpp.
  pose proof (read_number (words_required n) : reads_as _ _) as W.
  pose proof (read_number i : reads_as _ _) as I.
  pose proof (read_number n : reads_as _ _) as M.
  generalize dependent (string_of_nat (words_required n)). intros sw W.
  generalize dependent (N.of_nat (words_required n)). intros w W.
  generalize dependent (string_of_nat i). intros si I.
  generalize dependent (N.of_nat i). clear i. intros i I.
  generalize dependent (string_of_nat n). intros sn M.
  generalize dependent (N.of_nat n). clear n. intros n M.
  read_pieces. vm_compute. reflexivity.
Qed.

Lemma c_parsed i n : parse_text (prelude_start_comment ++ regular_prelude_c i n) =
  Some (c_items (N.of_nat (words_required n)) (N.of_nat i) (N.of_nat n)).
Proof.
  unfold parse_text, tokens_of, regular_prelude_c.
  pose proof (read_number (words_required n) : reads_as _ _) as W.
  pose proof (read_number i : reads_as _ _) as I.
  pose proof (read_number n : reads_as _ _) as M.
  generalize dependent (string_of_nat (words_required n)). intros sw W.
  generalize dependent (N.of_nat (words_required n)). intros w W.
  generalize dependent (string_of_nat i). intros si I.
  generalize dependent (N.of_nat i). clear i. intros i I.
  generalize dependent (string_of_nat n). intros sn M.
  generalize dependent (N.of_nat n). clear n. intros n M.
  read_pieces. vm_compute. reflexivity.
Qed.

Lemma tracking_cpp_parsed i n : parse_text (prelude_start_comment ++ tracking_prelude_cpp i n) =
  Some (tracking_cpp_items (N.of_nat i) (N.of_nat n)).
Proof.
  unfold parse_text, tokens_of, tracking_prelude_cpp.
  pose proof (read_number i : reads_as _ _) as I.
  pose proof (read_number n : reads_as _ _) as M.
  generalize dependent (string_of_nat i). intros si I.
  generalize dependent (N.of_nat i). clear i. intros i I.
  generalize dependent (string_of_nat n). intros sn M.
  generalize dependent (N.of_nat n). clear n. intros n M.
  read_pieces. vm_compute. reflexivity.
Qed.

Lemma tracking_c_parsed i n : parse_text (prelude_start_comment ++ tracking_prelude_c i n) =
  Some (tracking_c_items (N.of_nat i) (N.of_nat n)).
Proof.
  unfold parse_text, tokens_of, tracking_prelude_c.
  pose proof (read_number i : reads_as _ _) as I.
  pose proof (read_number n : reads_as _ _) as M.
  generalize dependent (string_of_nat i). intros si I.
  generalize dependent (N.of_nat i). clear i. intros i I.
  generalize dependent (string_of_nat n). intros sn M.
  generalize dependent (N.of_nat n). clear n. intros n M.
  read_pieces. vm_compute. reflexivity.
Qed.

