(* The preprocessing directives of the original and of the written file. *)
From Coq Require Import String Ascii List Arith Bool.
From Verif Require Import Base Clang Gen GenExpr GenBinary GenUnary GenStmt Mutation MutTree TreeSpec
  Run NameSpec LineSpec.
Import ListNotations.
Local Open Scope string_scope.

Definition hash : ascii := "#"%char.

(* Nothing is done to the lines that begin with #, and elsewhere nothing is replaced by the
   character, or taken away directly before it. *)
Definition directives_left_alone (u : unit_info) (text : string) : Prop :=
  (forall i j, line_begins text i -> get i text = Some hash -> i <= j -> j <= String.length text ->
     (forall k, i <= k < j -> get k text <> Some line_feed) ->
     untouched u i j /\ (ui_prelude_offset u <= i \/ j < ui_prelude_offset u)) /\
  (get (ui_prelude_offset u) text = Some hash -> line_begins text (ui_prelude_offset u)) /\
  (forall i, get i text = Some hash -> kept u i) /\
  (forall i, get (S i) text = Some hash -> kept u i) /\
  (forall e i, In e (ui_rewrites u) -> get i (inserted_text e) <> Some hash).

(* The directives that a header is read after, at its first inclusion *)
Fixpoint first_included (h : string) (ds : list string) : option (list string) :=
  match ds with
  | [] => None
  | d :: ds =>
      if String.eqb d ("include " ++ h) then Some []
      else option_map (cons d) (first_included h ds)
  end.
(* The macros that are defined by some directives *)
Definition defines (ds : list string) (x : string) : bool :=
  existsb (fun d => String.eqb d ("define " ++ x)) ds.

(* The directives of the block that is added *)
Definition block_directives (cpp track : bool) : list string :=
  ((if cpp
   then ["include <atomic>"; "include <cinttypes>"; "include <cstddef>"; "include <fstream>";
         "include <functional>"; "include <sstream>"; "include <string>"]
   else ["include <inttypes.h>"; "include <stdatomic.h>"; "include <stdbool.h>";
         "include <stdio.h>"; "include <stdlib.h>"; "include <string.h>"])
  ++ (if track then []
     else ["ifdef _MSC_VER"; "define thread_local __declspec(thread)";
           "elif __APPLE__"; "define thread_local __thread"]
          ++ (if cpp then [] else ["else"; "include <threads.h>"]) ++ ["endif"]))%list.
