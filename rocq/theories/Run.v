(* One run of the tool: mutate_ast_consumer.cc (ApplyMutations, HandleTranslationUnit),
   new_mutate_frontend_action_factory.cc and src/dredd/src/main.cc. *)
From Coq Require Import String Ascii List NArith ZArith Bool.
From Verif Require Import Base Clang Gen Mutation MutTree Rewriter PreludeText.
Import ListNotations.
Local Open Scope string_scope.

(* protobufs/dredd.proto MutationTreeNode: groups and child indices *)
Record pnode := { p_groups : list group; p_children : list nat }.
Definition empty_pnode : pnode := {| p_groups := []; p_children := [] |}.

(* What ApplyMutations updates: the flat tree of MutationInfoForFile, the mutation id
   counter, the rewriter (the edits requested so far) and the set of declarations (in the
   order in which they were generated, possibly with repetitions). *)
Record astate := {
  st_nodes : list pnode;
  st_id : nat;
  st_edits : list edit;
  st_decls : list string
}.

(* mutate_ast_consumer.cc:496-505, for one mutation; idx is the index of the protobuf
   node *)
Definition apply_one (c : ctx) (o : options) (build_tree : bool) (first idx : nat)
  (st : astate) (m : mutation) : astate :=
  let a := apply_mutation c o m first (st_id st) in
  {| st_nodes :=
       if build_tree && Nat.ltb (st_id st) (a_next a)
       then update_nth idx (fun p => {| p_groups := p_groups p ++ [a_group a];
                                        p_children := p_children p |}) (st_nodes st)
       else st_nodes st;
     st_id := a_next a;
     st_edits := st_edits st ++ a_edits a;
     st_decls := st_decls st ++ a_decls a |}%list.

(* mutate_ast_consumer.cc:484-491: a new protobuf node is appended and becomes a child of
   node idx *)
Definition add_child (idx : nat) (st : astate) : astate :=
  {| st_nodes :=
       update_nth idx (fun p => {| p_groups := p_groups p;
                                   p_children := p_children p ++ [List.length (st_nodes st)] |})
         (st_nodes st) ++ [empty_pnode];
     st_id := st_id st;
     st_edits := st_edits st;
     st_decls := st_decls st |}%list.

(* mutate_ast_consumer.cc:475-506 *)
Fixpoint apply_tree (c : ctx) (o : options) (build_tree : bool) (first idx : nat)
  (t : tree mutation) (st : astate) : astate :=
  match t with
  | Node ms ks =>
      let st := (fix go (ks : list (tree mutation)) (st : astate) :=
                   match ks with
                   | [] => st
                   | k :: ks =>
                       go ks (apply_tree c o build_tree first (List.length (st_nodes st)) k
                                (add_child idx st))
                   end) ks st in
      fold_left (apply_one c o build_tree first idx) ms st
  end.

(* mutate_ast_consumer.cc:114-121 *)
Definition initial_astate (id : nat) : astate :=
  {| st_nodes := [empty_pnode]; st_id := id; st_edits := []; st_decls := [] |}.

Definition apply_mutations (c : ctx) (o : options) (build_tree : bool) (id : nat)
  (t : tree mutation) : astate :=
  apply_tree c o build_tree id 0 t (initial_astate id).

(* std::set<std::string>: sorted, no duplicates; std::string compares bytes. *)
Fixpoint insert_sorted (s : string) (l : list string) : list string :=
  match l with
  | [] => [s]
  | x :: l' => match String.compare s x with
               | Lt => s :: l
               | Eq => l
               | Gt => x :: insert_sorted s l'
               end
  end.
(* mutate_ast_consumer.cc:152-154 *)
Definition sorted_decls (decls : list string) : list string :=
  fold_right insert_sorted [] decls.

(* What Clang found in a source file without errors. *)
Record unit_info := {
  ui_ctx : ctx;
  ui_tree : tree mutation;          (* as built by the visitor, before TidyUp *)
  ui_rewrites : list edit;          (* RewriteExpressionsInMainFile, lines 177-235 *)
  ui_prelude_offset : nat           (* start of file or of __dredd_prelude_start *)
}.

Record source_file := {
  f_name : string;
  f_text : string;
  f_unit : option unit_info         (* None: hasErrorOccurred() *)
}.

(* mutate_ast_consumer.cc:150-170: declarations in sorted order, each inserted before the
   previous ones, then the prelude before all of them *)
Definition prelude_edits (c : ctx) (o : options) (first num off : nat)
  (decls : list string) : list edit :=
  (map (InsertBefore off) (sorted_decls decls)
   ++ [InsertBefore off (prelude_text c o first num)])%list.

(* The outcome of HandleTranslationUnit for a file without errors. *)
Record handled := {
  h_next : nat;                      (* mutation id counter afterwards *)
  h_output : option string;          (* new text, None: not rewritten *)
  h_info : option (list pnode)       (* entry for the mutation info, if any *)
}.

(* mutate_ast_consumer.cc:95-175 (TidyUp is called at the end of the traversal,
   mutate_visitor.cc:107) *)
Definition handle_unit (o : options) (build_tree : bool) (text : string) (u : unit_info)
  (id : nat) : handled :=
  let st := apply_mutations (ui_ctx u) o build_tree id (tidy (ui_tree u)) in
  if Nat.eqb id (st_id st) then
    {| h_next := st_id st; h_output := None; h_info := None |}
  else
    {| h_next := st_id st;
       h_output := Some (rewrite text
         (st_edits st ++ ui_rewrites u
          ++ prelude_edits (ui_ctx u) o id (st_id st - id) (ui_prelude_offset u)
               (st_decls st))%list);
       h_info := if build_tree then Some (st_nodes st) else None |}.

(* The state of the tool between two files: main.cc:132-143 and
   new_mutate_frontend_action_factory.cc:45. *)
Record rstate := {
  rs_id : nat;
  rs_processed : list string;
  rs_info : list (string * list pnode);      (* info_for_files *)
  rs_written : list (string * string)        (* files overwritten, with new text *)
}.
Definition initial_rstate : rstate :=
  {| rs_id := 0; rs_processed := []; rs_info := []; rs_written := [] |}.

Definition string_mem (s : string) (l : list string) : bool := existsb (String.eqb s) l.

(* new_mutate_frontend_action_factory.cc:48-68 and mutate_ast_consumer.cc:76-175 *)
Definition process_file (o : options) (build_tree : bool) (st : rstate) (f : source_file)
  : rstate :=
  if string_mem (f_name f) (rs_processed st) then st
  else
    let processed := (f_name f :: rs_processed st)%list in
    match f_unit f with
    | None => {| rs_id := rs_id st; rs_processed := processed; rs_info := rs_info st;
                 rs_written := rs_written st |}
    | Some u =>
        let h := handle_unit o build_tree (f_text f) u (rs_id st) in
        {| rs_id := h_next h;
           rs_processed := processed;
           rs_info := match h_info h with
                      | Some ns => rs_info st ++ [(f_name f, ns)]
                      | None => rs_info st
                      end;
           rs_written := match h_output h with
                         | Some t => rs_written st ++ [(f_name f, t)]
                         | None => rs_written st
                         end |}%list
    end.

(* tool.run in main.cc:152; build_tree says that --mutation-info-file was given *)
Definition run_from (o : options) (build_tree : bool) (st : rstate)
  (fs : list source_file) : rstate :=
  fold_left (process_file o build_tree) fs st.
Definition run (o : options) (build_tree : bool) (fs : list source_file) : rstate :=
  run_from o build_tree initial_rstate fs.

(* What main leaves on disk, in order: overwriteChangedFiles at the end of each file
   (mutate_ast_consumer.cc:171-174), then the info file (main.cc:174-191). *)
Inductive event :=
| WriteSource (name text : string)
| WriteInfo (info : list (string * list pnode)).
Definition main_events (o : options) (build_tree : bool) (fs : list source_file)
  : list event :=
  let st := run o build_tree fs in
  (map (fun w => WriteSource (fst w) (snd w)) (rs_written st)
   ++ if build_tree then [WriteInfo (rs_info st)] else [])%list.
