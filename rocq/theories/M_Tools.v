(** The reading tools of the tool server: firm_mcp/src/tools/{list,get,related,
    find_source,search_source,source_tree}.rs and the resources of
    firm_mcp/src/server.rs:553-604. *)
From Verif Require Import M_Graph M_Num.
From Verif Require Export M_Server.

(** The source files of the workspace by their paths relative to it, sorted
    (search_source.rs:34-39, source_tree.rs:19-25, server.rs:558-571). Every
    loaded path lies in the workspace, so that resources.rs:50-56 succeeds and
    gives the path io.rs:16-23 computed. *)
Definition source_paths (st : state) : list str := sort_by str_cmp (map (fun pf => wf_rel (snd pf)) (st_files st)).

(** ** tools/search_source.rs *)

(** search_source.rs:14. *)
Definition max_matches : nat := 50.
(** search_source.rs:55-59. Letter case: ASCII only. *)
Definition line_matches (query : str) (case_sensitive : bool) (line : str) : bool :=
  if case_sensitive then contains line query else contains (lower line) (lower query).
(** search_source.rs:54-68, the lines of one file from number [n] on, with
    [total] matches so far: the matches, their total, whether truncated. *)
Fixpoint search_lines (matches : str -> bool) (n : nat) (ls : list str) (total : nat) : list (nat * str) * nat * bool :=
  match ls with
  | [] => ([], total, false)
  | l :: ls' =>
      if matches l then
        if max_matches <=? total then ([], total, true)
        else match search_lines matches (S n) ls' (S total) with (ms, t, b) => ((n, l) :: ms, t, b) end
      else search_lines matches (S n) ls' total
  end.
(** search_source.rs:45-81. *)
Fixpoint search_files (c : ctx) (d : fs) (matches : str -> bool) (paths : list str) (total : nat)
  : list (str * list (nat * str)) * nat * bool :=
  match paths with
  | [] => ([], total, false)
  | p :: ps =>
      match read_text (c_links c) d (join_path (c_ws c) p) with
      | None => search_files c d matches ps total
      | Some content =>
          match search_lines matches 1 (lines content) total with
          | (ms, t, truncated) =>
              let here := match ms with [] => [] | _ => [(p, ms)] end in
              if truncated then (here, t, true)
              else match search_files c d matches ps t with (r, t', b) => (here ++ r, t', b) end
          end
      end
  end.
(** search_source.rs:71-77. *)
Definition show_group (g : str * list (nat * str)) : str :=
  fst g ++ L ":" ++ [LF]
    ++ concat (map (fun m => L "  " ++ show_N (N.of_nat (fst m)) ++ L ":  " ++ utrim (snd m) ++ [LF]) (snd g))
    ++ [LF].
(** search_source.rs:28-102. *)
Inductive found_lines := EmptyQuery | NoMatches | Matches (groups : list (str * list (nat * str))) (truncated : bool).
Definition search_source (c : ctx) (d : fs) (st : state) (query : str) (case_sensitive : bool) : found_lines :=
  match query with
  | [] => EmptyQuery
  | _ =>
      match search_files c d (line_matches query case_sensitive) (source_paths st) 0 with
      | (groups, total, truncated) => if total =? 0 then NoMatches else Matches groups truncated
      end
  end.
Definition search_text (groups : list (str * list (nat * str))) (truncated : bool) : str :=
  utrim_end (concat (map show_group groups))
    ++ (if truncated
        then [LF; LF] ++ L "... results truncated at 50 matches. Narrow your search for more specific results."
        else []).

(** ** tools/source_tree.rs *)

(** source_tree.rs:34-37, rsplit_once. *)
Definition dir_and_file (p : str) : str * str :=
  match split_once "/" (rev p) with
  | Some (f, d) => (rev d, rev f)
  | None => ([], p)
  end.
(** source_tree.rs:38: BTreeMap::entry(dir).or_default().push(file). *)
Fixpoint push_file (dir file : str) (tree : list (str * list str)) : list (str * list str) :=
  match tree with
  | [] => [(dir, [file])]
  | (k, fs) :: tree' =>
      match str_cmp dir k with
      | Lt => (dir, [file]) :: tree
      | Eq => (k, fs ++ [file]) :: tree'
      | Gt => (k, fs) :: push_file dir file tree'
      end
  end.
(** source_tree.rs:32-39. *)
Definition source_tree (st : state) : list (str * list str) :=
  fold_left (fun tree p => match dir_and_file p with (dir, file) => push_file dir file tree end) (source_paths st) [].
(** source_tree.rs:27-29, 42-59. *)
Definition tree_text (tree : list (str * list str)) : str :=
  match tree with
  | [] => L "No .firm source files found."
  | _ =>
      utrim_end (concat (map (fun '(dir, fs) =>
        match dir with
        | [] => concat (map (fun f => f ++ [LF]) fs)
        | _ => dir ++ L "/" ++ [LF] ++ concat (map (fun f => L "  " ++ f ++ [LF]) fs)
        end) tree))
  end.

(** ** tools/list.rs, get.rs, related.rs, find_source.rs *)

(** list.rs:18-38: the lines of the answer. *)
Definition list_tool (st : state) (t : str) : list str :=
  if str_eqb t (L "schema") then map s_type (b_schemas (st_build st))
  else map e_id (filter (fun e => str_eqb (e_type e) t) (b_entities (st_build st))).
Definition list_text (st : state) (t : str) : str := join [LF] (list_tool st t).
(** get.rs:18-46; what is printed of it ([Display]) is in [M_Show]. *)
Definition get_schema_tool (st : state) (i : str) : option schema :=
  find (fun s => str_eqb (s_type s) i) (b_schemas (st_build st)).
Definition get_entity_tool (st : state) (t i : str) : option entity :=
  find (fun e => str_eqb (e_id e) (compose_entity_id t i)) (b_entities (st_build st)).
Inductive got := GotSchema (s : schema) | GotEntity (e : entity) | NotGot.
Definition get_tool (st : state) (t i : str) : got :=
  if str_eqb t (L "schema") then
    match get_schema_tool st i with Some s => GotSchema s | None => NotGot end
  else match get_entity_tool st t i with Some e => GotEntity e | None => NotGot end.
(** related.rs:46-71: the ids of the answer. *)
Definition related_tool (st : state) (t i : str) (d : option direction) : option (list str) :=
  option_map (map e_id) (get_related (st_graph st) (compose_entity_id t i) d).
(** find_source.rs:21-55: the path of the answer, as it is in the workspace. *)
Definition find_source_tool (st : state) (t i : str) : option str :=
  let at_path p := option_map (fun pf => wf_rel (snd pf)) (find (fun pf => str_eqb (fst pf) p) (st_files st)) in
  match (if str_eqb t (L "schema") then find_schema_source (st_files st) i else find_entity_source (st_files st) t i) with
  | Some p => at_path p
  | None => None
  end.

(** ** Resources *)

(** server.rs:553-582: the URIs listed. *)
Definition list_resources (st : state) : list str := map source_file_uri (source_paths st).
(** server.rs:584-604. *)
Definition read_resource (c : ctx) (d : fs) (uri : str) : option str :=
  match parse_source_uri uri with
  | None => None
  | Some rel => match read_source_file c d rel with Ok s => Some s | _ => None end
  end.
