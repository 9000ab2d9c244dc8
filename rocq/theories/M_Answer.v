(** The texts with which the tool server answers: firm_mcp/src/server.rs:118-484
    and the [execute], [*_result] and [*_error] functions of
    firm_mcp/src/tools/*.rs. *)
From Verif Require Import M_Graph M_Num.
From Verif Require Export M_Server M_Tools M_Add.

(** [CallToolResult]: [success] or [error], with a list of texts. *)
Record said := { is_error : bool; contents : list str }.
Definition says (t : str) : said := {| is_error := false; contents := [t] |}.
Definition fails (t : str) : said := {| is_error := true; contents := [t] |}.

(** Texts made elsewhere: the [Display] of a failed load
    (firm_lang/src/workspace/workspace_errors.rs:16-55, with the errors it
    contains), of a failed parse, of an error of the operating system, and of what
    is wrong with an entity to be added (add_entity.rs:60-166); the two parts of
    dsl_reference_content.rs. *)
Record say_env := { se_load : load_error -> str; se_parse : str -> str; se_io : str; se_add : add_params -> str;
                    se_dsl : str; se_query : str }.
Definition show_nat (n : nat) : str := show_N (N.of_nat n).

(** resources.rs:108-128, with the texts. *)
Definition write_file_said (se : say_env) (c : ctx) (d : fs) (rel content : str) : fs * option said :=
  if negb (ends_with rel (L ".firm")) then (d, Some (fails (L "Path must end with .firm extension: " ++ rel)))
  else match to_absolute_path c d rel with
       | None => (d, Some (fails (L "Invalid path (must be within workspace): " ++ rel)))
       | Some p =>
           match (match parent p with
                  | Some q => create_dir_all (S (length q)) (c_links c) d q
                  | None => (d, true)
                  end) with
           | (d1, false) => (d1, Some (fails (L "Failed to create parent directories: " ++ se_io se)))
           | (d1, true) =>
               match write (c_links c) d1 p content with
               | Some d2 => (d2, None)
               | None => (d1, Some (fails (L "Failed to write file: " ++ se_io se)))
               end
           end
       end.
(** write_source.rs:46-83: what there was if it is text, or the answer. *)
Definition validate_said (se : say_env) (c : ctx) (d : fs) (rel content : str) : fs * (option str + said) :=
  match c_parse c content with
  | None => (d, inr (fails (L "Failed to parse DSL: " ++ se_parse se content)))
  | Some ps =>
      if ps_error ps
      then (d, inr (fails (L "Invalid DSL syntax: the content contains parse errors. Please check for unclosed braces, missing values, or malformed references.")))
      else let original := read_text (c_links c) d (join_path (c_ws c) rel) in
           match write_file_said se c d rel content with
           | (d1, None) => (d1, inl original)
           | (d1, Some s) => (d1, inr s)
           end
  end.
(** write_source.rs:100-106, 109-121: from the action to the number. *)
Definition say_written (rel : str) (len : nat) (existed : bool) : str :=
  (if existed then L "Updated" else L "Created") ++ L " " ++ rel ++ L " (" ++ show_nat len ++ L " bytes). ".
(** replace_source.rs:99-109, 112-133: up to the file. *)
Definition say_replaced (rel : str) (n : nat) : str :=
  if n =? 1 then L "Replaced 1 occurrence in '" ++ rel ++ L "'. "
  else L "Replaced " ++ show_nat n ++ L " occurrences in '" ++ rel ++ L "'. ".
(** delete_source.rs:68-73, 76-82: up to the file. *)
Definition say_deleted (rel : str) : str := L "Deleted '" ++ rel ++ L "'. ".
Definition valid_text : str := L "Workspace is valid.".
(** The same words in write_source.rs:117-118, replace_source.rs:118-119 and
    delete_source.rs:78-79. *)
Definition warning_text (e : str) : str :=
  L "Warning: workspace has validation errors: " ++ e ++ L ". Use 'build' to check status after making more changes.".
(** write_source.rs:124-135 and replace_source.rs:162-173. *)
Definition invalid_text (e : str) (rolled_back : bool) : str :=
  L "Validation failed: " ++ e ++ L ". "
    ++ (if rolled_back then L "Changes have been rolled back." else L "Warning: Failed to rollback changes.")
    ++ L " Use 'force: true' to write anyway.".
(** delete_source.rs:84-95. *)
Definition say_undeleted (e : str) (restored : bool) : str :=
  L "Deletion would break the workspace: " ++ e ++ L ". "
    ++ (if restored then L "File has been restored." else L "Warning: Failed to restore file.")
    ++ L " Use 'force: true' to delete anyway.".
(** build.rs:20-25. *)
Definition build_error (e : str) : said := fails (L "Workspace validation failed: " ++ e).

(** server.rs:236-294 and 344-408 from the writing on; [None] is a panic. *)
Definition tell_write (se : say_env) (c : ctx) (d : fs) (st : state) (rel content : str) (force : bool) (done : bool -> str)
  : fs * state * option said :=
  match validate_said se c d rel content with
  | (d1, inr s) => (d1, st, Some s)
  | (d1, inl original) =>
      let text := done (match original with Some _ => true | None => false end) in
      match rebuild c d1 with
      | Ok st' => (d1, st', Some (says (text ++ valid_text)))
      | Panic => (d1, st, None)
      | Err e =>
          if force then (d1, st, Some (says (text ++ warning_text (se_load se e))))
          else match rollback_write c d1 rel original with
               | (d', ok) => (d', st, Some (fails (invalid_text (se_load se e) ok)))
               end
      end
  end.
(** resources.rs:89-104, with the texts. *)
Definition read_said (se : say_env) (c : ctx) (d : fs) (rel : str) : str + str :=
  match read_source_file c d rel with
  | Ok text => inl text
  | Err InvalidPath => inr (L "Invalid path: " ++ rel)
  | Err NotFound => inr (L "File not found: " ++ rel)
  | Err NotFirmFile => inr (L "Not a .firm file: " ++ rel)
  | _ => inr (L "Failed to read file: " ++ se_io se)
  end.
(** replace_source.rs:137-142, 151-156: the first 100 bytes. *)
Definition for_display (old : str) : str := if 100 <? length old then firstn 100 old ++ L "..." else old.
(** replace_source.rs:51-96, 136-159; [None] is the panic of [cut_for_display]. *)
Definition replace_said (se : say_env) (c : ctx) (d : fs) (rel old new : str) (all : bool) : option (str * nat + said) :=
  match old with
  | [] => Some (inr (fails (L "old_string cannot be empty.")))
  | _ =>
      match read_said se c d rel with
      | inr e => Some (inr (fails e))
      | inl content =>
          let n := count_matches old content in
          if n =? 0 then
            if cut_for_display old
            then Some (inr (fails (L "old_string not found in '" ++ rel ++ L "': """ ++ for_display old ++ L """")))
            else None
          else if (1 <? n) && negb all then
            if cut_for_display old
            then Some (inr (fails (L "old_string found " ++ show_nat n ++ L " times: """ ++ for_display old
                   ++ L """. Set 'replace_all: true' to replace all occurrences, or provide more surrounding context to make the match unique.")))
            else None
          else Some (inl (if all then replace_str old new content else replace_first old new content, if all then n else 1))
      end
  end.
(** delete_source.rs:35-56, with the texts. *)
Definition delete_file_said (se : say_env) (c : ctx) (d : fs) (rel : str) : fs * str + str :=
  if negb (ends_with rel (L ".firm")) then inr (L "Path must end with .firm extension: " ++ rel)
  else match to_absolute_path c d rel with
       | None => inr (L "Invalid path (must be within workspace): " ++ rel)
       | Some p =>
           if negb (path_exists (c_links c) d p) then inr (L "File not found: " ++ rel)
           else match read_text (c_links c) d p with
                | None => inr (L "Failed to read file: " ++ se_io se)
                | Some s => match remove_file (c_links c) d p with
                            | Some d' => inl (d', s)
                            | None => inr (L "Failed to delete file: " ++ se_io se)
                            end
                end
       end.
(** server.rs:302-337. *)
Definition tell_delete (se : say_env) (c : ctx) (d : fs) (st : state) (rel : str) (force : bool) : fs * state * option said :=
  match delete_file_said se c d rel with
  | inr e => (d, st, Some (build_error e))
  | inl (d1, content) =>
      match rebuild c d1 with
      | Ok st' => (d1, st', Some (says (say_deleted rel ++ valid_text)))
      | Panic => (d1, st, None)
      | Err e =>
          if force then (d1, st, Some (says (say_deleted rel ++ warning_text (se_load se e))))
          else match rollback_delete c d1 rel content with
               | (d', ok) => (d', st, Some (fails (say_undeleted (se_load se e) ok)))
               end
      end
  end.
(** server.rs:415-430 and build.rs:12-17. *)
Definition build_text (st : state) : str :=
  L "Workspace is valid. " ++ show_nat (length (b_entities (st_build st))) ++ L " entities, "
    ++ show_nat (length (b_schemas (st_build st))) ++ L " schemas.".
Definition tell_build (se : say_env) (c : ctx) (d : fs) (st : state) : fs * state * option said :=
  match rebuild c d with
  | Ok st' => (d, st', Some (says (build_text st')))
  | Panic => (d, st, None)
  | Err e => (d, st, Some (build_error (se_load se e)))
  end.
(** The four tools that change or rebuild. *)
Definition tell (se : say_env) (c : ctx) (d : fs) (st : state) (r : request) : fs * state * option said :=
  match r with
  | Write rel content force => tell_write se c d st rel content force (say_written rel (length content))
  | Replace rel old new all force =>
      match replace_said se c d rel old new all with
      | None => (d, st, None)
      | Some (inr s) => (d, st, Some s)
      | Some (inl (content, n)) => tell_write se c d st rel content force (fun _ => say_replaced rel n)
      end
  | Delete rel force => tell_delete se c d st rel force
  | Build => tell_build se c d st
  end.

(** server.rs:184-211 and add_entity.rs:379-407. The path in the answer is the
    one asked for, or the default one. *)
Definition add_path (a : add_params) : str :=
  match a_file a with
  | Some p => p
  | None => path_text (with_firm (match a_type a with "/"%char :: _ => path_of (a_type a) | _ => L "generated" :: path_of (a_type a) end))
  end.
Definition added_text (a : add_params) (new_file : bool) : str :=
  if new_file then L "Created new file '" ++ add_path a ++ L "' and added entity."
  else L "Added entity to existing file '" ++ add_path a ++ L "'.".
(** add_entity.rs:132-136. *)
Definition file_exists (c : ctx) (d : fs) (p : path) : bool :=
  path_exists (c_links c) (match parent p with Some q => fst (create_dir_all (S (length q)) (c_links c) d q) | None => d end) p.
Definition tell_add (se : say_env) (c : ctx) (ae : add_env) (d : fs) (st : state) (a : add_params) : fs * state * option said :=
  match entity_to_add c ae st a with
  | None => (d, st, Some (build_error (se_add se a)))
  | Some e =>
      let dsl := generate_dsl (c_env c) default_options [e] in
      match append_block c d (target_of c a) dsl with
      | (d1, false) => (d1, st, Some (build_error (se_add se a)))
      | (d1, true) =>
          let text := added_text a (negb (file_exists c d (target_of c a))) in
          match rebuild c d1 with
          | Ok st' => (d1, st', Some {| is_error := false; contents := [text; dsl] |})
          | Panic => (d1, st, None)
          | Err e => (d1, st, Some {| is_error := false;
                contents := [text; dsl; L "Warning: workspace rebuild failed after adding entity: " ++ se_load se e] |})
          end
      end
  end.

(** ** The tools that only read *)

(** get.rs:24-27, 34-38; related.rs:66-69; find_source.rs:42-51. *)
Definition no_schema (i : str) : said :=
  fails (L "Schema '" ++ i ++ L "' not found. Use list with type='schema' to see available schemas.").
Definition no_entity (t i : str) : said :=
  fails (L "Entity '" ++ i ++ L "' with type '" ++ t ++ L "' not found. Use list with type='" ++ t ++ L "' to see available IDs.").
(** list.rs:18-38. *)
Definition tell_list (st : state) (t : str) : said := says (list_text st t).
(** get.rs:18-41, with the functions that show an entity and a schema. *)
Definition tell_get (show_e : entity -> str) (show_s : schema -> str) (st : state) (t i : str) : said :=
  match get_tool st t i with
  | GotSchema s => says (show_s s)
  | GotEntity e => says (show_e e)
  | NotGot => if str_eqb t (L "schema") then no_schema i else no_entity t i
  end.
(** related.rs:46-71. *)
Definition tell_related (st : state) (t i : str) (dir : option direction) : said :=
  match related_tool st t i dir with
  | Some [] => says (L "No related entities found"
      ++ match dir with Some Incoming => L " (incoming)" | Some Outgoing => L " (outgoing)" | None => [] end ++ L ".")
  | Some ids => says (join [LF] ids)
  | None => no_entity t i
  end.
(** find_source.rs:21-55. *)
Definition tell_find (st : state) (t i : str) : said :=
  match find_source_tool st t i with
  | Some p => says p
  | None => if str_eqb t (L "schema") then no_schema i else no_entity t i
  end.
(** read_source.rs:21-26. *)
Definition tell_read (se : say_env) (c : ctx) (d : fs) (rel : str) : said :=
  match read_said se c d rel with inl text => says text | inr e => fails e end.
(** source_tree.rs:17-62. *)
Definition tell_tree (st : state) : said := says (tree_text (source_tree st)).
(** search_source.rs:28-102. *)
Definition tell_search (c : ctx) (d : fs) (st : state) (query : str) (case_sensitive : bool) : said :=
  match search_source c d st query case_sensitive with
  | EmptyQuery => fails (L "Search query cannot be empty.")
  | NoMatches => says (L "No matches found for '" ++ query ++ L "'.")
  | Matches groups truncated => says (search_text groups truncated)
  end.
(** dsl_reference.rs:24-38. Letter case: ASCII only. *)
Definition tell_reference (se : say_env) (topic : str) : said :=
  let t := lower topic in
  if str_eqb t (L "dsl") then says (se_dsl se)
  else if str_eqb t (L "query") then says (se_query se)
  else if str_eqb t (L "all") || str_eqb t [] then says (se_dsl se ++ [LF; LF] ++ L "---" ++ [LF; LF] ++ se_query se)
  else fails (L "Unknown topic '" ++ t ++ L "'. Valid options: 'dsl', 'query', 'all'").
