(** The tool server: firm_mcp/src/resources.rs, tools/write_source.rs,
    tools/delete_source.rs, tools/replace_source.rs, server.rs, and
    firm_lang/src/workspace/io.rs. *)
From Verif Require Export M_Fs.
From Verif Require Import M_Graph.
From Verif Require Export M_Workspace.

(** What a source text parses to (parser/dsl/parsed_source.rs); the parser is
    tree-sitter, an oracle. *)
Record parsed := { ps_error : bool; ps_schemas : list snode; ps_entities : list enode }.

(** What the server runs with: its workspace directory (an absolute path; it
    may be relative in the code, to the current directory), the kernel's limit
    on links, the parser, and the iteration orders of the hash maps. *)
Record ctx := {
  c_ws : path;
  c_links : nat;
  c_parse : str -> option parsed;
  c_env : dsl_env;
  c_fields : field_order;
  c_schemas : list schema -> list schema;
  c_files : files -> files
}.

(** ** Loading: firm_lang/src/workspace/io.rs *)

(** io.rs:58-63. Path::extension: what follows the last dot of the name, if
    something precedes that dot. *)
Definition extension (name : str) : option str :=
  match split_once "." (rev name) with
  | Some (e, _ :: _) => if str_eqb name (L "..") then None else Some (rev e)
  | _ => None
  end.
Definition is_firm_file (name : str) : bool :=
  match extension name with Some e => str_eqb e (L "firm") | None => false end.
Definition path_text (p : path) : str := join (L "/") p.

(** io.rs:12-30. The message of a failed parse is left out. *)
Definition load_file (c : ctx) (d : fs) (rel : path) : outcome werror (str * wfile) :=
  let p := c_ws c ++ rel in
  match read_text (c_links c) d p with
  | None => Err WIoError
  | Some text =>
      match c_parse c text with
      | None => Err (WParseError (path_text p))
      | Some ps => Ok (path_text p, {| wf_rel := path_text rel; wf_schemas := ps_schemas ps; wf_entities := ps_entities ps |})
      end
  end.
(** io.rs:38-56. [n] bounds the depth of the recursion. *)
Fixpoint load_dir (n : nat) (c : ctx) (d : fs) (rel : path) : outcome werror files :=
  match n with
  | 0 => Ok []
  | S n' =>
      match read_dir (c_links c) d (c_ws c ++ rel) with
      | None => Err WIoError
      | Some names =>
          obind (omap (fun name =>
                   match stat (c_links c) d (c_ws c ++ rel ++ [name]) with
                   | Some Dir => load_dir n' c d (rel ++ [name])
                   | Some (File _) =>
                       if is_firm_file name
                       then obind (load_file c d (rel ++ [name])) (fun f => Ok [f])
                       else Ok []
                   | _ => Ok []
                   end) names)
                (fun l => Ok (concat l))
      end
  end.
(** io.rs:33-35. A path through a directory tree of [length d] nodes that
    follows at most [c_links] links is no longer than the bound used here. *)
Definition load_directory (c : ctx) (d : fs) : outcome werror files :=
  load_dir (S (c_links c) * S (length d)) c d [].

(** ** The server: firm_mcp/src/server.rs *)

(** server.rs:53-57. *)
Record state := { st_files : files; st_build : wbuild; st_graph : graph }.

(** server.rs:504-530. *)
Definition rebuild (c : ctx) (d : fs) : outcome load_error state :=
  obind (omap_err LWorkspace (load_directory c d)) (fun fs =>
  let fs' := c_files c fs in
  obind (load_graph (c_env c) (c_fields c) (c_schemas c) fs') (fun bg =>
  Ok {| st_files := fs'; st_build := fst bg; st_graph := snd bg |})).

(** ** Paths: firm_mcp/src/resources.rs *)

(** resources.rs:17-19. *)
Definition source_file_uri (rel : str) : str := L "firm" ++ L "://" ++ L "source" ++ L "/" ++ rel.
(** resources.rs:24-31. *)
Definition parse_source_uri (uri : str) : option str :=
  let prefix := L "firm" ++ L "://" ++ L "source" ++ L "/" in
  if starts_with uri prefix then Some (skipn (length prefix) uri) else None.

(** Path::join. *)
Definition join_path (p : path) (s : str) : path :=
  match s with "/"%char :: _ => path_of s | _ => p ++ path_of s end.
(** Path::starts_with on canonical paths. *)
Fixpoint within (p q : place) : bool :=
  match q, p with
  | [], _ => true
  | b :: q', a :: p' => str_eqb a b && within p' q'
  | _ :: _, [] => false
  end.
(** A canonical path as a path; the leading slash is left out. *)
Definition place_path (q : place) : path := q.

(** resources.rs:62-87. *)
Definition to_absolute_path (c : ctx) (d : fs) (rel : str) : option path :=
  let p := join_path (c_ws c) rel in
  if path_exists (c_links c) d p then
    match canonicalize (c_links c) d p, canonicalize (c_links c) d (c_ws c) with
    | Some q, Some w => if within q w then Some (place_path q) else None
    | _, _ => None
    end
  else if contains rel (L "..") then None else Some p.

(** resources.rs:90-103. *)
Inductive read_error := InvalidPath | NotFound | NotFirmFile | ReadFailed.
Definition path_name (p : path) : option str :=
  match drop_stays (rev p) with
  | n :: _ => if climbs n then None else Some n
  | [] => None
  end.
Definition read_source_file (c : ctx) (d : fs) (rel : str) : outcome read_error str :=
  match to_absolute_path c d rel with
  | None => Err InvalidPath
  | Some p =>
      if negb (path_exists (c_links c) d p) then Err NotFound
      else if negb (match path_name p with Some n => is_firm_file n | None => false end) then Err NotFirmFile
      else of_option ReadFailed (read_text (c_links c) d p)
  end.

(** resources.rs:109-132; the file system afterwards, and whether it succeeded. *)
Definition write_source_file (c : ctx) (d : fs) (rel content : str) : fs * bool :=
  if negb (ends_with rel (L ".firm")) then (d, false)
  else match to_absolute_path c d rel with
       | None => (d, false)
       | Some p =>
           match (match parent p with
                  | Some q => create_dir_all (S (length q)) (c_links c) d q
                  | None => (d, true)
                  end) with
           | (d1, false) => (d1, false)
           | (d1, true) =>
               match write (c_links c) d1 p content with
               | Some d2 => (d2, true)
               | None => (d1, false)
               end
           end
       end.

(** ** Tools *)

(** The answer to an edit: accepted and valid; accepted by force; refused
    before anything was built; refused by the build, with whether the rollback
    is reported to have worked; or none, because the build crashed. *)
Inductive answer := Accepted | Forced | Refused | Invalid (rolled_back : bool) | Crashed.

(** tools/write_source.rs:45-84; the original content if it was written. *)
Definition validate_and_write (c : ctx) (d : fs) (rel content : str) : fs * option (option str) :=
  match c_parse c content with
  | None => (d, None)
  | Some ps =>
      if ps_error ps then (d, None)
      else let original := read_text (c_links c) d (join_path (c_ws c) rel) in
           match write_source_file c d rel content with
           | (d1, true) => (d1, Some original)
           | (d1, false) => (d1, None)
           end
  end.
(** tools/write_source.rs:87-97. *)
Definition rollback_write (c : ctx) (d : fs) (rel : str) (original : option str) : fs * bool :=
  let p := join_path (c_ws c) rel in
  match (match original with
         | Some s => write (c_links c) d p s
         | None => remove_file (c_links c) d p
         end) with
  | Some d' => (d', true)
  | None => (d, false)
  end.
(** server.rs:257-296, after the file was written. *)
Definition finish_write (c : ctx) (d : fs) (st : state) (rel : str) (force : bool) (original : option str)
  : fs * state * answer :=
  match rebuild c d with
  | Ok st' => (d, st', Accepted)
  | Panic => (d, st, Crashed)
  | Err _ =>
      if force then (d, st, Forced)
      else match rollback_write c d rel original with (d', ok) => (d', st, Invalid ok) end
  end.
(** server.rs:245-296. *)
Definition write_source (c : ctx) (d : fs) (st : state) (rel content : str) (force : bool) : fs * state * answer :=
  match validate_and_write c d rel content with
  | (d1, None) => (d1, st, Refused)
  | (d1, Some original) => finish_write c d1 st rel force original
  end.

(** tools/delete_source.rs:33-58. *)
Definition delete_file (c : ctx) (d : fs) (rel : str) : option (fs * str) :=
  if negb (ends_with rel (L ".firm")) then None
  else match to_absolute_path c d rel with
       | None => None
       | Some p =>
           if negb (path_exists (c_links c) d p) then None
           else match read_text (c_links c) d p with
                | None => None
                | Some s => match remove_file (c_links c) d p with
                            | Some d' => Some (d', s)
                            | None => None
                            end
                end
       end.
(** tools/delete_source.rs:61-69. *)
Definition rollback_delete (c : ctx) (d : fs) (rel content : str) : fs * bool :=
  let p := join_path (c_ws c) rel in
  match (match parent p with
         | Some q => create_dir_all (S (length q)) (c_links c) d q
         | None => (d, true)
         end) with
  | (d1, false) => (d1, false)
  | (d1, true) => match write (c_links c) d1 p content with
                  | Some d2 => (d2, true)
                  | None => (d1, false)
                  end
  end.
(** server.rs:302-337. *)
Definition delete_source (c : ctx) (d : fs) (st : state) (rel : str) (force : bool) : fs * state * answer :=
  match delete_file c d rel with
  | None => (d, st, Refused)
  | Some (d1, content) =>
      match rebuild c d1 with
      | Ok st' => (d1, st', Accepted)
      | Panic => (d1, st, Crashed)
      | Err _ =>
          if force then (d1, st, Forced)
          else match rollback_delete c d1 rel content with (d', ok) => (d', st, Invalid ok) end
      end
  end.

(** [str::matches(pat).count()] for a non-empty pattern. *)
Definition count_matches (pat s : str) : nat := length (split_str pat s) - 1.
(** [str::replacen(pat, to, 1)]. *)
Definition replace_first (pat to s : str) : str :=
  match split_str pat s with
  | a :: b :: rest => a ++ to ++ join pat (b :: rest)
  | _ => s
  end.
(** tools/replace_source.rs:130-142, 145-156: cutting the text at byte 100 for
    the message panics inside a character. *)
Definition cut_for_display (old : str) : bool :=
  if 100 <? length old then match slice_from (E := unit) 100 old with Panic => false | _ => true end else true.
(** tools/replace_source.rs:53-96. *)
Inductive replaced := NotReplaced | ReplaceCrashed | Replaced (content : str) (count : nat).
Definition replace_text (content old new : str) (all : bool) : replaced :=
  let n := count_matches old content in
  if n =? 0 then (if cut_for_display old then NotReplaced else ReplaceCrashed)
  else if (1 <? n) && negb all then (if cut_for_display old then NotReplaced else ReplaceCrashed)
  else Replaced (if all then replace_str old new content else replace_first old new content) (if all then n else 1).
Definition replace_in_file (c : ctx) (d : fs) (rel old new : str) (all : bool) : replaced :=
  match old with
  | [] => NotReplaced
  | _ => match read_source_file c d rel with
         | Ok content => replace_text content old new all
         | _ => NotReplaced
         end
  end.
(** server.rs:344-408. *)
Definition replace_source (c : ctx) (d : fs) (st : state) (rel old new : str) (all force : bool) : fs * state * answer :=
  match replace_in_file c d rel old new all with
  | NotReplaced => (d, st, Refused)
  | ReplaceCrashed => (d, st, Crashed)
  | Replaced content _ => write_source c d st rel content force
  end.
(** server.rs:415-430, the build tool. *)
Definition build_tool (c : ctx) (d : fs) (st : state) : fs * state * answer :=
  match rebuild c d with
  | Ok st' => (d, st', Accepted)
  | Panic => (d, st, Crashed)
  | Err _ => (d, st, Refused)
  end.

(** Requests that change something, one after the other (server.rs:57 holds the
    state in a lock, so the state is changed by one at a time). *)
Inductive request :=
| Write (rel content : str) (force : bool)
| Replace (rel old new : str) (all force : bool)
| Delete (rel : str) (force : bool)
| Build.
Definition handle (c : ctx) (d : fs) (st : state) (r : request) : fs * state * answer :=
  match r with
  | Write rel content force => write_source c d st rel content force
  | Replace rel old new all force => replace_source c d st rel old new all force
  | Delete rel force => delete_source c d st rel force
  | Build => build_tool c d st
  end.
Fixpoint serve (c : ctx) (d : fs) (st : state) (rs : list request) : fs * state * list answer :=
  match rs with
  | [] => (d, st, [])
  | r :: rs' =>
      match handle c d st r with
      | (d1, st1, a) => match serve c d1 st1 rs' with (d2, st2, l) => (d2, st2, a :: l) end
      end
  end.
