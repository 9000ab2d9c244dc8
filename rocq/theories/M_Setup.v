(** [firm init] is killed midway: the file systems that can be left behind. The
    calls that change the file system are taken apart as in [M_Kill]. *)
From Verif Require Import M_Graph.
From Verif Require Export M_Init M_Kill.
Close Scope Z_scope.

(** What a part of the dialogue of [M_Init] goes through: the file system and
    what is done at the terminal before, and a file system in between. Each
    definition follows the one of [M_Init] without [in_]. *)
Definition inpart := fs -> list act -> fs -> Prop.
Definition in_confirmed (default : bool) (yes : inpart) : inpart := fun d acts d' =>
  exists r, confirm default acts = Got true r /\ yes d r d'.
(** init.rs:177-186: one file after the other. *)
Fixpoint in_write_schemas (c : ctx) (d : fs) (ss : list schema) (d' : fs) : Prop :=
  match ss with
  | [] => False
  | s :: ss' =>
      let p := schemas_dir c ++ [schema_file s] in
      let t := generate_schema (c_fields c) default_options s in
      partly_written (c_links c) d p t d' \/
      exists d1, write (c_links c) d p t = Some d1 /\ in_write_schemas c d1 ss' d'
  end.
(** init.rs:171-194. *)
Definition in_schemas_written (c : ctx) : inpart := fun d acts d' =>
  In d' (making (S (length (schemas_dir c))) (c_links c) d (schemas_dir c)) \/
  exists d1, create_dir_all (S (length (schemas_dir c))) (c_links c) d (schemas_dir c) = (d1, true) /\
    in_write_schemas c d1 all_default_schemas d'.
(** init.rs:139-194. *)
Definition in_create_default_schemas (c : ctx) : inpart := fun d acts d' =>
  if existsb (fun s => path_exists (c_links c) d (schemas_dir c ++ [schema_file s])) all_default_schemas
  then in_confirmed false (in_schemas_written c) d acts d'
  else in_schemas_written c d acts d'.
(** init.rs:197-259. *)
Definition in_create_or_update_gitignore (c : ctx) : inpart := fun d acts d' =>
  let p := c_ws c ++ [L ".gitignore"] in
  if path_exists (c_links c) d p then
    in_confirmed true (fun d r d' =>
      exists content, read_text (c_links c) d p = Some content /\
        (contains content (L ".DS_Store") && contains content (L "*.firm.graph") = false)%bool /\
        partly_appended (c_links c) d p ((if ends_with content [LF] then [] else [LF]) ++ gitignore_entries) d') d acts d'
  else in_confirmed true (fun d r d' => partly_written (c_links c) d p gitignore_entries d') d acts d'.
(** init.rs:100-136. *)
Definition in_entities_written (c : ctx) : inpart := fun d acts d' =>
  exists person_name r org_name r',
    need false (ask (line Some) acts) = Got person_name r /\ need false (ask (line Some) r) = Got org_name r' /\
    partly_written (c_links c) d (c_ws c ++ [L "main.firm"])
      (generate_dsl (c_env c) default_options
         [default_entity (L "person") person_name; default_entity (L "organization") org_name]) d'.
(** init.rs:83-136. *)
Definition in_create_default_entities (c : ctx) : inpart := fun d acts d' =>
  if path_exists (c_links c) d (c_ws c ++ [L "main.firm"]) then in_confirmed false (in_entities_written c) d acts d'
  else in_entities_written c d acts d'.
(** init.rs:58-80. *)
Definition in_context_written (c : ctx) (template : str) : inpart := fun d acts d' =>
  partly_written (c_links c) d (c_ws c ++ [L "AGENTS.md"]) template d'.
Definition in_create_ai_context (c : ctx) (template : str) : inpart := fun d acts d' =>
  if path_exists (c_links c) d (c_ws c ++ [L "AGENTS.md"]) then in_confirmed false (in_context_written c template) d acts d'
  else in_context_written c template d acts d'.
(** init.rs:15-55. *)
Definition in_then (a : part) (in_a in_b : inpart) : inpart := fun d acts d' =>
  in_a d acts d' \/ exists d1 r, a d acts = (d1, Some r) /\ in_b d1 r d'.
Definition in_init_workspace (c : ctx) (template : str) : inpart :=
  in_then (confirmed true (create_default_schemas c)) (in_confirmed true (in_create_default_schemas c))
    (in_then (create_or_update_gitignore c) (in_create_or_update_gitignore c)
       (in_then (confirmed true (create_default_entities c)) (in_confirmed true (in_create_default_entities c))
          (in_confirmed true (in_create_ai_context c template)))).
(** firm_cli/src/main.rs:37-58. *)
Definition in_run_init (c : ctx) (template : str) (d : fs) (acts : list act) (d' : fs) : Prop :=
  d' = d \/ in_init_workspace c template d acts d'.
