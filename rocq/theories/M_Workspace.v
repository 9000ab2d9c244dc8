(** Building a workspace: firm_lang/src/workspace/build.rs, workspace/mod.rs. *)
From Verif Require Export M_Schema.

(** A loaded file: its key in the file map is the path it was loaded from
    (io.rs:25); [wf_rel] is the path relative to the workspace, which its
    values are read against (io.rs:16-23); then the schema and entity blocks
    of the syntax tree (parsed_source.rs:39-66). *)
Record wfile := { wf_rel : str; wf_schemas : list snode; wf_entities : list enode }.

(** workspace/mod.rs:19-21. The hash map of files, in its iteration order
    (which is the same in both passes, as the map is not changed between). *)
Definition files := list (str * wfile).

(** firm_lang/src/workspace/workspace_errors.rs; messages left out. *)
Inductive werror :=
| WIoError
| WParseError (path : str)
| WValidationError (path : str)
| WMissingSchemaError (path : str) (t : entity_type).

Definition schemas_map := list (entity_type * schema).

(** build.rs:45-58, the schemas of one file. *)
Fixpoint add_schemas (env : dsl_env) (path rel : str) (ns : list snode) (m : schemas_map)
  : outcome werror schemas_map :=
  match ns with
  | [] => Ok m
  | n :: ns' =>
      obind (omap_err (fun _ => WParseError path) (to_schema env rel n)) (fun s =>
      match assoc (s_type s) m with
      | Some _ => Err (WValidationError path)
      | None => add_schemas env path rel ns' (m ++ [(s_type s, s)])
      end)
  end.
(** build.rs:43-59. *)
Fixpoint collect_schemas (env : dsl_env) (fs : files) (m : schemas_map) : outcome werror schemas_map :=
  match fs with
  | [] => Ok m
  | (path, f) :: fs' =>
      obind (add_schemas env path (wf_rel f) (wf_schemas f) m) (fun m' => collect_schemas env fs' m')
  end.

(** build.rs:70-90, one entity. *)
Definition build_entity (env : dsl_env) (ho : field_order) (path rel : str) (m : schemas_map) (n : enode)
  : outcome werror entity :=
  obind (omap_err (fun _ => WParseError path) (to_entity env rel n)) (fun e =>
  obind (of_option (WMissingSchemaError path (e_type e)) (assoc (e_type e) m)) (fun s =>
  match validate ho s e with
  | [] => Ok e
  | _ => Err (WValidationError path)
  end)).
(** build.rs:62-94. *)
Definition build_file (env : dsl_env) (ho : field_order) (m : schemas_map) (pf : str * wfile)
  : outcome werror (list entity) :=
  omap (build_entity env ho (fst pf) (wf_rel (snd pf)) m) (wf_entities (snd pf)).

(** build.rs:6-10. *)
Record wbuild := { b_entities : list entity; b_schemas : list schema }.

(** build.rs:29-99. [so] is the iteration order of the schema map at the end. *)
Definition build_workspace (env : dsl_env) (ho : field_order) (so : list schema -> list schema) (fs : files)
  : outcome werror wbuild :=
  obind (collect_schemas env fs []) (fun m =>
  obind (omap (build_file env ho m) fs) (fun ess =>
  Ok {| b_entities := concat ess; b_schemas := so (map snd m) |})).

(** workspace/mod.rs:50-59. *)
Definition entity_here (t i : str) (n : enode) : bool :=
  match en_type n, en_id n with
  | Some t', Some i' => str_eqb t' t && str_eqb i' i
  | _, _ => false
  end.
Definition find_entity_source (fs : files) (t i : str) : option str :=
  match find (fun pf => existsb (entity_here t i) (wf_entities (snd pf))) fs with
  | Some (p, _) => Some p
  | None => None
  end.
(** workspace/mod.rs:67-76. *)
Definition schema_here (name : str) (n : snode) : bool :=
  match sn_name n with Some s => str_eqb s name | None => false end.
Definition find_schema_source (fs : files) (name : str) : option str :=
  match find (fun pf => existsb (schema_here name) (wf_schemas (snd pf))) fs with
  | Some (p, _) => Some p
  | None => None
  end.

(** Loading the built entities into a graph: add_entities, then build
    (firm_cli/src/commands/build.rs, firm_mcp/src/server.rs:504-530). *)
Inductive load_error := LWorkspace (e : werror) | LGraph (e : graph_error).
Definition load_graph (env : dsl_env) (ho : field_order) (so : list schema -> list schema) (fs : files)
  : outcome load_error (wbuild * graph) :=
  obind (omap_err LWorkspace (build_workspace env ho so fs)) (fun b =>
  match add_entities graph_new (b_entities b) with
  | (g, M_Graph.Ok _) => Ok (b, build g)
  | (_, M_Graph.Err x) => Err (LGraph x)
  end).
