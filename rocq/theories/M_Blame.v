(** The messages of a failed build: firm_lang/src/workspace/workspace_errors.rs,
    build.rs and io.rs, firm_core/src/schema/validation_errors.rs,
    firm_lang/src/convert/conversion_errors.rs, firm_mcp/src/server.rs. The
    functions are those of M_Workspace and M_Server once more, with the texts. *)
From Verif Require Import M_Graph.
From Verif Require Export M_Show M_Init.
Close Scope Z_scope.

(** What Rust's [Debug] makes of a string, and the texts of errors that are the
    operating system's and the parser's (of the text that was not parsed). *)
Record blame_env := { be_debug : str -> str; be_io : str; be_tree : str -> str }.

(** workspace_errors.rs:8-14, with the messages. *)
Inductive fault :=
| FIo
| FParse (path text : str)
| FInvalid (path text : str)
| FMissing (path : str) (t : entity_type).
(** workspace_errors.rs:58-62. *)
Definition is_default_schema_type (t : entity_type) : bool := existsb (fun s => str_eqb (s_type s) t) all_default_schemas.
(** workspace_errors.rs:16-55. *)
Definition show_fault (be : blame_env) (x : fault) : str :=
  match x with
  | FIo => L "There was a problem reading workspace files: " ++ be_io be
  | FParse p t => L "Workspace file at " ++ p ++ L " could not be parsed: " ++ t
  | FInvalid p t => L "Workspace file at " ++ p ++ L " was invalid: " ++ t
  | FMissing p t =>
      L "No schema found for entity type '" ++ t ++ L "' in " ++ p ++ [LF; LF]
        ++ (if is_default_schema_type t
            then L "Run 'firm init' to create default schemas, or define your own schema in your workspace."
            else L "Define a schema for this type in your workspace.")
  end.

(** conversion_errors.rs:12-30, 41-60. *)
Definition show_cerr (x : cerr) : str :=
  match x with
  | MissingEntityType => L "Entity is missing required type"
  | MissingEntityId => L "Entity is missing required id"
  | MissingFieldId => L "Entity field is missing required id"
  | InvalidFieldValue => L "Entity field contains an invalid value"
  end.
Definition show_serr (x : serr) : str :=
  match x with
  | MissingSchemaName => L "Schema is missing required name"
  | MissingFieldName => L "Schema field is missing required name"
  | MissingFieldType => L "Schema field is missing required type"
  | UnknownFieldType t => L "Unknown field type: '" ++ t ++ L "'"
  end.

(** validation_errors.rs:36-115: the message of an error of the entity [id]. *)
Definition verror_message (id : entity_id) (x : verror) : str :=
  match x with
  | MismatchedEntityType expected actual =>
      L "Expected entity '" ++ id ++ L "' to be of type '" ++ expected ++ L "' but it was '" ++ actual ++ L "'"
  | MissingRequiredField f => L "Missing required field '" ++ f ++ L "' for entity '" ++ id ++ L "'"
  | MismatchedFieldType f expected actual =>
      L "Expected field '" ++ f ++ L "' for entity '" ++ id ++ L "' to be of type '" ++ ftype_name expected
        ++ L "' but it was '" ++ ftype_name actual ++ L "'"
  | InvalidEnumValue f actual allowed =>
      L "Invalid value '" ++ actual ++ L "' for enum field '" ++ f ++ L "' in entity '" ++ id
        ++ L "'. Expected one of: [" ++ join (L ", ") allowed ++ L "]"
  end.
(** The derived [Debug] of validation_errors.rs:4-32: of the kind, then of the
    record with the entity, the field, the message and the kind. *)
Definition debug_kind (be : blame_env) (x : verror) : str :=
  match x with
  | MismatchedEntityType expected actual =>
      L "MismatchedEntityType { expected: EntityType(" ++ be_debug be expected ++ L "), actual: EntityType(" ++ be_debug be actual ++ L ") }"
  | MissingRequiredField f => L "MissingRequiredField { required: FieldId(" ++ be_debug be f ++ L ") }"
  | MismatchedFieldType _ expected actual =>
      L "MismatchedFieldType { expected: " ++ ftype_name expected ++ L ", actual: " ++ ftype_name actual ++ L " }"
  | InvalidEnumValue _ actual allowed =>
      L "InvalidEnumValue { actual: " ++ be_debug be actual ++ L ", allowed: [" ++ join (L ", ") (map (be_debug be) allowed) ++ L "] }"
  end.
Definition debug_field (be : blame_env) (x : verror) : str :=
  match x with
  | MismatchedEntityType _ _ => L "None"
  | MissingRequiredField f | MismatchedFieldType f _ _ | InvalidEnumValue f _ _ => L "Some(FieldId(" ++ be_debug be f ++ L "))"
  end.
Definition debug_verror (be : blame_env) (id : entity_id) (x : verror) : str :=
  L "ValidationError { entity_id: Some(EntityId(" ++ be_debug be id ++ L ")), field: " ++ debug_field be x
    ++ L ", message: " ++ be_debug be (verror_message id x) ++ L ", error_type: " ++ debug_kind be x ++ L " }".
Definition debug_verrors (be : blame_env) (id : entity_id) (xs : list verror) : str :=
  L "[" ++ join (L ", ") (map (debug_verror be id) xs) ++ L "]".

(** build.rs:45-58. *)
Fixpoint fault_schemas (env : dsl_env) (path rel : str) (ns : list snode) (m : schemas_map) : outcome fault schemas_map :=
  match ns with
  | [] => Ok m
  | n :: ns' =>
      obind (omap_err (fun y => FParse path (show_serr y)) (to_schema env rel n)) (fun s =>
      match assoc (s_type s) m with
      | Some _ => Err (FInvalid path (L "Stuff"))
      | None => fault_schemas env path rel ns' (m ++ [(s_type s, s)])
      end)
  end.
(** build.rs:43-59. *)
Fixpoint fault_collect (env : dsl_env) (fs : files) (m : schemas_map) : outcome fault schemas_map :=
  match fs with
  | [] => Ok m
  | (path, f) :: fs' =>
      obind (fault_schemas env path (wf_rel f) (wf_schemas f) m) (fun m' => fault_collect env fs' m')
  end.
(** build.rs:70-90. *)
Definition fault_entity (be : blame_env) (env : dsl_env) (ho : field_order) (path rel : str) (m : schemas_map) (n : enode)
  : outcome fault entity :=
  obind (omap_err (fun y => FParse path (show_cerr y)) (to_entity env rel n)) (fun e =>
  obind (of_option (FMissing path (e_type e)) (assoc (e_type e) m)) (fun s =>
  match validate ho s e with
  | [] => Ok e
  | xs => Err (FInvalid path (L "Entity '" ++ e_id e ++ L "' failed validation: " ++ debug_verrors be (e_id e) xs))
  end)).
(** build.rs:62-94. *)
Definition fault_file (be : blame_env) (env : dsl_env) (ho : field_order) (m : schemas_map) (pf : str * wfile)
  : outcome fault (list entity) :=
  omap (fault_entity be env ho (fst pf) (wf_rel (snd pf)) m) (wf_entities (snd pf)).
(** build.rs:29-99. *)
Definition fault_build (be : blame_env) (env : dsl_env) (ho : field_order) (so : list schema -> list schema) (fs : files)
  : outcome fault wbuild :=
  obind (fault_collect env fs []) (fun m =>
  obind (omap (fault_file be env ho m) fs) (fun ess =>
  Ok {| b_entities := concat ess; b_schemas := so (map snd m) |})).

(** io.rs:12-30. *)
Definition fault_load_file (be : blame_env) (c : ctx) (d : fs) (rel : path) : outcome fault (str * wfile) :=
  let p := c_ws c ++ rel in
  match read_text (c_links c) d p with
  | None => Err FIo
  | Some text =>
      match c_parse c text with
      | None => Err (FParse (path_text p) (be_tree be text))
      | Some ps => Ok (path_text p, {| wf_rel := path_text rel; wf_schemas := ps_schemas ps; wf_entities := ps_entities ps |})
      end
  end.
(** io.rs:38-56. *)
Fixpoint fault_load_dir (be : blame_env) (n : nat) (c : ctx) (d : fs) (rel : path) : outcome fault files :=
  match n with
  | 0 => Ok []
  | S n' =>
      match read_dir (c_links c) d (c_ws c ++ rel) with
      | None => Err FIo
      | Some names =>
          obind (omap (fun name =>
                   match stat (c_links c) d (c_ws c ++ rel ++ [name]) with
                   | Some Dir => fault_load_dir be n' c d (rel ++ [name])
                   | Some (File _) =>
                       if is_firm_file name
                       then obind (fault_load_file be c d (rel ++ [name])) (fun f => Ok [f])
                       else Ok []
                   | _ => Ok []
                   end) names)
                (fun l => Ok (concat l))
      end
  end.
(** io.rs:33-35. *)
Definition fault_load (be : blame_env) (c : ctx) (d : fs) : outcome fault files :=
  fault_load_dir be (S (c_links c) * S (length d)) c d [].

(** The [Debug] of the one error that adding entities may have
    (firm_core/src/graph/graph_errors.rs:4-14). *)
Definition debug_graph_error (be : blame_env) (x : graph_error) : str :=
  match x with
  | EntityAlreadyExists id => L "EntityAlreadyExists(EntityId(" ++ be_debug be id ++ L "))"
  | _ => []
  end.
(** server.rs:504-530. *)
Definition fault_rebuild (be : blame_env) (c : ctx) (d : fs) : outcome fault state :=
  obind (fault_load be c d) (fun fs =>
  let fs' := c_files c fs in
  obind (fault_build be (c_env c) (c_fields c) (c_schemas c) fs') (fun b =>
  match add_entities graph_new (b_entities b) with
  | (g, M_Graph.Ok _) => Ok {| st_files := fs'; st_build := b; st_graph := build g |}
  | (_, M_Graph.Err x) => Err (FInvalid (path_text (c_ws c)) (debug_graph_error be x))
  end)).
(** The text of a failed build. *)
Definition build_message (be : blame_env) (c : ctx) (d : fs) : option str :=
  match fault_rebuild be c d with Err x => Some (show_fault be x) | _ => None end.
