(** Setting up a workspace: firm_cli/src/commands/init.rs and
    firm_lang/src/defaults.rs. What is shown, and the two empty prompts' help, is
    left out. *)
From Verif Require Import M_Graph.
From Verif Require Export M_Prompt.
Close Scope Z_scope.

(** ** The schemas that come with firm: firm_lang/src/defaults.rs *)
Definition named_type (t : str) : schema := with_metadata (schema_new (new_id t)).
Definition req (s : schema) (n : str) (t : field_type) : schema := with_field_mode true s (new_id n) t.
Definition opt (s : schema) (n : str) (t : field_type) : schema := with_field_mode false s (new_id n) t.
Definition opt_enum (s : schema) (n : str) (vs : list str) : schema := with_enum_mode false s (new_id n) vs.

(** defaults.rs:32-39. *)
Definition person : schema :=
  let s := named_type (L "person") in
  let s := req s (L "name") TStr in
  let s := opt s (L "email") TStr in
  let s := opt s (L "phone") TStr in
  opt s (L "urls") TList.
(** defaults.rs:44-54. *)
Definition organization : schema :=
  let s := named_type (L "organization") in
  let s := req s (L "name") TStr in
  let s := opt s (L "address") TStr in
  let s := opt s (L "email") TStr in
  let s := opt s (L "phone") TStr in
  let s := opt s (L "urls") TList in
  let s := opt s (L "vat_id") TStr in
  opt s (L "industry_ref") TRef.
(** defaults.rs:60-67. *)
Definition industry : schema :=
  let s := named_type (L "industry") in
  let s := req s (L "name") TStr in
  let s := opt s (L "sector") TStr in
  let s := opt s (L "classification_code") TStr in
  opt s (L "classification_system") TStr.
(** defaults.rs:73-89. *)
Definition account : schema :=
  let s := named_type (L "account") in
  let s := req s (L "name") TStr in
  let s := req s (L "organization_ref") TRef in
  let s := opt s (L "owner_ref") TRef in
  opt_enum s (L "status") [L "prospect"; L "engaged"; L "client"; L "partner"; L "closed"].
(** defaults.rs:95-110. *)
Definition channel : schema :=
  let s := named_type (L "channel") in
  let s := req s (L "name") TStr in
  let s := opt_enum s (L "type") [L "website"; L "social media"; L "email"; L "meeting"; L "other"] in
  opt s (L "description") TStr.
(** defaults.rs:116-132. *)
Definition lead : schema :=
  let s := named_type (L "lead") in
  let s := req s (L "source_ref") TRef in
  let s := opt_enum s (L "status") [L "new"; L "qualified"; L "converted"; L "discarded"] in
  let s := opt s (L "person_ref") TRef in
  let s := opt s (L "account_ref") TRef in
  opt s (L "score") TInt.
(** defaults.rs:138-155. *)
Definition contact : schema :=
  let s := named_type (L "contact") in
  let s := opt s (L "source_ref") TRef in
  let s := opt s (L "person_ref") TRef in
  let s := opt s (L "account_ref") TRef in
  let s := opt s (L "role") TStr in
  opt_enum s (L "status") [L "prospect"; L "partner"; L "client"; L "network"; L "other"].
(** defaults.rs:161-182. *)
Definition interaction : schema :=
  let s := named_type (L "interaction") in
  let s := opt_enum s (L "type") [L "online meeting"; L "in-person meeting"; L "chat"; L "email"; L "other"] in
  let s := req s (L "subject") TStr in
  let s := req s (L "initiator_ref") TRef in
  let s := req s (L "primary_contact_ref") TRef in
  let s := req s (L "interaction_date") TDate in
  let s := opt s (L "outcome") TStr in
  let s := opt s (L "secondary_contacts_ref") TList in
  let s := opt s (L "channel_ref") TRef in
  opt s (L "opportunity_ref") TRef.
(** defaults.rs:188-203. *)
Definition opportunity : schema :=
  let s := named_type (L "opportunity") in
  let s := req s (L "source_ref") TRef in
  let s := req s (L "name") TStr in
  let s := opt_enum s (L "status") [L "open"; L "closed won"; L "closed lost"] in
  let s := opt s (L "value") TCur in
  opt s (L "probability") TInt.
(** defaults.rs:209-227. *)
Definition strategy : schema :=
  let s := named_type (L "strategy") in
  let s := req s (L "name") TStr in
  let s := opt s (L "description") TStr in
  let s := opt s (L "source_ref") TRef in
  let s := opt s (L "owner_ref") TRef in
  let s := opt_enum s (L "status") [L "draft"; L "active"; L "completed"; L "archived"] in
  let s := opt s (L "start_date") TDate in
  opt s (L "end_date") TDate.
(** defaults.rs:233-243. *)
Definition objective : schema :=
  let s := named_type (L "objective") in
  let s := req s (L "name") TStr in
  let s := opt s (L "description") TStr in
  let s := opt s (L "strategy_ref") TRef in
  let s := opt s (L "owner_ref") TRef in
  let s := opt s (L "status") TStr in
  let s := opt s (L "start_date") TDate in
  opt s (L "end_date") TDate.
(** defaults.rs:248-258. *)
Definition key_result : schema :=
  let s := named_type (L "key_result") in
  let s := req s (L "name") TStr in
  let s := req s (L "objective_ref") TRef in
  let s := opt s (L "owner_ref") TRef in
  let s := opt s (L "start_value") TFloat in
  let s := opt s (L "target_value") TFloat in
  let s := opt s (L "current_value") TFloat in
  opt s (L "unit") TStr.
(** defaults.rs:263-280. *)
Definition project : schema :=
  let s := named_type (L "project") in
  let s := req s (L "name") TStr in
  let s := opt_enum s (L "status") [L "planned"; L "in progress"; L "completed"; L "cancelled"] in
  let s := opt s (L "description") TStr in
  let s := opt s (L "owner_ref") TRef in
  let s := opt s (L "objective_refs") TList in
  opt s (L "due_date") TDate.
(** defaults.rs:286-296. *)
Definition task : schema :=
  let s := named_type (L "task") in
  let s := req s (L "name") TStr in
  let s := opt s (L "description") TStr in
  let s := opt s (L "source_ref") TRef in
  let s := opt s (L "assignee_ref") TRef in
  let s := opt s (L "due_date") TDate in
  let s := opt s (L "is_completed") TBool in
  opt s (L "completed_at") TDate.
(** defaults.rs:302-310. *)
Definition review : schema :=
  let s := named_type (L "review") in
  let s := req s (L "name") TStr in
  let s := req s (L "date") TDate in
  let s := opt s (L "owner_ref") TRef in
  let s := opt s (L "source_refs") TList in
  opt s (L "attendee_refs") TList.
(** defaults.rs:316-324. *)
Definition file_asset : schema :=
  let s := named_type (L "file_asset") in
  let s := req s (L "name") TStr in
  let s := req s (L "path") TPath in
  let s := opt s (L "description") TStr in
  let s := opt s (L "source_ref") TRef in
  opt s (L "owner_ref") TRef.
(** defaults.rs:4-27. *)
Definition all_default_schemas : list schema :=
  [person; organization; industry; account; channel; lead; contact; interaction; opportunity;
   strategy; objective; key_result; project; task; review; file_asset].

(** ** The command: firm_cli/src/commands/init.rs *)
(** A part of the dialogue: the file system afterwards, and what is done at the
    terminal after it; nothing if the command ends with an error. *)
Definition part := fs -> list act -> fs * option (list act).
(** Confirm with a default that an empty line stands for; Escape is an error. *)
Definition confirm (default : bool) (acts : list act) : prompted bool :=
  need false (ask (line (or_default default yes_no)) acts).
(** Asking, and going on with [yes] if the answer is yes. *)
Definition confirmed (default : bool) (yes : part) : part := fun d acts =>
  match confirm default acts with
  | Got true r => yes d r
  | Got false r => (d, Some r)
  | _ => (d, None)
  end.
Definition wrote (d : fs) (r : list act) (o : option fs) : fs * option (list act) :=
  match o with Some d' => (d', Some r) | None => (d, None) end.

(** init.rs:140-141, 146, 180-181. *)
Definition schemas_dir (c : ctx) : path := c_ws c ++ [L "schemas"].
Definition schema_file (s : schema) : str := s_type s ++ L ".firm".
(** init.rs:177-186: the files written before an error stay. *)
Fixpoint write_schemas (c : ctx) (d : fs) (ss : list schema) : fs * bool :=
  match ss with
  | [] => (d, true)
  | s :: ss' =>
      match write (c_links c) d (schemas_dir c ++ [schema_file s]) (generate_schema (c_fields c) default_options s) with
      | None => (d, false)
      | Some d' => write_schemas c d' ss'
      end
  end.
(** init.rs:171-194. *)
Definition schemas_written (c : ctx) : part := fun d acts =>
  match create_dir_all (S (length (schemas_dir c))) (c_links c) d (schemas_dir c) with
  | (d1, false) => (d1, None)
  | (d1, true) =>
      match write_schemas c d1 all_default_schemas with
      | (d2, false) => (d2, None)
      | (d2, true) => (d2, Some acts)
      end
  end.
(** init.rs:139-194. *)
Definition create_default_schemas (c : ctx) : part := fun d acts =>
  if existsb (fun s => path_exists (c_links c) d (schemas_dir c ++ [schema_file s])) all_default_schemas
  then confirmed false (schemas_written c) d acts
  else schemas_written c d acts.

(** init.rs:199. *)
Definition gitignore_entries : str := L "**/*.firm.graph" ++ [LF].
(** init.rs:197-259. The file is opened to append without being created; that
    it is still there when it is opened is because nothing else runs. *)
Definition create_or_update_gitignore (c : ctx) : part := fun d acts =>
  let p := c_ws c ++ [L ".gitignore"] in
  if path_exists (c_links c) d p then
    confirmed true (fun d r =>
      match read_text (c_links c) d p with
      | None => (d, None)
      | Some content =>
          if contains content (L ".DS_Store") && contains content (L "*.firm.graph") then (d, Some r)
          else
            let prefix := if ends_with content [LF] then [] else [LF] in
            wrote d r (append_to (c_links c) d p (prefix ++ gitignore_entries))
      end) d acts
  else confirmed true (fun d r => wrote d r (write (c_links c) d p gitignore_entries)) d acts.

(** init.rs:114-131: [EntityId] is built here without the normalisation of
    [EntityId::new]. *)
Definition default_entity (t name : str) : entity :=
  {| e_id := t ++ L "." ++ sanitize_entity_id name; e_type := new_id t;
     e_fields := [(new_id (L "name"), VStr name)] |}.
(** init.rs:100-136. *)
Definition entities_written (c : ctx) : part := fun d acts =>
  match need false (ask (line Some) acts) with
  | Got person_name r =>
      match need false (ask (line Some) r) with
      | Got org_name r' =>
          wrote d r' (write (c_links c) d (c_ws c ++ [L "main.firm"])
            (generate_dsl (c_env c) default_options
               [default_entity (L "person") person_name; default_entity (L "organization") org_name]))
      | _ => (d, None)
      end
  | _ => (d, None)
  end.
(** init.rs:83-136. *)
Definition create_default_entities (c : ctx) : part := fun d acts =>
  if path_exists (c_links c) d (c_ws c ++ [L "main.firm"]) then confirmed false (entities_written c) d acts
  else entities_written c d acts.

(** init.rs:58-80; [template] is the text of firm_cli/AGENTS.md.template. *)
Definition context_written (c : ctx) (template : str) : part := fun d acts =>
  wrote d acts (write (c_links c) d (c_ws c ++ [L "AGENTS.md"]) template).
Definition create_ai_context (c : ctx) (template : str) : part := fun d acts =>
  if path_exists (c_links c) d (c_ws c ++ [L "AGENTS.md"]) then confirmed false (context_written c template) d acts
  else context_written c template d acts.

(** init.rs:15-55. *)
Definition then_ (a b : part) : part := fun d acts =>
  match a d acts with
  | (d1, Some r) => b d1 r
  | (d1, None) => (d1, None)
  end.
Definition init_workspace (c : ctx) (template : str) : part :=
  then_ (confirmed true (create_default_schemas c))
    (then_ (create_or_update_gitignore c)
       (then_ (confirmed true (create_default_entities c)) (confirmed true (create_ai_context c template)))).
(** firm_cli/src/main.rs:37-58: the workspace is not built first. *)
Definition run_init (c : ctx) (template : str) (d : fs) (acts : list act) : fs * ended_as unit :=
  match init_workspace c template d acts with
  | (d', Some _) => (d', Succeeded tt)
  | (d', None) => (d', Failed)
  end.
