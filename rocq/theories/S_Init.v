(** What the theorems about setting up a workspace speak about. *)
From Verif Require Import M_Graph S_Graph.
From Verif Require Export M_Init S_Prompt.
Close Scope Z_scope.

(** The types that come with firm. *)
Definition default_types : list str :=
  [L "person"; L "organization"; L "industry"; L "account"; L "channel"; L "lead"; L "contact"; L "interaction";
   L "opportunity"; L "strategy"; L "objective"; L "key_result"; L "project"; L "task"; L "review"; L "file_asset"].
(** The files the command may create or change, by their paths in the workspace. *)
Inductive init_file : path -> Prop :=
| if_schema t : In t default_types -> init_file [L "schemas"; t ++ L ".firm"]
| if_gitignore : init_file [L ".gitignore"]
| if_entities : init_file [L "main.firm"]
| if_context : init_file [L "AGENTS.md"].

(** A line that says yes, and one that says yes where yes is the default. *)
Definition says_yes (a : act) : Prop := exists s, a = Types s /\ says true s.
Definition agrees (a : act) : Prop := a = Types [] \/ says_yes a.
(** An answer that declines: a line that says no. *)
Definition declines (a : act) : Prop := exists s, a = Types s /\ says false s.

(** The node is left as it is; or a file is made of it that was not there, or
    that may be overwritten; or it is the directory for the schemas, new. *)
Definition left_or_written (w : place) (may_overwrite : Prop) (d d' : fs) (p : place) : Prop :=
  node_at d' p = node_at d p \/
  (node_at d p = None \/ may_overwrite /\ exists s, node_at d p = Some (File s)) /\ (exists s', node_at d' p = Some (File s')) \/
  (p = w ++ [L "schemas"] /\ node_at d p = None /\ node_at d' p = Some Dir).

(** The entry for the saved graph, on a line of its own after what was there. *)
Definition graph_entry : str := L "**/*.firm.graph" ++ [LF].
Definition entry_added (old new : str) : Prop :=
  (exists before, old = before ++ [LF] /\ new = old ++ graph_entry) \/
  ((forall before, old <> before ++ [LF]) /\ new = old ++ [LF] ++ graph_entry).

(** Nothing is in the directory. *)
Definition empty_dir (w : place) (d : fs) : Prop := forall r, r <> [] -> node_at d (w ++ r) = None.
(** The two entities, with the names that were entered. *)
Definition first_entities (person_name org_name : str) : list entity :=
  [ {| e_id := L "person." ++ sanitize_entity_id person_name; e_type := L "person"; e_fields := [(L "name", VStr person_name)] |};
    {| e_id := L "organization." ++ sanitize_entity_id org_name; e_type := L "organization"; e_fields := [(L "name", VStr org_name)] |} ].
(** The parser reads the texts the command writes as the blocks they are. *)
Definition reads_schema_text (c : ctx) (s : schema) : Prop :=
  is_text (generate_schema (c_fields c) default_options s) = true /\
  exists ps, c_parse c (generate_schema (c_fields c) default_options s) = Some ps /\
    ps_schemas ps = [written_schema (c_fields c) s] /\ ps_entities ps = [].
Definition reads_entities_text (c : ctx) (es : list entity) : Prop :=
  is_text (generate_dsl (c_env c) default_options es) = true /\
  exists ps, c_parse c (generate_dsl (c_env c) default_options es) = Some ps /\
    ps_schemas ps = [] /\ ps_entities ps = map (written_entity (c_env c) default_options) es.
(** What a schema says: its type, and its fields in order. *)
Definition said (ho : field_order) (s : schema) : str * list decl := (s_type s, listing ho s).
