(** What the theorems about the messages of a failed build speak about. *)
From Verif Require Import M_Graph S_Graph.
From Verif Require Export M_Blame S_Init S_Tools S_Schema.
Close Scope Z_scope.

(** The text is what is to be said of a fault of the blocks of the files, and
    the fault is there: a block that cannot be read; a second schema for a type;
    an entity without a schema; an entity that does not conform to its schema,
    with all the ways in which it does not. *)
Inductive faulty (be : blame_env) (env : dsl_env) (fs : files) : str -> Prop :=
| faulty_schema p f n y : In (p, f) fs -> In n (wf_schemas f) -> to_schema env (wf_rel f) n = Err y ->
    faulty be env fs (L "Workspace file at " ++ p ++ L " could not be parsed: " ++ show_serr y)
| faulty_entity p f n y : In (p, f) fs -> In n (wf_entities f) -> to_entity env (wf_rel f) n = Err y ->
    faulty be env fs (L "Workspace file at " ++ p ++ L " could not be parsed: " ++ show_cerr y)
| faulty_two p f n s l1 l2 b s' : In (p, f) fs -> In n (wf_schemas f) -> reads_schema env (wf_rel f, n) s ->
    schema_blocks fs = l1 ++ (wf_rel f, n) :: l2 -> In b l1 -> reads_schema env b s' -> s_type s' = s_type s ->
    faulty be env fs (L "Workspace file at " ++ p ++ L " was invalid: Stuff")
| faulty_default p f n e : In (p, f) fs -> In n (wf_entities f) -> reads_entity env (wf_rel f, n) e -> In (e_type e) default_types ->
    (forall b s, In b (schema_blocks fs) -> reads_schema env b s -> s_type s <> e_type e) ->
    faulty be env fs (L "No schema found for entity type '" ++ e_type e ++ L "' in " ++ p ++ [LF; LF]
      ++ L "Run 'firm init' to create default schemas, or define your own schema in your workspace.")
| faulty_missing p f n e : In (p, f) fs -> In n (wf_entities f) -> reads_entity env (wf_rel f, n) e -> ~ In (e_type e) default_types ->
    (forall b s, In b (schema_blocks fs) -> reads_schema env b s -> s_type s <> e_type e) ->
    faulty be env fs (L "No schema found for entity type '" ++ e_type e ++ L "' in " ++ p ++ [LF; LF]
      ++ L "Define a schema for this type in your workspace.")
| faulty_invalid p f n e b s xs : In (p, f) fs -> In n (wf_entities f) -> reads_entity env (wf_rel f, n) e ->
    In b (schema_blocks fs) -> reads_schema env b s -> s_type s = e_type e ->
    xs <> [] -> NoDup xs -> (forall x, In x xs <-> violation s e x) ->
    faulty be env fs (L "Workspace file at " ++ p ++ L " was invalid: Entity '" ++ e_id e ++ L "' failed validation: " ++ debug_verrors be (e_id e) xs).

(** The text is what is to be said of the files on disk, and it is so: they
    cannot be read, one cannot be parsed, there is a fault in their blocks, or
    two blocks are entities of one name. *)
Inductive explained (be : blame_env) (c : ctx) (d : fs) : str -> Prop :=
| explained_io : load_directory c d = Err WIoError -> explained be c d (L "There was a problem reading workspace files: " ++ be_io be)
| explained_syntax r s : read_text (c_links c) d (c_ws c ++ r) = Some s -> c_parse c s = None ->
    explained be c d (L "Workspace file at " ++ path_text (c_ws c ++ r) ++ L " could not be parsed: " ++ be_tree be s)
| explained_blocks fs t : load_directory c d = Ok fs -> faulty be (c_env c) (c_files c fs) t -> explained be c d t
| explained_twice fs l1 l2 l3 b b' e e' : load_directory c d = Ok fs -> entity_blocks (c_files c fs) = l1 ++ b :: l2 ++ b' :: l3 ->
    reads_entity (c_env c) b e -> reads_entity (c_env c) b' e' -> e_id e = e_id e' ->
    explained be c d (L "Workspace file at " ++ path_text (c_ws c) ++ L " was invalid: EntityAlreadyExists(EntityId(" ++ be_debug be (e_id e) ++ L "))").
(** The field an error is about. *)
Definition about_field (x : verror) (f : field_id) : Prop :=
  match x with
  | MismatchedEntityType _ _ => False
  | MissingRequiredField g | MismatchedFieldType g _ _ | InvalidEnumValue g _ _ => g = f
  end.

(** What is to be said of each way in which an entity breaks a schema. *)
Definition type_title (t : field_type) : str :=
  match t with
  | TBool => L "Boolean" | TStr => L "String" | TInt => L "Integer" | TFloat => L "Float" | TCur => L "Currency"
  | TRef => L "Reference" | TList => L "List" | TDate => L "DateTime" | TPath => L "Path" | TEnum => L "Enum"
  end.
Inductive told (s : schema) (e : entity) : str -> Prop :=
| told_entity_type : e_type e <> s_type s ->
    told s e (L "Expected entity '" ++ e_id e ++ L "' to be of type '" ++ s_type s ++ L "' but it was '" ++ e_type e ++ L "'")
| told_missing id f : In (id, f) (s_fields s) -> fs_required f = true -> (forall v, ~ In (id, v) (e_fields e)) ->
    told s e (L "Missing required field '" ++ id ++ L "' for entity '" ++ e_id e ++ L "'")
| told_field_type id f v t : In (id, f) (s_fields s) -> first_value e id v -> has_type v t -> t <> fs_type f ->
    told s e (L "Expected field '" ++ id ++ L "' for entity '" ++ e_id e ++ L "' to be of type '" ++ type_title (fs_type f)
      ++ L "' but it was '" ++ type_title t ++ L "'")
| told_enum id f x ws : In (id, f) (s_fields s) -> first_value e id (VEnum x) -> fs_type f = TEnum ->
    (fs_allowed f = Some ws \/ fs_allowed f = None /\ ws = []) -> (forall w, In w ws -> ~ normal_of x w) ->
    told s e (L "Invalid value '" ++ x ++ L "' for enum field '" ++ id ++ L "' in entity '" ++ e_id e
      ++ L "'. Expected one of: [" ++ join (L ", ") ws ++ L "]").
