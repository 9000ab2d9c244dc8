(** Schemas: firm_core/src/schema, their DSL form (firm_lang/src/generate/
    from_schema.rs, firm_lang/src/parser/dsl/parsed_schema*.rs) and their
    conversion (firm_lang/src/convert/to_schema.rs). *)
From Verif Require Export M_Graph M_Dsl.

(** firm_core/src/schema/mod.rs:14-26. [fs_required] is
    [field_mode == Required]. *)
Record fschema := {
  fs_type : field_type;
  fs_required : bool;
  fs_order : nat;
  fs_allowed : option (list str)
}.

(** firm_core/src/schema/mod.rs:29-36. *)
Definition fschema_new (t : field_type) (req : bool) (order : nat) : fschema :=
  {| fs_type := t; fs_required := req; fs_order := order; fs_allowed := None |}.

(** [v.trim().to_lowercase()]. *)
Definition normal_text (v : str) : str := lower (utrim v).

(** firm_core/src/schema/mod.rs:39-51. *)
Definition fschema_new_enum (req : bool) (order : nat) (vs : list str) : fschema :=
  {| fs_type := TEnum; fs_required := req; fs_order := order; fs_allowed := Some (map normal_text vs) |}.

(** firm_core/src/schema/mod.rs:70-75. The hash map is an association list
    without duplicate keys; [insertion_order] is never read. *)
Record schema := { s_type : entity_type; s_fields : list (field_id * fschema) }.

(** The order in which a hash map of fields is iterated. *)
Definition field_order := list (field_id * fschema) -> list (field_id * fschema).

(** firm_core/src/schema/mod.rs:79-85, 88-97. *)
Definition schema_new (t : entity_type) : schema := {| s_type := t; s_fields := [] |}.
Definition add_field_schema (s : schema) (id : field_id) (f : fschema) : schema :=
  {| s_type := s_type s; s_fields := assoc_set id f (s_fields s) |}.

(** firm_core/src/schema/mod.rs:153-155. *)
Definition next_order (s : schema) : nat := length (s_fields s).

(** firm_core/src/schema/mod.rs:100-127. *)
Definition with_field_mode (req : bool) (s : schema) (id : field_id) (t : field_type) : schema :=
  add_field_schema s id (fschema_new t req (next_order s)).
Definition with_enum_mode (req : bool) (s : schema) (id : field_id) (vs : list str) : schema :=
  add_field_schema s id (fschema_new_enum req (next_order s) vs).

(** firm_core/src/schema/mod.rs:130-143. *)
Definition with_metadata (s : schema) : schema :=
  add_field_schema
    (add_field_schema
       (add_field_schema s (new_id (L "notes")) (fschema_new TStr false 100))
       (new_id (L "created_at")) (fschema_new TDate false 101))
    (new_id (L "updated_at")) (fschema_new TDate false 102).

(** firm_core/src/schema/mod.rs:146-150; [sort_by_key] is stable. *)
Definition by_order (a b : field_id * fschema) : comparison :=
  Nat.compare (fs_order (snd a)) (fs_order (snd b)).
Definition ordered_fields (ho : field_order) (s : schema) : list (field_id * fschema) :=
  sort_by by_order (ho (s_fields s)).

(** ** Validation *)

(** firm_core/src/schema/validation_errors.rs. The entity id and the rendered
    message, functions of the entity and of these parts, are left out. *)
Inductive verror :=
| MismatchedEntityType (expected actual : entity_type)
| MissingRequiredField (f : field_id)
| MismatchedFieldType (f : field_id) (expected actual : field_type)
| InvalidEnumValue (f : field_id) (actual : str) (allowed : list str).

(** firm_core/src/schema/validation.rs:28-67, one field of the schema. *)
Definition validate_field (e : entity) (p : field_id * fschema) : list verror :=
  let (id, f) := p in
  match get_field e id with
  | Some v =>
      if negb (is_type v (fs_type f)) then [MismatchedFieldType id (fs_type f) (get_type v)]
      else match v with
           | VEnum x =>
               match fs_allowed f with
               | Some allowed =>
                   if str_in (normal_text x) allowed then [] else [InvalidEnumValue id x allowed]
               | None => [InvalidEnumValue id x []]
               end
           | _ => []
           end
  | None => if fs_required f then [MissingRequiredField id] else []
  end.

(** firm_core/src/schema/validation.rs:10-80; [] is [Ok(())]. *)
Definition validate (ho : field_order) (s : schema) (e : entity) : list verror :=
  (if str_eqb (e_type e) (s_type s) then [] else [MismatchedEntityType (s_type s) (e_type e)])
    ++ flat_map (validate_field e) (ho (s_fields s)).

(** ** Reading *)

(** A schema block of the syntax tree: the name if there is one, and the nested
    blocks in order, each with its block type (if any) and, if it has a block,
    the fields directly inside it. *)
Record nblock := { nb_type : option str; nb_body : option (list fnode) }.
Record snode := { sn_name : option str; sn_blocks : list nblock }.

(** firm_lang/src/parser/dsl/parsed_schema.rs:38-68. *)
Definition schema_fields (n : snode) : list nblock :=
  filter (fun b => match nb_type b with Some t => str_eqb t (L "field") | None => false end)
         (sn_blocks n).

(** firm_lang/src/parser/dsl/parsed_schema_field.rs:93-110. *)
Definition find_field_by_name (b : nblock) (name : str) : option fnode :=
  match nb_body b with
  | None => None
  | Some fs => find (fun f => match fn_id f with Some i => str_eqb i name | None => false end) fs
  end.

(** firm_lang/src/parser/dsl/parsed_schema_field.rs:36-57, [name] and
    [field_type]. *)
Definition text_of (env : dsl_env) (path : str) (b : nblock) (name : str) : presult str :=
  obind (of_option MissingValue (find_field_by_name b name)) (fun f =>
  obind (field_value env path f) (fun v =>
  match v with PStr s => Ok s | _ => Err UnknownValueKind end)).

(** firm_lang/src/parser/dsl/parsed_schema_field.rs:61-68. *)
Definition required_of (env : dsl_env) (path : str) (b : nblock) : presult bool :=
  match find_field_by_name b (L "required") with
  | None => Ok false
  | Some f =>
      match field_value env path f with
      | Ok (PBool r) => Ok r
      | Panic => Panic
      | _ => Ok false
      end
  end.

(** firm_lang/src/parser/dsl/parsed_schema_field.rs:72-90. *)
Fixpoint all_strings (l : list pvalue) : option (list str) :=
  match l with
  | [] => Some []
  | PStr s :: l' => option_map (cons s) (all_strings l')
  | _ :: _ => None
  end.
Definition allowed_of (env : dsl_env) (path : str) (b : nblock) : presult (option (list str)) :=
  match find_field_by_name b (L "allowed_values") with
  | None => Ok None
  | Some f =>
      match field_value env path f with
      | Ok (PList l) => Ok (all_strings l)
      | Panic => Panic
      | _ => Ok None
      end
  end.

(** firm_lang/src/convert/conversion_errors.rs. *)
Inductive serr :=
| MissingSchemaName
| MissingFieldName
| MissingFieldType
| UnknownFieldType (t : str).

(** firm_lang/src/convert/to_schema.rs:58-74. *)
Definition convert_field_type (s : str) : outcome serr field_type :=
  if str_eqb s (L "boolean") then Ok TBool
  else if str_eqb s (L "string") then Ok TStr
  else if str_eqb s (L "integer") then Ok TInt
  else if str_eqb s (L "float") then Ok TFloat
  else if str_eqb s (L "currency") then Ok TCur
  else if str_eqb s (L "reference") then Ok TRef
  else if str_eqb s (L "list") then Ok TList
  else if str_eqb s (L "datetime") then Ok TDate
  else if str_eqb s (L "path") then Ok TPath
  else if str_eqb s (L "enum") then Ok TEnum
  else Err (UnknownFieldType s).

(** firm_lang/src/convert/to_schema.rs:23-49, one field at position [order]. *)
Definition convert_schema_field (env : dsl_env) (path : str) (order : nat) (b : nblock)
  : outcome serr (field_id * fschema) :=
  obind (omap_err (fun _ => MissingFieldName) (text_of env path b (L "name"))) (fun name =>
  obind (omap_err (fun _ => MissingFieldType) (text_of env path b (L "type"))) (fun ts =>
  obind (convert_field_type ts) (fun t =>
  obind (omap_err (fun _ => MissingFieldType) (required_of env path b)) (fun req =>
  if field_type_eqb t TEnum then
    obind (omap_err (fun _ => MissingFieldType) (allowed_of env path b)) (fun allowed =>
    match allowed with
    | Some vs => Ok (name, fschema_new_enum req order vs)
    | None => Ok (name, fschema_new t req order)
    end)
  else Ok (name, fschema_new t req order))))).

(** firm_lang/src/convert/to_schema.rs:14-55. *)
Fixpoint convert_schema_fields (env : dsl_env) (path : str) (order : nat) (bs : list nblock) (s : schema)
  : outcome serr schema :=
  match bs with
  | [] => Ok s
  | b :: bs' =>
      obind (convert_schema_field env path order b) (fun '(id, f) =>
      convert_schema_fields env path (S order) bs' (add_field_schema s id f))
  end.
Definition to_schema (env : dsl_env) (path : str) (n : snode) : outcome serr schema :=
  obind (of_option MissingSchemaName (sn_name n)) (fun name =>
  convert_schema_fields env path 0 (schema_fields n) (schema_new (new_id name))).

(** ** Writing *)

(** firm_lang/src/generate/from_schema.rs:60-73. *)
Definition field_type_to_string (t : field_type) : str :=
  match t with
  | TStr => L "string"
  | TInt => L "integer"
  | TFloat => L "float"
  | TBool => L "boolean"
  | TCur => L "currency"
  | TDate => L "datetime"
  | TRef => L "reference"
  | TList => L "list"
  | TPath => L "path"
  | TEnum => L "enum"
  end.

(** The text between double quotes, not escaped (from_schema.rs:19-47). *)
Definition quoted (s : str) : str := [DQ] ++ s ++ [DQ].
Definition allowed_text (vs : list str) : str := L "[" ++ join (L ", ") (map quoted vs) ++ L "]".
Definition bool_text (b : bool) : str := if b then L "true" else L "false".

(** firm_lang/src/generate/from_schema.rs:6-57. *)
Definition generate_schema_field (o : gen_options) (p : field_id * fschema) : str :=
  let (id, f) := p in
  let i1 := indent_string (g_indent o) 1 in
  let i2 := indent_string (g_indent o) 2 in
  i1 ++ L "field {" ++ [LF]
    ++ i2 ++ L "name = " ++ quoted id ++ [LF]
    ++ i2 ++ L "type = " ++ quoted (field_type_to_string (fs_type f)) ++ [LF]
    ++ (match fs_allowed f with
        | Some vs => i2 ++ L "allowed_values = " ++ allowed_text vs ++ [LF]
        | None => []
        end)
    ++ i2 ++ L "required = " ++ bool_text (fs_required f) ++ [LF]
    ++ i1 ++ L "}" ++ [LF].
Definition generate_schema (ho : field_order) (o : gen_options) (s : schema) : str :=
  L "schema " ++ s_type s ++ L " {" ++ [LF]
    ++ concat (map (generate_schema_field o) (ordered_fields ho s))
    ++ L "}" ++ [LF].
