(** What it means for an entity to conform to a schema, and what a schema
    declaration says. *)
From Verif Require Export M_Workspace S_Dsl S_Graph S_Sort.

(** Hash maps are iterated in some order. *)
Definition shuffles {A} (ho : list A -> list A) : Prop := forall l, Permutation (ho l) l.

(** Keys of a hash map are distinct. *)
Definition well_formed (s : schema) : Prop := NoDup (map fst (s_fields s)).

(** The types of values. *)
Inductive has_type : value -> field_type -> Prop :=
| ht_bool b : has_type (VBool b) TBool
| ht_str s : has_type (VStr s) TStr
| ht_int z : has_type (VInt z) TInt
| ht_float f : has_type (VFloat f) TFloat
| ht_cur a c : has_type (VCur a c) TCur
| ht_ref r : has_type (VRef r) TRef
| ht_list l : has_type (VList l) TList
| ht_date d : has_type (VDate d) TDate
| ht_path p : has_type (VPath p) TPath
| ht_enum s : has_type (VEnum s) TEnum.

(** The first value an entity gives to a field. *)
Definition first_value (e : entity) (id : field_id) (v : value) : Prop :=
  exists a b, e_fields e = a ++ (id, v) :: b /\ ~ In id (map fst a).

(** [x] is [w] after removing outer white space and lowering letters. *)
Definition normal_of (x w : str) : Prop := exists t, trimmed_of x t /\ w = lower t.
(** [x] and [y] are the same but for outer white space and letter case. *)
Definition same_word (x y : str) : Prop := exists w, normal_of x w /\ normal_of y w.

(** The violations of a schema by an entity. *)
Inductive violation (s : schema) (e : entity) : verror -> Prop :=
| viol_entity_type : e_type e <> s_type s -> violation s e (MismatchedEntityType (s_type s) (e_type e))
| viol_missing id f : In (id, f) (s_fields s) -> fs_required f = true ->
    (forall v, ~ In (id, v) (e_fields e)) -> violation s e (MissingRequiredField id)
| viol_field_type id f v t : In (id, f) (s_fields s) -> first_value e id v -> has_type v t ->
    t <> fs_type f -> violation s e (MismatchedFieldType id (fs_type f) t)
| viol_enum id f x allowed : In (id, f) (s_fields s) -> first_value e id (VEnum x) -> fs_type f = TEnum ->
    fs_allowed f = Some allowed -> (forall w, In w allowed -> ~ normal_of x w) ->
    violation s e (InvalidEnumValue id x allowed)
| viol_enum_open id f x : In (id, f) (s_fields s) -> first_value e id (VEnum x) -> fs_type f = TEnum ->
    fs_allowed f = None -> violation s e (InvalidEnumValue id x []).

(** The entity conforms to the schema. *)
Definition conforms (s : schema) (e : entity) : Prop :=
  e_type e = s_type s /\
  forall id f, In (id, f) (s_fields s) ->
    (fs_required f = true -> exists v, In (id, v) (e_fields e)) /\
    (forall v, first_value e id v -> has_type v (fs_type f)) /\
    (forall x, first_value e id (VEnum x) ->
       exists allowed w, fs_allowed f = Some allowed /\ In w allowed /\ normal_of x w).

(** ** Declarations *)
(** One declared field. *)
Record decl := { d_name : str; d_type : field_type; d_required : bool; d_allowed : option (list str) }.
Definition decl_of (p : field_id * fschema) : decl :=
  {| d_name := fst p; d_type := fs_type (snd p); d_required := fs_required (snd p); d_allowed := fs_allowed (snd p) |}.
(** The fields of a schema in the order in which they are listed. *)
Definition listing (ho : field_order) (s : schema) : list decl := map decl_of (ordered_fields ho s).

(** The type words of the DSL. *)
Definition type_word (t : field_type) : str :=
  match t with
  | TBool => L "boolean" | TStr => L "string" | TInt => L "integer" | TFloat => L "float"
  | TCur => L "currency" | TRef => L "reference" | TList => L "list" | TDate => L "datetime"
  | TPath => L "path" | TEnum => L "enum"
  end.

(** The first entry of a block with a given name. *)
Definition entry (b : nblock) (name : str) (f : fnode) : Prop :=
  exists pre post, nb_body b = Some (pre ++ f :: post) /\ fn_id f = Some name /\
    forall g, In g pre -> fn_id g <> Some name.
Definition entry_value (env : dsl_env) (path : str) (b : nblock) (name : str) (v : pvalue) : Prop :=
  exists f n, entry b name f /\ fn_value f = Some n /\ from_node env path n = Ok v.

(** A block declares a field: it has a text "name", one of the type words as
    "type"; it is required if "required" is true; an enum has the normal form of
    the texts of its list "allowed_values", if it has one. *)
Definition declares (env : dsl_env) (path : str) (b : nblock) (d : decl) : Prop :=
  entry_value env path b (L "name") (PStr (d_name d)) /\
  entry_value env path b (L "type") (PStr (type_word (d_type d))) /\
  (d_required d = true <-> entry_value env path b (L "required") (PBool true)) /\
  (forall ws, d_allowed d = Some ws <->
     d_type d = TEnum /\ exists vs, entry_value env path b (L "allowed_values") (PList (map PStr vs)) /\
                                    Forall2 normal_of vs ws).

(** A later declaration of the same name replaces an earlier one. *)
Fixpoint last_wins (ds : list decl) : list decl :=
  match ds with
  | [] => []
  | d :: ds' => if str_in (d_name d) (map d_name ds') then last_wins ds' else d :: last_wins ds'
  end.

(** ** Writing *)
(** The syntax nodes of a written schema: the grammar is trusted to give them
    back from the rendered text below. *)
Definition field_node (name : str) (n : vnode) : fnode := {| fn_id := Some name; fn_value := Some n |}.
Definition text_node (s : str) : vnode := VNode (Some KString) (quoted s) [].
Definition written_block (p : field_id * fschema) : nblock :=
  {| nb_type := Some (L "field");
     nb_body := Some (
       field_node (L "name") (text_node (fst p)) ::
       field_node (L "type") (text_node (type_word (fs_type (snd p)))) ::
       (match fs_allowed (snd p) with
        | Some vs => [field_node (L "allowed_values")
                        (VNode (Some KList) (L "[" ++ join (L ", ") (map quoted vs) ++ L "]") (map text_node vs))]
        | None => []
        end) ++
       [field_node (L "required") (VNode (Some KBoolean) (if fs_required (snd p) then L "true" else L "false") [])]) |}.
Definition written_schema (ho : field_order) (s : schema) : snode :=
  {| sn_name := Some (s_type s); sn_blocks := map written_block (ordered_fields ho s) |}.

(** The text of syntax nodes. *)
Definition render_value (n : vnode) : str := match n with VNode _ raw _ => raw end.
Definition render_field (f : fnode) : str :=
  match fn_id f, fn_value f with
  | Some i, Some n => i ++ L " = " ++ render_value n
  | _, _ => []
  end.
Definition lines_at (ind : str) (ls : list str) : str := concat (map (fun l => ind ++ l ++ [LF]) ls).
Definition render_block (o : gen_options) (b : nblock) : str :=
  match nb_type b, nb_body b with
  | Some t, Some fs =>
      indent_string (g_indent o) 1 ++ t ++ L " {" ++ [LF]
        ++ lines_at (indent_string (g_indent o) 2) (map render_field fs)
        ++ indent_string (g_indent o) 1 ++ L "}" ++ [LF]
  | _, _ => []
  end.
Definition render_schema (o : gen_options) (n : snode) : str :=
  match sn_name n with
  | Some name => L "schema " ++ name ++ L " {" ++ [LF] ++ concat (map (render_block o) (sn_blocks n)) ++ L "}" ++ [LF]
  | None => []
  end.
Definition render_entity (o : gen_options) (n : enode) : str :=
  match en_type n, en_id n with
  | Some t, Some i =>
      t ++ L " " ++ i ++ L " {" ++ [LF]
        ++ lines_at (indent_string (g_indent o) 1) (map render_field (en_fields n)) ++ L "}" ++ [LF]
  | _, _ => []
  end.

(** A schema that comes back: normalised type, names and allowed values without
    quotes and line ends, allowed values in normal form and on enums only. *)
Definition plain_text (s : str) : Prop := ~ In DQ s /\ ~ In LF s.
Definition storable_field (p : field_id * fschema) : Prop :=
  forall vs, fs_allowed (snd p) = Some vs -> fs_type (snd p) = TEnum /\ Forall (fun v => normal_of v v) vs.
Definition plain_field (p : field_id * fschema) : Prop :=
  plain_text (fst p) /\ forall vs, fs_allowed (snd p) = Some vs -> Forall plain_text vs.

(** ** Builder *)
(** One call of the schema builder. *)
Inductive bcall :=
| BField (req : bool) (id : field_id) (t : field_type)
| BEnum (req : bool) (id : field_id) (vs : list str).
Definition bname (c : bcall) : field_id := match c with BField _ id _ => id | BEnum _ id _ => id end.
Definition bdecl (c : bcall) : decl :=
  match c with
  | BField req id t => {| d_name := id; d_type := t; d_required := req; d_allowed := None |}
  | BEnum req id vs => {| d_name := id; d_type := TEnum; d_required := req; d_allowed := Some (map normal_text vs) |}
  end.
Definition bstep (s : schema) (c : bcall) : schema :=
  match c with
  | BField req id t => with_field_mode req s id t
  | BEnum req id vs => with_enum_mode req s id vs
  end.
Definition bbuild (t : entity_type) (cs : list bcall) : schema := fold_left bstep cs (schema_new t).
Definition metadata : list decl :=
  [ {| d_name := L "notes"; d_type := TStr; d_required := false; d_allowed := None |};
    {| d_name := L "created_at"; d_type := TDate; d_required := false; d_allowed := None |};
    {| d_name := L "updated_at"; d_type := TDate; d_required := false; d_allowed := None |} ].

(** ** Workspaces *)
(** The schema and entity blocks of all files, each with the path its values
    are read against. *)
Definition schema_blocks (fs : files) : list (str * snode) :=
  flat_map (fun pf => map (fun n => (wf_rel (snd pf), n)) (wf_schemas (snd pf))) fs.
Definition entity_blocks (fs : files) : list (str * enode) :=
  flat_map (fun pf => map (fun n => (wf_rel (snd pf), n)) (wf_entities (snd pf))) fs.
Definition reads_schema (env : dsl_env) (b : str * snode) (s : schema) : Prop := to_schema env (fst b) (snd b) = Ok s.
Definition reads_entity (env : dsl_env) (b : str * enode) (e : entity) : Prop := to_entity env (fst b) (snd b) = Ok e.

(** What the files say: the schemas and entities of their blocks, in order;
    no two schemas for one type; every entity conforms to a schema of its type. *)
Definition consistent (env : dsl_env) (fs : files) (ss : list schema) (es : list entity) : Prop :=
  Forall2 (reads_schema env) (schema_blocks fs) ss /\
  Forall2 (reads_entity env) (entity_blocks fs) es /\
  NoDup (map s_type ss) /\
  forall e, In e es -> exists s, In s ss /\ conforms s e.

(** A list node's text is the text of its items between brackets, separated by
    commas; so for the lists inside it. *)
Fixpoint well_rendered (n : vnode) : Prop :=
  match n with
  | VNode (Some KList) raw items =>
      raw = L "[" ++ join (L ", ") (map render_value items) ++ L "]" /\
      (fix all (l : list vnode) : Prop := match l with [] => True | x :: l' => well_rendered x /\ all l' end) items
  | _ => True
  end.
(** The blocks of several entities, with or without blank lines between. *)
Fixpoint render_entities (o : gen_options) (ns : list enode) : str :=
  match ns with
  | [] => []
  | [n] => render_entity o n
  | n :: ns' => render_entity o n ++ (if g_blank o then [LF] else []) ++ render_entities o ns'
  end.

(** The text of a reference to an entity, to a field. *)
Definition ref_text (t i : str) : str := t ++ L "." ++ i.
Definition field_ref_text (t i f : str) : str := t ++ L "." ++ i ++ L "." ++ f.
Definition dotless (s : str) : Prop := ~ In "."%char s.
(** A field node holding a reference with the given text. *)
Definition refers (m : fnode) (f : field_id) (text : str) : Prop :=
  fn_id m = Some f /\ exists items, fn_value m = Some (VNode (Some KReference) text items).

(** What an error of a build says about the file it names. *)
Definition blamed (env : dsl_env) (fs : files) (x : werror) : Prop :=
  match x with
  | WIoError => False
  | WParseError p => exists f, In (p, f) fs /\
      ((exists n y, In n (wf_schemas f) /\ to_schema env (wf_rel f) n = Err y) \/
       (exists n y, In n (wf_entities f) /\ to_entity env (wf_rel f) n = Err y))
  | WMissingSchemaError p t => exists f n e, In (p, f) fs /\ In n (wf_entities f) /\
      to_entity env (wf_rel f) n = Ok e /\ e_type e = t /\
      forall b s, In b (schema_blocks fs) -> reads_schema env b s -> s_type s <> t
  | WValidationError p => exists f, In (p, f) fs /\
      ((exists n s l1 l2 b s', In n (wf_schemas f) /\ to_schema env (wf_rel f) n = Ok s /\
          schema_blocks fs = l1 ++ (wf_rel f, n) :: l2 /\ In b l1 /\ reads_schema env b s' /\ s_type s' = s_type s) \/
       (exists n e b s, In n (wf_entities f) /\ to_entity env (wf_rel f) n = Ok e /\
          In b (schema_blocks fs) /\ reads_schema env b s /\ s_type s = e_type e /\ ~ conforms s e))
  end.
