(** The trees of source files. *)
From Verif Require Import M_Graph.
From Verif Require Export M_Tree S_Syntax.
Close Scope Z_scope.

(** ** Parts of a tree *)
(** A text cut in front of [s] is cut between two characters. *)
Definition starts_char (s : str) : Prop := match s with [] => True | c :: _ => is_cont c = false end.
(** The part of the source a node stands for. *)
Definition spans (src : str) (t : tree) (s : str) : Prop :=
  exists k m cs before after, t = Node k m (length before) (length before + length s) cs /\ src = before ++ s ++ after /\
    starts_char (s ++ after) /\ starts_char after.
(** [c] is the first child of this kind. *)
Definition first_child (t : tree) (k : str) (c : tree) : Prop :=
  exists before after, t_children t = before ++ c :: after /\ t_kind c = k /\ Forall (fun x => t_kind x <> k) before.
(** The children of this kind, in order; between them there may be others. *)
Inductive among (k : str) : list tree -> list tree -> Prop :=
| among_none : among k [] []
| among_other c cs us : t_kind c <> k -> among k us cs -> among k us (c :: cs)
| among_one c cs us : t_kind c = k -> among k us cs -> among k (c :: us) (c :: cs).

(** There is an error in it: text the library could make nothing of, or a node
    it had to add. *)
Inductive damaged : tree -> Prop :=
| damaged_text m a b cs : damaged (Node (L "ERROR") m a b cs)
| damaged_added k a b cs : damaged (Node k true a b cs)
| damaged_inside k m a b cs c : In c cs -> damaged c -> damaged (Node k m a b cs).

(** ** The shape of the trees
    (firm_lang/src/parser/dsl: the kinds of nodes the code looks for). Comments,
    braces and other nodes may stand among the children. *)
Definition kind_name (k : vkind) : str :=
  match k with
  | KBoolean => L "boolean" | KString => L "string" | KNumber => L "number" | KCurrency => L "currency"
  | KReference => L "reference" | KList => L "list" | KDateTime => L "datetime" | KDate => L "date" | KPath => L "path"
  | KEnum => L "enum" | KUnknown s => s
  end.
Inductive value_tree (src : str) : vnode -> tree -> Prop :=
| vt_literal k raw t c cs : spans src t raw -> t_children t = c :: cs -> (forall n, k <> KUnknown n) -> k <> KList -> t_kind c = kind_name k ->
    value_tree src (VNode (Some k) raw []) t
| vt_list raw vs t c cs us : spans src t raw -> t_children t = c :: cs -> t_kind c = L "list" ->
    among (L "value") us (t_children c) -> Forall2 (value_tree src) vs us ->
    value_tree src (VNode (Some KList) raw vs) t.
Definition field_tree (src : str) (f : fnode) (t : tree) : Prop :=
  exists name v n u, f = field_node name v /\ first_child t (L "field_name") n /\ spans src n name /\ first_child t (L "value") u /\ value_tree src v u.
Definition fields_tree (src : str) (fs : list fnode) (t : tree) : Prop :=
  exists us, among (L "field") us (t_children t) /\ Forall2 (field_tree src) fs us.
Definition nested_tree (src : str) (b : nblock) (t : tree) : Prop :=
  exists k fs n u, b = {| nb_type := Some k; nb_body := Some fs |} /\ first_child t (L "block_type") n /\ spans src n k /\
    first_child t (L "block") u /\ fields_tree src fs u.
(** An entity or a schema. *)
Inductive block_tree (src : str) : block -> tree -> Prop :=
| bt_entity k i fs t n m u : t_kind t = L "entity_block" -> first_child t (L "entity_type") n -> spans src n k ->
    first_child t (L "entity_id") m -> spans src m i -> first_child t (L "block") u -> fields_tree src fs u ->
    block_tree src (EntityBlock {| en_type := Some k; en_id := Some i; en_fields := fs |}) t
| bt_schema name bs t n u us : t_kind t = L "schema_block" -> first_child t (L "schema_name") n -> spans src n name ->
    first_child t (L "block") u -> among (L "nested_block") us (t_children u) -> Forall2 (nested_tree src) bs us ->
    block_tree src (SchemaBlock {| sn_name := Some name; sn_blocks := bs |}) t.
(** The blocks of a file, in order; between them there may be others. *)
Inductive blocks_among (src : str) : list block -> list tree -> Prop :=
| ba_none : blocks_among src [] []
| ba_other c cs bs : t_kind c <> L "entity_block" -> t_kind c <> L "schema_block" -> blocks_among src bs cs -> blocks_among src bs (c :: cs)
| ba_one c cs b bs : block_tree src b c -> blocks_among src bs cs -> blocks_among src (b :: bs) (c :: cs).
Definition file_tree (src : str) (bs : list block) (t : tree) : Prop := blocks_among src bs (t_children t) /\ has_error t = false.
(** A parser that gives for a text in the documented syntax a tree of this
    shape. *)
Definition makes_trees (tp : str -> option tree) : Prop :=
  forall bs text, file_syntax bs text -> exists t, tp text = Some t /\ file_tree text bs t.
(** What the program makes of it. *)
Definition parse_with (tp : str -> option tree) (text : str) : option parsed :=
  match tp text with Some t => read_tree text t | None => None end.

(** ** Trees of any text *)
(** The range of every node lies in the source, between characters. *)
Inductive in_text (src : str) : tree -> Prop :=
| in_text_node k m a b cs s : spans src (Node k m a b cs) s -> Forall (in_text src) cs -> in_text src (Node k m a b cs).
(** What is read, but for the errors. *)
Definition same_blocks (a b : option parsed) : Prop :=
  match a, b with
  | Some p, Some q => ps_schemas p = ps_schemas q /\ ps_entities p = ps_entities q
  | None, None => True
  | _, _ => False
  end.

(** ** Syntax errors *)
(** A text in which the parser finds no error. *)
Definition error_free (c : ctx) (s : str) : Prop := exists p, c_parse c s = Some p /\ ps_error p = false.
(** A request by a plain path, of text; it may be forced. *)
Definition plain_request (r : request) : Prop :=
  match r with
  | Write rel content _ => plain rel /\ is_text content = true
  | Replace rel old new _ _ => plain rel /\ is_text old = true /\ is_text new = true
  | Delete rel _ => plain rel
  | Build => True
  end.
(** The same, with a parser that never says that there is an error. *)
Definition without_errors (c : ctx) : ctx :=
  {| c_ws := c_ws c; c_links := c_links c;
     c_parse := fun s => option_map (fun p => {| ps_error := false; ps_schemas := ps_schemas p; ps_entities := ps_entities p |}) (c_parse c s);
     c_env := c_env c; c_fields := c_fields c; c_schemas := c_schemas c; c_files := c_files c |}.
