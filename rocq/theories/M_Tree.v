(** From the tree of a source file to its blocks: how firm_lang/src/parser/dsl
    walks the tree that the tree-sitter library gives it. The code looks at the
    tree when a part is asked for; here all parts are taken at once. *)
From Verif Require Import M_Graph.
From Verif Require Export M_Server.
Close Scope Z_scope.

(** A node of the library's tree: its kind, whether the library put it in
    because it was missing, its byte range in the source, and its children
    (named or not, comments among them). *)
Inductive tree := Node (kind : str) (missing : bool) (start stop : nat) (children : list tree).
Definition t_kind (t : tree) : str := let (k, _, _, _, _) := t in k.
Definition t_children (t : tree) : list tree := let (_, _, _, _, cs) := t in cs.
(** [Node::has_error]: an ERROR or missing node in it. Library behaviour. *)
Fixpoint has_error (t : tree) : bool :=
  match t with Node k m _ _ cs => str_eqb k (L "ERROR") || m || existsb has_error cs end.

(** parser_utils.rs:4-9. *)
Definition find_child_of_kind (t : tree) (k : str) : option tree := find (fun c => str_eqb (t_kind c) k) (t_children t).
Definition children_of_kind (t : tree) (k : str) : list tree := filter (fun c => str_eqb (t_kind c) k) (t_children t).
(** parser_utils.rs:12-14. Indexing a string: a panic ([None]) outside of it or
    inside a character. *)
Definition is_boundary (s : str) (n : nat) : bool :=
  match nth_error s n with Some c => negb (is_cont c) | None => n =? length s end.
Definition get_node_text (src : str) (t : tree) : option str :=
  let (_, _, a, b, _) := t in
  if (a <=? b) && is_boundary src a && is_boundary src b then Some (firstn (b - a) (skipn a src)) else None.
(** The text of a node that need not be there. *)
Definition text_if (src : str) (o : option tree) : option (option str) :=
  match o with None => Some None | Some t => option_map Some (get_node_text src t) end.

(** parsed_value.rs:28-44. *)
Definition node_kind (k : str) : vkind :=
  if str_eqb k (L "boolean") then KBoolean
  else if str_eqb k (L "string") then KString
  else if str_eqb k (L "number") then KNumber
  else if str_eqb k (L "currency") then KCurrency
  else if str_eqb k (L "reference") then KReference
  else if str_eqb k (L "list") then KList
  else if str_eqb k (L "datetime") then KDateTime
  else if str_eqb k (L "date") then KDate
  else if str_eqb k (L "path") then KPath
  else if str_eqb k (L "enum") then KEnum
  else KUnknown k.
(** parsed_value.rs:100-131, 250-272: the kind is that of the first child; the
    items of a list are the values among that child's children. *)
Fixpoint read_value_node (src : str) (t : tree) : option vnode :=
  match get_node_text src t with
  | None => None
  | Some raw =>
      match t with
      | Node _ _ _ _ [] => Some (VNode None raw [])
      | Node _ _ _ _ (Node k _ _ _ gs :: _) =>
          match node_kind k with
          | KList =>
              option_map (VNode (Some KList) raw)
                ((fix items gs :=
                    match gs with
                    | [] => Some []
                    | g :: gs' =>
                        if str_eqb (t_kind g) (L "value") then
                          match read_value_node src g, items gs' with Some v, Some vs => Some (v :: vs) | _, _ => None end
                        else items gs'
                    end) gs)
          | k => Some (VNode (Some k) raw [])
          end
      end
  end.
(** parsed_field.rs:31-42. *)
Definition read_field_node (src : str) (t : tree) : option fnode :=
  match text_if src (find_child_of_kind t (L "field_name")) with
  | None => None
  | Some name =>
      match find_child_of_kind t (L "value") with
      | None => Some {| fn_id := name; fn_value := None |}
      | Some v => option_map (fun v => {| fn_id := name; fn_value := Some v |}) (read_value_node src v)
      end
  end.
Fixpoint each {A B} (f : A -> option B) (l : list A) : option (list B) :=
  match l with
  | [] => Some []
  | x :: l' => match f x, each f l' with Some y, Some ys => Some (y :: ys) | _, _ => None end
  end.
(** The fields directly in a block. *)
Definition read_block (src : str) (t : tree) : option (list fnode) := each (read_field_node src) (children_of_kind t (L "field")).
(** parsed_entity.rs:33-65. *)
Definition read_entity_node (src : str) (t : tree) : option enode :=
  match text_if src (find_child_of_kind t (L "entity_type")), text_if src (find_child_of_kind t (L "entity_id")) with
  | Some k, Some i =>
      match find_child_of_kind t (L "block") with
      | None => Some {| en_type := k; en_id := i; en_fields := [] |}
      | Some b => option_map (fun fs => {| en_type := k; en_id := i; en_fields := fs |}) (read_block src b)
      end
  | _, _ => None
  end.
(** parsed_schema.rs:50-62, parsed_schema_field.rs:93-110. *)
Definition read_nested (src : str) (t : tree) : option nblock :=
  match text_if src (find_child_of_kind t (L "block_type")) with
  | None => None
  | Some k =>
      match find_child_of_kind t (L "block") with
      | None => Some {| nb_type := k; nb_body := None |}
      | Some b => option_map (fun fs => {| nb_type := k; nb_body := Some fs |}) (read_block src b)
      end
  end.
(** parsed_schema.rs:32-68. *)
Definition read_schema_node (src : str) (t : tree) : option snode :=
  match text_if src (find_child_of_kind t (L "schema_name")) with
  | None => None
  | Some n =>
      match find_child_of_kind t (L "block") with
      | None => Some {| sn_name := n; sn_blocks := [] |}
      | Some b => option_map (fun bs => {| sn_name := n; sn_blocks := bs |}) (each (read_nested src) (children_of_kind b (L "nested_block")))
      end
  end.
(** parsed_source.rs:31-66. *)
Definition read_tree (src : str) (t : tree) : option parsed :=
  match each (read_schema_node src) (children_of_kind t (L "schema_block")), each (read_entity_node src) (children_of_kind t (L "entity_block")) with
  | Some ss, Some es => Some {| ps_error := has_error t; ps_schemas := ss; ps_entities := es |}
  | _, _ => None
  end.
