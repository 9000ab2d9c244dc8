(** What the prompts of [firm add] offer for completion:
    firm_cli/src/commands/field_prompt.rs. How the terminal shows it, and how
    one of the offers is put in place of what was typed, is inquire's affair
    and not modelled. *)
From Verif Require Import M_Graph.
From Verif Require Export M_Prompt.
Close Scope Z_scope.

(** field_prompt.rs:305-353. The types come out of a hash map, in the order
    [ho] of its keys. *)
Definition reference_suggestions (ho : list str -> list str) (g : graph) (input : str) : list str :=
  match split_char "." input with
  | [t] => map (fun k => k ++ L ".") (filter (fun k => starts_with k t) (ho (type_keys g)))
  | [t; i] => filter (fun id => starts_with id (compose_entity_id t i)) (map e_id (list_by_type g (from_str t)))
  | [t; i; f] =>
      match get_entity g (compose_entity_id t i) with
      | Some e => map (fun k => e_id e ++ L "." ++ k) (filter (fun k => starts_with k f) (map fst (e_fields e)))
      | None => []
      end
  | _ => []
  end.

(** field_prompt.rs:563-570: the directory that is searched. *)
Definition searched (c : ctx) (input : str) : path :=
  let p := join_path (c_ws c) input in
  if ends_with input (L "/") || str_eqb input [] then p
  else match parent p with Some q => q | None => c_ws c end.
(** field_prompt.rs:575-593: what is made of an entry. [diff_paths] is
    [diff_go]; the type of the entry is its own, a link is not followed. *)
Definition entry_suggestion (c : ctx) (d : fs) (dir : path) (at_ : place) (input n : str) : list str :=
  match diff_go (parts (dir ++ [n])) (parts (c_ws c)) with
  | Some cs =>
      let s := path_text cs ++ (match node_at d (at_ ++ [n]) with Some Dir => L "/" | _ => [] end) in
      if starts_with s input then [s] else []
  | None => []
  end.
(** field_prompt.rs:559-597. File names that are not UTF-8 are not modelled. *)
Definition path_suggestions (c : ctx) (d : fs) (input : str) : list str :=
  let dir := searched c input in
  match resolve (c_links c) d dir, read_dir (c_links c) d dir with
  | At q, Some names => flat_map (entry_suggestion c d dir q input) names
  | _, _ => []
  end.
