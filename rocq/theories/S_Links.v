(** References in the text of the source files, for C73. *)
From Verif Require Import S_Graph M_Graph.
From Verif Require Export S_Whole.
Close Scope Z_scope.

(** A value names the entity [id]: as [t.i], as a field [t.i.f] of it, or in a
    list. *)
Inductive names_entity : vnode -> entity_id -> Prop :=
| ne_entity t i : name_syntax t -> name_syntax i -> names_entity (VNode (Some KReference) (t ++ L "." ++ i) []) (compose_entity_id t i)
| ne_field t i f : name_syntax t -> name_syntax i -> name_syntax f ->
    names_entity (VNode (Some KReference) (t ++ L "." ++ i ++ L "." ++ f) []) (compose_entity_id t i)
| ne_item raw vs v id : In v vs -> names_entity v id -> names_entity (VNode (Some KList) raw vs) id.
(** One of the fields does. *)
Definition block_names (fs : list fnode) (id : entity_id) : Prop := exists name v, In (field_node name v) fs /\ names_entity v id.
(** The block [fs] of [id] and the block [fs'] of [id'] are linked: the former
    names the latter, the latter the former, or either. *)
Definition blocks_linked (dir : option direction) (id : entity_id) (fs : list fnode) (id' : entity_id) (fs' : list fnode) : Prop :=
  match dir with
  | Some Outgoing => block_names fs id'
  | Some Incoming => block_names fs' id
  | None => block_names fs id' \/ block_names fs' id
  end.
