(** What one source file declares: C91. *)
From Verif Require Export S_Swap S_Schema.

(** The schemas and entities read from the source file [r], in order; none if
    there is no such file. *)
Inductive file_declares (c : ctx) (w : place) (d : fs) (r : path) : list schema -> list entity -> Prop :=
| declares_nothing : (forall s, ~ source_of w d r s) -> file_declares c w d r [] []
| declares_blocks s ps ss es : source_of w d r s -> c_parse c s = Some ps ->
    Forall2 (fun n x => to_schema (c_env c) (path_text r) n = Ok x) (ps_schemas ps) ss ->
    Forall2 (fun n x => to_entity (c_env c) (path_text r) n = Ok x) (ps_entities ps) es ->
    file_declares c w d r ss es.
(** The entity with an id after the declarations [new] took the place of
    [old]: the new one, or else the one there was unless it was among the
    old. *)
Definition after_edit (old new : list entity) (was : option entity) (id : entity_id) : option entity :=
  match lookup new id with
  | Some e => Some e
  | None => match lookup old id with Some _ => None | None => was end
  end.
