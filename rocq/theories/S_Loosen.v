(** Vocabulary for C83: schemas that are loosened. *)
From Verif Require Export S_Spread.
Close Scope Z_scope.

(** The schema block [n] of the file [r] is for the type [t] and declares the
    fields [ds], no name twice; none of its values crashes the reader (C72). *)
Definition schema_says (env : dsl_env) (r : path) (n : snode) (t : entity_type) (ds : list decl) : Prop :=
  (exists name, sn_name n = Some name /\ t = new_id name) /\
  Forall2 (S_Schema.declares env (path_text r)) (schema_fields n) ds /\ NoDup (map d_name ds) /\
  forall b fs f, In b (schema_fields n) -> nb_body b = Some fs -> In f fs -> field_value env (path_text r) f <> M_Text.Panic.

(** A declaration that asks for less: of the same type, required only if it was,
    and allowing all values that were allowed. *)
Definition weaker (a b : decl) : Prop :=
  d_name b = d_name a /\ d_type b = d_type a /\ (d_required b = true -> d_required a = true) /\
  forall ws, d_allowed a = Some ws -> exists ws', d_allowed b = Some ws' /\ incl ws ws'.
(** An optional field that no entity of the type has. *)
Definition not_in_use (es : list entity) (t : entity_type) (b : decl) : Prop :=
  d_required b = false /\ forall e, In e es -> e_type e = t -> ~ In (d_name b) (map fst (e_fields e)).
(** A schema block is replaced by a looser one: fields may be gone, weaker or
    not in use. [es] are the entities there are. *)
Definition loosened (env : dsl_env) (es : list entity) (a b : path * block) : Prop :=
  exists n n' t ds ds', snd a = SchemaBlock n /\ snd b = SchemaBlock n' /\ schema_says env (fst a) n t ds /\ schema_says env (fst b) n' t ds' /\
    forall y, In y ds' -> (exists x, In x ds /\ weaker x y) \/ not_in_use es t y.
(** A schema block without entities of its type. *)
Definition unused (env : dsl_env) (es : list entity) (a : path * block) : Prop :=
  exists n t ds, snd a = SchemaBlock n /\ schema_says env (fst a) n t ds /\ forall e, In e es -> e_type e <> t.
(** A schema block for the type [t]. *)
Definition schema_for (env : dsl_env) (a : path * block) (t : entity_type) : Prop :=
  exists n ds, snd a = SchemaBlock n /\ schema_says env (fst a) n t ds.
