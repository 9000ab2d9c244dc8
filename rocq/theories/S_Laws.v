(** Vocabulary for C79: how the steps of a query combine. *)
From Verif Require Export S_Query.
Close Scope Z_scope.

(** The query [from s | ops | a]. *)
Definition ask (s : selector) (ops : list operation) (a : option aggregation) : query :=
  {| q_from := s; q_ops := ops; q_agg := a |}.
(** The query [from s | ops] answers the entities [es]. *)
Definition answers (x : ext) (g : graph) (ho : hash_order) (s : selector) (ops : list operation) (es : list entity) : Prop :=
  execute x g ho (ask s ops None) = Ok (QEntities es).
(** The entities can be ordered by [f] (as in C13). *)
Definition orderable (f : field_ref) (es : list entity) : Prop :=
  match f with FMeta _ => True | FReg f => exists m, Forall (conforming m f) es end.
(** [a] may stand before [b] when ordered by [f]; neither comes first. *)
Definition may_precede (f : field_ref) (d : sort_direction) (a b : entity) : Prop :=
  match f with FReg f => in_direction d (ascending f) a b | FMeta m => in_direction d (meta_ascending m) a b end.
Definition tied (f : field_ref) (a b : entity) : Prop := cmp_by_field f a b = Eq.
(** The condition [field op value] alone. *)
Definition only (f : field_id) (o : operator) (w : fvalue) : operation :=
  QWhere {| cc_conds := [{| c_field := FReg f; c_op := o; c_value := w |}]; cc_comb := CAnd |}.
(** One of the operators says the contrary of the other. *)
Definition contrary (o o' : operator) : Prop :=
  In (o, o') [(OpEq, OpNe); (OpNe, OpEq); (OpLt, OpGe); (OpGe, OpLt); (OpGt, OpLe); (OpLe, OpGt)].
