(** Vocabulary for C80: which entities a query is about. *)
From Verif Require Export S_Laws.
Close Scope Z_scope.

(** The entity is of the type asked for. *)
Definition selected (s : selector) (e : entity) : Prop := match s with SType t => e_type e = t | SAll => True end.
(** It meets every condition of the query. *)
Definition meets (x : ext) (ops : list operation) (e : entity) : Prop := forall c, In (QWhere c) ops -> satisfies x c e.
