(** What a query asks for by name. *)
From Verif Require Import M_Workspace M_Server M_Query M_QParse S_QText.
Close Scope Z_scope.

(** The fields that an aggregation names. *)
Definition aggregated (a : aggregation) : list field_ref :=
  match a with
  | ASelect fs => fs
  | ACount (Some f) | ASum f | AAverage f | AMedian f => [f]
  | ACount None => []
  end.
(** The query asks for the field of that name: in a condition, to order by or to select or aggregate. *)
Inductive asks_field (r : query) (f : str) : Prop :=
| af_where cc c : In (QWhere cc) (q_ops r) -> In c (cc_conds cc) -> c_field c = FReg f -> asks_field r f
| af_order dir : In (QOrder (FReg f) dir) (q_ops r) -> asks_field r f
| af_aggregate a : q_agg r = Some a -> In (FReg f) (aggregated a) -> asks_field r f.
(** The query asks for entities of that type: from the start or as related ones. *)
Inductive asks_type (r : query) (t : str) : Prop :=
| aty_from : q_from r = SType t -> asks_type r t
| aty_related n : In (QRelated n (Some t)) (q_ops r) -> asks_type r t.
(** A name in normal form of ASCII letters, digits and underscores. *)
Definition normal_name (f : str) : Prop := new_id f = f /\ Forall letter_or_digit f.
