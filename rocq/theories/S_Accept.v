(** Texts that spell a query when white space is not required anywhere. *)
From Verif Require Import M_QParse S_QText.

(** Tokens with any white space, or none, before, between and after them. *)
Inductive strung : list str -> str -> Prop :=
| strung_end w : blank w -> strung [] w
| strung_token w t ts rest : blank w -> strung ts rest -> strung (t :: ts) (w ++ t ++ rest).

(** The text consists of the tokens of the query, and of white space. *)
Definition made_of (q : pquery) (text : str) : Prop :=
  exists s ops agg, selector_token (pq_from q) s /\ operations_tokens (pq_ops q) ops /\
  end_tokens (pq_agg q) agg /\ strung (L "from" :: s :: ops ++ agg) text.
