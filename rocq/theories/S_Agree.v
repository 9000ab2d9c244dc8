(** The queries that ask what the commands get, list and related ask: C84. *)
From Verif Require Import M_Text.

Definition quote : str := [ascii_of_nat 34].
(** The entity with the id  [t.i]. *)
Definition get_query (t i : str) : str := L "from * | where @id == " ++ quote ++ t ++ L "." ++ i ++ quote.
(** And those it is linked to. *)
Definition related_query (t i : str) : str := get_query t i ++ L " | related".
(** All of a type, and how many. *)
Definition list_query (t : str) : str := L "from " ++ t.
Definition count_query (t : str) : str := L "from " ++ t ++ L " | count".
