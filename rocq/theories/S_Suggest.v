(** What the theorems about completion speak about. *)
From Verif Require Import M_Graph S_Graph.
From Verif Require Export M_Suggest S_Prompt S_Whole.
Close Scope Z_scope.

(** [a] is the beginning of [s]. *)
Definition begins_with (s a : str) : Prop := exists r, s = a ++ r.
(** How many dots a text has. *)
Definition dot_count (s : str) : nat := count_occ ascii_dec s "."%char.
(** A field of this name is written in the block. *)
Definition names_field (fs : list fnode) (name : str) : Prop := exists v, In (field_node name v) fs.

(** The texts one can refer to the declarations of a workspace by: the name of
    an entity, and the name of an entity and of one of its fields. *)
Inductive reference_to (w : place) (d : fs) : str -> Prop :=
| to_entity_of t i fs : declares w d t i fs -> reference_to w d (compose_entity_id t i)
| to_field_of t i fs name : declares w d t i fs -> names_field fs name -> reference_to w d (compose_entity_id t i ++ L "." ++ name).
(** The types, with the dot that follows them in a reference. *)
Definition type_of_some (w : place) (d : fs) (s : str) : Prop := exists t i fs, declares w d t i fs /\ s = t ++ L ".".

(** [s] goes on from what was typed, the name of the entity normalised. *)
Inductive goes_on (input s : str) : Prop :=
| goes_on_type : dot_count input = 0 -> begins_with s input -> goes_on input s
| goes_on_entity t i : ~ In "."%char t -> ~ In "."%char i -> input = t ++ L "." ++ i -> begins_with s (compose_entity_id t i) -> goes_on input s
| goes_on_field t i f : ~ In "."%char t -> ~ In "."%char i -> ~ In "."%char f -> input = t ++ L "." ++ i ++ L "." ++ f ->
    begins_with s (compose_entity_id t i ++ L "." ++ f) -> goes_on input s.

(** What a path shows of an entry: its name, after a slash the directories on
    the way; a directory ends in a slash. *)
Definition shown (p : list str) (name : str) (n : node) (s : str) : Prop :=
  (n = Dir /\ s = path_text (p ++ [name]) ++ L "/") \/ (n <> Dir /\ s = path_text (p ++ [name])).
(** The path, counted from the workspace, of something that is there. *)
Definition path_of_some (c : ctx) (d : fs) (s : str) : Prop :=
  exists p name q n, resolve (c_links c) d (c_ws c ++ p) = At q /\ node_at d (q ++ [name]) = Some n /\ shown p name n s.
(** A relative path whose last piece is not a lone dot. *)
Definition relative_input (s : str) : Prop := ~ begins_with s (L "/") /\ s <> L "." /\ forall x, s <> x ++ L "/.".
(** What has been typed of the way to the entry [name] of the directory [ds]. *)
Definition typed_of (ds : list str) (name input : str) : Prop :=
  exists a, begins_with name a /\ input = concat (map (fun x => x ++ L "/") ds) ++ a.
