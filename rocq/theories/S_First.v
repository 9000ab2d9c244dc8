(** The first entity of a type, which makes the file named after it. *)
From Verif Require Import M_Graph S_Graph M_Num.
From Verif Require Export S_Cli.
Close Scope Z_scope.

Definition default_dir (w : place) : place := w ++ [L "generated"].
Definition default_file (w : place) (t : str) : place := w ++ [L "generated"; t ++ L ".firm"].
(** A type that is a name of its own: not empty, without slash and dot. *)
Definition file_word (t : str) : Prop := t <> [] /\ ~ In "/"%char t /\ ~ In "."%char t.
(** Nothing was generated for the type so far: the directory is there or can be made, the file is not there. *)
Definition none_generated (w : place) (t : str) (d : fs) : Prop :=
  (node_at d (default_dir w) = None \/ node_at d (default_dir w) = Some Dir) /\ node_at d (default_file w t) = None.
(** The file is made with that text, with its directory, and nothing else differs. *)
Definition generated_with (w : place) (t text : str) (d d' : fs) : Prop :=
  node_at d' (default_file w t) = Some (File text) /\ node_at d' (default_dir w) = Some Dir /\
  forall p, p <> default_file w t -> p <> default_dir w -> node_at d' p = node_at d p.
