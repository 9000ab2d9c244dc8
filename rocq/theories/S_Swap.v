(** Edits of different files: C89. *)
From Verif Require Export S_Undo.

(** The file a path names, without what leads nowhere ("" and "."). *)
Definition parts (rel : str) : path := filter (fun n => negb (stays n)) (path_of rel).
(** The files that requests edit. *)
Definition files_of (rs : list request) : list path :=
  flat_map (fun r => match edited r with Some rel => [parts rel] | None => [] end) rs.
(** The text that the request leaves in its file, made of the files [d]; none
    if it deletes it. *)
Definition leaves (w : place) (d : fs) (r : request) (o : option str) : Prop :=
  match r with
  | Write _ content _ => o = Some content
  | Replace rel old new all _ =>
      exists text content n, node_at d (w ++ parts rel) = Some (File text) /\ replace_text text old new all = Replaced content n /\ o = Some content
  | Delete _ _ => o = None
  | Build => False
  end.
(** Two disks with the same files. *)
Definition same_files (d d' : fs) : Prop := forall p s, node_at d' p = Some (File s) <-> node_at d p = Some (File s).
