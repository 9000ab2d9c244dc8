(** What the file-system theorems speak about. *)
From Verif Require Export M_Fs.

(** Names in a directory. *)
Definition proper_name (c : str) : Prop := c <> [] /\ c <> L "." /\ c <> L ".." /\ ~ In "/"%char c.
(** Every node has a proper name and lies in a directory. *)
Definition sound (d : fs) : Prop :=
  forall p c, node_at d (p ++ [c]) <> None -> node_at d p = Some Dir /\ proper_name c.
(** Two file systems with the same nodes. *)
Definition same (d d' : fs) : Prop := forall p, node_at d' p = node_at d p.
(** Nothing differs but for directories that were added. *)
Definition only_dirs_added (d d' : fs) : Prop :=
  forall p, node_at d' p = node_at d p \/ (node_at d p = None /\ node_at d' p = Some Dir).
(** Nothing differs but for directories that were added, and the node at [q]. *)
Definition only_changed (q : place) (d d' : fs) : Prop :=
  forall p, p <> q -> node_at d' p = node_at d p \/ (node_at d p = None /\ node_at d' p = Some Dir).
(** Where a link begins. *)
Definition link_base (p : place) (t : str) : place :=
  match t with "/"%char :: _ => [] | _ => removelast p end.
(** Every symbolic link leads to something that exists. *)
Definition no_dangling_links (links : nat) (d : fs) : Prop :=
  forall p t, node_at d p = Some (Link t) -> exists q, walk links d (link_base p t) (path_of t) = At q.
(** The place is the directory [w] or below it. *)
Definition inside (w q : place) : Prop := exists r, q = w ++ r.
(** The pieces of a path between slashes. *)
Definition slashless (p : path) : Prop := Forall (fun c => ~ In "/"%char c) p.
(** No symbolic links at all. *)
Definition no_links (d : fs) : Prop := forall p t, node_at d p <> Some (Link t).
(** Nothing outside [w] differs. *)
Definition confined (w : place) (d d' : fs) : Prop := forall p, ~ inside w p -> node_at d' p = node_at d p.
(** All files hold text. *)
Definition all_text (d : fs) : Prop := forall p s, node_at d p = Some (File s) -> is_text s = true.
(** No symbolic links in or below [w]. *)
Definition no_links_in (w : place) (d : fs) : Prop := forall p t, inside w p -> node_at d p <> Some (Link t).
(** The file system lists each place once. *)
Definition tidy (d : fs) : Prop := NoDup (map fst d).
(** All files in or below [w] hold text. *)
Definition all_text_in (w : place) (d : fs) : Prop := forall p s, inside w p -> node_at d p = Some (File s) -> is_text s = true.
