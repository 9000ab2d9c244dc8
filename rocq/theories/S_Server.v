(** What the theorems about the tool server speak about. *)
From Verif Require Export M_Server S_Fs.
From Coq Require Export Permutation.

(** The server runs in a directory [w] of a sound file system. *)
Definition runs_in (c : ctx) (d : fs) (w : place) : Prop :=
  sound d /\ slashless (c_ws c) /\ resolve (c_links c) d (c_ws c) = At w /\ node_at d w = Some Dir.
(** The path an argument of a request names. *)
Definition named (c : ctx) (rel : str) : path := join_path (c_ws c) rel.
(** A path that is relative and does not climb. *)
Definition plain (rel : str) : Prop := starts_with rel (L "/") = false /\ contains rel (L "..") = false.
(** No symbolic link can lead the path astray: none dangles, or the path is
    plain and none lies in the workspace. *)
Definition unlinked (c : ctx) (d : fs) (w : place) (rel : str) : Prop :=
  no_dangling_links (c_links c) d \/ (no_links_in w d /\ plain rel).
(** If the path leads to a file of the workspace, the file holds text. *)
Definition target_is_text (c : ctx) (d : fs) (w : place) (rel : str) : Prop :=
  forall q s, resolve (c_links c) d (named c rel) = At q -> inside w q -> node_at d q = Some (File s) -> is_text s = true.
(** The names of source files: something, then ".firm". *)
Definition firm_file_name (n : str) : Prop := exists a, a <> [] /\ n = a ++ L ".firm".
(** A source file of the workspace: its path below the workspace, and its text. *)
Definition source_of (w : place) (d : fs) (r : path) (s : str) : Prop :=
  node_at d (w ++ r) = Some (File s) /\ exists r' n, r = r' ++ [n] /\ firm_file_name n.
(** What is loaded from a source file. *)
Definition loaded (c : ctx) (r : path) (ps : parsed) : str * wfile :=
  (path_text (c_ws c ++ r), {| wf_rel := path_text r; wf_schemas := ps_schemas ps; wf_entities := ps_entities ps |}).
(** A workspace without symbolic links whose files all hold text. *)
Definition ordinary (c : ctx) (w : place) (d : fs) : Prop :=
  runs_in c d w /\ no_links_in w d /\ tidy d /\ all_text_in w d.
(** A request by a plain path, of text, that is not forced. *)
Definition ordinary_request (r : request) : Prop :=
  match r with
  | Write rel content force => plain rel /\ is_text content = true /\ force = false
  | Replace rel old new _ force => plain rel /\ is_text old = true /\ is_text new = true /\ force = false
  | Delete rel force => plain rel /\ force = false
  | Build => True
  end.
