(** What the theorems about the saved graph speak about. *)
From Verif Require Export M_Save S_Server.

(** A file holds the graph. *)
Definition holds (j : graph_json) (c : ctx) (d : fs) (p : path) (g : graph) : Prop :=
  exists t, read_text (c_links c) d p = Some t /\ of_json j t = Some g.
(** The graph is in one of the two files. *)
Definition recoverable (j : graph_json) (c : ctx) (d : fs) (g : graph) : Prop :=
  holds j c d (current_graph c) g \/ holds j c d (backup_graph c) g.
(** The library writes the graph as text, and reads it back from that text. *)
Definition savable (j : graph_json) (g : graph) : Prop :=
  exists t, to_json j g = Some t /\ is_text t = true /\ of_json j t = Some g.
(** Nothing can be read from the beginning of the text of a graph. *)
Definition no_partial_graph (j : graph_json) (g : graph) : Prop :=
  forall t a b, to_json j g = Some t -> t = a ++ b -> b <> [] -> of_json j a = None.
(** Neither of the two names is that of a directory. *)
Definition no_graph_dirs (d : fs) (w : place) : Prop :=
  node_at d (w ++ [current_name]) <> Some Dir /\ node_at d (w ++ [backup_name]) <> Some Dir.
(** The graph of the last run that was not stopped. *)
Inductive last_finished (g0 : graph) : list (graph * stop) -> graph -> Prop :=
| lf_none : last_finished g0 [] g0
| lf_done l g : last_finished g0 (l ++ [(g, Finished)]) g
| lf_stopped l g s g' : s <> Finished -> last_finished g0 l g' -> last_finished g0 (l ++ [(g, s)]) g'.
(** After a run stopped in its writing, the next that begins to save finishes. *)
Definition careful (l : list (graph * stop)) : Prop :=
  forall a g k mid g' s b, l = a ++ (g, InWrite k) :: mid ++ (g', s) :: b ->
    (forall x, In x mid -> snd x = BeforeRename) -> s = BeforeRename \/ s = Finished.
