(** What the theorems about killed processes speak about. *)
From Verif Require Import M_Graph.
From Verif Require Export M_Kill S_Conc S_Save S_Cli.
Close Scope Z_scope.

(** The text [s] is the beginning of [t]. *)
Definition begins (s t : str) : Prop := exists u, t = s ++ u.
(** What may be left of a file that was [n] by an edit that is broken off: what
    it was, what the edit makes of it, or the beginning of either text. *)
Definition left_by (k : task) (n n' : option node) : Prop :=
  n' = n \/ edited k n n' \/
  (exists new s, edited k n (Some (File new)) /\ begins s new /\ n' = Some (File s)) \/
  (exists old s, n = Some (File old) /\ begins s old /\ n' = Some (File s)).
(** Every file still begins with the text it had. *)
Definition grown (d d' : fs) : Prop := forall p t, node_at d p = Some (File t) -> exists u, node_at d' p = Some (File (t ++ u)).
(** Requests to add entities and to build. *)
Definition addition (k : task) : Prop := match k with AddTask _ | Edit Build => True | _ => False end.
(** Additions by the tool server, in any number of processes, each of them
    killed at some time, and started on what the one before left. *)
Inductive lives (c : ctx) (ae : add_env) : fs -> fs -> Prop :=
| lives_none d : lives c ae d d
| lives_next d st ks d1 d2 : Forall addition ks -> killed c ae d st ks d1 -> lives c ae d1 d2 -> lives c ae d d2.
(** A new block, or the beginning of it, is at the end of one file, and there is
    nothing else new but directories. *)
Definition added_part (d : fs) (q : place) (old block : str) (d' : fs) : Prop :=
  (node_at d q = Some (File old) \/ (node_at d q = None /\ old = [])) /\ only_changed q d d' /\
  exists t, node_at d' q = Some (File t) /\ begins old t /\ begins t block.
(** The files of the saved graph. *)
Definition saved_graph (w : place) (p : place) : Prop := p = w ++ [L "current.firm.graph"] \/ p = w ++ [L "backup.firm.graph"].
