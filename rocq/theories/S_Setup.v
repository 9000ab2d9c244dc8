(** What the theorems about a set-up that is broken off speak about. *)
From Verif Require Import M_Graph S_Graph.
From Verif Require Export M_Setup S_Init S_Kill.
Close Scope Z_scope.

(** The text the command has for each of its files; for the .gitignore it
    depends on what is there. *)
Inductive init_text (c : ctx) (template : str) (acts : list act) (there : option node) : path -> str -> Prop :=
| it_schema s : In s all_default_schemas ->
    init_text c template acts there [L "schemas"; s_type s ++ L ".firm"] (generate_schema (c_fields c) default_options s)
| it_gitignore : there = None -> init_text c template acts there [L ".gitignore"] graph_entry
| it_gitignore_added old new : there = Some (File old) -> entry_added old new -> init_text c template acts there [L ".gitignore"] new
| it_entities pn on : In (Types pn) acts -> In (Types on) acts ->
    init_text c template acts there [L "main.firm"] (generate_dsl (c_env c) default_options (first_entities pn on))
| it_context : init_text c template acts there [L "AGENTS.md"] template.

(** The node is left as it is; or it is the directory for the schemas, new; or
    it is a file of the command, with the beginning of its text: a new one, one
    that may be overwritten, or the .gitignore with all that was in it. *)
Definition left_or_begun (c : ctx) (template : str) (acts : list act) (w : place) (may_overwrite : Prop) (d d' : fs) (p : place) : Prop :=
  node_at d' p = node_at d p \/
  (p = w ++ [L "schemas"] /\ node_at d p = None /\ node_at d' p = Some Dir) \/
  exists f t s, p = w ++ f /\ init_text c template acts (node_at d p) f t /\ begins s t /\ node_at d' p = Some (File s) /\
    (node_at d p = None \/
     exists old, node_at d p = Some (File old) /\ ((f = [L ".gitignore"] /\ begins old s) \/ (f <> [L ".gitignore"] /\ may_overwrite))).

(** The places of the command are free, or hold what it puts there itself. *)
Definition usable (w : place) (d : fs) : Prop :=
  (node_at d (w ++ [L "schemas"]) = None \/ node_at d (w ++ [L "schemas"]) = Some Dir) /\
  (forall f, init_file f -> node_at d (w ++ f) = None \/ exists s, node_at d (w ++ f) = Some (File s)) /\
  (forall s, node_at d (w ++ [L ".gitignore"]) = Some (File s) -> is_text s = true).
(** The saved graph is ignored: a file that says so already, or the entry, on a
    line of its own. *)
Definition ignores_graph (s : str) : Prop :=
  (contains s (L ".DS_Store") = true /\ contains s (L "*.firm.graph") = true) \/
  exists before, s = before ++ graph_entry /\ (before = [] \/ exists b, before = b ++ [LF]).
