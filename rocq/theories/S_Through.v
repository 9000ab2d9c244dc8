(** What the theorems about the command line and JSON speak about. *)
From Verif Require Import M_Graph M_Query M_GraphJson S_Json M_Cli.
From Verif Require Export S_Save.

(** The same environment with another order of the hash maps in the graph. *)
Definition with_hash (x : cli_env) (ho : hash_order) : cli_env :=
  {| cl_json := cl_json x; cl_cwd := cl_cwd x; cl_order := cl_order x; cl_ext := cl_ext x; cl_hash := ho |}.
(** A graph that was built from a workspace, and that JSON can carry. *)
Definition carried_graph (env : json_env) (c : ctx) (g : graph) : Prop :=
  exists d st, rebuild c d = Ok st /\ g = st_graph st /\ Forall (storable_entity env) (b_entities (st_build st)) /\ countable (st_graph st).
