(** What a reading command of the command line prints with [--format json]. *)
From Verif Require Import M_Graph.
From Verif Require Export M_Show M_Cli.
Close Scope Z_scope.

(** firm_cli/src/commands/get.rs:42-45, 79-82, list.rs:37, 61, query.rs:39-51,
    source.rs:40-48: what goes to standard output; the headers and messages go
    to the standard error. The related entities (related.rs:38-41) are printed
    like those of a query; the model of the command keeps their ids only, and
    so they are in [run_related] below. *)
Definition print_json (env : json_env) (ho : field_order) (q : command) (r : reply) : str :=
  match q, r with
  | _, RGot (GotSchema s) => json_schema env ho s
  | _, RGot (GotEntity e) => json_entity env e
  | _, RGot NotGot => []
  | _, RIds ids => json_names env ids
  | _, RFound r => json_query env r
  | CSource t i, RPath p => json_source env t i p
  | _, RPath _ => []
  end.

(** firm_cli/src/commands/related.rs:11-52 with --format json, after main.rs has
    prepared the graph (main.rs:24-96): all of every related entity is printed. *)
Definition run_related (c : ctx) (x : cli_env) (cached : bool) (d : fs) (env : json_env) (t i : str) (dir : option direction) : fs * ended_as str :=
  match prepare c x d cached with
  | (d1, Succeeded _) =>
      (d1, match load_current_graph (cl_json x) c d1 with
           | Some g =>
               match get_related g (compose_entity_id t i) dir with
               | Some es => Succeeded (json_entities env es)
               | None => Failed
               end
           | None => Failed
           end)
  | (d1, Failed) => (d1, Failed)
  | (d1, Died) => (d1, Died)
  end.
