(** The saved graph: firm_cli/src/files.rs and commands/build.rs:11-25. *)
From Verif Require Import M_Graph.
From Verif Require Export M_Server.

(** serde_json on the graph: [to_string] and [from_str]. *)
Record graph_json := { to_json : graph -> option str; of_json : str -> option graph }.

(** files.rs:7-8, 36-37. *)
Definition current_name : str := L "current.firm.graph".
Definition backup_name : str := L "backup.firm.graph".
Definition current_graph (c : ctx) : path := c_ws c ++ [current_name].
Definition backup_graph (c : ctx) : path := c_ws c ++ [backup_name].

(** fs::rename of a file or link: neither name is followed, and what has the new
    name is replaced. Renaming a directory, or onto one, is taken to fail, which
    is true of the latter only. *)
Definition rename (links : nat) (d : fs) (p q : path) : option fs :=
  match last_name p, last_name q, resolve links d (removelast p), resolve links d (removelast q) with
  | Some a, Some b, At pa, At pb =>
      match node_at d pa, node_at d pb, node_at d (pa ++ [a]), node_at d (pb ++ [b]) with
      | Some Dir, Some Dir, Some Dir, _ | Some Dir, Some Dir, Some _, Some Dir => None
      | Some Dir, Some Dir, Some n, _ => Some (set_node (unset_node d (pa ++ [a])) (pb ++ [b]) n)
      | _, _, _, _ => None
      end
  | _, _, _, _ => None
  end.

(** Where the process stops while it saves: before it renames, before it
    writes, when so many bytes are written, or not at all. *)
Inductive stop := BeforeRename | BeforeWrite | InWrite (written : nat) | Finished.
(** files.rs:30-61: the file system afterwards, and whether success is reported. *)
Definition save_graph (j : graph_json) (c : ctx) (d : fs) (g : graph) (s : stop) : fs * bool :=
  match s with
  | BeforeRename => (d, false)
  | _ =>
      match (if path_exists (c_links c) d (current_graph c)
             then rename (c_links c) d (current_graph c) (backup_graph c)
             else Some d) with
      | None => (d, false)
      | Some d1 =>
          match s, to_json j g with
          | BeforeWrite, _ | _, None => (d1, false)
          | InWrite k, Some t =>
              match write (c_links c) d1 (current_graph c) (firstn k t) with
              | Some d2 => (d2, false)
              | None => (d1, false)
              end
          | _, Some t =>
              match write (c_links c) d1 (current_graph c) t with
              | Some d2 => (d2, true)
              | None => (d1, false)
              end
          end
      end
  end.
(** Runs one after the other, each with the graph it saves and where it stops. *)
Definition saves (j : graph_json) (c : ctx) (d : fs) (l : list (graph * stop)) : fs :=
  fold_left (fun d gs => fst (save_graph j c d (fst gs) (snd gs))) l d.
(** files.rs:64-93. *)
Definition load_current_graph (j : graph_json) (c : ctx) (d : fs) : option graph :=
  if negb (path_exists (c_links c) d (current_graph c)) then None
  else match read_text (c_links c) d (current_graph c) with
       | None => None
       | Some t => of_json j t
       end.
(** commands/build.rs:11-25; loading, building and making the graph are what
    the tool server does (server.rs:504-530). *)
Definition build_and_save (j : graph_json) (c : ctx) (d : fs) (s : stop) : fs * bool :=
  match rebuild c d with
  | Ok st => save_graph j c d (st_graph st) s
  | _ => (d, false)
  end.
