(** The process is killed while it handles requests: the file systems that can
    be left behind. *)
From Verif Require Import M_Graph.
From Verif Require Export M_Conc M_Cli M_Prompt.
Close Scope Z_scope.

(** The calls of the code that change the file system are [fs::create_dir_all],
    [fs::write], [write_all] to a file opened for appending and
    [fs::remove_file]. The first makes one directory after the other, starting
    with the outermost; a write empties or creates the file and then writes its
    bytes from the first to the last; removing is one step. *)
(** std::fs::create_dir_all: the file systems it goes through, see
    [M_Fs.create_dir_all]. *)
Fixpoint making (n links : nat) (d : fs) (p : path) : list fs :=
  match n with
  | 0 => []
  | S n' =>
      match mkdir links d p with
      | Made d' => [d']
      | NotMade => []
      | NoParent =>
          match parent p with
          | None => []
          | Some q =>
              making n' links d q ++
              match create_dir_all n' links d q with
              | (d1, true) => match mkdir links d1 p with Made d2 => [d2] | _ => [] end
              | _ => []
              end
          end
      end
  end.
(** The directories above [p]: while they are made, and when they are. *)
Definition making_above (links : nat) (d : fs) (p : path) (d' : fs) : Prop :=
  match parent p with Some q => In d' (making (S (length q)) links d q) | None => False end.
Definition made_above (links : nat) (d : fs) (p : path) : fs * bool :=
  match parent p with Some q => create_dir_all (S (length q)) links d q | None => (d, true) end.
(** fs::write, when some of the bytes are written (all, if [n] is large). *)
Definition partly_written (links : nat) (d : fs) (p : path) (s : str) (d' : fs) : Prop :=
  exists n, write links d p (firstn n s) = Some d'.
(** write_all to a file opened with create and append. *)
Definition partly_appended (links : nat) (d : fs) (p : path) (s : str) (d' : fs) : Prop :=
  exists n, append_to links d p (firstn n s) = Some d'.

(** resources.rs:109-132, as [write_source_file]. *)
Definition in_write_source_file (c : ctx) (d : fs) (rel content : str) (d' : fs) : Prop :=
  ends_with rel (L ".firm") = true /\
  exists p, to_absolute_path c d rel = Some p /\
    (making_above (c_links c) d p d' \/
     exists d1, made_above (c_links c) d p = (d1, true) /\ partly_written (c_links c) d1 p content d').
(** tools/write_source.rs:45-84, as [validate_and_write]. *)
Definition in_validate_and_write (c : ctx) (d : fs) (rel content : str) (d' : fs) : Prop :=
  exists ps, c_parse c content = Some ps /\ ps_error ps = false /\ in_write_source_file c d rel content d'.
(** tools/write_source.rs:87-97, as [rollback_write]. *)
Definition in_rollback_write (c : ctx) (d : fs) (rel : str) (original : option str) (d' : fs) : Prop :=
  match original with
  | Some s => partly_written (c_links c) d (join_path (c_ws c) rel) s d'
  | None => remove_file (c_links c) d (join_path (c_ws c) rel) = Some d'
  end.
(** tools/delete_source.rs:61-69, as [rollback_delete]. *)
Definition in_rollback_delete (c : ctx) (d : fs) (rel content : str) (d' : fs) : Prop :=
  let p := join_path (c_ws c) rel in
  making_above (c_links c) d p d' \/
  exists d1, made_above (c_links c) d p = (d1, true) /\ partly_written (c_links c) d1 p content d'.
(** add_entity.rs:132-159, as [append_block]. *)
Definition in_append_block (c : ctx) (d : fs) (p : path) (dsl : str) (d' : fs) : Prop :=
  making_above (c_links c) d p d' \/
  exists d1 pre, made_above (c_links c) d p = (d1, true) /\
    (if path_exists (c_links c) d1 p
     then match read_text (c_links c) d1 p with
          | None => None
          | Some s => Some (if ends_with s [LF] then [] else match s with [] => [] | _ => [LF] end)
          end
     else Some []) = Some pre /\
    partly_appended (c_links c) d1 p (pre ++ dsl) d'.
(** One step of a request, see [advance]: what the file system is in the middle
    of it or after it. *)
Definition within_step (c : ctx) (ae : add_env) (d : fs) (st : state) (ph : phase) (d' : fs) : Prop :=
  d' = d \/
  match ph with
  | Start (Edit (Write rel content _)) | HasText rel content _ => in_validate_and_write c d rel content d'
  | Start (Edit (Delete rel _)) => exists content, delete_file c d rel = Some (d', content)
  | Start (AddTask a) => exists e, entity_to_add c ae st a = Some e /\ in_append_block c d (target_of c a) (generate_dsl (c_env c) default_options [e]) d'
  | UndoWrite rel original => in_rollback_write c d rel original d'
  | UndoRemove rel content => in_rollback_delete c d rel content d'
  | _ => False
  end.
(** The process is killed at some time while it handles these requests: the file
    system that is left. At most one request is then inside a step ([M_Conc]). *)
Definition killed (c : ctx) (ae : add_env) (d : fs) (st : state) (ks : list task) (d' : fs) : Prop :=
  exists sched, let s := runs c ae (begin d st ks) sched in
    d' = sy_disk s \/ exists i ph, nth_error (sy_phases s) i = Some ph /\ within_step c ae (sy_disk s) (sy_state s) ph d'.

(** ** The command line *)
(** add.rs:483-518, as [write_dsl]. *)
Definition in_write_dsl (c : ctx) (d : fs) (p : path) (dsl : str) (d' : fs) : Prop :=
  making_above (c_links c) d p d' \/
  exists d1, made_above (c_links c) d p = (d1, true) /\ partly_appended (c_links c) d1 p dsl d'.
(** main.rs:24-96, as [prepare]: where the build is broken off is [stop]. *)
Definition in_prepare (c : ctx) (x : cli_env) (d : fs) (cached : bool) (d' : fs) : Prop :=
  d' = d \/ cached = false /\ exists s, d' = fst (build_and_save (cl_json x) c d s).
(** [firm add] with flags, as [run_add]. *)
Definition in_run_add (c : ctx) (x : cli_env) (cached : bool) (d : fs) (a : cli_add_params) (d' : fs) : Prop :=
  in_prepare c x d cached d' \/
  exists d1 g fb e, prepare c x d cached = (d1, Succeeded tt) /\ load_current_graph (cl_json x) c d1 = Some g /\
    workspace_build c d1 = Ok fb /\ cli_entity c x d1 g (b_schemas (snd fb)) a = Ok e /\
    in_write_dsl c d1 (dsl_path c (x_type a) (x_file a)) (generate_dsl (c_env c) default_options [e]) d'.
(** [firm add] without flags, as [run_interactive]. *)
Definition in_run_interactive (c : ctx) (x : cli_env) (pe : prompt_env) (cached : bool) (d : fs) (file : option str) (acts : list act) (d' : fs) : Prop :=
  in_prepare c x d cached d' \/
  exists d1 g fb p e rest, prepare c x d cached = (d1, Succeeded tt) /\ load_current_graph (cl_json x) c d1 = Some g /\
    workspace_build c d1 = Ok fb /\ entity_prompt c pe g (b_schemas (snd fb)) file acts = Got (p, e) rest /\
    in_write_dsl c d1 p (generate_dsl (c_env c) default_options [e]) d'.
