(** The progress a build reports while it runs.

    [M_Blame.fault_build] is the build with its error messages; here it also
    calls back, as [Workspace::build_with_progress] does. *)
From Verif Require Import M_Graph.
From Verif Require Export M_Blame M_Answer.
From Verif Require Import M_Text.
Close Scope Z_scope.

(** The arguments of one call of [progress] (build.rs:31-33), in the order in
    which they are passed. *)
Record report := { rp_first : nat; rp_second : nat; rp_phase : str }.
(** build.rs:63-92: [progress(files_to_process, files_processed, ..)] comes
    before the entities of the file; [files_processed] grows after them. *)
Fixpoint watch_files (be : blame_env) (env : dsl_env) (ho : field_order) (m : schemas_map) (total processed : nat) (fs : files)
  : list report * outcome fault (list (list entity)) :=
  match fs with
  | [] => ([], Ok [])
  | pf :: fs' =>
      let r := {| rp_first := total; rp_second := processed; rp_phase := L "Building entities" |} in
      match fault_file be env ho m pf with
      | Ok es =>
          let '(rs, o) := watch_files be env ho m total (S processed) fs' in
          (r :: rs, obind o (fun ess => Ok (es :: ess)))
      | Err x => ([r], Err x)
      | Panic => ([r], Panic)
      end
  end.
(** build.rs:28-97, [Workspace::build_with_progress]: what is reported, and the
    outcome. *)
Definition watch_build (be : blame_env) (env : dsl_env) (ho : field_order) (so : list schema -> list schema) (fs : files)
  : list report * outcome fault wbuild :=
  let first := {| rp_first := length fs; rp_second := 0; rp_phase := L "Building schemas" |} in
  match fault_collect env fs [] with
  | Ok m =>
      let '(rs, o) := watch_files be env ho m (length fs) 0 fs in
      (first :: rs, obind o (fun ess => Ok {| b_entities := concat ess; b_schemas := so (map snd m) |}))
  | Err x => ([first], Err x)
  | Panic => ([first], Panic)
  end.
(** build.rs:21-25, [Workspace::build]: the lines logged at debug level. The
    closure calls its first argument [current] and its second [total]. *)
Definition debug_line (r : report) : str := rp_phase r ++ L ": " ++ show_nat (rp_first r) ++ L "/" ++ show_nat (rp_second r).
Definition build_log (be : blame_env) (env : dsl_env) (ho : field_order) (so : list schema -> list schema) (fs : files) : list str :=
  map debug_line (fst (watch_build be env ho so fs)).

(** What the progress bar of the command line shows: its length, its position
    and its message. *)
Record bar := { bar_length : nat; bar_position : nat; bar_message : str }.
(** commands/build.rs:55-59: the closure calls its first argument [total]. *)
Definition bar_at (r : report) : bar := {| bar_length := rp_first r; bar_position := rp_second r; bar_message := rp_phase r |}.
(** commands/build.rs:52-70 (ui.rs progress_bar): the states of the bar, one
    after the other, and the last, if it is not cleared. [finish_with_message]
    of the indicatif crate moves the bar to its end. A panic leaves it where it
    is. *)
Definition cli_bar (be : blame_env) (env : dsl_env) (ho : field_order) (so : list schema -> list schema) (fs : files)
  : list bar * option bar :=
  let '(rs, o) := watch_build be env ho so fs in
  let shown := {| bar_length := length fs; bar_position := 0; bar_message := [] |} :: map bar_at rs in
  (shown,
   match o with
   | Ok _ => Some {| bar_length := bar_length (last (map bar_at rs) {| bar_length := length fs; bar_position := 0; bar_message := [] |});
                     bar_position := bar_length (last (map bar_at rs) {| bar_length := length fs; bar_position := 0; bar_message := [] |});
                     bar_message := L "Workspace built successfully" |}
   | Err _ => None
   | Panic => Some (last shown {| bar_length := length fs; bar_position := 0; bar_message := [] |})
   end).
