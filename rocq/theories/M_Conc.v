(** Requests that overlap: firm_mcp/src/server.rs and firm_cli/src/commands/mcp.rs. *)
From Verif Require Import M_Graph.
From Verif Require Export M_Add.
Close Scope Z_scope.

(** The requests that change something. *)
Inductive task := Edit (r : request) | AddTask (a : add_params).
(** How far a request is. The steps are those between which the code waits for
    the lock on the state or calls another of its parts (server.rs:191-211,
    236-408, 504-530); each is taken to be atomic, although it makes several
    calls to the file system and several threads may run (mcp.rs:15). *)
Inductive phase :=
| Start (k : task)
| HasText (rel content : str) (force : bool)
| Wrote (rel : str) (force : bool) (original : option str)
| Removed (rel : str) (force : bool) (content : str)
| Added
| UndoWrite (rel : str) (original : option str)
| UndoRemove (rel content : str)
| Ended (a : answer).

(** server.rs:252-263, 370-381. *)
Definition writing (c : ctx) (d : fs) (st : state) (rel content : str) (force : bool) : fs * state * phase :=
  match validate_and_write c d rel content with
  | (d1, None) => (d1, st, Ended Refused)
  | (d1, Some original) => (d1, st, Wrote rel force original)
  end.
(** server.rs:504-530, and what follows it. *)
Definition building (c : ctx) (d : fs) (st : state) (failed : phase) : fs * state * phase :=
  match rebuild c d with
  | Ok st' => (d, st', Ended Accepted)
  | Panic => (d, st, Ended Crashed)
  | Err _ => (d, st, failed)
  end.
(** One step of a request. *)
Definition advance (c : ctx) (ae : add_env) (d : fs) (st : state) (ph : phase) : fs * state * phase :=
  match ph with
  | Start (Edit (Write rel content force)) => writing c d st rel content force
  | Start (Edit (Replace rel old new all force)) =>
      match replace_in_file c d rel old new all with
      | NotReplaced => (d, st, Ended Refused)
      | ReplaceCrashed => (d, st, Ended Crashed)
      | Replaced content _ => (d, st, HasText rel content force)
      end
  | Start (Edit (Delete rel force)) =>
      match delete_file c d rel with
      | None => (d, st, Ended Refused)
      | Some (d1, content) => (d1, st, Removed rel force content)
      end
  | Start (Edit Build) => building c d st (Ended Refused)
  | Start (AddTask a) =>
      match entity_to_add c ae st a with
      | None => (d, st, Ended Refused)
      | Some e =>
          match append_block c d (target_of c a) (generate_dsl (c_env c) default_options [e]) with
          | (d1, false) => (d1, st, Ended Refused)
          | (d1, true) => (d1, st, Added)
          end
      end
  | HasText rel content force => writing c d st rel content force
  | Wrote rel force original => building c d st (if force then Ended Forced else UndoWrite rel original)
  | Removed rel force content => building c d st (if force then Ended Forced else UndoRemove rel content)
  | Added => building c d st (Ended Forced)
  | UndoWrite rel original => match rollback_write c d rel original with (d1, ok) => (d1, st, Ended (Invalid ok)) end
  | UndoRemove rel content => match rollback_delete c d rel content with (d1, ok) => (d1, st, Ended (Invalid ok)) end
  | Ended a => (d, st, Ended a)
  end.

(** All requests; the schedule says whose turn it is. *)
Record system := { sy_disk : fs; sy_state : state; sy_phases : list phase }.
Fixpoint put {A} (l : list A) (i : nat) (a : A) : list A :=
  match l, i with
  | [], _ => []
  | _ :: l', 0 => a :: l'
  | b :: l', S i' => b :: put l' i' a
  end.
Definition turn (c : ctx) (ae : add_env) (s : system) (i : nat) : system :=
  match nth_error (sy_phases s) i with
  | None => s
  | Some ph =>
      match advance c ae (sy_disk s) (sy_state s) ph with
      | (d, st, ph') => {| sy_disk := d; sy_state := st; sy_phases := put (sy_phases s) i ph' |}
      end
  end.
Definition runs (c : ctx) (ae : add_env) (s : system) (sched : list nat) : system := fold_left (turn c ae) sched s.
Definition begin (d : fs) (st : state) (ks : list task) : system :=
  {| sy_disk := d; sy_state := st; sy_phases := map Start ks |}.
