(** What the theorems about overlapping requests speak about. *)
From Verif Require Import M_Graph.
From Verif Require Export M_Conc S_Server S_Add.
Close Scope Z_scope.

(** The answers, once all requests have ended. *)
Definition answered (s : system) (l : list answer) : Prop := sy_phases s = map Ended l.
(** A request on its own. *)
Definition alone (c : ctx) (ae : add_env) (d : fs) (st : state) (k : task) : fs * state * answer :=
  match k with Edit r => handle c d st r | AddTask a => add_tool c ae d st a end.
(** Requests one after the other. *)
Fixpoint in_turn (c : ctx) (ae : add_env) (d : fs) (st : state) (ks : list task) : fs * state * list answer :=
  match ks with
  | [] => (d, st, [])
  | k :: ks' => match alone c ae d st k with
                | (d1, st1, a) => match in_turn c ae d1 st1 ks' with (d2, st2, l) => (d2, st2, a :: l) end
                end
  end.
(** The schedule that gives each request all its turns before the next. *)
Definition one_by_one (n : nat) : list nat := flat_map (fun i => repeat i 4) (seq 0 n).

(** The place in the workspace that a plain path names. *)
Definition names (w : place) (rel : str) : place := w ++ filter (fun x => negb (stays x)) (path_of rel).
(** The path of an edit; edits by plain paths, of text. *)
Definition edits (k : task) (rel : str) : Prop :=
  match k with
  | Edit (Write r _ _) | Edit (Replace r _ _ _ _) | Edit (Delete r _) => r = rel
  | _ => False
  end.
Definition plain_edit (k : task) : Prop :=
  match k with
  | Edit (Write rel content _) => plain rel /\ is_text content = true
  | Edit (Replace rel old new _ _) => plain rel /\ is_text old = true /\ is_text new = true
  | Edit (Delete rel _) => plain rel
  | _ => False
  end.
(** No two edits are of the same file, or of a file and something below it. *)
Definition different_files (w : place) (ks : list task) : Prop :=
  forall i j k k' rel rel', nth_error ks i = Some k -> nth_error ks j = Some k' -> edits k rel -> edits k' rel' -> i <> j ->
  ~ inside (names w rel) (names w rel').
(** What a successful edit makes of a file that was [n]. *)
Definition edited (k : task) (n n' : option node) : Prop :=
  match k with
  | Edit (Write _ content _) => n' = Some (File content)
  | Edit (Replace _ old new all _) => exists text content m, n = Some (File text) /\ replace_text text old new all = Replaced content m /\ n' = Some (File content)
  | Edit (Delete _ _) => n' = None
  | _ => False
  end.
(** What an edit with such an answer makes of it. *)
Definition made_of (k : task) (a : answer) (n n' : option node) : Prop :=
  match a with
  | Accepted | Forced => edited k n n'
  | Refused => n' = n
  | Invalid restored => restored = true /\ n' = n
  | Crashed => n' = n \/ edited k n n'
  end.
(** A request that has not changed anything yet. *)
Definition waiting (s : system) (i : nat) : Prop :=
  exists ph, nth_error (sy_phases s) i = Some ph /\ match ph with Start _ | HasText _ _ _ => True | _ => False end.
(** Requests that write where the workspace's own paths lead. *)
Definition plain_task (k : task) : Prop :=
  match k with
  | Edit (Write rel _ _) | Edit (Replace rel _ _ _ _) | Edit (Delete rel _) => plain rel
  | _ => True
  end.
(** No answer but success and refusal. *)
Definition smooth (l : list answer) : Prop := forall a, In a l -> a = Accepted \/ a = Refused.
(** What an edit leaves; a replacement is made in some text [held] by the file. *)
Definition result (held : str -> Prop) (k : task) (n : option node) : Prop :=
  match k with
  | Edit (Write _ content _) => n = Some (File content)
  | Edit (Replace _ old new all _) => exists text content m, held text /\ replace_text text old new all = Replaced content m /\ n = Some (File content)
  | Edit (Delete _ _) => forall s, n <> Some (File s)
  | _ => True
  end.
(** The file at [q] held the text at some time. *)
Definition earlier (c : ctx) (ae : add_env) (s : system) (sched : list nat) (q : place) (text : str) : Prop :=
  exists before after, sched = before ++ after /\ node_at (sy_disk (runs c ae s before)) q = Some (File text).
