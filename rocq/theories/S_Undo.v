(** Taking an edit back: C85. *)
From Verif Require Export S_Tree.

(** The request that takes back one made of the files [d]: it writes the text
    that was there, or deletes the file if there was none. *)
Definition edited (r : request) : option str :=
  match r with Write rel _ _ | Replace rel _ _ _ _ | Delete rel _ => Some rel | Build => None end.
Definition undo (c : ctx) (d : fs) (r : request) : request :=
  match edited r with
  | None => Build
  | Some rel => match read_source_file c d rel with Ok text => Write rel text false | _ => Delete rel false end
  end.
(** The requests that take back a series, the last first. *)
Fixpoint undo_all (c : ctx) (d : fs) (st : state) (rs : list request) : list request :=
  match rs with
  | [] => []
  | r :: rs' => match handle c d st r with (d1, st1, _) => undo_all c d1 st1 rs' ++ [undo c d r] end
  end.
(** The request names a source file. *)
Definition of_source (r : request) : Prop :=
  match edited r with Some rel => exists dir n, path_of rel = dir ++ [n] /\ firm_file_name n | None => True end.
(** No directory is named like a source file. *)
Definition no_firm_dirs (w : place) (d : fs) : Prop := forall dir n, firm_file_name n -> node_at d (w ++ dir ++ [n]) <> Some Dir.
(** Two states with the same schemas and entities, which every id finds alike. *)
Definition as_before (st st' : state) : Prop :=
  Permutation (b_schemas (st_build st')) (b_schemas (st_build st)) /\ Permutation (b_entities (st_build st')) (b_entities (st_build st)) /\
  forall id, get_entity (st_graph st') id = get_entity (st_graph st) id.
