(** What the tool server's answers say: C86. *)
From Verif Require Export M_Answer S_Server S_Tools S_Tree S_Undo S_Add.

Definition begins_with (t p : str) : Prop := exists r, t = p ++ r.
Definition ends_in (t p : str) : Prop := exists r, t = r ++ p.
(** The text is the number in decimal digits. *)
Definition number_said (t : str) (n : nat) : Prop :=
  t <> [] /\ Forall (fun a => is_digit a = true) t /\ fold_left (fun v a => v * 10 + (code a - 48))%N t 0%N = N.of_nat n.
(** The file is as the successful request would have it. *)
Definition done (c : ctx) (d d' : fs) (r : request) : Prop :=
  match r with
  | Write rel content _ => read_source_file c d' rel = Ok content
  | Replace rel old new _ _ => exists text ps, read_source_file c d rel = Ok text /\ pieces old text ps /\ read_source_file c d' rel = Ok (join new ps)
  | Delete rel _ => (exists text, read_source_file c d rel = Ok text) /\ read_source_file c d' rel = Err NotFound
  | Build => d' = d
  end.
