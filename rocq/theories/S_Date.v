(** Calendar dates as people write them. *)
From Verif Require Export M_Num.

(** YYYY-MM-DD. *)
Definition date_text (y m d : N) : str := padded 4 y ++ "-"%char :: padded 2 m ++ "-"%char :: padded 2 d.
(** HH:MM:SS. *)
Definition time_text (h mi s : N) : str := padded 2 h ++ ":"%char :: padded 2 mi ++ ":"%char :: padded 2 s.

Open Scope Z_scope.
(** Earlier in the calendar. *)
Definition civil_cmp (a b : Z * Z * Z) : comparison :=
  let '(y, m, d) := a in
  let '(y', m', d') := b in
  match Z.compare y y' with
  | Eq => match Z.compare m m' with Eq => Z.compare d d' | o => o end
  | o => o
  end.

Close Scope Z_scope.
