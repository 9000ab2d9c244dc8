(** What the theorems about the reading tools and about replacing speak about. *)
From Coq Require Export Sorted.
From Verif Require Export M_Tools S_Server.

(** ** Occurrences of a text in another *)
Definition occurs (pat s : str) : Prop := exists a b, s = a ++ pat ++ b.
(** [a] comes before the first occurrence and [b] after it. *)
Definition first_cut (pat s a b : str) : Prop :=
  s = a ++ pat ++ b /\ forall a' b', s = a' ++ pat ++ b' -> length a <= length a'.
(** What is left of [s] when it is cut at the first occurrence, then at the
    first occurrence in what follows it, and so on. *)
Inductive pieces (pat : str) : str -> list str -> Prop :=
| pieces_whole s : ~ occurs pat s -> pieces pat s [s]
| pieces_cut s a b ps : first_cut pat s a b -> pieces pat b ps -> pieces pat s (a :: ps).
(** The only occurrence is between [a] and [b]. *)
Definition only_cut (pat s a b : str) : Prop :=
  s = a ++ pat ++ b /\ forall a' b', s = a' ++ pat ++ b' -> a' = a.
(** No occurrence of the text can overlap another. *)
Definition never_overlaps (pat : str) : Prop :=
  forall a b c, a <> [] -> b <> [] -> pat = a ++ b -> pat <> b ++ c.

(** ** Lines of a text *)
Definition line_feeds (s : str) : nat := length (filter (Ascii.eqb LF) s).
(** The line with number [k], counted from 1, is [l]: a line ends with a line
    feed, which a carriage return may precede, or with the text. *)
Definition line_at (s : str) (k : nat) (l : str) : Prop :=
  exists a b, s = a ++ l ++ b /\ ~ In LF l /\ k = S (line_feeds a) /\
    (a = [] \/ exists a', a = a' ++ [LF]) /\
    ((b = [] /\ l <> []) \/ (exists b', b = LF :: b' /\ forall l', l <> l' ++ [CR]) \/ (exists b', b = CR :: LF :: b')).
(** The query occurs in the line, up to letter case if that does not matter. *)
Definition hit (query : str) (case_sensitive : bool) (l : str) : Prop :=
  exists a m b, l = a ++ m ++ b /\ if case_sensitive then m = query else lower m = lower query.

(** ** Search results: path, line number, line *)
Definition earlier (x y : str * nat * str) : Prop :=
  match x, y with (p, k, _), (p', k', _) => str_cmp p p' = Lt \/ (p = p' /\ k < k') end.
Definition reported (groups : list (str * list (nat * str))) : list (str * nat * str) :=
  flat_map (fun g => map (fun m => (fst g, fst m, snd m)) (snd g)) groups.
(** A source file the server knows, as it reads now. *)
Definition known_text (c : ctx) (d : fs) (st : state) (p s : str) : Prop :=
  (exists key f, In (key, f) (st_files st) /\ wf_rel f = p) /\ read_text (c_links c) d (named c p) = Some s.
(** All lines the query hits, in order. *)
Definition all_hits (c : ctx) (d : fs) (st : state) (query : str) (cs : bool) (l : list (str * nat * str)) : Prop :=
  StronglySorted earlier l /\
  forall p k t, In (p, k, t) l <-> exists s, known_text c d st p s /\ line_at s k t /\ hit query cs t.
