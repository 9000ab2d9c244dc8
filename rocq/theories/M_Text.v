(** More std string functions, used by the DSL layer: substring split and
    replace, [lines], and white space trimming over UTF-8 bytes. *)
From Verif Require Export M_Str.

(** [str::split(&str)] for a non-empty pattern: non-overlapping matches from
    the left; [skip] counts the bytes of the current match still to pass. *)
Fixpoint split_go (sep : str) (skip : nat) (s : str) : list str :=
  match s with
  | [] => [[]]
  | c :: s' =>
      match skip with
      | S k => split_go sep k s'
      | 0 =>
          if starts_with s sep then [] :: split_go sep (length sep - 1) s'
          else match split_go sep 0 s' with
               | w :: ws => (c :: w) :: ws
               | [] => [[c]]
               end
      end
  end.
Definition split_str (sep s : str) : list str := split_go sep 0 s.

(** [str::replace(pat, to)] for a non-empty pattern. *)
Definition replace_str (pat to s : str) : str := join to (split_str pat s).

(** [str::trim_start_matches(&str)], [trim_end_matches]: remove the pattern as
    often as it occurs at that end. *)
Fixpoint strip_pat (n : nat) (p s : str) : str :=
  match n with
  | 0 => s
  | S k => if starts_with s p then strip_pat k p (skipn (length p) s) else s
  end.
Definition trim_start_pat (p s : str) : str := strip_pat (length s) p s.
Definition trim_end_pat (p s : str) : str := rev (trim_start_pat (rev p) (rev s)).

Definition LF : ascii := "010".
Definition CR : ascii := "013".

(** [str::lines]: split at LF; a CR directly before the LF belongs to the line
    ending; nothing after the final LF is not a line. *)
Fixpoint strip_cr (w : str) : str :=
  match w with
  | [] => []
  | [c] => if Ascii.eqb c CR then [] else [c]
  | c :: w' => c :: strip_cr w'
  end.
Fixpoint finish_lines (parts : list str) : list str :=
  match parts with
  | [] => []
  | [w] => match w with [] => [] | _ => [w] end
  | w :: ws => strip_cr w :: finish_lines ws
  end.
Definition lines (s : str) : list str := finish_lines (split_char LF s).

(** The UTF-8 encodings of the characters with [char::is_whitespace]
    (Unicode White_Space). *)
Definition bytes (l : list N) : str := map ascii_of_N l.
Definition ws_chars : list str :=
  map bytes
    ([[9]; [10]; [11]; [12]; [13]; [32];
      [194; 133]; [194; 160]; [225; 154; 128];
      [226; 128; 128]; [226; 128; 129]; [226; 128; 130]; [226; 128; 131];
      [226; 128; 132]; [226; 128; 133]; [226; 128; 134]; [226; 128; 135];
      [226; 128; 136]; [226; 128; 137]; [226; 128; 138];
      [226; 128; 168]; [226; 128; 169]; [226; 128; 175];
      [226; 129; 159]; [227; 128; 128]])%N.

(** Remove the listed encodings from the front as often as one occurs. *)
Fixpoint strip_any (n : nat) (ps : list str) (s : str) : str :=
  match n with
  | 0 => s
  | S k =>
      match find (fun p => starts_with s p) ps with
      | Some p => strip_any k ps (skipn (length p) s)
      | None => s
      end
  end.
(** [str::trim_start], [trim_end], [trim] on UTF-8 text. *)
Definition utrim_start (s : str) : str := strip_any (length s) ws_chars s.
Definition utrim_end (s : str) : str := rev (strip_any (length s) (map (@rev ascii) ws_chars) (rev s)).
Definition utrim (s : str) : str := utrim_end (utrim_start s).

(** UTF-8 continuation byte; a byte offset in front of one is not a character
    boundary ([str::is_char_boundary]). *)
Definition is_cont (c : ascii) : bool := ((128 <=? code c) && (code c <=? 191))%N.

(** Results of code that can fail with an error or panic. *)
Inductive outcome (E A : Type) :=
| Ok (a : A)
| Err (e : E)
| Panic.
Arguments Ok {E A}. Arguments Err {E A}. Arguments Panic {E A}.
Definition obind {E A B} (o : outcome E A) (f : A -> outcome E B) : outcome E B :=
  match o with Ok a => f a | Err e => Err e | Panic => Panic end.
Definition of_option {E A} (e : E) (o : option A) : outcome E A :=
  match o with Some a => Ok a | None => Err e end.
Definition omap_err {E F A} (f : E -> F) (o : outcome E A) : outcome F A :=
  match o with Ok a => Ok a | Err e => Err (f e) | Panic => Panic end.
(** Left to right, stopping at the first failure ([collect] into [Result],
    or a loop with [?]). *)
Definition omap {E A B} (f : A -> outcome E B) : list A -> outcome E (list B) :=
  fix go (l : list A) : outcome E (list B) :=
    match l with
    | [] => Ok []
    | x :: l' => obind (f x) (fun y => obind (go l') (fun ys => Ok (y :: ys)))
    end.

(** [&s[k..]] with [k <= len]: panics off a character boundary. *)
Definition slice_from {E} (k : nat) (s : str) : outcome E str :=
  match skipn k s with
  | c :: r => if is_cont c then Panic else Ok (c :: r)
  | [] => Ok []
  end.
