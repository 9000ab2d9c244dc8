(** Strings, characters and the std string functions the code relies on.

    Rust [String]/[&str] values are modelled by their UTF-8 bytes.
    Simplification: case mapping and white space are modelled on ASCII only. *)
From Coq Require Export Ascii String List ZArith Bool.
Export ListNotations.

Definition str := list ascii.

(** [L "abc"] is the byte list of a literal. *)
Notation L s := (list_ascii_of_string s%string) (only parsing).

Definition code (c : ascii) : N := N_of_ascii c.

Definition is_upper (c : ascii) : bool := ((65 <=? code c) && (code c <=? 90))%N.
Definition is_lower (c : ascii) : bool := ((97 <=? code c) && (code c <=? 122))%N.
Definition is_digit (c : ascii) : bool := ((48 <=? code c) && (code c <=? 57))%N.
Definition is_alpha (c : ascii) : bool := is_upper c || is_lower c.
Definition is_alnum (c : ascii) : bool := is_alpha c || is_digit c.
(** ASCII part of [char::is_whitespace]: tab, LF, VT, FF, CR, space. *)
Definition is_space (c : ascii) : bool := (((9 <=? code c) && (code c <=? 13)) || (code c =? 32))%N.

Definition lower_ascii (c : ascii) : ascii :=
  if is_upper c then ascii_of_N (code c + 32) else c.

(** [str::to_lowercase] restricted to ASCII. *)
Definition lower (s : str) : str := map lower_ascii s.

Definition ascii_cmp (a b : ascii) : comparison := N.compare (code a) (code b).

(** Byte-wise lexicographic order: [Ord for str]. *)
Fixpoint str_cmp (a b : str) : comparison :=
  match a, b with
  | [], [] => Eq
  | [], _ :: _ => Lt
  | _ :: _, [] => Gt
  | x :: a', y :: b' =>
      match ascii_cmp x y with
      | Eq => str_cmp a' b'
      | o => o
      end
  end.

(** [PartialEq for str]. *)
Fixpoint str_eqb (a b : str) : bool :=
  match a, b with
  | [], [] => true
  | x :: a', y :: b' => Ascii.eqb x y && str_eqb a' b'
  | _, _ => false
  end.

(** [str::eq_ignore_ascii_case]. *)
Definition eq_ignore_case (a b : str) : bool := str_eqb (lower a) (lower b).

(** [str::starts_with]. *)
Fixpoint starts_with (s p : str) {struct p} : bool :=
  match p, s with
  | [], _ => true
  | x :: p', y :: s' => Ascii.eqb x y && starts_with s' p'
  | _ :: _, [] => false
  end.

(** [str::contains]. *)
Fixpoint contains (s p : str) : bool :=
  starts_with s p || match s with [] => false | _ :: s' => contains s' p end.

(** [str::ends_with]. *)
Definition ends_with (s p : str) : bool := starts_with (rev s) (rev p).

(** [str::trim_start], [trim_end], [trim] on ASCII white space. *)
Fixpoint trim_start (s : str) : str :=
  match s with
  | c :: s' => if is_space c then trim_start s' else s
  | [] => []
  end.
Definition trim_end (s : str) : str := rev (trim_start (rev s)).
Definition trim (s : str) : str := trim_end (trim_start s).

(** [str::trim_matches(c)] for one character. *)
Fixpoint trim_start_char (q : ascii) (s : str) : str :=
  match s with
  | c :: s' => if Ascii.eqb c q then trim_start_char q s' else s
  | [] => []
  end.
Definition trim_end_char (q : ascii) (s : str) : str := rev (trim_start_char q (rev s)).
Definition trim_matches_char (q : ascii) (s : str) : str := trim_end_char q (trim_start_char q s).

(** [[T]::join(sep)] on strings. *)
Fixpoint join (sep : str) (l : list str) : str :=
  match l with
  | [] => []
  | [x] => x
  | x :: l' => x ++ sep ++ join sep l'
  end.

(** [str::split_once(c)]: text before and after the first occurrence. *)
Fixpoint split_once (q : ascii) (s : str) : option (str * str) :=
  match s with
  | [] => None
  | c :: s' =>
      if Ascii.eqb c q then Some ([], s')
      else match split_once q s' with
           | Some (a, b) => Some (c :: a, b)
           | None => None
           end
  end.

(** [str::split(c)] for one character: always at least one part. *)
Fixpoint split_char (q : ascii) (s : str) : list str :=
  match s with
  | [] => [[]]
  | c :: s' =>
      if Ascii.eqb c q then [] :: split_char q s'
      else match split_char q s' with
           | w :: ws => (c :: w) :: ws
           | [] => [[c]]
           end
  end.

Definition str_in (x : str) (l : list str) : bool := existsb (str_eqb x) l.
