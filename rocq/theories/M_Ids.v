(** Identifiers: firm_core/src/id.rs. *)
From Verif Require Import M_Str.

(** convert_case 0.8 (firm_core/Cargo.toml), [to_case(Case::Snake)].
    The library splits at its default boundaries: the characters space, hyphen
    and underscore (dropped), and, keeping both sides, between lower|upper,
    upper|upper lower (acronym), lower|digit, upper|digit, digit|lower and
    digit|upper; drops empty words; lower-cases; joins with underscores.
    Library behaviour, modelled from its documentation; ASCII letters only. *)
Definition is_sep (c : ascii) : bool :=
  Ascii.eqb c " " || Ascii.eqb c "-" || Ascii.eqb c "_".

Definition boundary (c : ascii) (rest : str) : bool :=
  match rest with
  | [] => false
  | d :: rest' =>
      (is_lower c && is_upper d)
      || (is_upper c && is_upper d && match rest' with e :: _ => is_lower e | [] => false end)
      || (is_lower c && is_digit d) || (is_upper c && is_digit d)
      || (is_digit c && is_lower d) || (is_digit c && is_upper d)
  end.

Fixpoint split_words (s : str) : list str :=
  match s with
  | [] => [[]]
  | c :: rest =>
      let ws := split_words rest in
      if is_sep c then [] :: ws
      else if boundary c rest then [c] :: ws
      else match ws with
           | w :: ws' => (c :: w) :: ws'
           | [] => [[c]]
           end
  end.

Definition non_empty {A} (w : list A) : bool := match w with [] => false | _ => true end.

(** firm_core/src/id.rs:14-16, [EntityId::new], [FieldId::new], [EntityType::new]. *)
Definition to_snake (s : str) : str :=
  join (L "_") (map lower (filter non_empty (split_words s))).

(** The three id types are new-types around [String] (id.rs:10-11, 43-45);
    [From<&str>] (id.rs:23-27) keeps the text unchanged. *)
Definition entity_id := str.
Definition field_id := str.
Definition entity_type := str.
Definition new_id (s : str) : str := to_snake s.
Definition from_str (s : str) : str := s.

(** firm_core/src/id.rs:49-55. *)
Definition compose_entity_id (t i : str) : entity_id :=
  new_id (lower t ++ L "." ++ i).

(** firm_core/src/id.rs:58-62. *)
Definition decompose_entity_id (c : str) : str * str :=
  match split_once "." c with
  | Some p => p
  | None => (L "unknown", c)
  end.
