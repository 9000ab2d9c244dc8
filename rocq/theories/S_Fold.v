(** C93: texts under a lower-casing of letters that is not known beyond ASCII. *)
From Verif Require Import M_Graph S_Query S_Dsl S_Tools S_Crash.
From Verif Require Export M_Fold S_Sort.
From Verif Require Import M_Graph.

(** [f] lower-cases texts of ASCII characters as usual. *)
Definition folds_ascii (f : str -> str) : Prop := forall s, all_ascii s -> f s = lower s.

(** The texts a value holds, and those a literal of a query asks for. *)
Inductive text_held : value -> str -> Prop :=
| held_str s : text_held (VStr s) s
| held_enum s : text_held (VEnum s) s
| held_path s : text_held (VPath s) s
| held_ref r : text_held (VRef r) (reference_text r)
| held_list vs v s : In v vs -> text_held v s -> text_held (VList vs) s.
Inductive text_asked : fvalue -> str -> Prop :=
| asked_str s : text_asked (FStr s) s
| asked_enum s : text_asked (FEnum s) s
| asked_path s : text_asked (FPath s) s.
(** Entities and queries of ASCII texts only. *)
Definition ascii_entity (e : entity) : Prop :=
  all_ascii (e_id e) /\ all_ascii (e_type e) /\
  forall n v s, get_field e n = Some v -> text_held v s -> all_ascii s.
Definition ascii_query (q : query) : Prop :=
  forall cc c s, In (QWhere cc) (q_ops q) -> In c (cc_conds cc) -> text_asked (c_value c) s -> all_ascii s.

(** Two present values of one type in ascending order, texts and references by
    [f]; values that hold no texts as in [item_le]. *)
Definition item_le_by (f : str -> str) (v w : value) : Prop :=
  match v, w with
  | VStr a, VStr b | VEnum a, VEnum b => lex_le (f a) (f b)
  | VRef a, VRef b => lex_le (f (reference_text a)) (f (reference_text b))
  | _, _ => item_le v w
  end.
Fixpoint items_le_by (f : str -> str) (l r : list value) : Prop :=
  match l, r with
  | [], _ => True
  | _ :: _, [] => False
  | v :: l', w :: r' => comparable v w -> item_le_by f v w /\ (item_le_by f w v -> items_le_by f l' r')
  end.
Definition value_le_by (f : str -> str) (v w : value) : Prop :=
  match v, w with
  | VList a, VList b => items_le_by f a b
  | _, _ => item_le_by f v w
  end.
Definition ascending_by (f : str -> str) (fr : field_ref) (a b : entity) : Prop :=
  match fr with
  | FReg n =>
      match get_field a n, get_field b n with
      | _, None => True
      | None, Some _ => False
      | Some v, Some w => get_type v = get_type w -> value_le_by f v w
      end
  | FMeta MId => lex_le (f (e_id a)) (f (e_id b))
  | FMeta MType => lex_le (f (e_type a)) (f (e_type b))
  end.
(** [fr] is metadata or a field whose texts, and whose numbers, are of one type. *)
Definition sortable (fr : field_ref) (es : list entity) : Prop :=
  match fr with FReg n => exists m, Forall (conforming m n) es | FMeta _ => True end.

(** [x] and [v] are the same word but for letter case and outer white space. *)
Definition same_word_by (f : str -> str) (x v : str) : Prop :=
  exists t u, trimmed_of x t /\ trimmed_of v u /\ f t = f u.

(** The lines of the known source files that hold the query. *)
Definition all_hits_by (f : str -> str) (c : ctx) (d : fs) (st : state) (query : str) (l : list (str * nat * str)) : Prop :=
  StronglySorted earlier l /\
  forall p k t, In (p, k, t) l <-> exists s, known_text c d st p s /\ line_at s k t /\ exists a b, f t = a ++ f query ++ b.
