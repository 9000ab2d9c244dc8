(** Specification vocabulary for queries. *)
From Coq Require Export Permutation.
From Verif Require Export M_Query S_Sort.
From Verif Require Import S_Round.
Close Scope Z_scope.

(** Hash iteration visits every key exactly once, in any order. *)
Definition orders (ho : hash_order) : Prop := forall site l, Permutation (ho site l) l.

(** ** where *)
(** Every condition can be evaluated on the entity. *)
Definition evaluates (x : ext) (cc : compound) (e : entity) : Prop :=
  forall c, In c (cc_conds cc) -> exists b, matches x c e = Ok b.
Definition satisfies (x : ext) (cc : compound) (e : entity) : Prop :=
  match cc_comb cc with
  | CAnd => forall c, In c (cc_conds cc) -> matches x c e = Ok true
  | COr => exists c, In c (cc_conds cc) /\ matches x c e = Ok true
  end.
(** [r] is what is left of [l] when exactly the elements satisfying [P] stay. *)
Inductive keeps {A} (P : A -> Prop) : list A -> list A -> Prop :=
| keeps_nil : keeps P [] []
| keeps_yes a l r : P a -> keeps P l r -> keeps P (a :: l) (a :: r)
| keeps_no a l r : ~ P a -> keeps P l r -> keeps P (a :: l) r.

(** ** Operators *)
(** The six order operators on [v] against [w] behave as on two points whose
    comparison is [c]. *)
Definition ordered_by (x : ext) (v : value) (w : fvalue) (c : comparison) : Prop :=
  compare_value x v OpEq w = Ok (match c with Eq => true | _ => false end) /\
  compare_value x v OpNe w = Ok (match c with Eq => false | _ => true end) /\
  compare_value x v OpLt w = Ok (match c with Lt => true | _ => false end) /\
  compare_value x v OpGt w = Ok (match c with Gt => true | _ => false end) /\
  compare_value x v OpLe w = Ok (match c with Lt | Eq => true | _ => false end) /\
  compare_value x v OpGe w = Ok (match c with Gt | Eq => true | _ => false end).
(** The two equality operators decide [p]. *)
Definition equality_by (x : ext) (v : value) (w : fvalue) (p : bool) : Prop :=
  compare_value x v OpEq w = Ok p /\ compare_value x v OpNe w = Ok (negb p).

(** Numbers [a] and [b], in units of [2 ^ -1074]: the inequalities are decided by
    comparing them, equality by their distance. *)
Definition distance_by (x : ext) (v : value) (w : fvalue) (a b : Z) : Prop :=
  compare_value x v OpLt w = Ok (Z.ltb a b) /\ compare_value x v OpGt w = Ok (Z.ltb b a) /\
  compare_value x v OpLe w = Ok (Z.leb a b) /\ compare_value x v OpGe w = Ok (Z.leb b a) /\
  equality_by x v w (Z.ltb (Z.abs (a - b)) told_apart).

(** Documented operator table for a single (non-list) field value. *)
Definition order_operator (o : operator) : bool :=
  match o with OpEq | OpNe | OpGt | OpLt | OpGe | OpLe => true | _ => false end.
Definition equality_operator (o : operator) : bool :=
  match o with OpEq | OpNe => true | _ => false end.
Definition text_operator (o : operator) : bool :=
  match o with OpEq | OpNe | OpContains | OpStartsWith | OpEndsWith => true | _ => false end.
Definition is_text_type (t : field_type) : bool :=
  match t with TStr | TEnum | TPath => true | _ => false end.
Definition is_number_type (t : field_type) : bool :=
  match t with TInt | TFloat => true | _ => false end.
Definition documented (v : value) (o : operator) (w : fvalue) : bool :=
  match get_type v, fvalue_type w with
  | TBool, TBool => equality_operator o
  | TRef, (TRef | TStr) => equality_operator o
  | TCur, TCur | TDate, TDate => order_operator o
  | (TInt | TFloat), t => is_number_type t && order_operator o
  | (TStr | TEnum | TPath), t => is_text_type t && text_operator o
  | _, _ => false
  end.

(** ** order *)
(** A column whose text values are all of one text type and whose numbers are
    all of one number type (as schema validation guarantees for a field). *)
Record column_types := { ct_text : field_type; ct_num : field_type }.
Fixpoint conforms (m : column_types) (v : value) : bool :=
  match v with
  | VStr _ | VEnum _ | VPath _ => field_type_eqb (get_type v) (ct_text m)
  | VInt _ | VFloat _ => field_type_eqb (get_type v) (ct_num m)
  | VList vs => forallb (conforms m) vs
  | _ => true
  end.
Definition conforming (m : column_types) (f : field_id) (e : entity) : Prop :=
  match get_field e f with Some v => conforms m v = true | None => True end.

(** ** related *)
(** [b] is reachable from [a] in at most [n] relationship hops. *)
Inductive within (nb : entity -> entity -> Prop) : nat -> entity -> entity -> Prop :=
| within_here n a : within nb n a a
| within_step n a b c : nb a b -> within nb n b c -> within nb (S n) a c.

(** ** Aggregations *)
(** The values of a field, entities without it skipped. *)
Definition column (f : field_id) (es : list entity) : list value :=
  flat_map (fun e => match get_field e f with Some v => [v] | None => [] end) es.
Definition is_numeric (v : value) : bool :=
  match v with VInt _ | VFloat _ | VCur _ _ => true | _ => false end.
Definition total (l : list Z) : Z := fold_right Z.add 0%Z l.
(** Exact total of decimals at scale [s]. *)
Definition total_at (s : nat) (l : list dec) : Z :=
  total (map (fun d => d_mant d * pow10 (s - d_scale d))%Z l).
Definition max_scale (l : list dec) : nat := fold_right Nat.max 0 (map d_scale l).
Definition size_at (s : nat) (l : list dec) : Z :=
  total (map (fun d => Z.abs (d_mant d * pow10 (s - d_scale d)))%Z l).

(** ** Whole queries *)
Definition no_limit (ops : list operation) : Prop := forall n, ~ In (QLimit n) ops.
Definition no_related (ops : list operation) : Prop := forall d t, ~ In (QRelated d t) ops.
(** Two runs agree: both fail, or both give the same entities up to order. *)
Definition same_entities (a b : qres query_result) : Prop :=
  match a, b with
  | Ok (QEntities l), Ok (QEntities l') => Permutation l l'
  | Err _, Err _ => True
  | _, _ => False
  end.
(** Two runs agree exactly, up to which error is reported. *)
Definition same_list (a b : qres query_result) : Prop :=
  match a, b with
  | Ok (QEntities l), Ok (QEntities l') => l = l'
  | Err _, Err _ => True
  | _, _ => False
  end.

(** ** Order of values, as documented *)
(** Lexicographic order of texts by character code. *)
Fixpoint lex_le (a b : str) : Prop :=
  match a, b with
  | [], _ => True
  | _ :: _, [] => False
  | c :: a', d :: b' => (code c < code d)%N \/ (c = d /\ lex_le a' b')
  end.
(** The steps of a path: the root or a leading ".", then the parts between the
    slashes that say something. They are compared one by one: the root comes
    first, then ".", "..", and names in the order of texts. *)
Definition path_steps (p : str) : list str :=
  match p with
  | "/"%char :: _ => [L "/"]
  | "."%char :: [] | "."%char :: "/"%char :: _ => [L "."]
  | _ => []
  end ++ filter (fun s => negb (str_eqb s []) && negb (str_eqb s (L "."))) (split_char "/" p).
Definition step_rank (s : str) : nat :=
  if str_eqb s (L "/") then 0 else if str_eqb s (L ".") then 1 else if str_eqb s (L "..") then 2 else 3.
Definition step_lt (s t : str) : Prop :=
  step_rank s < step_rank t \/ (step_rank s = 3 /\ step_rank t = 3 /\ lex_le s t /\ s <> t).
Fixpoint steps_le (a b : list str) : Prop :=
  match a, b with
  | [], _ => True
  | _ :: _, [] => False
  | s :: a', t :: b' => step_lt s t \/ (s = t /\ steps_le a' b')
  end.
(** References are compared as they are written. *)
Definition reference_text (r : ref_value) : str :=
  match r with REntity id => id | RField id f => id ++ L "." ++ f end.
(** Two present values of one type other than lists, in ascending order. NaN
    comes last; currencies are ordered by code, then amount; dates by instant. *)
Definition item_le (v w : value) : Prop :=
  match v, w with
  | VBool a, VBool b => a = true -> b = true
  | VInt a, VInt b => (a <= b)%Z
  | VFloat a, VFloat b => f_is_nan b = true \/ f_le a b = true
  | VStr a, VStr b | VEnum a, VEnum b => lex_le (lower a) (lower b)
  | VDate a, VDate b =>
      (dt_instant a < dt_instant b \/ (dt_instant a = dt_instant b /\ dt_nanos a <= dt_nanos b))%Z
  | VCur a c, VCur b c' =>
      if str_eqb c c' then (d_mant a * pow10 (d_scale b) <= d_mant b * pow10 (d_scale a))%Z else lex_le c c'
  | VRef a, VRef b => lex_le (lower (reference_text a)) (lower (reference_text b))
  | VPath a, VPath b => steps_le (path_steps a) (path_steps b)
  | _, _ => True
  end.
(** Lists are compared item by item; where the items are of two types, or lists
    again, nothing is said. *)
Definition comparable (v w : value) : Prop := get_type v = get_type w /\ get_type v <> TList.
Fixpoint items_le (l r : list value) : Prop :=
  match l, r with
  | [], _ => True
  | _ :: _, [] => False
  | v :: l', w :: r' => comparable v w -> item_le v w /\ (item_le w v -> items_le l' r')
  end.
Definition value_le (v w : value) : Prop :=
  match v, w with
  | VList a, VList b => items_le a b
  | _, _ => item_le v w
  end.
(** [a] may stand before [b] in a list ordered by field [f]. *)
Definition ascending (f : field_id) (a b : entity) : Prop :=
  match get_field a f, get_field b f with
  | _, None => True
  | None, Some _ => False
  | Some v, Some w => get_type v = get_type w -> value_le v w
  end.
(** A number: any float, or an integer below 2^53 in absolute value. *)
Definition small_number (v : value) : bool :=
  match v with VInt z => (Z.abs z <? 2 ^ 53)%Z | VFloat _ => true | _ => false end.
Definition all_small_numbers (f : field_id) (e : entity) : Prop :=
  match get_field e f with Some v => small_number v = true | None => True end.
(** Such numbers in ascending order, NaN last. *)
Definition number_le (v w : value) : Prop :=
  match v, w with
  | VInt a, VInt b => (a <= b)%Z
  | VInt a, VFloat b => f_is_nan b = true \/ f_le (f_of_Z a) b = true
  | VFloat a, VInt b => f_le a (f_of_Z b) = true
  | VFloat a, VFloat b => f_is_nan b = true \/ f_le a b = true
  | _, _ => False
  end.
Definition ascending_numbers (f : field_id) (a b : entity) : Prop :=
  match get_field a f, get_field b f with
  | _, None => True
  | None, Some _ => False
  | Some v, Some w => number_le v w
  end.
Definition in_direction (d : sort_direction) (R : entity -> entity -> Prop) (a b : entity) : Prop :=
  match d with Ascending => R a b | Descending => R b a end.
Definition meta_ascending (m : meta_field) (a b : entity) : Prop :=
  match m with
  | MId => lex_le (lower (e_id a)) (lower (e_id b))
  | MType => lex_le (lower (e_type a)) (lower (e_type b))
  end.
(** Amounts added one after the other: with the decimals of the one that has more,
    if that has no more than 96 binary digits, and otherwise rounded by the
    library. *)
Definition sum_at (k : nat) (a b : dec) : Z := (d_mant a * pow10 (k - d_scale a) + d_mant b * pow10 (k - d_scale b))%Z.
Definition added_amount (x : ext) (a b r : dec) : Prop :=
  let k := Nat.max (d_scale a) (d_scale b) in
  if (Z.abs (sum_at k a b) <? 2 ^ 96)%Z then d_scale r = k /\ d_mant r = sum_at k a b else dec_add_round x a b = Some r.
Inductive running_sum (x : ext) : dec -> list dec -> dec -> Prop :=
| running_end acc : running_sum x acc [] acc
| running_next acc d ds s r : added_amount x acc d s -> running_sum x s ds r -> running_sum x acc (d :: ds) r.
