(** How a query is written down, independently of any parser: the tokens that
    spell it, and the ways to lay tokens out as text. *)
From Verif Require Export M_QParse.

(** ** Layout *)
(** White space of the query language: blanks, tabs, line feeds. *)
Definition blank (w : str) : Prop :=
  Forall (fun c => c = " "%char \/ c = ascii_of_nat 9 \/ c = ascii_of_nat 10) w.
Definition letter_or_digit (c : ascii) : Prop := is_alnum c = true \/ c = "_"%char.

(** Two neighbouring tokens do not run into one word. *)
Definition apart (t rest : str) : Prop :=
  forall t' c d rest', t = t' ++ [c] -> rest = d :: rest' -> letter_or_digit c -> ~ letter_or_digit d.

Definition digits (n : nat) (s : str) : Prop := length s = n /\ Forall (fun c => is_digit c = true) s.
(** YYYY-MM-DD and YYYY-MM-DD at HH:MM. *)
Definition date_form (s : str) : Prop :=
  exists y m d, digits 4 y /\ digits 2 m /\ digits 2 d /\ s = y ++ L "-" ++ m ++ L "-" ++ d.
Definition time_form (s : str) : Prop :=
  exists d h m, date_form d /\ digits 2 h /\ digits 2 m /\ s = d ++ L " at " ++ h ++ L ":" ++ m.
(** A time without zone is not followed by one blank and a letter (which would
    be its zone). *)
Definition no_zone_after (t rest : str) : Prop :=
  time_form t -> forall c r, rest = " "%char :: c :: r -> is_alpha c = false.

(** Tokens with any white space before, between and after them. *)
Inductive lay : list str -> str -> Prop :=
| lay_end w : blank w -> lay [] w
| lay_token w t ts rest : blank w -> apart t rest -> no_zone_after t rest -> lay ts rest ->
    lay (t :: ts) (w ++ t ++ rest).

(** ** Tokens *)
Definition some_digits (s : str) : Prop := s <> [] /\ Forall (fun c => is_digit c = true) s.
(** Digits, optional fraction, optional minus sign. *)
Definition number_text (t : str) : Prop :=
  exists sign a, (sign = [] \/ sign = L "-") /\ some_digits a /\
  (t = sign ++ a \/ exists b, some_digits b /\ t = sign ++ a ++ L "." ++ b).
Definition identifier (t : str) : Prop :=
  exists c r, t = c :: r /\ (is_alpha c = true \/ c = "_"%char) /\ Forall letter_or_digit r.
(** Three letters that do not begin with "and" or "or" in any case. *)
Definition currency_text (c : str) : Prop :=
  length c = 3 /\ Forall (fun a => is_alpha a = true) c /\ lower c <> L "and" /\
  firstn 2 (lower c) <> L "or".
(** Text in single or double quotes. It cannot contain its quote, and white
    space after the opening quote is not part of it (see C23). *)
Definition quoted (s t : str) : Prop :=
  exists q w, (q = """"%char \/ q = "'"%char) /\ blank w /\ ~ In q s /\ (forall c r, s = c :: r -> ~ blank [c]) /\
  t = q :: w ++ s ++ [q].

Inductive value_tokens : pvalue -> list str -> Prop :=
| vt_str s t : quoted s t -> value_tokens (PStr s) [t]
| vt_num n t : number_text t -> parse_f64 t = Some n -> value_tokens (PNum n) [t]
| vt_true : value_tokens (PBool true) [L "true"]
| vt_false : value_tokens (PBool false) [L "false"]
| vt_cur n c t : number_text t -> parse_f64 t = Some n -> currency_text c -> value_tokens (PCur n c) [t; c]
| vt_date s : date_form s -> value_tokens (PDate s) [s]
| vt_time s : time_form s -> value_tokens (PDate s) [s]
| vt_zone s z : time_form s -> z <> [] -> Forall (fun c => is_alpha c = true) z ->
    value_tokens (PDate (s ++ L " " ++ z)) [s ++ L " " ++ z]
| vt_ref a b : identifier a -> identifier b -> value_tokens (PRef (a ++ L "." ++ b)) [a ++ L "." ++ b]
| vt_fref a b c : identifier a -> identifier b -> identifier c ->
    value_tokens (PRef (a ++ L "." ++ b ++ L "." ++ c)) [a ++ L "." ++ b ++ L "." ++ c]
| vt_path s t : quoted s t -> value_tokens (PPath s) [L "path"; t]
| vt_enum s t : quoted s t -> value_tokens (PEnum s) [L "enum"; t]
| vt_list v vs t ts : value_tokens v t -> item_tokens vs ts ->
    value_tokens (PList (v :: vs)) (L "[" :: t ++ ts ++ [L "]"])
with item_tokens : list pvalue -> list str -> Prop :=
| it_nil : item_tokens [] []
| it_cons v vs t ts : value_tokens v t -> item_tokens vs ts -> item_tokens (v :: vs) (L "," :: t ++ ts).

Definition field_tokens (f : rfield) (ts : list str) : Prop :=
  match f with
  | RfMeta n => identifier n /\ ts = [L "@"; n]
  | RfReg n => identifier n /\ ts = [n]
  end.
Definition operator_text (o : operator) : str :=
  match o with
  | OpEq => L "==" | OpNe => L "!=" | OpGt => L ">" | OpLt => L "<" | OpGe => L ">=" | OpLe => L "<="
  | OpContains => L "contains" | OpStartsWith => L "startswith" | OpEndsWith => L "endswith" | OpIn => L "in"
  end.
Definition condition_tokens (c : pcondition) (ts : list str) : Prop :=
  exists f v, field_tokens (pc_field c) f /\ value_tokens (pc_value c) v /\
  ts = f ++ operator_text (pc_op c) :: v.
Definition selector_token (s : rselector) (t : str) : Prop :=
  match s with RAny => t = L "*" | RType n => identifier n /\ t = n end.
(** "and" or "or", in any mixture of cases. *)
Definition combinator_token (k : combinator) (t : str) : Prop :=
  lower t = match k with CAnd => L "and" | COr => L "or" end.
(** Further conditions, each after its combinator. *)
Inductive more_conditions : list combinator -> list pcondition -> list str -> Prop :=
| mc_nil : more_conditions [] [] []
| mc_cons k ks c cs t w ts : condition_tokens c t -> combinator_token k w -> more_conditions ks cs ts ->
    more_conditions (k :: ks) (c :: cs) (w :: t ++ ts).
(** A decimal number that fits in 64 bits. *)
Definition count_text (n : N) (t : str) : Prop := some_digits t /\ parse_usize t = Some n.

Inductive operation_tokens : poperation -> list str -> Prop :=
| ot_where c cs k ks t ts : condition_tokens c t -> more_conditions ks cs ts -> (forall k', In k' ks -> k' = k) ->
    (ks = [] -> k = CAnd) ->
    operation_tokens (PoWhere (c :: cs) k) (L "where" :: t ++ ts)
| ot_related : operation_tokens (PoRelated None None) [L "related"]
| ot_related_to s t : selector_token s t -> operation_tokens (PoRelated None (Some s)) [L "related"; t]
| ot_degree n d : count_text n d -> operation_tokens (PoRelated (Some n) None) [L "related"; L "("; d; L ")"]
| ot_degree_to n d s t : count_text n d -> selector_token s t ->
    operation_tokens (PoRelated (Some n) (Some s)) [L "related"; L "("; d; L ")"; t]
| ot_order f t : field_tokens f t -> operation_tokens (PoOrder f Ascending) (L "order" :: t)
| ot_asc f t : field_tokens f t -> operation_tokens (PoOrder f Ascending) (L "order" :: t ++ [L "asc"])
| ot_desc f t : field_tokens f t -> operation_tokens (PoOrder f Descending) (L "order" :: t ++ [L "desc"])
| ot_limit n t : count_text n t -> operation_tokens (PoLimit n) [L "limit"; t].

Inductive more_fields : list rfield -> list str -> Prop :=
| mf_nil : more_fields [] []
| mf_cons f fs t ts : field_tokens f t -> more_fields fs ts -> more_fields (f :: fs) (L "," :: t ++ ts).
Inductive aggregation_tokens : paggregation -> list str -> Prop :=
| at_select f fs t ts : field_tokens f t -> more_fields fs ts ->
    aggregation_tokens (PaSelect (f :: fs)) (L "select" :: t ++ ts)
| at_count : aggregation_tokens (PaCount None) [L "count"]
| at_count_of f t : field_tokens f t -> aggregation_tokens (PaCount (Some f)) (L "count" :: t)
| at_sum f t : field_tokens f t -> aggregation_tokens (PaSum f) (L "sum" :: t)
| at_average f t : field_tokens f t -> aggregation_tokens (PaAverage f) (L "average" :: t)
| at_median f t : field_tokens f t -> aggregation_tokens (PaMedian f) (L "median" :: t).

Inductive operations_tokens : list poperation -> list str -> Prop :=
| os_nil : operations_tokens [] []
| os_cons o os t ts : operation_tokens o t -> operations_tokens os ts ->
    operations_tokens (o :: os) (L "|" :: t ++ ts).
Definition end_tokens (a : option paggregation) (ts : list str) : Prop :=
  match a with
  | None => ts = []
  | Some a => exists t, aggregation_tokens a t /\ ts = L "|" :: t
  end.

(** [text] spells the query [q]. *)
Definition spells (q : pquery) (text : str) : Prop :=
  exists s ops agg, selector_token (pq_from q) s /\ operations_tokens (pq_ops q) ops /\
  end_tokens (pq_agg q) agg /\ lay (L "from" :: s :: ops ++ agg) text.

(** ** Meaning *)
(** [@type], [@id], or the normalised field name. *)
Definition means_field (f : rfield) (r : field_ref) : Prop :=
  match f with
  | RfMeta n => n = L "type" /\ r = FMeta MType \/ n = L "id" /\ r = FMeta MId \/
                n <> L "type" /\ n <> L "id" /\ r = FMeta MType
  | RfReg n => r = FReg (new_id n)
  end.
(** A number is an integer when it is whole (beyond the 64-bit range, the
    nearest 64-bit integer); everything else is itself. *)
Inductive means_value : pvalue -> fvalue -> Prop :=
| mv_str s : means_value (PStr s) (FStr s)
| mv_int n : f_is_integral n = true -> means_value (PNum n) (FInt (Z.max i64_min (Z.min i64_max (f_trunc n))))
| mv_float n : f_is_integral n = false -> means_value (PNum n) (FFloat n)
| mv_bool b : means_value (PBool b) (FBool b)
| mv_cur a c : means_value (PCur a c) (FCur a c)
| mv_date s : means_value (PDate s) (FDate s)
| mv_ref s : means_value (PRef s) (FRef s)
| mv_path s : means_value (PPath s) (FPath s)
| mv_enum s : means_value (PEnum s) (FEnum s)
| mv_list l l' : Forall2 means_value l l' -> means_value (PList l) (FList l').
Definition means_condition (c : pcondition) (d : condition) : Prop :=
  means_field (pc_field c) (c_field d) /\ c_op d = pc_op c /\ means_value (pc_value c) (c_value d).
Definition means_selector (s : rselector) (t : selector) : Prop :=
  match s with RAny => t = SAll | RType n => t = SType (new_id n) end.
Inductive means_operation : poperation -> operation -> Prop :=
| mo_where cs ds k : Forall2 means_condition cs ds ->
    means_operation (PoWhere cs k) (QWhere {| cc_conds := ds; cc_comb := k |})
| mo_related d : means_operation (PoRelated d None) (QRelated (N.to_nat (match d with Some n => n | None => 1%N end)) None)
| mo_related_any d : means_operation (PoRelated d (Some RAny)) (QRelated (N.to_nat (match d with Some n => n | None => 1%N end)) None)
| mo_related_to d n : means_operation (PoRelated d (Some (RType n)))
    (QRelated (N.to_nat (match d with Some n => n | None => 1%N end)) (Some (new_id n)))
| mo_order f r dir : means_field f r -> means_operation (PoOrder f dir) (QOrder r dir)
| mo_limit n : means_operation (PoLimit n) (QLimit (N.to_nat n)).
Inductive means_aggregation : paggregation -> aggregation -> Prop :=
| ma_select fs rs : Forall2 means_field fs rs -> means_aggregation (PaSelect fs) (ASelect rs)
| ma_count : means_aggregation (PaCount None) (ACount None)
| ma_count_of f r : means_field f r -> means_aggregation (PaCount (Some f)) (ACount (Some r))
| ma_sum f r : means_field f r -> means_aggregation (PaSum f) (ASum r)
| ma_average f r : means_field f r -> means_aggregation (PaAverage f) (AAverage r)
| ma_median f r : means_field f r -> means_aggregation (PaMedian f) (AMedian r).
Definition means (q : pquery) (r : query) : Prop :=
  means_selector (pq_from q) (q_from r) /\ Forall2 means_operation (pq_ops q) (q_ops r) /\
  match pq_agg q, q_agg r with
  | None, None => True
  | Some a, Some b => means_aggregation a b
  | _, _ => False
  end.
