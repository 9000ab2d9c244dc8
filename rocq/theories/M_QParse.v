(** The query language: firm_lang/src/parser/query/grammar.pest,
    parser/query/parser.rs and convert/to_query.rs.

    The grammar is modelled as pest runs it: ordered choice, no backtracking
    into a finished alternative, greedy repetition, and the implicit
    [WHITESPACE*] that pest inserts at every [~] and between repetitions of a
    rule that is not atomic ([@]). A rule is a function from the remaining text
    to the node it produces and the text after it. [fuel] bounds repetition and
    nesting; [parse_query] supplies more than the length of the text. *)
From Verif Require Export M_Query.
Close Scope Z_scope.

(** grammar.pest:1. *)
Definition is_ws (c : ascii) : bool :=
  Ascii.eqb c " " || Ascii.eqb c (ascii_of_nat 9) || Ascii.eqb c (ascii_of_nat 10).
Fixpoint skip (s : str) : str :=
  match s with
  | c :: s' => if is_ws c then skip s' else s
  | [] => []
  end.

(** A literal, and a literal ignoring case ([^"..."]). *)
Fixpoint lit (w s : str) : option str :=
  match w, s with
  | [], _ => Some s
  | a :: w', b :: s' => if Ascii.eqb a b then lit w' s' else None
  | _ :: _, [] => None
  end.
Fixpoint lit_nocase (w s : str) : option str :=
  match w, s with
  | [], _ => Some s
  | a :: w', b :: s' => if Ascii.eqb (lower_ascii a) (lower_ascii b) then lit_nocase w' s' else None
  | _ :: _, [] => None
  end.

(** Longest prefix of characters satisfying [p], and the rest. *)
Fixpoint span (p : ascii -> bool) (s : str) : str * str :=
  match s with
  | c :: s' => if p c then let (a, b) := span p s' in (c :: a, b) else ([], s)
  | [] => ([], [])
  end.

Notation "'let*' p := e1 'in' e2" :=
  (match e1 with Some p => e2 | None => None end) (at level 200, p pattern, right associativity).
Definition orelse {A} (a b : option A) : option A := match a with Some x => Some x | None => b end.
Notation "a <|> b" := (orelse a b) (at level 60, right associativity).

(** grammar.pest:106. *)
Definition ident_start (c : ascii) : bool := is_alpha c || Ascii.eqb c "_".
Definition ident_char (c : ascii) : bool := is_alnum c || Ascii.eqb c "_".
Definition p_ident (s : str) : option (str * str) :=
  match s with
  | c :: s' => if ident_start c then let (a, b) := span ident_char s' in Some (c :: a, b) else None
  | [] => None
  end.

(** grammar.pest:11. *)
Inductive rselector := RAny | RType (t : str).
Definition p_selector (s : str) : option (rselector * str) :=
  (let* r := lit (L "*") s in Some (RAny, r)) <|>
  (let* (t, r) := p_ident s in Some (RType t, r)).

(** grammar.pest:36-37 and the choices at 51, 112, 114, 120. *)
Inductive rfield := RfMeta (name : str) | RfReg (name : str).
Definition p_field (s : str) : option (rfield * str) :=
  (let* r := lit (L "@") s in
   let* (n, r') := p_ident (skip r) in Some (RfMeta n, r')) <|>
  (let* (n, r) := p_ident s in Some (RfReg n, r)).

(** grammar.pest:40-46. *)
Definition operators : list (str * operator) :=
  [(L "==", OpEq); (L "!=", OpNe); (L ">=", OpGe); (L "<=", OpLe); (L ">", OpGt); (L "<", OpLt);
   (L "contains", OpContains); (L "startswith", OpStartsWith); (L "endswith", OpEndsWith); (L "in", OpIn)].
Fixpoint first_of {A} (l : list (str * A)) (s : str) : option (A * str) :=
  match l with
  | [] => None
  | (w, a) :: l' => match lit w s with Some r => Some (a, r) | None => first_of l' s end
  end.
Definition p_operator : str -> option (operator * str) := first_of operators.

(** grammar.pest:29-31: the text matched. *)
Definition p_combinator (s : str) : option (str * str) :=
  (let* r := lit_nocase (L "and") s in Some (firstn 3 s, r)) <|>
  (let* r := lit_nocase (L "or") s in Some (firstn 2 s, r)).

(** grammar.pest:79: the text matched. *)
Definition p_digits (s : str) : option (str * str) :=
  match span is_digit s with
  | ([], _) => None
  | r => Some r
  end.
Definition p_number (s : str) : option (str * str) :=
  let (sign, s0) := match lit (L "-") s with Some r => (L "-", r) | None => ([], s) end in
  let* (a, s1) := p_digits s0 in
  match (let* r := lit (L ".") s1 in p_digits r) with
  | Some (b, s2) => Some (sign ++ a ++ L "." ++ b, s2)
  | None => Some (sign ++ a, s1)
  end.

(** grammar.pest:85-86. *)
Definition p_code (s : str) : option (str * str) :=
  match p_combinator s with
  | Some _ => None
  | None =>
      match s with
      | a :: b :: c :: r => if is_alpha a && is_alpha b && is_alpha c then Some ([a; b; c], r) else None
      | _ => None
      end
  end.
Definition p_currency (s : str) : option (str * str * str) :=
  let* (n, r) := p_number s in
  let* (c, r') := p_code (skip r) in
  Some (n, c, r').

(** grammar.pest:89-93: the text matched. *)
Fixpoint p_ndigits (n : nat) (s : str) : option (str * str) :=
  match n, s with
  | 0, _ => Some ([], s)
  | S n', c :: s' => if is_digit c then let* (a, r) := p_ndigits n' s' in Some (c :: a, r) else None
  | S _, [] => None
  end.
Definition p_zone (s : str) : option (str * str) :=
  let* r := lit (L " ") s in
  match span is_alpha r with
  | ([], _) => None
  | (z, r') => Some (L " " ++ z, r')
  end.
Definition p_time (s : str) : option (str * str) :=
  let* r := lit (L " at ") s in
  let* (h, r1) := p_ndigits 2 r in
  let* r2 := lit (L ":") r1 in
  let* (m, r3) := p_ndigits 2 r2 in
  match p_zone r3 with
  | Some (z, r4) => Some (L " at " ++ h ++ L ":" ++ m ++ z, r4)
  | None => Some (L " at " ++ h ++ L ":" ++ m, r3)
  end.
Definition p_datetime (s : str) : option (str * str) :=
  let* (y, r1) := p_ndigits 4 s in
  let* r2 := lit (L "-") r1 in
  let* (m, r3) := p_ndigits 2 r2 in
  let* r4 := lit (L "-") r3 in
  let* (d, r5) := p_ndigits 2 r4 in
  let date := y ++ L "-" ++ m ++ L "-" ++ d in
  match p_time r5 with
  | Some (t, r6) => Some (date ++ t, r6)
  | None => Some (date, r5)
  end.

(** grammar.pest:96-98: the text matched. *)
Definition p_dotted (s : str) : option (str * str) :=
  let* r := lit (L ".") s in
  let* (i, r') := p_ident r in Some (L "." ++ i, r').
Definition p_reference (s : str) : option (str * str) :=
  let* (a, r) := p_ident s in
  let* (b, r1) := p_dotted r in
  match p_dotted r1 with
  | Some (c, r2) => Some (a ++ b ++ c, r2)
  | None => Some (a ++ b, r1)
  end.

(** grammar.pest:70-77: the inner text; white space after the opening quote is
    skipped by the implicit rule. *)
Definition p_quoted (q : ascii) (s : str) : option (str * str) :=
  let* r := lit [q] s in
  let (inner, r1) := span (fun c => negb (Ascii.eqb c q)) (skip r) in
  let* r2 := lit [q] (skip r1) in
  Some (inner, r2).
Definition p_string (s : str) : option (str * str) :=
  p_quoted """" s <|> p_quoted "'" s.

(** grammar.pest:101, 104, 81. *)
Definition p_prefixed (w : str) (s : str) : option (str * str) :=
  let* r := lit w s in p_string (skip r).
Definition p_boolean (s : str) : option (bool * str) :=
  first_of [(L "true", true); (L "false", false)] s.

(** grammar.pest:58-68 and 106. *)
Inductive rvalue :=
| RvStr (s : str)
| RvNum (text : str)
| RvBool (b : bool)
| RvCur (num code : str)
| RvDate (s : str)
| RvRef (s : str)
| RvPath (s : str)
| RvEnum (s : str)
| RvList (vs : list rvalue).
Definition on {A B} (f : A -> B) (r : option (A * str)) : option (B * str) :=
  match r with Some (a, s) => Some (f a, s) | None => None end.
Fixpoint p_value (fuel : nat) (s : str) {struct fuel} : option (rvalue * str) :=
  match fuel with
  | 0 => None
  | S n =>
      (let* (a, c, r) := p_currency s in Some (RvCur a c, r)) <|>
      on RvDate (p_datetime s) <|>
      on RvRef (p_reference s) <|>
      on RvPath (p_prefixed (L "path") s) <|>
      on RvEnum (p_prefixed (L "enum") s) <|>
      on RvStr (p_string s) <|>
      on RvNum (p_number s) <|>
      on RvBool (p_boolean s) <|>
      (let* r := lit (L "[") s in
       let* (v, r1) := p_value n (skip r) in
       let (vs, r2) := p_items n r1 in
       let* r3 := lit (L "]") (skip r2) in
       Some (RvList (v :: vs), r3))
  end
with p_items (fuel : nat) (s : str) {struct fuel} : list rvalue * str :=
  match fuel with
  | 0 => ([], s)
  | S n =>
      match (let* r := lit (L ",") (skip s) in p_value n (skip r)) with
      | Some (v, r1) => let (vs, r2) := p_items n r1 in (v :: vs, r2)
      | None => ([], s)
      end
  end.

(** grammar.pest:32-35. *)
Record rcondition := { rc_field : rfield; rc_op : operator; rc_value : rvalue }.
Definition p_condition (fuel : nat) (s : str) : option (rcondition * str) :=
  let* (f, r) := p_field s in
  let* (o, r1) := p_operator (skip r) in
  let* (v, r2) := p_value fuel (skip r1) in
  Some ({| rc_field := f; rc_op := o; rc_value := v |}, r2).

(** [(item)*] with the implicit white space before every item. *)
Fixpoint p_many {A} (p : str -> option (A * str)) (fuel : nat) (s : str) : list A * str :=
  match fuel with
  | 0 => ([], s)
  | S n =>
      match p (skip s) with
      | Some (a, r) => let (l, r') := p_many p n r in (a :: l, r')
      | None => ([], s)
      end
  end.

(** grammar.pest:26-27. *)
Definition p_more_condition (fuel : nat) (s : str) : option (str * rcondition * str) :=
  let* (c, r) := p_combinator s in
  let* (k, r1) := p_condition fuel (skip r) in
  Some (c, k, r1).
Inductive roperation :=
| RoWhere (first : rcondition) (more : list (str * rcondition))
| RoRelated (degree : option str) (sel : option rselector)
| RoOrder (f : rfield) (dir : option str)
| RoLimit (n : str).
Definition p_where (fuel : nat) (s : str) : option (roperation * str) :=
  let* r := lit (L "where") s in
  let* (c, r1) := p_condition fuel (skip r) in
  let (l, r2) := p_many (p_more_condition fuel) fuel r1 in
  Some (RoWhere c l, r2).

(** [item?]: the item after the implicit white space, or nothing. *)
Definition p_opt {A} (p : str -> option (A * str)) (s : str) : option A * str :=
  match p s with Some (a, r) => (Some a, r) | None => (None, s) end.

(** grammar.pest:48-49. *)
Definition p_degree (s : str) : option (str * str) :=
  let* r := lit (L "(") s in
  let* (n, r1) := p_number (skip r) in
  let* r2 := lit (L ")") (skip r1) in
  Some (n, r2).
Definition p_related (s : str) : option (roperation * str) :=
  let* r := lit (L "related") s in
  let (d, r1) := p_opt p_degree (skip r) in
  let (t, r2) := p_opt p_selector (skip r1) in
  Some (RoRelated d t, r2).

(** grammar.pest:52-54. *)
Definition p_direction (s : str) : option (str * str) :=
  first_of [(L "asc", L "asc"); (L "desc", L "desc")] s.
Definition p_order (s : str) : option (roperation * str) :=
  let* r := lit (L "order") s in
  let* (f, r1) := p_field (skip r) in
  let (d, r2) := p_opt p_direction (skip r1) in
  Some (RoOrder f d, r2).

(** grammar.pest:57. *)
Definition p_limit (s : str) : option (roperation * str) :=
  let* r := lit (L "limit") s in on RoLimit (p_number (skip r)).

(** grammar.pest:14-19, after the bar (line 4). *)
Definition p_operation (fuel : nat) (s : str) : option (roperation * str) :=
  p_where fuel s <|> p_related s <|> p_order s <|> p_limit s.
Definition p_bar_operation (fuel : nat) (s : str) : option (roperation * str) :=
  let* r := lit (L "|") s in p_operation fuel (skip r).

(** grammar.pest:109-126. *)
Inductive raggregation :=
| RaSelect (first : rfield) (more : list rfield)
| RaCount (f : option rfield)
| RaSum (f : rfield)
| RaAverage (f : rfield)
| RaMedian (f : rfield).
Definition p_more_field (s : str) : option (rfield * str) :=
  let* r := lit (L ",") s in p_field (skip r).
Definition p_aggregation (fuel : nat) (s : str) : option (raggregation * str) :=
  (let* r := lit (L "select") s in
   let* (f, r1) := p_field (skip r) in
   let (l, r2) := p_many p_more_field fuel r1 in
   Some (RaSelect f l, r2)) <|>
  (let* r := lit (L "count") s in
   let (f, r1) := p_opt p_field (skip r) in Some (RaCount f, r1)) <|>
  (let* r := lit (L "sum") s in on RaSum (p_field (skip r))) <|>
  (let* r := lit (L "average") s in on RaAverage (p_field (skip r))) <|>
  (let* r := lit (L "median") s in on RaMedian (p_field (skip r))).
Definition p_bar_aggregation (fuel : nat) (s : str) : option (raggregation * str) :=
  let* r := lit (L "|") s in p_aggregation fuel (skip r).

(** grammar.pest:4-8. *)
Record rquery := { rq_from : rselector; rq_ops : list roperation; rq_agg : option raggregation }.
Definition pest_query (s : str) : option rquery :=
  let fuel := S (length s) in
  let* r := lit (L "from") (skip s) in
  let* (f, r1) := p_selector (skip r) in
  let (ops, r2) := p_many (p_bar_operation fuel) fuel r1 in
  let (a, r3) := p_opt (p_bar_aggregation fuel) (skip r2) in
  match skip r3 with
  | [] => Some {| rq_from := f; rq_ops := ops; rq_agg := a |}
  | _ => None
  end.

(** ** parser.rs *)
(** parsed_query.rs:7-135. *)
Inductive pvalue :=
| PStr (s : str)
| PNum (n : f64)
| PBool (b : bool)
| PCur (amount : f64) (code : str)
| PDate (s : str)
| PRef (s : str)
| PPath (s : str)
| PEnum (s : str)
| PList (vs : list pvalue).
Record pcondition := { pc_field : rfield; pc_op : operator; pc_value : pvalue }.
Inductive poperation :=
| PoWhere (conds : list pcondition) (comb : combinator)
| PoRelated (degree : option N) (sel : option rselector)
| PoOrder (f : rfield) (dir : sort_direction)
| PoLimit (n : N).
Inductive paggregation :=
| PaSelect (fs : list rfield)
| PaCount (f : option rfield)
| PaSum (f : rfield)
| PaAverage (f : rfield)
| PaMedian (f : rfield).
Record pquery := { pq_from : rselector; pq_ops : list poperation; pq_agg : option paggregation }.

(** parser.rs:12-16. *)
Inductive qp_error := SyntaxError | MixedCombinators | InvalidNumber (text : str).
Definition pres A := result A qp_error.
Definition pbind {A B} (r : pres A) (k : A -> pres B) : pres B :=
  match r with Ok a => k a | Err e => Err e end.
Fixpoint pcollect {A B} (f : A -> pres B) (l : list A) : pres (list B) :=
  match l with
  | [] => Ok []
  | a :: l' => pbind (f a) (fun b => pbind (pcollect f l') (fun bs => Ok (b :: bs)))
  end.
Definition pnumber {A} (p : str -> option A) (t : str) : pres A :=
  match p t with Some n => Ok n | None => Err (InvalidNumber t) end.

(** parser.rs:238-319. *)
Fixpoint conv_value (v : rvalue) : pres pvalue :=
  match v with
  | RvStr s => Ok (PStr s)
  | RvNum t => pbind (pnumber parse_f64 t) (fun n => Ok (PNum n))
  | RvBool b => Ok (PBool b)
  | RvCur t c => pbind (pnumber parse_f64 t) (fun n => Ok (PCur n c))
  | RvDate s => Ok (PDate s)
  | RvRef s => Ok (PRef s)
  | RvPath s => Ok (PPath s)
  | RvEnum s => Ok (PEnum s)
  | RvList vs =>
      pbind ((fix go (l : list rvalue) : pres (list pvalue) :=
                match l with
                | [] => Ok []
                | v :: l' => pbind (conv_value v) (fun b => pbind (go l') (fun bs => Ok (b :: bs)))
                end) vs) (fun l => Ok (PList l))
  end.

(** parser.rs:176-216. *)
Definition conv_condition (c : rcondition) : pres pcondition :=
  pbind (conv_value (rc_value c)) (fun v =>
  Ok {| pc_field := rc_field c; pc_op := rc_op c; pc_value := v |}).

(** parser.rs:126-173. The combinator texts are "and" or "or" in any case. *)
Definition conv_combinator (t : str) : combinator :=
  if str_eqb (lower t) (L "and") then CAnd else COr.
Definition comb_eqb (a b : combinator) : bool :=
  match a, b with CAnd, CAnd | COr, COr => true | _, _ => false end.
Definition one_combinator (l : list combinator) : pres combinator :=
  match l with
  | [] => Ok CAnd
  | c :: l' => if forallb (comb_eqb c) l' then Ok c else Err MixedCombinators
  end.
Definition conv_operation (o : roperation) : pres poperation :=
  match o with
  | RoWhere c l =>
      pbind (pcollect conv_condition (c :: map snd l)) (fun cs =>
      pbind (one_combinator (map (fun p => conv_combinator (fst p)) l)) (fun k =>
      Ok (PoWhere cs k)))
  (** parser.rs:322-353. *)
  | RoRelated d t =>
      match d with
      | None => Ok (PoRelated None t)
      | Some n => pbind (pnumber parse_usize n) (fun k => Ok (PoRelated (Some k) t))
      end
  (** parser.rs:355-407. *)
  | RoOrder f d =>
      Ok (PoOrder f (match d with
                     | Some w => if str_eqb w (L "desc") then Descending else Ascending
                     | None => Ascending
                     end))
  (** parser.rs:409-426. *)
  | RoLimit n => pbind (pnumber parse_usize n) (fun k => Ok (PoLimit k))
  end.
(** parser.rs:430-end. *)
Definition conv_aggregation (a : raggregation) : paggregation :=
  match a with
  | RaSelect f l => PaSelect (f :: l)
  | RaCount f => PaCount f
  | RaSum f => PaSum f
  | RaAverage f => PaAverage f
  | RaMedian f => PaMedian f
  end.
(** parser.rs:30-68. *)
Definition parse_query (s : str) : pres pquery :=
  match pest_query s with
  | None => Err SyntaxError
  | Some q =>
      pbind (pcollect conv_operation (rq_ops q)) (fun ops =>
      Ok {| pq_from := rq_from q; pq_ops := ops; pq_agg := option_map conv_aggregation (rq_agg q) |})
  end.

(** ** convert/to_query.rs *)
(** to_query.rs:144-156. *)
Definition to_field (f : rfield) : field_ref :=
  match f with
  | RfMeta n => FMeta (if str_eqb n (L "type") then MType else if str_eqb n (L "id") then MId else MType)
  | RfReg n => FReg (new_id n)
  end.
(** to_query.rs:173-204. *)
Fixpoint to_value (v : pvalue) : fvalue :=
  match v with
  | PStr s => FStr s
  | PNum n => if f_is_integral n && f_is_finite n then FInt (f_to_i64 n) else FFloat n
  | PBool b => FBool b
  | PCur a c => FCur a c
  | PDate s => FDate s
  | PRef s => FRef s
  | PPath s => FPath s
  | PEnum s => FEnum s
  | PList l => FList (map to_value l)
  end.
(** to_query.rs:36-43, 107-124. *)
Definition to_selector (s : rselector) : selector :=
  match s with RAny => SAll | RType t => SType (new_id t) end.
Definition to_type (s : option rselector) : option entity_type :=
  match s with Some (RType t) => Some (new_id t) | _ => None end.
(** to_query.rs:86-92. *)
Definition to_condition (c : pcondition) : condition :=
  {| c_field := to_field (pc_field c); c_op := pc_op c; c_value := to_value (pc_value c) |}.
(** to_query.rs:62-81, 94-124. *)
Definition to_operation (o : poperation) : operation :=
  match o with
  | PoWhere cs k => QWhere {| cc_conds := map to_condition cs; cc_comb := k |}
  | PoRelated d t => QRelated (match d with Some n => N.to_nat n | None => 1 end) (to_type t)
  | PoOrder f d => QOrder (to_field f) d
  | PoLimit n => QLimit (N.to_nat n)
  end.
(** to_query.rs:126-142. *)
Definition to_aggregation (a : paggregation) : aggregation :=
  match a with
  | PaSelect fs => ASelect (map to_field fs)
  | PaCount f => ACount (option_map to_field f)
  | PaSum f => ASum (to_field f)
  | PaAverage f => AAverage (to_field f)
  | PaMedian f => AMedian (to_field f)
  end.
(** to_query.rs:32-59: no error case is reachable. *)
Definition to_query (q : pquery) : query :=
  {| q_from := to_selector (pq_from q); q_ops := map to_operation (pq_ops q);
     q_agg := option_map to_aggregation (pq_agg q) |}.

(** parse_query followed by Query::try_from, as every caller does
    (firm_cli/src/commands/query.rs, firm_mcp/src/tools/query.rs). *)
Definition read_query (s : str) : pres query := pbind (parse_query s) (fun q => Ok (to_query q)).
