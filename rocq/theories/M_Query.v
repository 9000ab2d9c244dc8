(** Query execution: firm_core/src/graph/query. *)
From Verif Require Export M_Graph M_Num.
Close Scope Z_scope.

(** Library behaviour the code calls and that is not modelled:
    rust_decimal's conversions between [Decimal] and [f64], its addition when
    the exact sum needs more than 96 bits ([None] is its overflow panic);
    whether integer overflow is checked (debug builds) or wraps (release
    builds); and the sign of the zero from which std's [Sum for f64] starts. *)
Record ext := {
  dec_of_f64 : f64 -> option dec;       (* Decimal::from_f64_retain *)
  dec_to_f64 : dec -> option f64;       (* Decimal::to_f64 *)
  dec_add_round : dec -> dec -> option dec;
  overflow_checks : bool;
  sum_start_negative : bool
}.

(** Iteration order of hash maps and sets: for the collection visited at a
    given call site, some rearrangement of its keys. Theorems quantify over
    every [hash_order]; the only fact assumed is [orders]. *)
Definition hash_order := list nat -> list str -> list str.

(** graph/query/filter/types.rs:7-57. *)
Inductive combinator := CAnd | COr.
Inductive meta_field := MType | MId.
Inductive field_ref := FMeta (m : meta_field) | FReg (f : field_id).
Inductive operator :=
| OpEq | OpNe | OpGt | OpLt | OpGe | OpLe | OpContains | OpStartsWith | OpEndsWith | OpIn.
Inductive fvalue :=
| FStr (s : str)
| FInt (z : Z)
| FFloat (f : f64)
| FBool (b : bool)
| FCur (amount : f64) (code : str)
| FDate (s : str)
| FRef (s : str)
| FPath (s : str)
| FEnum (s : str)
| FList (vs : list fvalue).

(** Type names used in messages (types.rs:61-74 and field.rs:26-41). *)
Definition fvalue_type (v : fvalue) : field_type :=
  match v with
  | FStr _ => TStr | FInt _ => TInt | FFloat _ => TFloat | FBool _ => TBool | FCur _ _ => TCur
  | FDate _ => TDate | FRef _ => TRef | FPath _ => TPath | FEnum _ => TEnum | FList _ => TList
  end.

(** graph/query/query_errors.rs:7-32; the list of supported operators is a
    function of the field type and is omitted. Aggregation messages
    (aggregation/*.rs) are represented by their cause. [Panicked] stands for
    a panic of the process, not for an error value. *)
Inductive agg_error :=
| AggMetadata
| AggEmpty
| AggNonNumeric (f : field_id) (t : field_type)
| AggCurrencyAndNumbers
| AggMixedCurrencies (expected found : str).
Inductive query_error :=
| UnsupportedOperator (ft : field_type) (o : operator)
| TypeMismatch (ft filter_type : field_type)
| UnknownEntityType (requested : str) (available : list str)
| InvalidDateFormat (value : str)
| InvalidAggregation (e : agg_error)
| Panicked.
Definition qres A := result A query_error.

Definition unsupported {A} (v : value) (o : operator) : qres A := Err (UnsupportedOperator (get_type v) o).
Definition mismatch {A} (v : value) (w : fvalue) : qres A := Err (TypeMismatch (get_type v) (fvalue_type w)).

(** The six comparison operators on a comparison result. *)
Definition ord_op (o : operator) (c : comparison) : option bool :=
  match o, c with
  | OpEq, Eq => Some true | OpEq, _ => Some false
  | OpNe, Eq => Some false | OpNe, _ => Some true
  | OpGt, Gt => Some true | OpGt, _ => Some false
  | OpLt, Lt => Some true | OpLt, _ => Some false
  | OpGe, Lt => Some false | OpGe, _ => Some true
  | OpLe, Gt => Some false | OpLe, _ => Some true
  | _, _ => None
  end.
Definition or_unsupported (v : value) (o : operator) (r : option bool) : qres bool :=
  match r with Some b => Ok b | None => unsupported v o end.

(** filter/boolean.rs:8-38. *)
Definition compare_boolean (v : value) (o : operator) (w : fvalue) : qres bool :=
  match v, w with
  | VBool b, FBool b' =>
      match o with
      | OpEq => Ok (Bool.eqb b b')
      | OpNe => Ok (negb (Bool.eqb b b'))
      | _ => unsupported v o
      end
  | _, _ => mismatch v w
  end.

(** IEEE comparisons of two floats by operator (numeric.rs:36-41). *)
Definition float_op (o : operator) (a b : f64) : option bool :=
  match o with
  | OpEq => Some (f_eq a b)
  | OpNe => Some (f_ne a b)
  | OpGt => Some (f_gt a b)
  | OpLt => Some (f_lt a b)
  | OpGe => Some (f_ge a b)
  | OpLe => Some (f_le a b)
  | _ => None
  end.
(** numeric.rs:69-74 and 78-83: equality within EPSILON. *)
Definition float_eps_op (o : operator) (a b : f64) : option bool :=
  match o with
  | OpEq => Some (f_lt (f_abs (f_sub a b)) f_epsilon)
  | OpNe => Some (f_ge (f_abs (f_sub a b)) f_epsilon)
  | _ => float_op o a b
  end.

(** filter/numeric.rs:10-49. *)
Definition compare_integer (v : value) (o : operator) (w : fvalue) : qres bool :=
  match v with
  | VInt z =>
      match w with
      | FInt z' => or_unsupported v o (ord_op o (Z.compare z z'))
      | FFloat f => or_unsupported v o (float_op o (f_of_Z z) f)
      | _ => mismatch v w
      end
  | _ => mismatch v w
  end.

(** filter/numeric.rs:52-91. *)
Definition compare_float (v : value) (o : operator) (w : fvalue) : qres bool :=
  match v with
  | VFloat a =>
      match w with
      | FFloat f => or_unsupported v o (float_eps_op o a f)
      | FInt z => or_unsupported v o (float_eps_op o a (f_of_Z z))
      | _ => mismatch v w
      end
  | _ => mismatch v w
  end.

(** filter/currency.rs:11-64. *)
Definition compare_currency (x : ext) (v : value) (o : operator) (w : fvalue) : qres bool :=
  match v, w with
  | VCur a c, FCur f c' =>
      if negb (str_eqb c c') then Ok false
      else match dec_of_f64 x f with
           | Some d => or_unsupported v o (ord_op o (dec_cmp a d))
           | None => Ok false
           end
  | _, _ => mismatch v w
  end.

(** filter/datetime.rs:11-91. *)
Definition compare_datetime (v : value) (o : operator) (w : fvalue) : qres bool :=
  match v, w with
  | VDate d, FDate s =>
      match parse_rfc3339 s with
      | Some d' => or_unsupported v o (ord_op o (dt_cmp d d'))
      | None =>
          match parse_naive_date s with
          | Some day => or_unsupported v o (ord_op o (Z.compare (dt_date d) day))
          | None => Err (InvalidDateFormat s)
          end
      end
  | _, _ => mismatch v w
  end.

(** filter/reference.rs:8-60. *)
Definition compare_reference (v : value) (o : operator) (w : fvalue) : qres bool :=
  match v with
  | VRef r =>
      match o with
      | OpEq | OpNe =>
          match w with
          | FRef s | FStr s =>
              let m := eq_ignore_case (ref_display r) s in
              Ok (match o with OpEq => m | _ => negb m end)
          | _ => mismatch v w
          end
      | _ => unsupported v o
      end
  | _ => mismatch v w
  end.

(** filter/string.rs:41-64 and 91-114: the operators on texts. *)
Definition text_op (o : operator) (a b : str) : option bool :=
  match o with
  | OpEq => Some (eq_ignore_case a b)
  | OpNe => Some (negb (eq_ignore_case a b))
  | OpContains => Some (contains (lower a) (lower b))
  | OpStartsWith => Some (starts_with (lower a) (lower b))
  | OpEndsWith => Some (ends_with (lower a) (lower b))
  | _ => None
  end.
(** filter/string.rs:9-115. Paths are assumed to be valid UTF-8 (76 is not
    reachable from texts). *)
Definition compare_string (v : value) (o : operator) (w : fvalue) : qres bool :=
  match v with
  | VStr a | VEnum a | VPath a =>
      match w with
      | FStr b | FEnum b | FPath b => or_unsupported v o (text_op o a b)
      | _ => mismatch v w
      end
  | _ => mismatch v w
  end.

(** filter/list.rs:75-92. *)
Definition compare_list_item (x : ext) (v : value) (o : operator) (w : fvalue) : qres bool :=
  match v with
  | VStr _ | VEnum _ | VPath _ => compare_string v o w
  | VInt _ => compare_integer v o w
  | VFloat _ => compare_float v o w
  | VBool _ => compare_boolean v o w
  | VCur _ _ => compare_currency x v o w
  | VDate _ => compare_datetime v o w
  | VRef _ => compare_reference v o w
  | VList _ => Ok false
  end.

(** filter/list.rs:29-42. *)
Fixpoint list_contains (x : ext) (items : list value) (w : fvalue) : qres bool :=
  match items with
  | [] => Ok false
  | i :: items' =>
      let m := match i, w with
               | VStr _, FStr _ => compare_string i OpContains w
               | _, _ => compare_list_item x i OpEq w
               end in
      match m with
      | Err e => Err e
      | Ok true => Ok true
      | Ok false => list_contains x items' w
      end
  end.
(** filter/list.rs:52-57. *)
Fixpoint list_equal (x : ext) (items : list value) (ws : list fvalue) : qres bool :=
  match items, ws with
  | i :: items', w :: ws' =>
      match compare_list_item x i OpEq w with
      | Err e => Err e
      | Ok false => Ok false
      | Ok true => list_equal x items' ws'
      end
  | _, _ => Ok true
  end.
(** filter/list.rs:9-71. *)
Definition compare_list (x : ext) (v : value) (o : operator) (w : fvalue) : qres bool :=
  match v with
  | VList items =>
      match o with
      | OpContains => list_contains x items w
      | OpEq =>
          match w with
          | FList ws => if Nat.eqb (length items) (length ws) then list_equal x items ws else Ok false
          | _ => mismatch v w
          end
      | _ => unsupported v o
      end
  | _ => mismatch v w
  end.

(** filter/mod.rs:19-24, 46-50. *)
Record condition := { c_field : field_ref; c_op : operator; c_value : fvalue }.
Record compound := { cc_conds : list condition; cc_comb : combinator }.

(** filter/mod.rs:107-130. *)
Definition compare_value (x : ext) (v : value) (o : operator) (w : fvalue) : qres bool :=
  match v with
  | VStr _ | VEnum _ | VPath _ => compare_string v o w
  | VInt _ => compare_integer v o w
  | VFloat _ => compare_float v o w
  | VBool _ => compare_boolean v o w
  | VCur _ _ => compare_currency x v o w
  | VDate _ => compare_datetime v o w
  | VRef _ => compare_reference v o w
  | VList _ => compare_list x v o w
  end.

(** filter/mod.rs:91-95: metadata as a string value. *)
Definition meta_value (m : meta_field) (e : entity) : value :=
  match m with MType => VStr (e_type e) | MId => VStr (e_id e) end.

(** filter/mod.rs:37-42, 86-97, 99-131. *)
Definition matches (x : ext) (c : condition) (e : entity) : qres bool :=
  match c_field c with
  | FMeta m => compare_string (meta_value m e) (c_op c) (c_value c)
  | FReg f =>
      match get_field e f with
      | Some v => compare_value x v (c_op c) (c_value c)
      | None => Ok false
      end
  end.

(** Collecting results into a [Result<Vec<_>>]: the first error wins. *)
Fixpoint collect {A B} (f : A -> qres B) (l : list A) : qres (list B) :=
  match l with
  | [] => Ok []
  | a :: l' =>
      match f a with
      | Err e => Err e
      | Ok b => match collect f l' with Ok bs => Ok (b :: bs) | Err e => Err e end
      end
  end.

(** filter/mod.rs:70-81. *)
Definition matches_all (x : ext) (cc : compound) (e : entity) : qres bool :=
  match collect (fun c => matches x c e) (cc_conds cc) with
  | Err er => Err er
  | Ok bs => Ok (match cc_comb cc with CAnd => forallb (fun b => b) bs | COr => existsb (fun b => b) bs end)
  end.

(** types.rs:175-183. *)
Fixpoint where_step (x : ext) (cc : compound) (es : list entity) : qres (list entity) :=
  match es with
  | [] => Ok []
  | e :: es' =>
      match matches_all x cc e with
      | Err er => Err er
      | Ok b =>
          match where_step x cc es' with
          | Err er => Err er
          | Ok r => Ok (if b then e :: r else r)
          end
      end
  end.

(** order.rs:139-153. *)
Definition type_order (v : value) : nat :=
  match v with
  | VBool _ => 0
  | VInt _ | VFloat _ => 1
  | VStr _ | VEnum _ | VPath _ => 2
  | VDate _ => 3
  | VCur _ _ => 4
  | VRef _ => 5
  | VList _ => 6
  end.

Definition bool_cmp (a b : bool) : comparison :=
  match a, b with false, true => Lt | true, false => Gt | _, _ => Eq end.

(** order.rs:64-75, 104-119: NaN after everything. *)
Definition float_cmp_nan_last (a b : f64) : comparison :=
  if f_is_nan a && f_is_nan b then Eq
  else if f_is_nan a then Gt
  else if f_is_nan b then Lt
  else match f_cmp a b with Some c => c | None => Eq end.

(** [Ord for Path] compares components: the root, then the non-empty parts
    other than "." (a leading "." is a component). *)
Inductive component := PRoot | PCur | PParent | PNormal (s : str).
Definition to_component (s : str) : component :=
  if str_eqb s (L "..") then PParent else PNormal s.
Definition path_components (p : str) : list component :=
  let parts := split_char "/" p in
  let tail l := map to_component (filter (fun s => negb (str_eqb s []) && negb (str_eqb s (L "."))) l) in
  match parts with
  | [] => []
  | h :: t =>
      if str_eqb h [] then match t with [] => [] | _ => PRoot :: tail t end
      else if str_eqb h (L ".") then PCur :: tail t
      else tail parts
  end.
Definition component_rank (c : component) : nat :=
  match c with PRoot => 0 | PCur => 1 | PParent => 2 | PNormal _ => 3 end.
Definition component_cmp (a b : component) : comparison :=
  match a, b with
  | PNormal s, PNormal t => str_cmp s t
  | _, _ => Nat.compare (component_rank a) (component_rank b)
  end.
Fixpoint list_cmp {A} (cmp : A -> A -> comparison) (a b : list A) : comparison :=
  match a, b with
  | [], [] => Eq
  | [], _ :: _ => Lt
  | _ :: _, [] => Gt
  | x :: a', y :: b' => match cmp x y with Eq => list_cmp cmp a' b' | o => o end
  end.
Definition path_cmp (a b : str) : comparison :=
  list_cmp component_cmp (path_components a) (path_components b).

(** order.rs:56-137. *)
Fixpoint cmp_values (a b : value) {struct a} : comparison :=
  match a, b with
  | VBool x, VBool y => bool_cmp x y
  | VInt x, VInt y => Z.compare x y
  | VFloat x, VFloat y => float_cmp_nan_last x y
  | VStr x, VStr y => str_cmp (lower x) (lower y)
  | VEnum x, VEnum y => str_cmp (lower x) (lower y)
  | VDate x, VDate y => dt_cmp x y
  | VCur x c, VCur y c' => if str_eqb c c' then dec_cmp x y else str_cmp c c'
  | VRef x, VRef y => str_cmp (lower (ref_display x)) (lower (ref_display y))
  | VPath x, VPath y => path_cmp x y
  | VInt x, VFloat y =>
      if f_is_nan y then Lt else match f_cmp (f_of_Z x) y with Some c => c | None => Eq end
  | VFloat x, VInt y =>
      if f_is_nan x then Gt else match f_cmp x (f_of_Z y) with Some c => c | None => Eq end
  | VList xs, VList ys =>
      (fix go (l r : list value) {struct l} : comparison :=
         match l, r with
         | u :: l', w :: r' => match cmp_values u w with Eq => go l' r' | o => o end
         | _, _ => Nat.compare (length xs) (length ys)
         end) xs ys
  | _, _ => Nat.compare (type_order a) (type_order b)
  end.

Inductive sort_direction := Ascending | Descending.

(** order.rs:8-53. *)
Definition cmp_by_field (fr : field_ref) (a b : entity) : comparison :=
  match fr with
  | FReg f =>
      match get_field a f, get_field b f with
      | None, None => Eq
      | None, Some _ => Gt
      | Some _, None => Lt
      | Some x, Some y => cmp_values x y
      end
  | FMeta MType => str_cmp (lower (e_type a)) (lower (e_type b))
  | FMeta MId => str_cmp (lower (e_id a)) (lower (e_id b))
  end.
Definition compare_entities (fr : field_ref) (d : sort_direction) (a b : entity) : comparison :=
  match d with
  | Ascending => cmp_by_field fr a b
  | Descending => CompOpp (cmp_by_field fr a b)
  end.

(** types.rs:184-188. Rust's [sort_by] is a stable sort; see [L_Sort] for the
    fact that any stable sort gives this result for a total preorder. *)
Definition order_step (fr : field_ref) (d : sort_direction) (es : list entity) : list entity :=
  sort_by (compare_entities fr d) es.

(** Hash sets of ids as duplicate-free lists. *)
Definition set_add (k : str) (s : list str) : list str := if str_in k s then s else s ++ [k].
Definition set_of (l : list str) : list str := fold_left (fun s k => set_add k s) l [].

(** related.rs:24-80. [site] identifies the call, so that every iteration over
    a hash set may use a different order. *)
Definition max_degrees : nat := 5.
Definition related_ids (g : graph) (id : entity_id) : list entity_id :=
  match get_related g id None with Some l => map e_id l | None => [] end.
Fixpoint bfs (g : graph) (ho : hash_order) (site : list nat) (n : nat)
    (all current : list entity_id) : list entity_id :=
  match n with
  | 0 => all
  | S n' =>
      let found := flat_map (related_ids g) (ho (n :: site) current) in
      let next := set_of found in
      let all' := fold_left (fun s k => set_add k s) found all in
      match next with
      | [] => all'
      | _ => bfs g ho site n' all' next
      end
  end.
Definition related_step (g : graph) (ho : hash_order) (site : list nat) (degrees : nat)
    (t : option entity_type) (start : list entity) : list entity :=
  let degrees := Nat.min degrees max_degrees in
  match degrees with
  | 0 => start
  | _ =>
      let ids := set_of (map e_id start) in
      let all := bfs g ho site degrees ids ids in
      let result := filter_opt (get_entity g) (ho (0 :: site) all) in
      match t with
      | Some ty => filter (fun e => str_eqb (e_type e) ty) result
      | None => result
      end
  end.

(** types.rs:216-220, 224-239, 26-37. *)
Inductive selector := SType (t : entity_type) | SAll.
Inductive operation :=
| QWhere (cc : compound)
| QRelated (degrees : nat) (t : option entity_type)
| QOrder (f : field_ref) (d : sort_direction)
| QLimit (n : nat).
Inductive aggregation :=
| ASelect (fs : list field_ref)
| ACount (f : option field_ref)
| ASum (f : field_ref)
| AAverage (f : field_ref)
| AMedian (f : field_ref).
Record query := { q_from : selector; q_ops : list operation; q_agg : option aggregation }.

(** types.rs:93-100, 50-64. *)
Inductive agg_value := AVInt (z : Z) | AVFloat (f : f64) | AVCur (amount : dec) (code : str).
Inductive agg_result :=
| RSelect (columns : list str) (rows : list (list (option value)))
| RCount (n : nat)
| RSum (v : agg_value)
| RAverage (f : f64)
| RMedian (f : f64).
Inductive query_result := QEntities (es : list entity) | QAgg (r : agg_result).

(** aggregation/select.rs:8-40. *)
Definition column_name (f : field_ref) : str :=
  match f with FMeta MId => L "@id" | FMeta MType => L "@type" | FReg f => f end.
Definition cell (e : entity) (f : field_ref) : option value :=
  match f with
  | FMeta m => Some (meta_value m e)
  | FReg f => get_field e f
  end.
Definition exec_select (fs : list field_ref) (es : list entity) : agg_result :=
  RSelect (map column_name fs) (map (fun e => map (cell e) fs) es).

(** aggregation/count.rs:8-21. *)
Definition has_field (f : field_id) (e : entity) : bool :=
  match get_field e f with Some _ => true | None => false end.
Definition exec_count (f : option field_ref) (es : list entity) : agg_result :=
  RCount (match f with
          | None | Some (FMeta _) => length es
          | Some (FReg f) => length (filter (has_field f) es)
          end).

(** aggregation/mod.rs:45-52. *)
Inductive numeric := NInt (z : Z) | NFloat (f : f64) | NCur (amount : dec) (code : str).

(** aggregation/mod.rs:54-65. *)
Definition as_f64 (x : ext) (n : numeric) : f64 :=
  match n with
  | NInt z => f_of_Z z
  | NFloat f => f
  | NCur a _ => match dec_to_f64 x a with Some f => f | None => f_zero end
  end.

(** aggregation/mod.rs:108-143. *)
Fixpoint collect_numeric (f : field_id) (es : list entity) : qres (list numeric) :=
  match es with
  | [] => Ok []
  | e :: es' =>
      let push n := match collect_numeric f es' with Ok l => Ok (n :: l) | Err er => Err er end in
      match get_field e f with
      | None => collect_numeric f es'
      | Some (VInt z) => push (NInt z)
      | Some (VFloat a) => push (NFloat a)
      | Some (VCur a c) => push (NCur a c)
      | Some v => Err (InvalidAggregation (AggNonNumeric f (get_type v)))
      end
  end.

(** aggregation/mod.rs:68-105. The remembered currency is the last one seen. *)
Inductive numeric_type := NTInt | NTFloat | NTCur (code : str).
Definition classify (ns : list numeric) : qres numeric_type :=
  let has_int := existsb (fun n => match n with NInt _ => true | _ => false end) ns in
  let has_float := existsb (fun n => match n with NFloat _ => true | _ => false end) ns in
  let cur := fold_left (fun acc n => match n with NCur _ c => Some c | _ => acc end) ns None in
  match cur with
  | Some c => if has_int || has_float then Err (InvalidAggregation AggCurrencyAndNumbers) else Ok (NTCur c)
  | None => if has_float then Ok NTFloat else Ok NTInt
  end.

(** Two's complement wrap-around to i64. *)
Definition wrap_i64 (z : Z) : Z := ((z - i64_min) mod 2 ^ 64 + i64_min)%Z.
Definition i64_add (x : ext) (a b : Z) : option Z :=
  if in_i64 (a + b) then Some (a + b)%Z
  else if overflow_checks x then None else Some (wrap_i64 (a + b)).
Fixpoint i64_sum (x : ext) (acc : Z) (l : list Z) : option Z :=
  match l with
  | [] => Some acc
  | z :: l' => match i64_add x acc z with Some a => i64_sum x a l' | None => None end
  end.
Definition f64_sum (x : ext) (l : list f64) : f64 :=
  fold_left f_add l (S754_zero (sum_start_negative x)).

Definition dec_plus (x : ext) (a b : dec) : option dec :=
  match dec_add a b with Some d => Some d | None => dec_add_round x a b end.

(** aggregation/sum.rs:36-56. *)
Fixpoint cur_sum (x : ext) (expected : str) (acc : dec) (l : list numeric) : qres dec :=
  match l with
  | [] => Ok acc
  | NCur a c :: l' =>
      if str_eqb c expected
      then match dec_plus x acc a with Some d => cur_sum x expected d l' | None => Err Panicked end
      else Err (InvalidAggregation (AggMixedCurrencies expected c))
  | _ :: _ => Err Panicked
  end.

(** aggregation/mod.rs:28-41. *)
Definition regular (f : field_ref) : qres field_id :=
  match f with FReg f => Ok f | FMeta _ => Err (InvalidAggregation AggMetadata) end.

Definition bind {A B} (r : qres A) (k : A -> qres B) : qres B :=
  match r with Ok a => k a | Err e => Err e end.

(** aggregation/sum.rs:9-63. *)
Definition sum_numeric (x : ext) (ns : list numeric) : qres agg_result :=
  match ns with
  | [] => Ok (RSum (AVInt 0))
  | _ =>
      bind (classify ns) (fun t =>
      match t with
      | NTInt =>
          match i64_sum x 0 (map (fun n => match n with NInt z => z | _ => 0%Z end) ns) with
          | Some z => Ok (RSum (AVInt z))
          | None => Err Panicked
          end
      | NTFloat => Ok (RSum (AVFloat (f64_sum x (map (as_f64 x) ns))))
      | NTCur c => bind (cur_sum x c dec_zero ns) (fun d => Ok (RSum (AVCur d c)))
      end)
  end.
Definition exec_sum (x : ext) (f : field_ref) (es : list entity) : qres agg_result :=
  bind (regular f) (fun f => bind (collect_numeric f es) (sum_numeric x)).

(** aggregation/average.rs:9-26. *)
Definition average_numeric (x : ext) (ns : list numeric) : qres agg_result :=
  match ns with
  | [] => Err (InvalidAggregation AggEmpty)
  | _ => Ok (RAverage (f_div (f64_sum x (map (as_f64 x) ns)) (f_of_Z (Z.of_nat (length ns)))))
  end.
Definition exec_average (x : ext) (f : field_ref) (es : list entity) : qres agg_result :=
  bind (regular f) (fun f => bind (collect_numeric f es) (average_numeric x)).

(** aggregation/median.rs:9-33. *)
Definition f_cmp_or_eq (a b : f64) : comparison := match f_cmp a b with Some c => c | None => Eq end.
Definition f_two : f64 := f_of_Z 2.
Definition median_of (l : list f64) : f64 :=
  let s := sort_by f_cmp_or_eq l in
  let n := length s in
  if Nat.even n
  then f_div (f_add (nth (n / 2 - 1) s f_zero) (nth (n / 2) s f_zero)) f_two
  else nth (n / 2) s f_zero.
Definition median_numeric (x : ext) (ns : list numeric) : qres agg_result :=
  match ns with
  | [] => Err (InvalidAggregation AggEmpty)
  | _ => Ok (RMedian (median_of (map (as_f64 x) ns)))
  end.
Definition exec_median (x : ext) (f : field_ref) (es : list entity) : qres agg_result :=
  bind (regular f) (fun f => bind (collect_numeric f es) (median_numeric x)).

(** aggregation/mod.rs:16-24. *)
Definition exec_agg (x : ext) (a : aggregation) (es : list entity) : qres agg_result :=
  match a with
  | ASelect fs => Ok (exec_select fs es)
  | ACount f => Ok (exec_count f es)
  | ASum f => exec_sum x f es
  | AAverage f => exec_average x f es
  | AMedian f => exec_median x f es
  end.

(** types.rs:150-170. *)
Definition select_from (g : graph) (ho : hash_order) (s : selector) : qres (list entity) :=
  match s with
  | SType t =>
      if str_in t (type_keys g) then Ok (list_by_type g t)
      else Err (UnknownEntityType t (ho [0] (type_keys g)))
  | SAll => Ok (flat_map (list_by_type g) (ho [0] (type_keys g)))
  end.

(** types.rs:173-200. [n] is the position of the operation in the query. *)
Definition exec_op (x : ext) (g : graph) (ho : hash_order) (n : nat) (o : operation) (es : list entity)
  : qres (list entity) :=
  match o with
  | QWhere cc => where_step x cc es
  | QOrder f d => Ok (order_step f d es)
  | QLimit k => Ok (firstn k es)
  | QRelated d t => Ok (related_step g ho [S n] d t es)
  end.
Fixpoint exec_ops (x : ext) (g : graph) (ho : hash_order) (n : nat) (ops : list operation) (es : list entity)
  : qres (list entity) :=
  match ops with
  | [] => Ok es
  | o :: ops' => bind (exec_op x g ho n o es) (exec_ops x g ho (S n) ops')
  end.

(** types.rs:145-210. *)
Definition execute (x : ext) (g : graph) (ho : hash_order) (q : query) : qres query_result :=
  bind (select_from g ho (q_from q)) (fun start =>
  bind (exec_ops x g ho 0 (q_ops q) start) (fun es =>
  match q_agg q with
  | None => Ok (QEntities es)
  | Some a => bind (exec_agg x a es) (fun r => Ok (QAgg r))
  end)).
