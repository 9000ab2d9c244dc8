(** What the theorems about the messages of a failed query speak about. *)
From Verif Require Import M_Graph S_Graph.
From Verif Require Export M_QFail S_Query S_Blame.
Close Scope Z_scope.

(** ** What can be compared with what, and how *)
(** The operators that a value of a type takes. *)
Definition takes (t : field_type) (o : operator) : Prop :=
  match t with
  | TBool | TRef => In o [OpEq; OpNe]
  | TStr | TEnum | TPath => In o [OpEq; OpNe; OpContains; OpStartsWith; OpEndsWith]
  | TInt | TFloat | TCur | TDate => In o [OpEq; OpNe; OpGt; OpLt; OpGe; OpLe]
  | TList => In o [OpEq; OpContains]
  end.
(** The types that can be compared with a value of a type that is no list. *)
Definition goes_with (t w : field_type) : Prop :=
  match t with
  | TBool => w = TBool
  | TStr | TEnum | TPath => In w [TStr; TEnum; TPath]
  | TInt | TFloat => In w [TInt; TFloat]
  | TCur => w = TCur
  | TDate => w = TDate
  | TRef => In w [TRef; TStr]
  | TList => w = TList
  end.
(** The operator as it is written in the list of operators that can be used. *)
Definition listed_as (o : operator) : str :=
  match o with
  | OpEq => L "==" | OpNe => L "!=" | OpGt => L ">" | OpLt => L "<" | OpGe => L ">=" | OpLe => L "<="
  | OpContains => L "contains" | OpStartsWith => L "starts_with" | OpEndsWith => L "ends_with" | OpIn => L "in"
  end.

(** And in the message: by its name in the code. *)
Definition coded_as (o : operator) : str :=
  match o with
  | OpEq => L "Equal" | OpNe => L "NotEqual" | OpGt => L "GreaterThan" | OpLt => L "LessThan"
  | OpGe => L "GreaterOrEqual" | OpLe => L "LessOrEqual" | OpContains => L "Contains"
  | OpStartsWith => L "StartsWith" | OpEndsWith => L "EndsWith" | OpIn => L "In"
  end.

(** The text is a true account of why [v] cannot be compared so. *)
Inductive bad_comparison (v : value) (o : operator) (w : fvalue) : str -> Prop :=
| bad_operator ops : ~ takes (get_type v) o -> NoDup ops -> (forall p, In p ops <-> takes (get_type v) p) ->
    bad_comparison v o w (L "Cannot use '" ++ coded_as o ++ L "' operator on " ++ type_title (get_type v)
      ++ L " fields. Supported: " ++ join (L ", ") (map listed_as ops))
| bad_types : ~ goes_with (get_type v) (fvalue_type w) ->
    bad_comparison v o w (L "Type mismatch: " ++ type_title (get_type v) ++ L " field cannot be compared with "
      ++ type_title (fvalue_type w) ++ L " value")
| bad_date d s : v = VDate d -> w = FDate s -> parse_rfc3339 s = None -> parse_naive_date s = None ->
    bad_comparison v o w (L "Invalid date '" ++ s ++ L "'. Expected format: YYYY-MM-DD or full ISO 8601 datetime.").
(** The same of one item of a list: it is to be equal to the value asked for, or
    to the one in its place in the list asked for. *)
Inductive bad_value (v : value) (o : operator) (w : fvalue) : str -> Prop :=
| bad_itself t : bad_comparison v o w t -> bad_value v o w t
| bad_item items i t : v = VList items -> o = OpContains -> In i items -> bad_comparison i OpEq w t -> bad_value v o w t
| bad_in_place items ws k i u t : v = VList items -> o = OpEq -> w = FList ws -> length items = length ws ->
    nth_error items k = Some i -> nth_error ws k = Some u -> bad_comparison i OpEq u t -> bad_value v o w t.
(** What a condition is about. *)
Definition asks_about (fr : field_ref) (e : entity) (v : value) : Prop :=
  match fr with
  | FMeta MType => v = VStr (e_type e)
  | FMeta MId => v = VStr (e_id e)
  | FReg f => get_field e f = Some v
  end.

(** ** Why an aggregation fails *)
Definition of_field (a : aggregation) : option field_ref :=
  match a with ASum f | AAverage f | AMedian f => Some f | _ => None end.
Definition called (a : aggregation) : str :=
  match a with ASum _ => L "sum" | AAverage _ => L "average" | AMedian _ => L "median" | ASelect _ => L "select" | ACount _ => L "count" end.
Inductive bad_aggregation (a : aggregation) (es : list entity) : str -> Prop :=
| bad_metadata m : of_field a = Some (FMeta m) ->
    bad_aggregation a es (L "Cannot " ++ called a ++ L " a metadata field. Use a regular numeric field.")
| bad_no_numbers f : of_field a = Some (FReg f) -> column f es = [] -> ~ (exists r, a = ASum r) ->
    bad_aggregation a es (L "Cannot compute " ++ called a ++ L " of empty result set")
| bad_kind f e v : of_field a = Some (FReg f) -> In e es -> get_field e f = Some v -> is_numeric v = false ->
    bad_aggregation a es (L "Cannot aggregate non-numeric field '" ++ f ++ L "'. Found type: " ++ type_title (get_type v))
| bad_mixture f d k n : a = ASum (FReg f) -> In (VCur d k) (column f es) -> In n (column f es) -> (forall d k, n <> VCur d k) ->
    bad_aggregation a es (L "Cannot mix currency and numeric values in aggregation")
| bad_currencies f d k d' k' : a = ASum (FReg f) -> In (VCur d k) (column f es) -> In (VCur d' k') (column f es) -> k <> k' ->
    bad_aggregation a es (L "Cannot sum mixed currencies (found " ++ k ++ L ", " ++ k' ++ L "). Filter first, e.g.: where "
      ++ f ++ L " >= 0 " ++ k).

(** ** Why a query fails *)
(** The text is a true account of why the query cannot be answered, [all] being
    the entities of the graph: its type is that of none of them; a step before which entities [es] are left meets one
    that cannot be compared as asked; what is left cannot be aggregated. *)
Inductive unanswerable (x : ext) (all : list entity) (g : graph) (ho : hash_order) (q : query) : str -> Prop :=
| un_nothing t : q_from q = SType t -> all = [] ->
    unanswerable x all g ho q (L "Entity type '" ++ t ++ L "' not found. No entity types exist.")
| un_type t l : q_from q = SType t -> ~ In t l -> l <> [] -> NoDup l ->
    (forall t', In t' l <-> exists e, In e all /\ e_type e = t') ->
    unanswerable x all g ho q (L "Entity type '" ++ t ++ L "' not found. Available types: " ++ join (L ", ") l)
| un_condition ops1 cc ops2 es e c v text : q_ops q = ops1 ++ QWhere cc :: ops2 ->
    execute x g ho {| q_from := q_from q; q_ops := ops1; q_agg := None |} = M_Graph.Ok (QEntities es) ->
    In e es -> In c (cc_conds cc) -> asks_about (c_field c) e v -> bad_value v (c_op c) (c_value c) text ->
    unanswerable x all g ho q text
| un_aggregation a es text : q_agg q = Some a ->
    execute x g ho {| q_from := q_from q; q_ops := q_ops q; q_agg := None |} = M_Graph.Ok (QEntities es) ->
    bad_aggregation a es text -> unanswerable x all g ho q (L "Invalid aggregation: " ++ text).

(** ** Combining conditions *)
Inductive wish := Cond (c : condition) | Both (a b : wish) | Either (a b : wish).
Fixpoint granted (x : ext) (a : wish) (e : entity) : Prop :=
  match a with
  | Cond c => matches x c e = M_Graph.Ok true
  | Both a b => granted x a e /\ granted x b e
  | Either a b => granted x a e \/ granted x b e
  end.
Fixpoint decidable (x : ext) (a : wish) (e : entity) : Prop :=
  match a with
  | Cond c => exists b, matches x c e = M_Graph.Ok b
  | Both a b | Either a b => decidable x a e /\ decidable x b e
  end.
(** A [where] step with conditions that are all joined by "or". *)
Definition some_of (o : operation) : Prop :=
  exists cs, cs <> [] /\ o = QWhere {| cc_conds := cs; cc_comb := COr |}.
