(** The messages of a query that fails: firm_core/src/graph/query/query_errors.rs
    and the places in filter/*.rs and aggregation/*.rs where the texts are put
    together; firm_mcp/src/tools/query.rs, firm_cli/src/commands/query.rs. *)
From Verif Require Import M_Graph.
From Verif Require Export M_QParse M_Answer M_Show.
Close Scope Z_scope.

(** What the parser generator says of a text, and the wording for a number that
    cannot be read (parser.rs:256, 273, 340-343, 416-419). *)
Record fail_env := { fe_syntax : str -> str; fe_number : str -> str }.

(** The derived [Debug] of filter/types.rs:30-42. *)
Definition operator_debug (o : operator) : str :=
  match o with
  | OpEq => L "Equal" | OpNe => L "NotEqual" | OpGt => L "GreaterThan" | OpLt => L "LessThan"
  | OpGe => L "GreaterOrEqual" | OpLe => L "LessOrEqual" | OpContains => L "Contains"
  | OpStartsWith => L "StartsWith" | OpEndsWith => L "EndsWith" | OpIn => L "In"
  end.
(** The operators listed: boolean.rs:30, string.rs:55-61 and 105-111,
    numeric.rs:7 and 97, currency.rs:8 and 53, datetime.rs:8, 66 and 88,
    reference.rs:28, list.rs:69. *)
Definition supported_ops (t : field_type) : list str :=
  match t with
  | TBool | TRef => [L "=="; L "!="]
  | TStr | TEnum | TPath => [L "=="; L "!="; L "contains"; L "starts_with"; L "ends_with"]
  | TInt | TFloat | TCur | TDate => [L "=="; L "!="; L ">"; L "<"; L ">="; L "<="]
  | TList => [L "contains"; L "=="]
  end.

(** The word for the aggregation (sum.rs:13, average.rs:13, median.rs:13). *)
Definition agg_word (a : aggregation) : str :=
  match a with
  | ASum _ => L "sum" | AAverage _ => L "average" | AMedian _ => L "median"
  | ASelect _ => L "select" | ACount _ => L "count"
  end.
(** The field of it, as it is put into the hint of sum.rs:41-52. *)
Definition agg_field (a : aggregation) : str :=
  match a with ASum (FReg f) => f | _ => [] end.
(** aggregation/mod.rs:34-39, 93-95, 130-136, sum.rs:41-52, average.rs:17-19,
    median.rs:17-19. *)
Definition show_agg_error (a : aggregation) (e : agg_error) : str :=
  match e with
  | AggMetadata => L "Cannot " ++ agg_word a ++ L " a metadata field. Use a regular numeric field."
  | AggEmpty => L "Cannot compute " ++ agg_word a ++ L " of empty result set"
  | AggNonNumeric f t => L "Cannot aggregate non-numeric field '" ++ f ++ L "'. Found type: " ++ ftype_name t
  | AggCurrencyAndNumbers => L "Cannot mix currency and numeric values in aggregation"
  | AggMixedCurrencies expected found =>
      L "Cannot sum mixed currencies (found " ++ expected ++ L ", " ++ found ++ L "). Filter first, e.g.: where "
        ++ agg_field a ++ L " >= 0 " ++ expected
  end.
(** query_errors.rs:34-84. [Panicked] is no error and has no text. *)
Definition show_query_error (q : query) (e : query_error) : str :=
  match e with
  | UnsupportedOperator t o =>
      L "Cannot use '" ++ operator_debug o ++ L "' operator on " ++ ftype_name t ++ L " fields. Supported: "
        ++ join (L ", ") (supported_ops t)
  | TypeMismatch t w => L "Type mismatch: " ++ ftype_name t ++ L " field cannot be compared with " ++ ftype_name w ++ L " value"
  | UnknownEntityType t [] => L "Entity type '" ++ t ++ L "' not found. No entity types exist."
  | UnknownEntityType t l => L "Entity type '" ++ t ++ L "' not found. Available types: " ++ join (L ", ") l
  | InvalidDateFormat s => L "Invalid date '" ++ s ++ L "'. Expected format: YYYY-MM-DD or full ISO 8601 datetime."
  | InvalidAggregation e =>
      L "Invalid aggregation: " ++ match q_agg q with Some a => show_agg_error a e | None => [] end
  | Panicked => []
  end.
(** parser.rs:19-26, 30-33, 161-166. *)
Definition show_parse_error (fe : fail_env) (s : str) (e : qp_error) : str :=
  match e with
  | SyntaxError => L "Syntax error: " ++ fe_syntax fe s
  | MixedCombinators => L "Syntax error: Cannot mix AND and OR in the same WHERE clause. Use separate WHERE clauses instead."
  | InvalidNumber t => L "Invalid number: " ++ fe_number fe t
  end.

(** tools/query.rs:21-70; [None] if the process panics. *)
Definition tell_query (fe : fail_env) (sv : show_env) (x : ext) (ho : hash_order) (g : graph) (s : str) : option said :=
  match read_query s with
  | M_Graph.Err e => Some (fails (L "Failed to parse query: " ++ show_parse_error fe s e))
  | M_Graph.Ok q =>
      match execute x g ho q with
      | M_Graph.Ok r => Some (says (query_tool_text sv r))
      | M_Graph.Err Panicked => None
      | M_Graph.Err e => Some (fails (L "Query execution failed: " ++ show_query_error q e))
      end
  end.
