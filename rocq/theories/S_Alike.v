(** Values that are written alike in a source file and in a query. *)
From Coq Require Import ZArith.
From Verif Require Import M_Query M_QParse S_Query S_QText S_Round S_Amount.
From Verif Require Import M_Graph M_Text M_Dsl S_Syntax.
Close Scope Z_scope.

(** The value of a field, where the source file at [path] has the literal [t] of
    the kind [k]. *)
Definition stored (env : dsl_env) (path : str) (k : vkind) (t : str) (v : value) : Prop :=
  literal_syntax k t /\ exists p, from_node env path (VNode (Some k) t []) = M_Text.Ok p /\ v = M_Dsl.to_value p.
(** The query [from * | where f == t]. *)
Definition asking (f t : str) : str := L "from * | where " ++ f ++ L " == " ++ t.
(** It is a query, and finds every entity with the value [v] in the field. *)
Definition always_found (x : ext) (f t : str) (v : value) : Prop :=
  exists k, condition_read (asking f t) k /\ forall e, get_field e (new_id f) = Some v -> matches x k e = M_Graph.Ok true.
(** It is no query, or finds no entity with this value. *)
Definition never_found (x : ext) (f t : str) (v : value) : Prop :=
  forall k e, condition_read (asking f t) k -> get_field e (new_id f) = Some v -> matches x k e <> M_Graph.Ok true.

(** Neither a blank nor a tab comes first. *)
Definition no_blank_first (s : str) : Prop := forall c r, s = c :: r -> c <> " "%char /\ c <> ascii_of_nat 9.
(** When the two languages mean the same by [t], which a source file has for
    [v]. *)
Definition means_the_same (t : str) (v : value) : Prop :=
  match v with
  (* on one line, and read without loss in the query *)
  | VStr s => t = [DQ] ++ s ++ [DQ] /\ one_line s /\ no_blank_first s
  (* the query counts in floats *)
  | VInt z => has_53_digits z \/ z = (2 ^ 63 - 1)%Z
  | VFloat g => f_is_finite g = true /\ (Z.abs (units g) <= 2 ^ 63 * 2 ^ 1074)%Z
  (* the query does not normalise *)
  | VRef r => lower t = lower (ref_display r)
  (* the query knows no times *)
  | VDate _ => date_syntax t
  (* the query does not resolve the path, and drops blanks before it *)
  | VPath p => exists w s, t = L "path" ++ [DQ] ++ w ++ s ++ [DQ] /\ S_QText.blank w /\ no_blank_first s /\ lower s = lower p
  | VEnum s => t = L "enum" ++ [DQ] ++ s ++ [DQ] /\ no_blank_first s
  (* the query counts in floats, where the amount must be exact *)
  | VCur d _ => binary_amount d
  | VBool _ | VList _ => True
  end.
(** An amount of ordinary size, in a currency whose name is not taken for the
    "and" or "or" of a query (no currency's is). *)
Definition ordinary_value (v : value) : Prop := match v with VCur d c => ordinary_amount d /\ currency_text c | _ => True end.
