(** From the text of the source files to the answer of a query: C73. *)
From Verif Require Import S_Graph M_Graph.
From Verif Require Export S_Syntax S_Cli.
From Verif Require Import S_QText.
Close Scope Z_scope.

(** A workspace without symbolic links, in the documented syntax, read by a
    parser of that syntax; [st] is what it is built to. *)
Record built (c : ctx) (w : place) (d : fs) (st : state) : Prop := {
  bt_place : runs_in c d w;
  bt_links : no_links_in w d;
  bt_tidy : tidy d;
  bt_parser : follows_syntax (c_parse c);
  bt_texts : documented w d;
  bt_fields : shuffles (c_fields c);
  bt_schemas : forall l, Permutation (c_schemas c l) l;
  bt_files : forall l, Permutation (c_files c l) l;
  bt_state : rebuild c d = M_Text.Ok st
}.

(** A source file has the block  [t i { fs }]. *)
Definition declares (w : place) (d : fs) (t i : str) (fs : list fnode) : Prop :=
  exists r s bs, source_of w d r s /\ file_syntax bs s /\
    In (EntityBlock {| en_type := Some t; en_id := Some i; en_fields := fs |}) bs.
(** The first field of this name is [name = v]. *)
Definition first_field (fs : list fnode) (name : str) (v : vnode) : Prop :=
  exists l r, fs = l ++ field_node name v :: r /\ forall n, In n l -> fn_id n <> Some name.

(** ** What values stand for *)
(** One line in quotes; or lines in triple quotes, without the indentation they
    have in common and the white space at the ends. *)
Inductive text_literal : str -> str -> Prop :=
| text_line s : one_line s -> text_literal ([DQ] ++ s ++ [DQ]) s
| text_lines body k ds s : up_to q3 body -> common_indentation (lines body) k ->
    Forall2 (fun l m => k <= length l /\ m = skipn k l \/ length l < k /\ m = l) (lines body) ds ->
    trimmed_of (join [LF] ds) s -> text_literal (q3 ++ body ++ q3) s.
Definition has_text (fs : list fnode) (name s : str) : Prop :=
  exists raw, first_field fs name (VNode (Some KString) raw []) /\ text_literal raw s.
(** An integer: decimal digits, perhaps after a minus sign. *)
Inductive numeral : str -> Z -> Prop :=
| numeral_one c : is_digit c = true -> numeral [c] (Z.of_N (code c) - 48)
| numeral_next s z c : numeral s z -> is_digit c = true -> numeral (s ++ [c]) (10 * z + (Z.of_N (code c) - 48)).
Definition integer_literal (raw : str) (z : Z) : Prop := numeral raw z \/ exists s, raw = "-"%char :: s /\ numeral s (- z).
Definition has_integer (fs : list fnode) (name : str) (z : Z) : Prop :=
  exists raw, first_field fs name (VNode (Some KNumber) raw []) /\ integer_literal raw z.
(** A reference to the entity  [t.i]. *)
Definition refers_to (fs : list fnode) (name t i : str) : Prop :=
  first_field fs name (VNode (Some KReference) (t ++ L "." ++ i) []).

(** The schema of type [t] the workspace is built with says that the field is
    of this type. *)
Definition field_typed (st : state) (t name : str) (ty : field_type) : Prop :=
  exists s f, In s (b_schemas (st_build st)) /\ s_type s = t /\ In (name, f) (s_fields s) /\ fs_type f = ty.
(** A name as it is in a query and in a normalised id. *)
Definition plain_name (s : str) : Prop := identifier s /\ new_id s = s.

(** What the query  [text]  answers. *)
Definition finds (x : cli_env) (st : state) (text : str) (es : list entity) : Prop :=
  query_text x (st_graph st) text = Some (M_Query.QEntities es) /\ NoDup (map e_id es).
(** What the tests of a query say of a text [a] and of an integer [z]: texts are
    compared without regard to the case of letters. *)
Definition text_test (o : M_Query.operator) (a s : str) : Prop :=
  match o with
  | M_Query.OpEq => lower a = lower s
  | M_Query.OpNe => lower a <> lower s
  | M_Query.OpContains => exists l r, lower a = l ++ lower s ++ r
  | M_Query.OpStartsWith => exists r, lower a = lower s ++ r
  | M_Query.OpEndsWith => exists l, lower a = l ++ lower s
  | _ => False
  end.
Definition tests_text (o : M_Query.operator) : Prop :=
  In o [M_Query.OpEq; M_Query.OpNe; M_Query.OpContains; M_Query.OpStartsWith; M_Query.OpEndsWith].
Definition integer_test (o : M_Query.operator) (z k : Z) : Prop :=
  match o with
  | M_Query.OpEq => z = k
  | M_Query.OpNe => z <> k
  | M_Query.OpLt => (z < k)%Z
  | M_Query.OpLe => (z <= k)%Z
  | M_Query.OpGt => (k < z)%Z
  | M_Query.OpGe => (k <= z)%Z
  | _ => False
  end.
Definition tests_integer (o : M_Query.operator) : Prop :=
  In o [M_Query.OpEq; M_Query.OpNe; M_Query.OpLt; M_Query.OpLe; M_Query.OpGt; M_Query.OpGe].
(** The query  [from t | where f o v]. *)
Definition where_query (t f : str) (o : M_Query.operator) (v : str) : str :=
  L "from " ++ t ++ L " | where " ++ f ++ L " " ++ operator_text o ++ L " " ++ v.
(** A text that can be written in a query: no quotes, and no blank before it. *)
Definition query_literal (s : str) : Prop :=
  ~ In """"%char s /\ forall c r, s = c :: r -> c <> " "%char /\ c <> ascii_of_nat 9 /\ c <> ascii_of_nat 10.
