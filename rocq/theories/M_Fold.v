(** Lower-casing of letters beyond ASCII. Elsewhere in the model
    [str::to_lowercase] changes ASCII letters only. Here the functions of the code
    that call it are written for an arbitrary function [f] in its place. *)
From Verif Require Import M_Graph M_Query M_Schema.
From Verif Require Export M_Tools.
From Verif Require Import M_Graph.

(** firm_core/src/graph/query/filter/string.rs:41-64 and 91-114: equality ignores
    the case of ASCII letters, the other tests lower-case both texts. *)
Definition text_op_by (f : str -> str) (o : operator) (a b : str) : option bool :=
  match o with
  | OpEq => Some (eq_ignore_case a b)
  | OpNe => Some (negb (eq_ignore_case a b))
  | OpContains => Some (contains (f a) (f b))
  | OpStartsWith => Some (starts_with (f a) (f b))
  | OpEndsWith => Some (ends_with (f a) (f b))
  | _ => None
  end.
(** filter/string.rs:9-115. *)
Definition compare_string_by (f : str -> str) (v : value) (o : operator) (w : fvalue) : qres bool :=
  match v with
  | VStr a | VEnum a | VPath a =>
      match w with
      | FStr b | FEnum b | FPath b => or_unsupported v o (text_op_by f o a b)
      | _ => mismatch v w
      end
  | _ => mismatch v w
  end.
(** filter/list.rs:75-92. *)
Definition compare_list_item_by (f : str -> str) (x : ext) (v : value) (o : operator) (w : fvalue) : qres bool :=
  match v with
  | VStr _ | VEnum _ | VPath _ => compare_string_by f v o w
  | _ => compare_list_item x v o w
  end.
(** filter/list.rs:29-42. *)
Fixpoint list_contains_by (f : str -> str) (x : ext) (items : list value) (w : fvalue) : qres bool :=
  match items with
  | [] => Ok false
  | i :: items' =>
      let m := match i, w with
               | VStr _, FStr _ => compare_string_by f i OpContains w
               | _, _ => compare_list_item_by f x i OpEq w
               end in
      match m with
      | Err e => Err e
      | Ok true => Ok true
      | Ok false => list_contains_by f x items' w
      end
  end.
(** filter/list.rs:9-71. Its [==] compares items by [==] (52-57). *)
Definition compare_list_by (f : str -> str) (x : ext) (v : value) (o : operator) (w : fvalue) : qres bool :=
  match v, o with
  | VList items, OpContains => list_contains_by f x items w
  | _, _ => compare_list x v o w
  end.
(** filter/mod.rs:107-130. *)
Definition compare_value_by (f : str -> str) (x : ext) (v : value) (o : operator) (w : fvalue) : qres bool :=
  match v with
  | VStr _ | VEnum _ | VPath _ => compare_string_by f v o w
  | VList _ => compare_list_by f x v o w
  | _ => compare_value x v o w
  end.
(** filter/mod.rs:37-42, 86-97, 99-131. *)
Definition matches_by (f : str -> str) (x : ext) (c : condition) (e : entity) : qres bool :=
  match c_field c with
  | FMeta m => compare_string_by f (meta_value m e) (c_op c) (c_value c)
  | FReg n =>
      match get_field e n with
      | Some v => compare_value_by f x v (c_op c) (c_value c)
      | None => Ok false
      end
  end.
(** filter/mod.rs:70-81. *)
Definition matches_all_by (f : str -> str) (x : ext) (cc : compound) (e : entity) : qres bool :=
  match collect (fun c => matches_by f x c e) (cc_conds cc) with
  | Err er => Err er
  | Ok bs => Ok (match cc_comb cc with CAnd => forallb (fun b => b) bs | COr => existsb (fun b => b) bs end)
  end.
(** types.rs:175-183. *)
Fixpoint where_step_by (f : str -> str) (x : ext) (cc : compound) (es : list entity) : qres (list entity) :=
  match es with
  | [] => Ok []
  | e :: es' =>
      match matches_all_by f x cc e with
      | Err er => Err er
      | Ok b =>
          match where_step_by f x cc es' with
          | Err er => Err er
          | Ok r => Ok (if b then e :: r else r)
          end
      end
  end.

(** order.rs:56-137. *)
Fixpoint cmp_values_by (f : str -> str) (a b : value) {struct a} : comparison :=
  match a, b with
  | VStr x, VStr y => str_cmp (f x) (f y)
  | VEnum x, VEnum y => str_cmp (f x) (f y)
  | VRef x, VRef y => str_cmp (f (ref_display x)) (f (ref_display y))
  | VList xs, VList ys =>
      (fix go (l r : list value) {struct l} : comparison :=
         match l, r with
         | u :: l', w :: r' => match cmp_values_by f u w with Eq => go l' r' | o => o end
         | _, _ => Nat.compare (length xs) (length ys)
         end) xs ys
  | _, _ => cmp_values a b
  end.
(** order.rs:8-53. *)
Definition cmp_by_field_by (f : str -> str) (fr : field_ref) (a b : entity) : comparison :=
  match fr with
  | FReg n =>
      match get_field a n, get_field b n with
      | None, None => Eq
      | None, Some _ => Gt
      | Some _, None => Lt
      | Some x, Some y => cmp_values_by f x y
      end
  | FMeta MType => str_cmp (f (e_type a)) (f (e_type b))
  | FMeta MId => str_cmp (f (e_id a)) (f (e_id b))
  end.
Definition compare_entities_by (f : str -> str) (fr : field_ref) (d : sort_direction) (a b : entity) : comparison :=
  match d with
  | Ascending => cmp_by_field_by f fr a b
  | Descending => CompOpp (cmp_by_field_by f fr a b)
  end.
(** types.rs:184-188. *)
Definition order_step_by (f : str -> str) (fr : field_ref) (d : sort_direction) (es : list entity) : list entity :=
  sort_by (compare_entities_by f fr d) es.

(** types.rs:173-200. *)
Definition exec_op_by (f : str -> str) (x : ext) (g : graph) (ho : hash_order) (n : nat) (o : operation) (es : list entity)
  : qres (list entity) :=
  match o with
  | QWhere cc => where_step_by f x cc es
  | QOrder fr d => Ok (order_step_by f fr d es)
  | _ => exec_op x g ho n o es
  end.
Fixpoint exec_ops_by (f : str -> str) (x : ext) (g : graph) (ho : hash_order) (n : nat) (ops : list operation) (es : list entity)
  : qres (list entity) :=
  match ops with
  | [] => Ok es
  | o :: ops' => bind (exec_op_by f x g ho n o es) (exec_ops_by f x g ho (S n) ops')
  end.
(** types.rs:145-210. *)
Definition execute_by (f : str -> str) (x : ext) (g : graph) (ho : hash_order) (q : query) : qres query_result :=
  bind (select_from g ho (q_from q)) (fun start =>
  bind (exec_ops_by f x g ho 0 (q_ops q) start) (fun es =>
  match q_agg q with
  | None => Ok (QEntities es)
  | Some a => bind (exec_agg x a es) (fun r => Ok (QAgg r))
  end)).

(** firm_core/src/schema/mod.rs:38-52 and schema/validation.rs:41-58: the allowed
    values of an enum field as declared, and whether a word is one of them. *)
Definition allowed_by (f : str -> str) (vs : list str) : list str := map (fun v => f (utrim v)) vs.
Definition enum_admits_by (f : str -> str) (allowed : list str) (x : str) : bool := str_in (f (utrim x)) allowed.

(** firm_mcp/src/tools/search_source.rs:55-59. *)
Definition line_matches_by (f : str -> str) (query : str) (case_sensitive : bool) (line : str) : bool :=
  if case_sensitive then contains line query else contains (f line) (f query).
(** search_source.rs:28-102. *)
Definition search_source_by (f : str -> str) (c : ctx) (d : fs) (st : state) (query : str) (case_sensitive : bool) : found_lines :=
  match query with
  | [] => EmptyQuery
  | _ =>
      match search_files c d (line_matches_by f query case_sensitive) (source_paths st) 0 with
      | (groups, total, truncated) => if total =? 0 then NoMatches else Matches groups truncated
      end
  end.
