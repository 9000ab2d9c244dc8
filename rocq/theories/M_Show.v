(** What the user is shown: entities, schemas, lists and results of queries as
    text ([Display] in firm_core, firm_mcp/src/tools, firm_cli/src/ui.rs) and
    as JSON (firm_cli/src/ui.rs:120-136). *)
From Verif Require Export M_GraphJson M_Schema M_Query.
Close Scope Z_scope.

(** ** JSON *)

(** [serde_json::to_string_pretty]: every item on a line of its own, indented by
    two blanks per level; empty containers without a line. Library behaviour. *)
Definition new_line (n : nat) : str := LF :: repeat " "%char (2 * n).
Fixpoint pretty (wf : f64 -> str) (n : nat) (v : jv) : str :=
  match v with
  | JvArr (x :: l) =>
      L "[" ++ join (L ",") (map (fun x => new_line (S n) ++ pretty wf (S n) x) (x :: l)) ++ new_line n ++ L "]"
  | JvObj (x :: l) =>
      L "{" ++ join (L ",") (map (fun kv => new_line (S n) ++ quote (fst kv) ++ L ": " ++ pretty wf (S n) (snd kv)) (x :: l))
        ++ new_line n ++ L "}"
  | v => show_jv wf v
  end.

(** firm_core/src/field.rs:14-41: the names serde derives and those shown are
    the same. *)
Definition ftype_name (t : field_type) : str :=
  match t with
  | TBool => L "Boolean" | TStr => L "String" | TInt => L "Integer" | TFloat => L "Float" | TCur => L "Currency"
  | TRef => L "Reference" | TList => L "List" | TDate => L "DateTime" | TPath => L "Path" | TEnum => L "Enum"
  end.
(** firm_core/src/schema/mod.rs:13-26, 70-75. [ho] is the order in which the
    hash map is walked; [insertion_order] is 0 (mod.rs:83) and never set. *)
Definition enc_fschema (f : fschema) : jv :=
  JvObj [(L "field_type", JvStr (ftype_name (fs_type f)));
         (L "field_mode", JvStr (if fs_required f then L "Required" else L "Optional"));
         (L "order", JvInt (Z.of_nat (fs_order f)));
         (L "allowed_values", match fs_allowed f with None => JvNull | Some vs => JvArr (map JvStr vs) end)].
Definition enc_schema (ho : field_order) (s : schema) : jv :=
  JvObj [(L "entity_type", JvStr (s_type s));
         (L "fields", JvObj (map (fun p => (fst p, enc_fschema (snd p))) (ho (s_fields s))));
         (L "insertion_order", JvInt 0)].

(** The derived [Deserialize] of the same types. A unit variant is read from
    its name only; [insertion_order] is a [u16]. *)
Definition dec_type (j : jv) : option field_type :=
  match j with
  | JvStr s =>
      if str_eqb s (L "Boolean") then Some TBool
      else if str_eqb s (L "String") then Some TStr
      else if str_eqb s (L "Integer") then Some TInt
      else if str_eqb s (L "Float") then Some TFloat
      else if str_eqb s (L "Currency") then Some TCur
      else if str_eqb s (L "Reference") then Some TRef
      else if str_eqb s (L "List") then Some TList
      else if str_eqb s (L "DateTime") then Some TDate
      else if str_eqb s (L "Path") then Some TPath
      else if str_eqb s (L "Enum") then Some TEnum
      else None
  | _ => None
  end.
Definition dec_mode (j : jv) : option bool :=
  match j with
  | JvStr s => if str_eqb s (L "Required") then Some true else if str_eqb s (L "Optional") then Some false else None
  | _ => None
  end.
Definition dec_usize (j : jv) : option nat :=
  match j with JvInt z => if ((0 <=? z) && (z <? 18446744073709551616))%Z then Some (Z.to_nat z) else None | _ => None end.
Definition dec_u16 (j : jv) : option N :=
  match j with JvInt z => if ((0 <=? z) && (z <? 65536))%Z then Some (Z.to_N z) else None | _ => None end.
Definition dec_allowed (l : list (str * jv)) : option (option (list str)) :=
  match filter (fun kv => str_eqb (fst kv) (L "allowed_values")) l with
  | [] | [(_, JvNull)] => Some None
  | [(_, JvArr vs)] => option_map Some (each_some dec_str vs)
  | _ => None
  end.
Definition dec_fschema (j : jv) : option fschema :=
  match j with
  | JvObj l =>
      match member (L "field_type") l, member (L "field_mode") l, member (L "order") l, dec_allowed l with
      | Some t, Some m, Some o, Some a =>
          match dec_type t, dec_mode m, dec_usize o with
          | Some t, Some m, Some o => Some {| fs_type := t; fs_required := m; fs_order := o; fs_allowed := a |}
          | _, _, _ => None
          end
      | _, _, _, _ => None
      end
  | _ => None
  end.
Definition dec_schema (j : jv) : option schema :=
  match j with
  | JvObj l =>
      match member (L "entity_type") l, member (L "fields") l, member (L "insertion_order") l with
      | Some (JvStr t), Some m, Some o =>
          match dec_map dec_fschema m, dec_u16 o with
          | Some fs, Some _ => Some {| s_type := t; s_fields := fs |}
          | _, _ => None
          end
      | _, _, _ => None
      end
  | _ => None
  end.

(** firm_core/src/graph/query/types.rs:49-64, 92-100. *)
Definition enc_cell (c : option value) : jv := match c with Some v => enc_value v | None => JvNull end.
Definition enc_agg_value (v : agg_value) : jv :=
  match v with
  | AVInt z => tagged (L "Integer") (JvInt z)
  | AVFloat f => tagged (L "Float") (JvFloat f)
  | AVCur a k => tagged (L "Currency") (JvObj [(L "amount", JvStr (show_dec a)); (L "currency", JvStr k)])
  end.
Definition enc_agg (r : agg_result) : jv :=
  match r with
  | RSelect cs rows =>
      tagged (L "Select") (JvObj [(L "columns", JvArr (map JvStr cs)); (L "rows", JvArr (map (fun row => JvArr (map enc_cell row)) rows))])
  | RCount n => tagged (L "Count") (JvInt (Z.of_nat n))
  | RSum v => tagged (L "Sum") (enc_agg_value v)
  | RAverage f => tagged (L "Average") (JvFloat f)
  | RMedian f => tagged (L "Median") (JvFloat f)
  end.
(** firm_cli/src/commands/source.rs:40-50. *)
Definition enc_source (target_type target_id path : str) : jv :=
  JvObj [(L "target_type", JvStr target_type); (L "target_id", JvStr target_id); (L "source_path", JvStr path)].

(** firm_cli/src/ui.rs:120-124, and 133-134: what goes to standard output;
    everything else the commands print goes to standard error (ui.rs:44-77). *)
Definition json_output (env : json_env) (v : jv) : str := pretty (je_float env) 0 v ++ [LF].
Definition json_entity (env : json_env) (e : entity) : str := json_output env (enc_entity e).
Definition json_entities (env : json_env) (es : list entity) : str := json_output env (JvArr (map enc_entity es)).
Definition json_names (env : json_env) (l : list str) : str := json_output env (JvArr (map JvStr l)).
Definition json_schema (env : json_env) (ho : field_order) (s : schema) : str := json_output env (enc_schema ho s).
Definition json_source (env : json_env) (t i p : str) : str := json_output env (enc_source t i p).
Definition json_query (env : json_env) (r : query_result) : str :=
  match r with QEntities es => json_entities env es | QAgg a => json_output env (enc_agg a) end.

(** ** Text *)

(** convert_case 0.8, [to_case(Case::Sentence)]: the words of [to_snake], the
    first with a capital, with blanks between them. ASCII letters only. *)
Definition upper_ascii (c : ascii) : ascii := if is_lower c then ascii_of_N (code c - 32) else c.
Definition capital (w : str) : str := match w with c :: w => upper_ascii c :: lower w | [] => [] end.
Definition sentence (s : str) : str :=
  match filter non_empty (split_words s) with
  | [] => []
  | w :: ws => join (L " ") (capital w :: map lower ws)
  end.

(** What is taken from outside: the texts of floats ([{}]) and the names of
    currencies (iso_currency shows the name, not the code). *)
Record show_env := { sv_float : f64 -> str; sv_currency : str -> str }.

(** chrono's [Display for DateTime<FixedOffset>]. Years 0 to 9999 only; the
    seconds of an offset, shown only if there are any, are left out. *)
Definition shown_offset (off : Z) : str :=
  let m := Z.to_N (Z.abs off / 60) in
  (if (off <? 0)%Z then L "-" else L "+") ++ padded 2 (m / 60) ++ L ":" ++ padded 2 (m mod 60).
Definition show_date (d : datetime) : str :=
  format_date (dt_date d) ++ L " " ++ clock_text (dt_secs d) ++ fraction_text (Z.to_N (dt_nanos d)) ++ L " " ++ shown_offset (dt_off d).
(** firm_core/src/field.rs:50-57. *)
Definition show_ref (r : ref_value) : str :=
  match r with REntity id => id | RField id f => id ++ L "." ++ f end.
(** firm_core/src/field.rs:74-98. *)
Fixpoint show_value (x : show_env) (v : value) : str :=
  match v with
  | VBool b => bool_text b
  | VStr s => s
  | VInt z => show_Z z
  | VFloat f => sv_float x f
  | VCur a k => show_dec a ++ L " " ++ sv_currency x k
  | VRef r => show_ref r
  | VList vs => L "[" ++ join (L ",") (map (show_value x) vs) ++ L "]"
  | VDate d => show_date d
  | VPath p => p
  | VEnum s => s
  end.
(** firm_core/src/entity.rs:43-57. *)
Definition show_row (x : show_env) (fv : field_id * value) : str :=
  sentence (fst fv) ++ L ": " ++ show_value x (snd fv) ++ [LF].
Definition show_entity (x : show_env) (e : entity) : str :=
  e_id e ++ [LF; LF] ++ concat (map (show_row x) (e_fields e)).
(** firm_core/src/schema/mod.rs:158-173. *)
Definition show_fschema (p : field_id * fschema) : str :=
  [LF] ++ fst p ++ [LF] ++ L "- Type: " ++ ftype_name (fs_type (snd p)) ++ [LF]
    ++ L "- Required: " ++ bool_text (fs_required (snd p)) ++ [LF]
    ++ match fs_allowed (snd p) with None => [] | Some vs => L "- Allowed values: " ++ join (L ", ") vs ++ [LF] end.
Definition show_schema (ho : field_order) (s : schema) : str :=
  s_type s ++ [LF] ++ concat (map show_fschema (ordered_fields ho s)).
(** firm_core/src/graph/query/types.rs:66-89, 102-112. *)
Definition TAB : ascii := "009".
Definition show_cell (x : show_env) (c : option value) : str := match c with Some v => show_value x v | None => L "-" end.
Definition show_table (x : show_env) (cs : list str) (rows : list (list (option value))) : str :=
  join [TAB] cs ++ [LF] ++ concat (map (fun row => join [TAB] (map (show_cell x) row) ++ [LF]) rows).
Definition show_agg (x : show_env) (r : agg_result) : str :=
  match r with
  | RSelect cs rows => show_table x cs rows
  | RCount n => show_N (N.of_nat n)
  | RSum (AVInt z) => show_Z z
  | RSum (AVFloat f) | RAverage f | RMedian f => sv_float x f
  | RSum (AVCur a k) => show_dec a ++ L " " ++ k
  end.
(** firm_mcp/src/tools/query.rs:55-69. *)
Definition query_tool_text (x : show_env) (r : query_result) : str :=
  match r with
  | QEntities [] => L "No entities found matching the query."
  | QEntities es => join ([LF] ++ L "---" ++ [LF]) (map (show_entity x) es)
  | QAgg a => show_agg x a
  end.
(** firm_cli/src/ui.rs:97-112. *)
Definition dashes : str := repeat "-"%char 39.
Definition list_pretty (x : show_env) (es : list entity) : str :=
  join (dashes ++ [LF]) (map (fun e => [LF] ++ show_entity x e ++ [LF]) es).
