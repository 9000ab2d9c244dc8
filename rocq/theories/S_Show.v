(** What the theorems about what the user is shown speak about. *)
From Verif Require Export M_Show S_Json.
From Verif Require Import M_Graph.
Close Scope Z_scope.

(** ** JSON: how another program reads what was printed *)
Definition read_output {A} (dec : jv -> option A) (text : str) : option A :=
  match read_json text with Some j => dec j | None => None end.
Definition list_from {A} (dec : jv -> option A) (j : jv) : option (list A) :=
  match j with JvArr l => each_some dec l | _ => None end.
Definition cell_from (env : json_env) (j : jv) : option (option value) :=
  match j with JvNull => Some None | j => option_map Some (dec_value env j) end.
Definition float_from (j : jv) : option f64 := match j with JvFloat f => Some f | _ => None end.
(** A result of an aggregation is an object with one member, named like the
    aggregation. *)
Definition result_from (env : json_env) (j : jv) : option agg_result :=
  match j with
  | JvObj [(tag, v)] =>
      if str_eqb tag (L "Select") then
        match v with
        | JvObj l =>
            match member (L "columns") l, member (L "rows") l with
            | Some cs, Some rows =>
                match list_from dec_str cs, list_from (list_from (cell_from env)) rows with
                | Some cs, Some rows => Some (RSelect cs rows)
                | _, _ => None
                end
            | _, _ => None
            end
        | _ => None
        end
      else if str_eqb tag (L "Count") then option_map RCount (dec_usize v)
      else if str_eqb tag (L "Average") then option_map RAverage (float_from v)
      else if str_eqb tag (L "Median") then option_map RMedian (float_from v)
      else if str_eqb tag (L "Sum") then
        match dec_value env v with
        | Some (VInt z) => Some (RSum (AVInt z))
        | Some (VFloat f) => Some (RSum (AVFloat f))
        | Some (VCur a k) => Some (RSum (AVCur a k))
        | _ => None
        end
      else None
  | _ => None
  end.
Definition source_from (j : jv) : option (str * str * str) :=
  match j with
  | JvObj l =>
      match member (L "target_type") l, member (L "target_id") l, member (L "source_path") l with
      | Some (JvStr t), Some (JvStr i), Some (JvStr p) => Some (t, i, p)
      | _, _, _ => None
      end
  | _ => None
  end.

(** A result whose numbers JSON can carry. *)
Inductive storable_result (env : json_env) : agg_result -> Prop :=
| sr_select cs rows : Forall (Forall (fun c => forall v, c = Some v -> storable env v /\ 4 + levels v <= 127)) rows ->
    storable_result env (RSelect cs rows)
| sr_count n : (N.of_nat n < 18446744073709551616)%N -> storable_result env (RCount n)
| sr_sum_int z : storable env (VInt z) -> storable_result env (RSum (AVInt z))
| sr_sum_float f : storable env (VFloat f) -> storable_result env (RSum (AVFloat f))
| sr_sum_cur a k : storable env (VCur a k) -> storable_result env (RSum (AVCur a k))
| sr_average f : storable env (VFloat f) -> storable_result env (RAverage f)
| sr_median f : storable env (VFloat f) -> storable_result env (RMedian f).
(** A schema as it is in memory: a map of fields, and numbers of 64 bits. *)
Definition proper_schema (s : schema) : Prop :=
  NoDup (map fst (s_fields s)) /\ Forall (fun p => (N.of_nat (fs_order (snd p)) < 18446744073709551616)%N) (s_fields s).
Definition same_schema (s s' : schema) : Prop := s_type s' = s_type s /\ Permutation (s_fields s') (s_fields s).

(** ** Text *)
Definition one_line (s : str) : Prop := ~ In LF s.
(** Letters, digits and underscores, as the reference has names, in the form
    in which they are stored. *)
Definition field_name (f : str) : Prop :=
  f <> [] /\ new_id f = f /\ Forall (fun c => is_alpha c = true \/ is_digit c = true \/ c = "_"%char) f.
(** An entity every part of which is shown on one line. *)
Definition legible (x : show_env) (e : entity) : Prop :=
  one_line (e_id e) /\ Forall (fun fv => field_name (fst fv) /\ one_line (show_value x (snd fv))) (e_fields e).
(** A float of 64 bits: the model's floats have every mantissa and exponent. *)
Definition double (f : f64) : Prop := valid_binary fprec femax f = true.
(** Different floats and different currencies have different texts. *)
Definition faithful (x : show_env) : Prop :=
  (forall f g, double f -> double g -> sv_float x f = sv_float x g -> f = g) /\ (forall k l, sv_currency x k = sv_currency x l -> k = l).
(** A type, a dot and an id. *)
Definition entity_name (id : str) : Prop :=
  exists t i, id = t ++ L "." ++ i /\ ~ In "."%char t /\ ~ In "."%char i.
Definition clear_item (v : value) : Prop :=
  match v with
  | VInt z => in_i64 z = true
  | VFloat f => double f
  | VCur a _ => valid_dec a
  | VRef (REntity id) => entity_name id
  | VRef (RField id f) => entity_name id /\ ~ In "."%char f
  | VDate d => storable_date d
  | VList _ => False
  | _ => True
  end.
(** A single value, or a list of single values none of which is shown as
    nothing or with a comma. *)
Definition clear (x : show_env) (v : value) : Prop :=
  match v with
  | VList vs => Forall (fun u => clear_item u /\ show_value x u <> [] /\ ~ In ","%char (show_value x u)) vs
  | _ => clear_item v
  end.
(** Of the same type and, if lists, with items of one type. *)
Definition same_kind (v w : value) : Prop :=
  get_type v = get_type w /\
  forall vs ws, v = VList vs -> w = VList ws -> exists t, Forall (fun u => get_type u = t) (vs ++ ws).
(** What is shown of a field of a schema. *)
Definition shown_field (p : field_id * fschema) := (fst p, fs_type (snd p), fs_required (snd p), fs_allowed (snd p)).
Definition legible_schema (s : schema) : Prop :=
  one_line (s_type s) /\
  Forall (fun p => one_line (fst p) /\
            forall vs, fs_allowed (snd p) = Some vs -> Forall (fun v => v <> [] /\ one_line v /\ ~ In ","%char v) vs) (s_fields s).
(** A cell that is not taken for a missing one or for two. *)
Definition clear_cell (x : show_env) (c : option value) : Prop :=
  forall v, c = Some v -> show_value x v <> L "-" /\ one_line (show_value x v) /\ ~ In TAB (show_value x v).
Definition shown_cell (x : show_env) (c : option value) : option str := option_map (show_value x) c.
(** The same id, the same fields in the same order, and the same text for each. *)
Definition shown_same (x : show_env) (e e' : entity) : Prop :=
  e_id e = e_id e' /\ map fst (e_fields e) = map fst (e_fields e') /\
  map (fun fv => show_value x (snd fv)) (e_fields e) = map (fun fv => show_value x (snd fv)) (e_fields e').
