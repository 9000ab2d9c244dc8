(** The graph as JSON: the derived serde implementations of
    firm_core/src/graph/mod.rs:20-41, field.rs:43-72, entity.rs:8-13 and
    id.rs:10-11, the hand-written ones of graph/mod.rs:176-221, and those of
    petgraph 0.8 (serde-1), rust_decimal (text), iso_currency (code) and chrono
    (RFC 3339). Library behaviour, modelled from documentation. *)
From Verif Require Export M_Json M_Graph M_Dsl M_Save.
Close Scope Z_scope.

(** What is taken from outside: the decimal text of a finite float, the ISO
    4217 table, and the order in which the two hash maps are walked. *)
Record json_env := {
  je_float : f64 -> str;
  je_known : str -> bool;
  je_ids : list (entity_id * nat) -> list (entity_id * nat);
  je_kinds : list (entity_type * list nat) -> list (entity_type * list nat)
}.

(** ** Writing *)

(** chrono's [Serialize for DateTime]: RFC 3339 with as many groups of three
    fraction digits as needed, and the offset rounded to minutes. Years 0 to
    9999 only. *)
Definition fraction_text (nanos : N) : str :=
  if (nanos =? 0)%N then []
  else if (nanos mod 1000000 =? 0)%N then L "." ++ padded 3 (nanos / 1000000)
  else if (nanos mod 1000 =? 0)%N then L "." ++ padded 6 (nanos / 1000)
  else L "." ++ padded 9 nanos.
Definition offset_text (off : Z) : str :=
  if (off =? 0)%Z then L "Z"
  else let m := Z.to_N ((Z.abs off + 30) / 60) in
       (if (off <? 0)%Z then L "-" else L "+") ++ padded 2 (m / 60) ++ L ":" ++ padded 2 (m mod 60).
Definition clock_text (secs : Z) : str :=
  padded 2 (Z.to_N (secs / 3600)) ++ L ":" ++ padded 2 (Z.to_N (secs / 60 mod 60)) ++ L ":" ++ padded 2 (Z.to_N (secs mod 60)).
Definition datetime_text (d : datetime) : str :=
  format_date (dt_date d) ++ L "T" ++ clock_text (dt_secs d) ++ fraction_text (Z.to_N (dt_nanos d)) ++ offset_text (dt_off d).

(** An enum variant with data. *)
Definition tagged (tag : str) (v : jv) : jv := JvObj [(tag, v)].
(** field.rs:43-48. *)
Definition enc_ref (r : ref_value) : jv :=
  match r with
  | REntity id => tagged (L "Entity") (JvStr id)
  | RField id f => tagged (L "Field") (JvArr [JvStr id; JvStr f])
  end.
(** field.rs:60-72. A path that is not UTF-8 would be refused; the paths of
    values come from text. *)
Fixpoint enc_value (v : value) : jv :=
  match v with
  | VBool b => tagged (L "Boolean") (JvBool b)
  | VStr s => tagged (L "String") (JvStr s)
  | VInt z => tagged (L "Integer") (JvInt z)
  | VFloat f => tagged (L "Float") (JvFloat f)
  | VCur a c => tagged (L "Currency") (JvObj [(L "amount", JvStr (show_dec a)); (L "currency", JvStr c)])
  | VRef r => tagged (L "Reference") (enc_ref r)
  | VList vs => tagged (L "List") (JvArr (map enc_value vs))
  | VDate d => tagged (L "DateTime") (JvStr (datetime_text d))
  | VPath p => tagged (L "Path") (JvStr p)
  | VEnum s => tagged (L "Enum") (JvStr s)
  end.
(** entity.rs:8-13. *)
Definition enc_entity (e : entity) : jv :=
  JvObj [(L "id", JvStr (e_id e)); (L "entity_type", JvStr (e_type e));
         (L "fields", JvArr (map (fun fv => JvArr [JvStr (fst fv); enc_value (snd fv)]) (e_fields e)))].
(** graph/mod.rs:20-29. *)
Definition enc_rel (r : relationship) : jv :=
  match r with
  | EntityReference f => tagged (L "EntityReference") (JvObj [(L "from_field", JvStr f)])
  | FieldReference f t => tagged (L "FieldReference") (JvObj [(L "from_field", JvStr f); (L "to_field", JvStr t)])
  end.
Definition enc_index (n : nat) : jv := JvInt (Z.of_nat n).
Definition enc_edge (e : edge) : jv :=
  let '(a, b, r) := e in JvArr [enc_index a; enc_index b; enc_rel r].
(** graph/mod.rs:32-41, 176-189. *)
Definition enc_graph (env : json_env) (g : graph) : jv :=
  JvObj [(L "graph", JvObj [(L "nodes", JvArr (map enc_entity (g_nodes g))); (L "node_holes", JvArr []);
                            (L "edge_property", JvStr (L "directed")); (L "edges", JvArr (map enc_edge (g_edges g)))]);
         (L "entity_map", JvObj (map (fun kn => (fst kn, enc_index (snd kn))) (je_ids env (g_map g))));
         (L "entity_type_map", JvObj (map (fun kl => (fst kl, JvArr (map enc_index (snd kl)))) (je_kinds env (g_types g))))].

(** ** Reading *)

Definition each_some {A B} (f : A -> option B) : list A -> option (list B) :=
  fix go l := match l with
  | [] => Some []
  | x :: l' => match f x, go l' with
               | Some y, Some ys => Some (y :: ys)
               | _, _ => None
               end
  end.
(** A field of a struct: given once; other fields are ignored. The library also
    takes a struct from an array; not modelled. *)
Definition member (k : str) (l : list (str * jv)) : option jv :=
  match filter (fun kv => str_eqb (fst kv) k) l with
  | [(_, v)] => Some v
  | _ => None
  end.
Definition dec_str (j : jv) : option str := match j with JvStr s => Some s | _ => None end.
(** [NodeIndex]: a [u32]. *)
Definition dec_index (j : jv) : option nat :=
  match j with
  | JvInt z => if ((0 <=? z) && (z <? 4294967296))%Z then Some (Z.to_nat z) else None
  | _ => None
  end.
Definition dec_ref (j : jv) : option ref_value :=
  match j with
  | JvObj [(k, v)] =>
      if str_eqb k (L "Entity") then option_map REntity (dec_str v)
      else if str_eqb k (L "Field") then
        match v with JvArr [JvStr id; JvStr f] => Some (RField id f) | _ => None end
      else None
  | _ => None
  end.
Fixpoint dec_value (env : json_env) (j : jv) : option value :=
  match j with
  | JvObj [(k, v)] =>
      if str_eqb k (L "Boolean") then match v with JvBool b => Some (VBool b) | _ => None end
      else if str_eqb k (L "String") then option_map VStr (dec_str v)
      else if str_eqb k (L "Integer") then match v with JvInt z => if in_i64 z then Some (VInt z) else None | _ => None end
      else if str_eqb k (L "Float") then
        match v with JvFloat f => Some (VFloat f) | JvInt z => Some (VFloat (f_of_Z z)) | _ => None end
      else if str_eqb k (L "Currency") then
        match v with
        | JvObj l =>
            match member (L "amount") l, member (L "currency") l with
            | Some (JvStr a), Some (JvStr c) =>
                match parse_dec a with
                | Some d => if je_known env c then Some (VCur d c) else None
                | None => None
                end
            | _, _ => None
            end
        | _ => None
        end
      else if str_eqb k (L "Reference") then option_map VRef (dec_ref v)
      else if str_eqb k (L "List") then
        match v with JvArr l => option_map VList (each_some (dec_value env) l) | _ => None end
      else if str_eqb k (L "DateTime") then
        match v with JvStr s => option_map VDate (parse_rfc3339 s) | _ => None end
      else if str_eqb k (L "Path") then option_map VPath (dec_str v)
      else if str_eqb k (L "Enum") then option_map VEnum (dec_str v)
      else None
  | _ => None
  end.
Definition dec_field (env : json_env) (j : jv) : option (field_id * value) :=
  match j with
  | JvArr [JvStr f; v] => option_map (pair f) (dec_value env v)
  | _ => None
  end.
Definition dec_entity (env : json_env) (j : jv) : option entity :=
  match j with
  | JvObj l =>
      match member (L "id") l, member (L "entity_type") l, member (L "fields") l with
      | Some (JvStr i), Some (JvStr t), Some (JvArr fs) =>
          option_map (fun fs => {| e_id := i; e_type := t; e_fields := fs |}) (each_some (dec_field env) fs)
      | _, _, _ => None
      end
  | _ => None
  end.
Definition dec_rel (j : jv) : option relationship :=
  match j with
  | JvObj [(k, JvObj l)] =>
      if str_eqb k (L "EntityReference") then
        match member (L "from_field") l with Some (JvStr f) => Some (EntityReference f) | _ => None end
      else if str_eqb k (L "FieldReference") then
        match member (L "from_field") l, member (L "to_field") l with
        | Some (JvStr f), Some (JvStr t) => Some (FieldReference f t)
        | _, _ => None
        end
      else None
  | _ => None
  end.
Definition dec_edge (j : jv) : option edge :=
  match j with
  | JvArr [a; b; r] =>
      match dec_index a, dec_index b, dec_rel r with
      | Some a, Some b, Some r => Some (a, b, r)
      | _, _, _ => None
      end
  | _ => None
  end.
(** petgraph: a directed graph without holes, at most as many nodes and edges as
    there are indices, and no edge to a node that is not there. *)
Definition u32_max : N := 4294967295.
Definition dec_petgraph (env : json_env) (j : jv) : option (list entity * list edge) :=
  match j with
  | JvObj l =>
      match member (L "nodes") l, member (L "node_holes") l, member (L "edge_property") l, member (L "edges") l with
      | Some (JvArr ns), Some (JvArr []), Some (JvStr d), Some (JvArr es) =>
          match each_some (dec_entity env) ns, each_some dec_edge es with
          | Some ns, Some es =>
              if str_eqb d (L "directed") && (N.of_nat (length ns) <? u32_max)%N && (N.of_nat (length es) <? u32_max)%N
                 && forallb (fun e => (fst (fst e) <? length ns) && (snd (fst e) <? length ns)) es
              then Some (ns, es) else None
          | _, _ => None
          end
      | _, _, _, _ => None
      end
  | _ => None
  end.
(** A hash map filled entry by entry: a later entry replaces an earlier one. *)
Definition dec_map {A} (f : jv -> option A) (j : jv) : option (list (str * A)) :=
  match j with
  | JvObj l =>
      option_map (fun l => fold_left (fun m kv => assoc_set (fst kv) (snd kv) m) l [])
        (each_some (fun kv => option_map (pair (fst kv)) (f (snd kv))) l)
  | _ => None
  end.
Definition dec_indices (j : jv) : option (list nat) :=
  match j with JvArr l => each_some dec_index l | _ => None end.
(** graph/mod.rs:32-41, 192-221. *)
Definition dec_graph (env : json_env) (j : jv) : option graph :=
  match j with
  | JvObj l =>
      match member (L "graph") l, member (L "entity_map") l, member (L "entity_type_map") l with
      | Some p, Some m, Some t =>
          match dec_petgraph env p, dec_map dec_index m, dec_map dec_indices t with
          | Some (ns, es), Some m, Some t => Some {| g_nodes := ns; g_map := m; g_types := t; g_edges := es |}
          | _, _, _ => None
          end
      | _, _, _ => None
      end
  | _ => None
  end.

(** files.rs:50-53 and 84-87. *)
Definition graph_text (env : json_env) (g : graph) : str := show_jv (je_float env) (enc_graph env g).
Definition read_graph (env : json_env) (s : str) : option graph :=
  match read_json s with Some j => dec_graph env j | None => None end.
Definition serde_graph (env : json_env) : graph_json :=
  {| to_json := fun g => Some (graph_text env g); of_json := read_graph env |}.
