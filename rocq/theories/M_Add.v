(** Adding an entity through the tool server: firm_mcp/src/tools/add_entity.rs
    and firm_mcp/src/server.rs:191-211. *)
From Verif Require Import M_Graph M_Num.
From Verif Require Export M_Server M_Tools.
Close Scope Z_scope.

(** serde_json values as far as the code distinguishes them. An integer is one
    that fits in 64 bits, signed or unsigned. *)
Inductive jnum := JInt (z : Z) | JFloat (f : f64).
Inductive json := JNull | JBool (b : bool) | JNum (n : jnum) | JStr (s : str) | JArr (l : list json) | JObj.

(** Library functions: chrono's [DateTime::parse_from_rfc3339] and
    rust_decimal's [Decimal::from_str_exact]. *)
Record add_env := { rfc3339 : str -> option datetime; decimal : str -> option dec }.

(** add_entity.rs:20-44; the fields in the iteration order of their map. *)
Record add_params := {
  a_type : str;
  a_id : str;
  a_fields : list (str * json);
  a_file : option str;
  a_items : list (str * str)
}.

(** [str::split_whitespace]. *)
Fixpoint ws_go (skip : nat) (s : str) : list str :=
  match s with
  | [] => [[]]
  | c :: s' =>
      match skip with
      | S k => ws_go k s'
      | 0 =>
          match find (fun p => starts_with s p) ws_chars with
          | Some p => [] :: ws_go (length p - 1) s'
          | None => match ws_go 0 s' with
                    | w :: ws => (c :: w) :: ws
                    | [] => [[c]]
                    end
          end
      end
  end.
Definition split_whitespace (s : str) : list str := filter non_empty (ws_go 0 s).

(** Path::components of an absolute path, without the root. *)
Definition parts (p : path) : list str := filter (fun c => negb (stays c)) p.
(** pathdiff 0.2 [diff_paths] on two absolute paths. *)
Fixpoint diff_go (a b : list str) : option (list str) :=
  match a, b with
  | [], _ => Some (map (fun _ => L "..") b)
  | _, [] => Some a
  | x :: a', y :: b' =>
      if str_eqb x y then diff_go a' b'
      else if climbs y then None
      else Some (map (fun _ => L "..") b ++ a)
  end.
(** add_entity.rs:300-309. *)
Definition path_field (c : ctx) (target : path) (s : str) : str :=
  let abs := join_path (c_ws c) s in
  match parent target with
  | None => path_text abs
  | Some dir =>
      match diff_go (parts abs) (parts dir) with
      | Some cs => path_text cs
      | None => path_text abs
      end
  end.

(** add_entity.rs:223-252. *)
Definition reference_field (s : str) : ref_value :=
  match split_char "." s with
  | t :: i :: f :: _ => RField (compose_entity_id t i) (new_id f)
  | _ => REntity (new_id s)
  end.
(** add_entity.rs:318-342. *)
Definition currency_field (env : dsl_env) (ae : add_env) (s : str) : option value :=
  match split_whitespace s with
  | [a; k] =>
      match decimal ae a with
      | Some d => if known_currency env k then Some (VCur d k) else None
      | None => None
      end
  | _ => None
  end.
(** add_entity.rs:171-366 but for lists; the messages are left out. *)
Definition scalar_field (c : ctx) (ae : add_env) (target : path) (t : field_type) (j : json) : option value :=
  match t, j with
  | TStr, JStr s => Some (VStr s)
  | TInt, JNum (JInt z) => if (z <=? i64_max)%Z then Some (VInt z) else None
  | TFloat, JNum (JInt z) => Some (VFloat (f_of_Z z))
  | TFloat, JNum (JFloat f) => Some (VFloat f)
  | TBool, JBool b => Some (VBool b)
  | TRef, JStr s => Some (VRef (reference_field s))
  | TEnum, JStr s => Some (VEnum s)
  | TPath, JStr s => Some (VPath (path_field c target s))
  | TCur, JStr s => currency_field (c_env c) ae s
  | TDate, JStr s => option_map VDate (rfc3339 ae s)
  | _, _ => None
  end.
(** add_entity.rs:370-387; no item type is a list. *)
Definition item_type (s : str) : option field_type :=
  let s := lower s in
  if str_eqb s (L "string") then Some TStr
  else if str_eqb s (L "integer") then Some TInt
  else if str_eqb s (L "float") then Some TFloat
  else if str_eqb s (L "boolean") then Some TBool
  else if str_eqb s (L "currency") then Some TCur
  else if str_eqb s (L "reference") then Some TRef
  else if str_eqb s (L "datetime") then Some TDate
  else if str_eqb s (L "path") then Some TPath
  else if str_eqb s (L "enum") then Some TEnum
  else None.
Fixpoint all_some {A B} (f : A -> option B) (l : list A) : option (list B) :=
  match l with
  | [] => Some []
  | x :: l' => match f x, all_some f l' with Some y, Some ys => Some (y :: ys) | _, _ => None end
  end.
(** add_entity.rs:171-366. *)
Definition json_to_field (c : ctx) (ae : add_env) (target : path) (items : list (str * str)) (name : str) (t : field_type) (j : json)
  : option value :=
  match t, j with
  | TList, JArr [] => Some (VList [])
  | TList, JArr l =>
      match assoc name items with
      | None => None
      | Some ts =>
          match item_type ts with
          | None => None
          | Some t' => option_map VList (all_some (scalar_field c ae target t') l)
          end
      end
  | _, _ => scalar_field c ae target t j
  end.

(** [Path::with_extension("firm")]. *)
Definition with_firm (p : path) : path :=
  match drop_stays (rev p) with
  | [] => p
  | n :: r =>
      if climbs n then p
      else rev r ++ [match split_once "." (rev n) with
                     | Some (_, x :: s) => rev (x :: s)
                     | _ => n
                     end ++ L ".firm"]
  end.
(** add_entity.rs:85-92. *)
Definition target_of (c : ctx) (a : add_params) : path :=
  match a_file a with
  | Some p => join_path (c_ws c) p
  | None =>
      match a_type a with
      | "/"%char :: _ => with_firm (path_of (a_type a))
      | _ => c_ws c ++ with_firm (L "generated" :: path_of (a_type a))
      end
  end.
(** add_entity.rs:70-79, 95-126: the entity to be added. *)
Definition entity_to_add (c : ctx) (ae : add_env) (st : state) (a : add_params) : option entity :=
  match find (fun s => str_eqb (s_type s) (a_type a)) (b_schemas (st_build st)) with
  | None => None
  | Some s =>
      let id := compose_entity_id (a_type a) (new_id (a_id a)) in
      match get_entity (st_graph st) id with
      | Some _ => None
      | None =>
          match all_some (fun nj =>
                  let f := new_id (fst nj) in
                  match assoc f (s_fields s) with
                  | None => None
                  | Some fs => option_map (pair f) (json_to_field c ae (target_of c a) (a_items a) (fst nj) (fs_type fs) (snd nj))
                  end) (a_fields a) with
          | None => None
          | Some fs =>
              let e := {| e_id := id; e_type := new_id (a_type a); e_fields := fs |} in
              match validate (c_fields c) s e with [] => Some e | _ => None end
          end
      end
  end.
(** Opening a file to append to it, created if there is none, and writing. *)
Definition append_to (links : nat) (d : fs) (p : path) (s : str) : option fs :=
  match resolve links d p with
  | At q => match node_at d q with Some (File o) => Some (set_node d q (File (o ++ s))) | _ => None end
  | Vacant q => Some (set_node d q (File s))
  | _ => None
  end.
(** add_entity.rs:132-159: the file system afterwards, and whether it worked. *)
Definition append_block (c : ctx) (d : fs) (p : path) (dsl : str) : fs * bool :=
  match (match parent p with
         | Some q => create_dir_all (S (length q)) (c_links c) d q
         | None => (d, true)
         end) with
  | (d1, false) => (d1, false)
  | (d1, true) =>
      let prefix :=
        if path_exists (c_links c) d1 p then
          match read_text (c_links c) d1 p with
          | None => None
          | Some s => Some (if ends_with s [LF] then [] else match s with [] => [] | _ => [LF] end)
          end
        else Some [] in
      match prefix with
      | None => (d1, false)
      | Some pre =>
          match append_to (c_links c) d1 p (pre ++ dsl) with
          | Some d2 => (d2, true)
          | None => (d1, false)
          end
      end
  end.
(** server.rs:191-211 and add_entity.rs:60-166. [Forced] stands for success with
    a warning that the workspace does not build. *)
Definition add_tool (c : ctx) (ae : add_env) (d : fs) (st : state) (a : add_params) : fs * state * answer :=
  match entity_to_add c ae st a with
  | None => (d, st, Refused)
  | Some e =>
      match append_block c d (target_of c a) (generate_dsl (c_env c) default_options [e]) with
      | (d1, false) => (d1, st, Refused)
      | (d1, true) =>
          match rebuild c d1 with
          | Ok st' => (d1, st', Accepted)
          | Err _ => (d1, st, Forced)
          | Panic => (d1, st, Crashed)
          end
      end
  end.
