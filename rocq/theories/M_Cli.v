(** The command-line interface: firm_cli/src/main.rs, commands/*.rs. *)
From Verif Require Import M_Graph M_Num.
From Verif Require Export M_Add M_Save.
From Verif Require M_Query M_QParse.
Close Scope Z_scope.

(** What the commands run with besides [ctx]: serde_json, the current directory,
    the iteration order of the map of lists, and what queries depend on. *)
Record cli_env := {
  cl_json : graph_json;
  cl_cwd : path;
  cl_order : list (str * str) -> list (str * str);
  cl_ext : M_Query.ext;
  cl_hash : M_Query.hash_order
}.

(** ** Ids: commands/add.rs *)

(** add.rs:424-430. All characters outside ASCII are kept; the code drops those
    that are neither letters nor digits. *)
Definition id_char (a : ascii) : bool :=
  Ascii.eqb a " " || Ascii.eqb a "_" || Ascii.eqb a "-" || is_lower a || is_upper a || is_digit a || (128 <=? code a)%N.
Definition sanitize_entity_id (s : str) : str := to_snake (filter id_char s).
(** add.rs:438-457: [n] is the counter, [left] how often the loop may still run. *)
Fixpoint unique_from (taken : str -> bool) (base : str) (cur : str) (n left : nat) : str :=
  match left with
  | 0 => cur
  | S left' => if taken cur then unique_from taken base (base ++ L "_" ++ show_N (N.of_nat n)) (S n) left' else cur
  end.
Definition compute_unique_entity_id (g : graph) (t chosen : str) : str :=
  let base := sanitize_entity_id chosen in
  unique_from (fun i => match get_entity g (compose_entity_id t i) with Some _ => true | None => false end) base base 1 999.

(** ** Adding an entity from flags: commands/add.rs:72-270 *)

Record cli_add_params := {
  x_type : str;
  x_id : str;
  x_fields : list (str * str);
  x_lists : list (str * str);
  x_values : list (str * str);
  x_file : option str
}.
(** add.rs:462-480. *)
Definition dsl_path (c : ctx) (t : str) (file : option str) : path :=
  match file with
  | Some p => with_firm (join_path (c_ws c) p)
  | None =>
      match t with
      | "/"%char :: _ => with_firm (path_of t)
      | _ => c_ws c ++ with_firm (L "generated" :: path_of t)
      end
  end.
(** add.rs:554-583. *)
Definition cli_path (c : ctx) (x : cli_env) (d : fs) (target : path) (s : str) : str :=
  let abs := join_path (cl_cwd x) s in
  let a := match canonicalize (c_links c) d abs with Some q => place_path q | None => abs end in
  let dir := match parent target with Some q => q | None => [] end in
  let b := match canonicalize (c_links c) d dir with Some q => place_path q | None => dir end in
  match diff_go (parts a) (parts b) with
  | Some cs => path_text cs
  | None => path_text a
  end.
(** add.rs:537-594. *)
Definition cli_value (c : ctx) (x : cli_env) (d : fs) (target : path) (t : field_type) (s : str) : outcome perr pvalue :=
  match t with
  | TBool => parse_boolean s
  | TStr => parse_string s
  | TInt | TFloat => parse_number s
  | TCur => parse_currency (c_env c) s
  | TRef => parse_reference s
  | TDate => match parse_datetime (c_env c) s with
             | Err _ => parse_date (c_env c) s
             | r => r
             end
  | TEnum => parse_enum s
  | TPath => Ok (PPath (cli_path c x d target s))
  | TList => Err UnknownValueKind
  end.
(** add.rs:152-191: one field. *)
Definition cli_field (c : ctx) (x : cli_env) (d : fs) (target : path) (s : schema) (nv : str * str) : outcome unit (field_id * value) :=
  let f := new_id (fst nv) in
  match assoc f (s_fields s) with
  | None => Err tt
  | Some fs =>
      obind (omap_err (fun _ => tt) (cli_value c x d target (fs_type fs) (snd nv))) (fun p => Ok (f, to_value p))
  end.
(** add.rs:194-252: one list. *)
Definition cli_list (c : ctx) (x : cli_env) (d : fs) (target : path) (s : schema) (values : list (str * str)) (nt : str * str)
  : outcome unit (field_id * value) :=
  let f := new_id (fst nt) in
  match assoc f (s_fields s) with
  | None => Err tt
  | Some fs =>
      if negb (field_type_eqb (fs_type fs) TList) then Err tt
      else match item_type (snd nt) with
           | None => Err tt
           | Some t =>
               match filter (fun nv => str_eqb (fst nv) (fst nt)) values with
               | [] => Err tt
               | vs =>
                   obind (omap_err (fun _ => tt) (omap (fun nv => cli_value c x d target t (snd nv)) vs)) (fun items =>
                   obind (omap_err (fun _ => tt) (parse_list_from_vec items)) (fun p => Ok (f, to_value p)))
               end
           end
  end.
(** add.rs:86-262: the entity to be added, given the graph that was loaded and
    the schemas of the workspace. *)
Definition cli_entity (c : ctx) (x : cli_env) (d : fs) (g : graph) (schemas : list schema) (a : cli_add_params) : outcome unit entity :=
  match find (fun s => str_eqb (s_type s) (x_type a)) schemas with
  | None => Err tt
  | Some s =>
      let id := compose_entity_id (x_type a) (sanitize_entity_id (x_id a)) in
      match get_entity g id with
      | Some _ => Err tt
      | None =>
          let target := dsl_path c (x_type a) (x_file a) in
          let lists := cl_order x (fold_left (fun m nt => assoc_set (fst nt) (snd nt) m) (x_lists a) []) in
          obind (omap (cli_field c x d target s) (x_fields a)) (fun fs =>
          obind (omap (cli_list c x d target s (x_values a)) lists) (fun ls =>
          let e := {| e_id := id; e_type := s_type s; e_fields := fs ++ ls |} in
          match validate (c_fields c) s e with [] => Ok e | _ => Err tt end))
      end
  end.
(** add.rs:483-518. *)
Definition write_dsl (c : ctx) (d : fs) (p : path) (dsl : str) : fs * bool :=
  match (match parent p with
         | Some q => create_dir_all (S (length q)) (c_links c) d q
         | None => (d, true)
         end) with
  | (d1, false) => (d1, false)
  | (d1, true) =>
      match append_to (c_links c) d1 p dsl with
      | Some d2 => (d2, true)
      | None => (d1, false)
      end
  end.
(** commands/build.rs:28-72: loading and building, without the graph. *)
Definition workspace_build (c : ctx) (d : fs) : outcome werror (files * wbuild) :=
  obind (load_directory c d) (fun fs =>
  obind (build_workspace (c_env c) (c_fields c) (c_schemas c) (c_files c fs)) (fun b => Ok (c_files c fs, b))).

(** How a command ends. *)
Inductive ended_as (A : Type) := Succeeded (a : A) | Failed | Died.
Arguments Succeeded {A}. Arguments Failed {A}. Arguments Died {A}.

(** add.rs:72-270; for the answer, the entity that is shown. *)
Definition add_command (c : ctx) (x : cli_env) (d : fs) (a : cli_add_params) : fs * ended_as entity :=
  match load_current_graph (cl_json x) c d with
  | None => (d, Failed)
  | Some g =>
      match workspace_build c d with
      | Err _ => (d, Failed)
      | Panic => (d, Died)
      | Ok (_, b) =>
          match cli_entity c x d g (b_schemas b) a with
          | Err _ => (d, Failed)
          | Panic => (d, Died)
          | Ok e =>
              match write_dsl c d (dsl_path c (x_type a) (x_file a)) (generate_dsl (c_env c) default_options [e]) with
              | (d1, true) => (d1, Succeeded e)
              | (d1, false) => (d1, Failed)
              end
          end
      end
  end.

(** ** Reading commands: get.rs, list.rs, related.rs, source.rs *)
Inductive command :=
| CGet (t i : str)
| CList (t : str)
| CRelated (t i : str) (dir : option direction)
| CQuery (s : str)
| CSource (t i : str).
Inductive reply := RGot (g : got) | RIds (ids : list str) | RFound (r : M_Query.query_result) | RPath (p : str).
(** query.rs:11-51 and firm_mcp/src/tools/query.rs:21-70. *)
Definition query_text (x : cli_env) (g : graph) (s : str) : option M_Query.query_result :=
  match M_QParse.read_query s with
  | M_Graph.Ok q => match M_Query.execute (cl_ext x) g (cl_hash x) q with M_Graph.Ok r => Some r | M_Graph.Err _ => None end
  | M_Graph.Err _ => None
  end.
(** get.rs:11-92, list.rs:10-66, related.rs:10-52, source.rs:9-69; what is
    printed of an answer is in [M_Show] and [M_Output]; of the related entities
    only the ids are kept. *)
Definition read_command (c : ctx) (x : cli_env) (d : fs) (q : command) : ended_as reply :=
  let with_graph f := match load_current_graph (cl_json x) c d with Some g => f g | None => Failed end in
  let with_build f := match workspace_build c d with Ok fb => f fb | Err _ => Failed | Panic => Died end in
  match q with
  | CGet t i =>
      if str_eqb t (L "schema")
      then with_build (fun fb : files * wbuild =>
             match find (fun s => str_eqb (s_type s) i) (b_schemas (snd fb)) with
             | Some s => Succeeded (RGot (GotSchema s))
             | None => Failed
             end)
      else with_graph (fun g => match get_entity g (compose_entity_id t i) with
                                | Some e => Succeeded (RGot (GotEntity e))
                                | None => Failed
                                end)
  | CList t =>
      if str_eqb t (L "schema")
      then with_build (fun fb : files * wbuild => Succeeded (RIds (map s_type (b_schemas (snd fb)))))
      else with_graph (fun g => Succeeded (RIds (map e_id (list_by_type g t))))
  | CRelated t i dir =>
      with_graph (fun g => match get_related g (compose_entity_id t i) dir with
                           | Some es => Succeeded (RIds (map e_id es))
                           | None => Failed
                           end)
  | CQuery s => with_graph (fun g => match query_text x g s with Some r => Succeeded (RFound r) | None => Failed end)
  | CSource t i =>
      match load_directory c d with
      | Ok fs =>
          match (if str_eqb t (L "schema") then find_schema_source (c_files c fs) i else find_entity_source (c_files c fs) t i) with
          | Some p => Succeeded (RPath p)
          | None => Failed
          end
      | Err _ => Failed
      | Panic => Died
      end
  end.

(** ** main.rs:24-96 *)
(** What precedes a command: the graph is built and saved first, but for
    [--cached] and for the commands that do not use it. *)
Definition prepare (c : ctx) (x : cli_env) (d : fs) (cached : bool) : fs * ended_as unit :=
  if cached then (d, Succeeded tt)
  else match rebuild c d with
       | Panic => (d, Died)
       | _ => match build_and_save (cl_json x) c d Finished with
              | (d1, true) => (d1, Succeeded tt)
              | (d1, false) => (d1, Failed)
              end
       end.
Definition run_read (c : ctx) (x : cli_env) (cached : bool) (d : fs) (q : command) : fs * ended_as reply :=
  match prepare c x d (cached || match q with CSource _ _ => true | _ => false end) with
  | (d1, Succeeded _) => (d1, read_command c x d1 q)
  | (d1, Failed) => (d1, Failed)
  | (d1, Died) => (d1, Died)
  end.
Definition run_add (c : ctx) (x : cli_env) (cached : bool) (d : fs) (a : cli_add_params) : fs * ended_as entity :=
  match prepare c x d cached with
  | (d1, Succeeded _) => add_command c x d1 a
  | (d1, Failed) => (d1, Failed)
  | (d1, Died) => (d1, Died)
  end.
