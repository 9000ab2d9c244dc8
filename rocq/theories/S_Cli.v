(** What the theorems about the command line speak about. *)
From Coq Require Import Permutation.
From Verif Require Import M_Graph S_Graph M_Num.
From Verif Require Export M_Cli S_Save S_Add.
Close Scope Z_scope.

(** The ids tried for a new entity: the name, then the name with a number. *)
Definition candidate (base : str) (n : nat) : str :=
  match n with 0 => base | S _ => base ++ L "_" ++ show_N (N.of_nat n) end.
(** No entity of the graph has the id. *)
Definition unused (g : graph) (t i : str) : Prop := get_entity g (compose_entity_id t i) = None.

(** ** Reading *)
(** What the tool server answers to the same question. *)
Definition server_answer (c : ctx) (x : cli_env) (st : state) (q : command) : ended_as reply :=
  match q with
  | CGet t i => match get_tool st t i with NotGot => Failed | g => Succeeded (RGot g) end
  | CList t => Succeeded (RIds (list_tool st t))
  | CRelated t i dir => match related_tool st t i dir with Some ids => Succeeded (RIds ids) | None => Failed end
  | CQuery s => match query_text x (st_graph st) s with Some r => Succeeded (RFound r) | None => Failed end
  | CSource t i =>
      match (if str_eqb t (L "schema") then find_schema_source (st_files st) i else find_entity_source (st_files st) t i) with
      | Some p => Succeeded (RPath p)
      | None => Failed
      end
  end.
(** Questions that are answered from the saved graph. *)
Definition asks_graph (q : command) : Prop :=
  match q with
  | CGet t _ | CList t => t <> L "schema"
  | CRelated _ _ _ | CQuery _ => True
  | CSource _ _ => False
  end.

(** ** Adding *)
(** The kinds of source text for the types of fields. *)
Inductive kind_for : field_type -> vkind -> Prop :=
| kf_bool : kind_for TBool KBoolean
| kf_str : kind_for TStr KString
| kf_int : kind_for TInt KNumber
| kf_float : kind_for TFloat KNumber
| kf_cur : kind_for TCur KCurrency
| kf_ref : kind_for TRef KReference
| kf_enum : kind_for TEnum KEnum.
(** The value that a text given on the command line stands for: that which the
    text stands for in a source file. *)
Inductive given (c : ctx) (x : cli_env) (d : fs) (target : path) : field_type -> str -> value -> Prop :=
| given_read t k s p path : kind_for t k -> from_node (c_env c) path (VNode (Some k) s []) = Ok p -> given c x d target t s (to_value p)
| given_time s p path : from_node (c_env c) path (VNode (Some KDateTime) s []) = Ok p -> given c x d target TDate s (to_value p)
| given_date s p path er : from_node (c_env c) path (VNode (Some KDateTime) s []) = Err er ->
    from_node (c_env c) path (VNode (Some KDate) s []) = Ok p -> given c x d target TDate s (to_value p)
| given_path s : given c x d target TPath s (VPath (cli_path c x d target s)).
(** The last of the pairs with a name. *)
Definition last_for (l : list (str * str)) (n t : str) : Prop := exists a b, l = a ++ (n, t) :: b /\ ~ In n (map fst b).
(** The values given for a list, in their order. *)
Definition values_for (l : list (str * str)) (n : str) : list str := map snd (filter (fun nv => str_eqb (fst nv) n) l).
Definition given_field (c : ctx) (x : cli_env) (d : fs) (target : path) (s : schema) (nv : str * str) (fv : field_id * value) : Prop :=
  fst fv = new_id (fst nv) /\ exists f, In (fst fv, f) (s_fields s) /\ given c x d target (fs_type f) (snd nv) (snd fv).
Definition given_list (c : ctx) (x : cli_env) (d : fs) (target : path) (s : schema) (values : list (str * str)) (nt : str * str) (fv : field_id * value) : Prop :=
  fst fv = new_id (fst nt) /\ (exists f, In (fst fv, f) (s_fields s) /\ fs_type f = TList) /\
  values_for values (fst nt) <> [] /\
  exists t vs, In (lower (snd nt), t) type_names /\ snd fv = VList vs /\ homogeneous vs /\ Forall2 (given c x d target t) (values_for values (fst nt)) vs.
(** [e] is the entity asked for on the command line, in a workspace of these schemas. *)
Definition asked_flags (c : ctx) (x : cli_env) (d : fs) (schemas : list schema) (a : cli_add_params) (e : entity) : Prop :=
  let target := dsl_path c (x_type a) (x_file a) in
  exists s fs ls lists, In s schemas /\ s_type s = x_type a /\
    e_id e = compose_entity_id (x_type a) (sanitize_entity_id (x_id a)) /\ e_type e = x_type a /\ conforms s e /\
    e_fields e = fs ++ ls /\ Forall2 (given_field c x d target s) (x_fields a) fs /\
    NoDup (map fst lists) /\ (forall n t, In (n, t) lists <-> last_for (x_lists a) n t) /\
    Forall2 (given_list c x d target s (x_values a)) lists ls.
(** The same entity but for the order of the lists, which come after the other fields. *)
Definition lists_shuffled (a : cli_add_params) (e e' : entity) : Prop :=
  e_id e' = e_id e /\ e_type e' = e_type e /\
  exists fs ls ls', e_fields e = fs ++ ls /\ e_fields e' = fs ++ ls' /\ length fs = length (x_fields a) /\ Permutation ls ls'.
(** The letters and digits of ASCII, and all that is not in ASCII. *)
Definition letter (c : ascii) : bool := is_alpha c || is_digit c || (128 <=? code c)%N.
(** Nothing differs but for directories that were added and the two graph files. *)
Definition sources_kept (w : place) (d d' : fs) : Prop :=
  forall p, p <> w ++ [current_name] -> p <> w ++ [backup_name] ->
    node_at d' p = node_at d p \/ (node_at d p = None /\ node_at d' p = Some Dir).
(** The file lies in the workspace. *)
Definition writes_below (c : ctx) (t : str) (f : option str) : Prop :=
  exists rp n, dsl_path c t f = c_ws c ++ rp ++ [n] /\ Forall (fun y => climbs y = false) rp /\ firm_file_name n.
