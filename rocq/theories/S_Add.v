(** What is asked for when an entity is added. *)
From Verif Require Export M_Add S_Server S_Schema.
Close Scope Z_scope.

(** A text with fewer than two dots. *)
Definition one_dot_at_most (s : str) : Prop := forall t i f, s <> t ++ "."%char :: i ++ "."%char :: f.
(** Nothing but white space. *)
Definition white (w : str) : Prop := exists l, Forall (fun p => In p ws_chars) l /\ w = concat l.
(** A word: not empty and without white space. *)
Definition unbroken (w : str) : Prop := w <> [] /\ forall p x y, In p ws_chars -> w <> x ++ p ++ y.
(** Two words with white space between them, and perhaps around them. *)
Definition two_words (s a k : str) : Prop :=
  exists w0 w1 w2, s = w0 ++ a ++ w1 ++ k ++ w2 /\ white w0 /\ unbroken a /\ white w1 /\ w1 <> [] /\ unbroken k /\ white w2.
(** The value a JSON value stands for in a field of a type that is no list. *)
Inductive means (c : ctx) (ae : add_env) (target : path) : field_type -> json -> value -> Prop :=
| means_str s : means c ae target TStr (JStr s) (VStr s)
| means_int z : (z < 2 ^ 63)%Z -> means c ae target TInt (JNum (JInt z)) (VInt z)
| means_float f : means c ae target TFloat (JNum (JFloat f)) (VFloat f)
| means_whole z : means c ae target TFloat (JNum (JInt z)) (VFloat (f_of_Z z))
| means_bool b : means c ae target TBool (JBool b) (VBool b)
| means_enum s : means c ae target TEnum (JStr s) (VEnum s)
| means_entity s : one_dot_at_most s -> means c ae target TRef (JStr s) (VRef (REntity (new_id s)))
| means_field t i f rest : ~ In "."%char t -> ~ In "."%char i -> ~ In "."%char f -> rest = [] \/ (exists r, rest = "."%char :: r) ->
    means c ae target TRef (JStr (t ++ "."%char :: i ++ "."%char :: f ++ rest)) (VRef (RField (compose_entity_id t i) (new_id f)))
| means_currency s a k m : two_words s a k -> decimal ae a = Some m -> known_currency (c_env c) k = true ->
    means c ae target TCur (JStr s) (VCur m k)
| means_date s t : rfc3339 ae s = Some t -> means c ae target TDate (JStr s) (VDate t)
| means_path s : means c ae target TPath (JStr s) (VPath (path_field c target s)).
(** The names of the item types, in any letter case. *)
Definition type_names : list (str * field_type) :=
  [(L "string", TStr); (L "integer", TInt); (L "float", TFloat); (L "boolean", TBool); (L "currency", TCur);
   (L "reference", TRef); (L "datetime", TDate); (L "path", TPath); (L "enum", TEnum)].
(** The same with lists, whose items are of a type that is given apart. *)
Inductive means_in (c : ctx) (ae : add_env) (target : path) (items : list (str * str)) (name : str) : field_type -> json -> value -> Prop :=
| means_scalar t j v : means c ae target t j v -> means_in c ae target items name t j v
| means_empty : means_in c ae target items name TList (JArr []) (VList [])
| means_list ts t l vs : l <> [] -> assoc name items = Some ts -> In (lower ts, t) type_names -> Forall2 (means c ae target t) l vs ->
    means_in c ae target items name TList (JArr l) (VList vs).

(** [e] is the entity asked for by [a], and it may be added to what is served. *)
Definition asked (c : ctx) (ae : add_env) (st : state) (a : add_params) (e : entity) : Prop :=
  exists s, In s (b_schemas (st_build st)) /\ s_type s = a_type a /\
    e_id e = compose_entity_id (a_type a) (new_id (a_id a)) /\ e_type e = new_id (a_type a) /\
    get_entity (st_graph st) (e_id e) = None /\
    Forall2 (fun nj fv => fst fv = new_id (fst nj) /\
               exists f, In (fst fv, f) (s_fields s) /\ means_in c ae (target_of c a) (a_items a) (fst nj) (fs_type f) (snd nj) (snd fv))
            (a_fields a) (e_fields e) /\
    conforms s e.

(** What precedes the new block: the old text, ended by a line feed. *)
Definition ended (s : str) : str := if ends_with s [LF] then s else match s with [] => [] | _ => s ++ [LF] end.
Inductive on_new_line : str -> str -> Prop :=
| nl_empty : on_new_line [] []
| nl_ended s : on_new_line (s ++ [LF]) (s ++ [LF])
| nl_open s : s <> [] -> (forall r, s <> r ++ [LF]) -> on_new_line s (s ++ [LF]).
(** No quotes, and no piece that ends like the tag of a path. *)
Definition path_argument (s : str) : Prop := ~ In DQ s /\ forall x r, In x (path_of s) -> x <> r ++ L "path".
(** The entity is added to a file of the workspace whose name is that of a source file. *)
Definition adds_to_source (c : ctx) (a : add_params) : Prop :=
  exists rp n, target_of c a = c_ws c ++ rp ++ [n] /\ Forall (fun x => climbs x = false) rp /\ firm_file_name n.
