(** The syntax of source files as it is documented: firm_mcp/src/tools/
    dsl_reference_content.rs:7-156 (the same text is in docs/src). The grammar
    file itself (tree-sitter-firm) is not in the repository. Every line of a
    block is one field; white space and comments may stand between any two
    words. Names and currency codes are ASCII. *)
From Verif Require Import M_Graph.
From Verif Require Export S_Dsl S_Schema S_Server.
Close Scope Z_scope.

(** ** White space and comments: dsl_reference_content.rs:132-144 *)
Definition blank_char (c : ascii) : Prop := In c [" "%char; "009"%char; LF; CR].
(** [body] ends at the first [stop] that follows it. *)
Definition up_to (stop body : str) : Prop := forall a b, body ++ stop = a ++ stop ++ b -> b = [].
Inductive gap : str -> Prop :=
| gap_none : gap []
| gap_blank c g : blank_char c -> gap g -> gap (c :: g)
| gap_line body g : ~ In LF body -> gap g -> gap (L "//" ++ body ++ [LF] ++ g)
| gap_block body g : up_to (L "*/") body -> gap g -> gap (L "/*" ++ body ++ L "*/" ++ g).
(** At the end of a file a line comment need not end in a line feed. *)
Definition last_gap (t : str) : Prop :=
  gap t \/ exists g body, gap g /\ ~ In LF body /\ t = g ++ L "//" ++ body.

(** ** Names: dsl_reference_content.rs:146-155 *)
Definition name_syntax (s : str) : Prop :=
  exists c r, s = c :: r /\ (is_alpha c = true \/ c = "_"%char) /\
    Forall (fun x => is_alpha x = true \/ is_digit x = true \/ x = "_"%char) r.

(** ** Values: dsl_reference_content.rs:48-130 *)
Definition digits_syntax (n : nat) (s : str) : Prop := length s = n /\ Forall (fun c => is_digit c = true) s.
Definition number_syntax (s : str) : Prop :=
  exists sign ints rest, s = sign ++ ints ++ rest /\ (sign = [] \/ sign = L "-") /\
    (exists n, 0 < n /\ digits_syntax n ints) /\
    (rest = [] \/ exists frac n, rest = L "." ++ frac /\ 0 < n /\ digits_syntax n frac).
Definition date_syntax (s : str) : Prop :=
  exists y m d, s = y ++ L "-" ++ m ++ L "-" ++ d /\ digits_syntax 4 y /\ digits_syntax 2 m /\ digits_syntax 2 d.
Definition time_syntax (s : str) : Prop :=
  exists h m, s = h ++ L ":" ++ m /\ (digits_syntax 1 h \/ digits_syntax 2 h) /\ digits_syntax 2 m.
Definition zone_syntax (s : str) : Prop :=
  s = L "UTC" \/ exists sign z n, s = L "UTC" ++ sign ++ z /\ (sign = L "+" \/ sign = L "-") /\ 0 < n /\ digits_syntax n z.
Definition code_syntax (s : str) : Prop := length s = 3 /\ Forall (fun c => is_upper c = true) s.
(** What stands between two quotes on one line. *)
Definition one_line (s : str) : Prop := ~ In DQ s /\ ~ In LF s.

Inductive literal_syntax : vkind -> str -> Prop :=
| syn_bool b : literal_syntax KBoolean (bool_text b)
| syn_string s : one_line s -> literal_syntax KString ([DQ] ++ s ++ [DQ])
| syn_lines s : up_to q3 s -> literal_syntax KString (q3 ++ s ++ q3)
| syn_number s : number_syntax s -> literal_syntax KNumber s
| syn_currency a k : number_syntax a -> code_syntax k -> literal_syntax KCurrency (a ++ L " " ++ k)
| syn_date s : date_syntax s -> literal_syntax KDate s
| syn_local d t : date_syntax d -> time_syntax t -> literal_syntax KDateTime (d ++ L " at " ++ t)
| syn_zoned d t z : date_syntax d -> time_syntax t -> zone_syntax z ->
    literal_syntax KDateTime (d ++ L " at " ++ t ++ L " " ++ z)
| syn_entity t i : name_syntax t -> name_syntax i -> literal_syntax KReference (t ++ L "." ++ i)
| syn_field t i f : name_syntax t -> name_syntax i -> name_syntax f ->
    literal_syntax KReference (t ++ L "." ++ i ++ L "." ++ f)
| syn_path s : one_line s -> literal_syntax KPath (L "path" ++ [DQ] ++ s ++ [DQ])
| syn_enum s : one_line s -> literal_syntax KEnum (L "enum" ++ [DQ] ++ s ++ [DQ]).

(** After the opening bracket; a comma may follow the last item. *)
Inductive items_syntax : list vnode -> str -> Prop :=
| items_end : items_syntax [] (L "]")
| items_last v g : gap g -> items_syntax [v] (render_value v ++ g ++ L "]")
| items_more v g g' vs t : gap g -> gap g' -> items_syntax vs t ->
    items_syntax (v :: vs) (render_value v ++ g ++ L "," ++ g' ++ t).
(** The node is what its text stands for. *)
Inductive value_syntax : vnode -> Prop :=
| val_literal k raw : literal_syntax k raw -> value_syntax (VNode (Some k) raw [])
| val_list g vs t : gap g -> items_syntax vs t -> Forall value_syntax vs ->
    value_syntax (VNode (Some KList) (L "[" ++ g ++ t) vs).

(** ** Blocks: dsl_reference_content.rs:11-46 *)
(** After the opening brace; a field ends with its line. *)
Inductive fields_syntax : list fnode -> str -> Prop :=
| fields_end : fields_syntax [] (L "}")
| fields_one name g1 g2 v g3 fs t :
    name_syntax name -> gap g1 -> gap g2 -> value_syntax v -> gap g3 -> (fs <> [] -> In LF g3) -> fields_syntax fs t ->
    fields_syntax (field_node name v :: fs) (name ++ g1 ++ L "=" ++ g2 ++ render_value v ++ g3 ++ t).
Inductive blocks_syntax : list nblock -> str -> Prop :=
| blocks_end : blocks_syntax [] (L "}")
| blocks_one g1 g2 fs body g3 bs t :
    gap g1 -> gap g2 -> fields_syntax fs body -> gap g3 -> blocks_syntax bs t ->
    blocks_syntax ({| nb_type := Some (L "field"); nb_body := Some fs |} :: bs)
                  (L "field" ++ g1 ++ L "{" ++ g2 ++ body ++ g3 ++ t).

Inductive block :=
| SchemaBlock (n : snode)
| EntityBlock (n : enode).
Inductive file_syntax : list block -> str -> Prop :=
| file_end g : last_gap g -> file_syntax [] g
| file_entity g t g1 i g2 g3 fs body bs rest :
    gap g -> name_syntax t -> t <> L "schema" -> gap g1 -> g1 <> [] -> name_syntax i -> gap g2 -> gap g3 ->
    fields_syntax fs body -> file_syntax bs rest ->
    file_syntax (EntityBlock {| en_type := Some t; en_id := Some i; en_fields := fs |} :: bs)
                (g ++ t ++ g1 ++ i ++ g2 ++ L "{" ++ g3 ++ body ++ rest)
| file_schema g g1 n g2 g3 ns body bs rest :
    gap g -> gap g1 -> g1 <> [] -> name_syntax n -> gap g2 -> gap g3 ->
    blocks_syntax ns body -> file_syntax bs rest ->
    file_syntax (SchemaBlock {| sn_name := Some n; sn_blocks := ns |} :: bs)
                (g ++ L "schema" ++ g1 ++ n ++ g2 ++ L "{" ++ g3 ++ body ++ rest).

(** What such a file is to the program. *)
Definition schemas_in (bs : list block) : list snode := flat_map (fun b => match b with SchemaBlock n => [n] | _ => [] end) bs.
Definition entities_in (bs : list block) : list enode := flat_map (fun b => match b with EntityBlock n => [n] | _ => [] end) bs.
Definition tree_of (bs : list block) : parsed :=
  {| ps_error := false; ps_schemas := schemas_in bs; ps_entities := entities_in bs |}.
(** A parser of this syntax, free to do anything with other texts. *)
Definition follows_syntax (parse : str -> option parsed) : Prop :=
  forall bs text, file_syntax bs text -> parse text = Some (tree_of bs).

(** ** What can be written in it *)
(** A value whose generated text is in the syntax. [show_f64] is Rust's decimal
    text of a float. A time zone is given in hours, with a sign unless it is
    UTC. *)
Fixpoint expressible (env : dsl_env) (v : value) : Prop :=
  match v with
  | VBool _ | VInt _ => True
  | VStr s => is_text s = true /\ (one_line s \/ (In LF s /\ forall a b, s <> a ++ q3 ++ b))
  | VFloat f => number_syntax (generate_float env f)
  | VCur _ k => code_syntax k
  | VRef (REntity id) => exists t i, id = t ++ L "." ++ i /\ name_syntax t /\ name_syntax i
  | VRef (RField id f) => exists t i, id = t ++ L "." ++ i /\ name_syntax t /\ name_syntax i /\ name_syntax f
  | VList vs => fold_right (fun v P => expressible env v /\ P) True vs
  | VDate d => printable_datetime d /\ (dt_off d = 0 \/ 3600 <= Z.abs (dt_off d))%Z
  | VPath s | VEnum s => is_text s = true /\ one_line s
  end.
Definition expressible_entity (env : dsl_env) (e : entity) : Prop :=
  name_syntax (lower (e_type e)) /\ lower (e_type e) <> L "schema" /\
  name_syntax (snd (decompose_entity_id (e_id e))) /\
  Forall (fun fv => name_syntax (fst fv) /\ expressible env (snd fv)) (e_fields e).
Definition expressible_schema (s : schema) : Prop :=
  name_syntax (s_type s) /\
  Forall (fun p => is_text (fst p) = true /\ one_line (fst p) /\
    forall vs, fs_allowed (snd p) = Some vs -> Forall (fun s => is_text s = true /\ one_line s) vs) (s_fields s).

(** ** What is read again as it was *)
(** Values, other than paths, that come back from the text written for them. *)
Fixpoint kept (env : dsl_env) (v : value) : Prop :=
  match v with
  | VBool _ => True
  | VStr s => is_text s = true /\ (one_line s \/ (In LF s /\ (forall a b, s <> a ++ q3 ++ b) /\ ~ starts_with_space s /\ ~ ends_with_space s /\ ~ has_crlf s))
  | VInt z => in_i64 z = true
  | VFloat f => number_syntax (generate_float env f) /\ parse_f64 (show_f64 env f) = Some f
  | VCur a k => valid_dec a /\ code_syntax k /\ known_currency env k = true
  | VRef (REntity id) => exists t i, id = t ++ L "." ++ i /\ name_syntax t /\ name_syntax i /\ new_id id = id
  | VRef (RField id f) => exists t i, id = t ++ L "." ++ i /\ name_syntax t /\ name_syntax i /\ new_id id = id /\ name_syntax f
  | VList vs => homogeneous vs /\ fold_right (fun v P => kept env v /\ P) True vs
  | VDate d => printable_datetime d /\ (dt_local d mod 60 = 0 /\ dt_nanos d = 0 /\ Z.rem (dt_off d) 3600 = 0)%Z
  | VPath _ => False
  | VEnum s => is_text s = true /\ one_line s /\ forall r, s <> r ++ L "enum"
  end.

(** A normalised entity with such values. *)
Definition kept_entity (env : dsl_env) (e : entity) : Prop :=
  exists t i, e_id e = t ++ L "." ++ i /\ e_type e = t /\ t <> L "schema" /\ new_id t = t /\ new_id i = i /\ name_syntax t /\ name_syntax i /\
    Forall (fun fv => name_syntax (fst fv) /\ kept env (snd fv)) (e_fields e).

(** ** Workspaces in the documented syntax *)
Definition documented (w : place) (d : fs) : Prop := forall r s, source_of w d r s -> exists bs, file_syntax bs s.
(** No source file ends in the middle of a line. *)
Definition lines_ended (w : place) (d : fs) : Prop := forall r s, source_of w d r s -> s = [] \/ exists x, s = x ++ [LF].
