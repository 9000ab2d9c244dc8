(** What "survives write and read back" means, and the conditions on values. *)
From Verif Require Export M_Dsl S_Date.

(** The syntax node of a value's generated text: the grammar is trusted to give
    text that was generated for a value the kind of that value, and a list text
    one child node per item. *)
Definition kind_of (v : value) : vkind :=
  match v with
  | VBool _ => KBoolean
  | VStr _ => KString
  | VInt _ | VFloat _ => KNumber
  | VCur _ _ => KCurrency
  | VRef _ => KReference
  | VList _ => KList
  | VDate _ => KDateTime
  | VPath _ => KPath
  | VEnum _ => KEnum
  end.
Fixpoint written (env : dsl_env) (o : gen_options) (v : value) : vnode :=
  VNode (Some (kind_of v)) (generate_value env o v)
        (match v with VList vs => map (written env o) vs | _ => [] end).

(** Write a value, then read what was written in a file at [path]. *)
Definition read_back (env : dsl_env) (o : gen_options) (path : str) (v : value) : presult value :=
  obind (from_node env path (written env o v)) (fun p => Ok (to_value p)).
Definition survives (env : dsl_env) (o : gen_options) (path : str) (v : value) : Prop :=
  read_back env o path v = Ok v.

(** The same for a whole entity block. *)
Definition written_entity (env : dsl_env) (o : gen_options) (e : entity) : enode :=
  {| en_type := Some (lower (e_type e));
     en_id := Some (snd (decompose_entity_id (e_id e)));
     en_fields := map (fun fv => {| fn_id := Some (fst fv); fn_value := Some (written env o (snd fv)) |})
                      (e_fields e) |}.

(** A normalised identifier with exactly one dot. *)
Definition plain_entity_id (id : str) : Prop :=
  new_id id = id /\ exists t i, id = t ++ "."%char :: i /\ ~ In "."%char t /\ ~ In "."%char i.

(** ** Text *)
Definition starts_with_space (s : str) : Prop := exists w r, In w ws_chars /\ s = w ++ r.
Definition ends_with_space (s : str) : Prop := exists w r, In w ws_chars /\ s = r ++ w.
Definition has_crlf (s : str) : Prop := exists a b, s = a ++ CR :: LF :: b.
(** Nothing but white space characters. *)
Definition all_space (s : str) : Prop := exists ws, Forall (fun w => In w ws_chars) ws /\ s = concat ws.

(** Well-formed UTF-8 as far as it matters here: every character is a lead byte
    and as many continuation bytes as the lead byte announces. *)
Definition cont_bytes (c : ascii) : nat :=
  if (code c <? 128)%N then 0
  else if (code c <? 224)%N then 1
  else if (code c <? 240)%N then 2 else 3.
Definition utf8_char (w : str) : Prop :=
  match w with
  | [] => False
  | c :: r => is_cont c = false /\ length r = cont_bytes c /\ Forall (fun d => is_cont d = true) r
  end.
Inductive utf8 : str -> Prop :=
| utf8_nil : utf8 []
| utf8_cons w s : utf8_char w -> utf8 s -> utf8 (w ++ s).

(** The text between the triple quotes: no further quotes at its ends. *)
Definition quoted_body (body : str) : Prop :=
  (forall r, body <> DQ :: r) /\ (forall r, body <> r ++ [DQ]).

(** [k] bytes are the indentation the non-blank lines have in common: each of
    them starts with white space of at least that length, and one with exactly
    that. *)
Definition indentation (l : str) (k : nat) : Prop :=
  exists w r, l = w ++ r /\ length w = k /\ all_space w /\ ~ starts_with_space r.
Definition common_indentation (ls : list str) (k : nat) : Prop :=
  (forall l, In l ls -> ~ all_space l -> exists k', indentation l k' /\ k <= k') /\
  ((exists l, In l ls /\ ~ all_space l /\ indentation l k) \/
   (k = 0 /\ forall l, In l ls -> all_space l)).

(** [t] is [s] without the white space at its ends. *)
Definition trimmed_of (s t : str) : Prop :=
  ~ starts_with_space t /\ ~ ends_with_space t /\
  exists a b, all_space a /\ all_space b /\ s = a ++ t ++ b.

(** Cutting [k] bytes off the line would split a multi-byte character. *)
Definition cut_inside (k : nat) (l : str) : Prop :=
  k <= length l /\ exists c r, skipn k l = c :: r /\ is_cont c = true.

(** The effect on one line. Blank lines stay blank; other lines lose exactly [k]
    bytes of white space. *)
Definition dedented (k : nat) (l d : str) : Prop :=
  (all_space l -> all_space d) /\
  (~ all_space l -> exists w, l = w ++ d /\ length w = k /\ all_space w).

(** White space at the start of lines that is one byte per character. *)
Definition simple_indent (l : str) : Prop :=
  exists w r, l = w ++ r /\ all_space w /\ Forall (fun c => (code c < 128)%N) w /\ ~ starts_with_space r.

(** ** Numbers and dates *)
(** A decimal as rust_decimal can hold it. *)
Definition valid_dec (d : dec) : Prop := (Z.abs (d_mant d) < dec_limit)%Z /\ d_scale d <= 28.
(** A year the four-digit format can show, and a time zone chrono can hold. *)
Definition printable_datetime (d : datetime) : Prop :=
  let '(y, _, _) := civil_of_days (dt_date d) in
  (0 <= y <= 9999)%Z /\ (- 86400 < dt_off d < 86400)%Z /\ (0 <= dt_nanos d)%Z.

(** ** Lists *)
(** The kinds of value lists distinguish; entity and field references differ. *)
Definition kind_name (v : value) : str :=
  match v with
  | VBool _ => L "Boolean" | VStr _ => L "String" | VInt _ => L "Integer" | VFloat _ => L "Float"
  | VCur _ _ => L "Currency"
  | VRef (REntity _) => L "EntityReference" | VRef (RField _ _) => L "FieldReference"
  | VList _ => L "List" | VDate _ => L "DateTime" | VPath _ => L "Path" | VEnum _ => L "Enum"
  end.
Definition homogeneous (vs : list value) : Prop :=
  forall a b, In a vs -> In b vs -> kind_name a = kind_name b.

(** ** Paths *)
(** An ordinary path component. *)
Definition plain_component (c : str) : Prop :=
  c <> [] /\ c <> L "." /\ c <> L ".." /\ ~ In "/"%char c.
(** Walking along path components from a place [(n, d)]: [n] levels above the
    start, then down through [d]. With [abs] the start is the file system root,
    above which there is nothing. *)
Inductive walk (abs : bool) : nat * list str -> list str -> nat * list str -> Prop :=
| walk_end p : walk abs p [] p
| walk_here p c cs r : c = [] \/ c = L "." -> walk abs p cs r -> walk abs p (c :: cs) r
| walk_down n d c cs r : plain_component c -> walk abs (n, d ++ [c]) cs r -> walk abs (n, d) (c :: cs) r
| walk_up n d c cs r : walk abs (n, d) cs r -> walk abs (n, d ++ [c]) (L ".." :: cs) r
| walk_above n cs r : abs = false -> walk abs (S n, []) cs r -> walk abs (n, []) (L ".." :: cs) r
| walk_root n cs r : abs = true -> walk abs (n, []) cs r -> walk abs (n, []) (L ".." :: cs) r.
(** The text a path value gets: "/a/b" for absolute paths, "./a/b" below the
    workspace root, "../a" above it. *)
Definition place_text (abs : bool) (p : nat * list str) : str :=
  let '(n, d) := p in
  if abs then L "/" ++ join (L "/") d
  else match n, d with
       | 0, [] => L "./."
       | 0, _ => L "./" ++ join (L "/") d
       | _, _ => join (L "/") (repeat (L "..") n ++ d)
       end.
(** The workspace-relative path of a file in directory [d]. *)
Definition file_path (d : list str) (name : str) : str := join (L "/") (d ++ [name]).
(** The text of a path or enum literal is delimited by quotes and found by
    removing the opening tag: it must not contain what would be taken for one. *)
Definition taggable (tag v : str) : Prop :=
  (forall r, v <> DQ :: r) /\ (forall r, v <> r ++ [DQ]) /\
  (forall a b, v ++ [DQ] <> a ++ tag ++ [DQ] ++ b).

(** ** What survives *)
(** The texts that survive. *)
Definition storable_text (s : str) : Prop :=
  (~ In LF s /\ ~ In DQ s) \/
  (In LF s /\ ~ starts_with_space s /\ ~ ends_with_space s /\ ~ has_crlf s).
