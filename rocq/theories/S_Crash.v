(** What makes the program crash. *)
From Coq Require Import Permutation.
From Verif Require Import M_Server S_Dsl.
From Verif Require Import M_Fs.
Close Scope Z_scope.

(** A text in triple quotation marks, and what is left of it when they are
    taken off, as often as they are there. *)
Definition threes (n : nat) : str := concat (repeat q3 n).
Definition multi_line (raw body : str) : Prop :=
  (exists r, raw = q3 ++ r) /\ (exists r, raw = r ++ q3) /\
  exists m n, raw = threes m ++ body ++ threes n /\ (forall r, body ++ threes n <> q3 ++ r) /\ (forall r, body <> r ++ q3).
(** Taking the common indentation off its lines would cut a character. *)
Definition cut_string (raw : str) : Prop :=
  exists body k l, multi_line raw body /\ common_indentation (lines body) k /\ In l (lines body) /\ cut_inside k l.
(** Checked arithmetic, a date, and a zone in hours that has too many seconds for
    32 bits. *)
Definition overflowing_zone (env : dsl_env) (raw : str) : Prop :=
  overflow_checks env = true /\
  exists date day rest t z more h, split_str (L " at ") raw = [date; rest] /\ parse_naive_date date = Some day /\
    split_str (L " UTC") rest = t :: z :: more /\ parse_i32 z = Some h /\
    (h * 3600 < - 2 ^ 31 \/ 2 ^ 31 <= h * 3600)%Z.
(** Such a value, or a list in which it comes before all items that are in error. *)
Inductive crashing (env : dsl_env) (path : str) : vnode -> Prop :=
| crashing_string raw items : cut_string raw -> crashing env path (VNode (Some KString) raw items)
| crashing_zone raw items : overflowing_zone env raw -> crashing env path (VNode (Some KDateTime) raw items)
| crashing_item raw good bad rest : (forall n, In n good -> exists v, from_node env path n = Ok v) -> crashing env path bad ->
    crashing env path (VNode (Some KList) raw (good ++ bad :: rest)).

(** The values of the fields in a parsed file, and all items in them. *)
Definition value_in (ps : parsed) (n : vnode) : Prop :=
  (exists e f, In e (ps_entities ps) /\ In f (en_fields e) /\ fn_value f = Some n) \/
  (exists s b fs f, In s (ps_schemas ps) /\ In b (sn_blocks s) /\ nb_body b = Some fs /\ In f fs /\ fn_value f = Some n).
Inductive part_of : vnode -> vnode -> Prop :=
| part_self n : part_of n n
| part_item k raw items n m : In n items -> part_of n m -> part_of (VNode k raw items) m.
Definition text_of_node (n : vnode) : str := match n with VNode _ raw _ => raw end.

(** A source on the disk has a value that crashes. *)
Definition crash_on_disk (c : ctx) (d : fs) : Prop :=
  exists rel s ps n, read_text (c_links c) d (c_ws c ++ rel) = Some s /\ c_parse c s = Some ps /\ value_in ps n /\
    crashing (c_env c) (path_text rel) n.

(** Parsers whose nodes hold parts of the text. *)
Definition quotes_text (parse : str -> option parsed) : Prop := forall s ps n m, parse s = Some ps -> value_in ps n -> part_of n m ->
  utf8 (text_of_node m) /\ exists a b, s = a ++ text_of_node m ++ b.
(** No white space that takes several bytes (no-break spaces and the like). *)
Definition plain_white (s : str) : Prop := forall w a b, In w ws_chars -> s = a ++ w ++ b -> length w = 1.
Definition all_ascii (s : str) : Prop := Forall (fun c => (code c < 128)%N) s.
(** The texts of a request. *)
Definition request_text (r : request) (s : str) : Prop :=
  match r with
  | Write _ content _ => s = content
  | Replace _ old new _ _ => s = old \/ s = new
  | _ => False
  end.
Definition files_ascii (d : fs) : Prop := forall p s, In (p, File s) d -> all_ascii s.
