(** What the literals of the documented syntax stand for. *)
From Coq Require Import ZArith.
From Verif Require Import S_Round S_Nearest.
From Verif Require Import M_Graph M_Text M_Num M_Time M_Dsl S_Dsl S_Syntax S_Whole S_Alike.
Close Scope Z_scope.

Definition signed (neg : bool) (s : str) : str := if neg then L "-" ++ s else s.
Definition with_sign (neg : bool) (n : Z) : Z := if neg then (- n)%Z else n.
(** [n / 10 ^ k], with or without a minus sign: [k] digits follow the point, and
    there is none if [k] is 0. *)
Inductive number_literal : str -> bool -> Z -> nat -> Prop :=
| whole_number neg a n : numeral a n -> number_literal (signed neg a) neg n 0
| decimal_number neg a b n : a <> [] -> b <> [] -> numeral (a ++ b) n ->
    number_literal (signed neg (a ++ L "." ++ b)) neg n (length b).

(** The day that [s] stands for, counted from 1970-01-01. *)
Definition day_literal (s : str) (day : Z) : Prop :=
  exists ys ms ds y m d, s = ys ++ L "-" ++ ms ++ L "-" ++ ds /\ length ys = 4 /\ length ms = 2 /\ length ds = 2 /\
    numeral ys y /\ numeral ms m /\ numeral ds d /\ valid_civil y m d = true /\ day = days_of_civil y m d.
(** The seconds since midnight. *)
Definition time_literal (s : str) (secs : Z) : Prop :=
  exists hs ms h m, s = hs ++ L ":" ++ ms /\ length hs <= 2 /\ length ms = 2 /\ numeral hs h /\ numeral ms m /\
    (h < 24)%Z /\ (m < 60)%Z /\ secs = (h * 3600 + m * 60)%Z.
(** The seconds east of UTC. A build without overflow checks goes round. *)
Definition zone_literal (checks : bool) (s : str) (east : Z) : Prop :=
  s = L "UTC" /\ east = 0%Z \/
  exists (neg : bool) ds n, s = L "UTC" ++ L (if neg then "-" else "+") ++ ds /\ numeral ds n /\
    (- 2 ^ 31 <= with_sign neg n < 2 ^ 31)%Z /\ (- 86400 < east < 86400)%Z /\
    if checks then east = (with_sign neg n * 3600)%Z else exists j, east = (with_sign neg n * 3600 + j * 2 ^ 32)%Z.

(** Of a text that ends like the word before the quotes, the end is lost. *)
Definition between_quotes (word s v : str) : Prop :=
  v = s /\ (forall a, s <> a ++ word) \/ s = v ++ word.

Inductive denotes (env : dsl_env) (path : str) : vkind -> str -> value -> Prop :=
| den_bool b : denotes env path KBoolean (bool_text b) (VBool b)
| den_text t s : text_literal t s -> denotes env path KString t (VStr s)
| den_integer t neg n : number_literal t neg n 0 -> (- 2 ^ 63 <= with_sign neg n < 2 ^ 63)%Z ->
    denotes env path KNumber t (VInt (with_sign neg n))
| den_decimal t neg n k f : number_literal t neg n k -> 0 < k ->
    nearest_double (with_sign neg n) (Z.to_pos (10 ^ Z.of_nat k)) f -> negative f = neg ->
    denotes env path KNumber t (VFloat f)
| den_amount a c neg n k : number_literal a neg n k -> (n < 2 ^ 96)%Z -> k <= 28 -> ~ In " "%char c -> known_currency env c = true ->
    denotes env path KCurrency (a ++ L " " ++ c) (VCur {| d_mant := with_sign neg n; d_scale := k |} c)
| den_entity t i : name_syntax t -> name_syntax i ->
    denotes env path KReference (t ++ L "." ++ i) (VRef (REntity (compose_entity_id t i)))
| den_field t i f : name_syntax t -> name_syntax i -> name_syntax f ->
    denotes env path KReference (t ++ L "." ++ i ++ L "." ++ f) (VRef (RField (compose_entity_id t i) f))
| den_date s day : day_literal s day ->
    denotes env path KDate s (VDate {| dt_local := (day * 86400)%Z; dt_nanos := 0; dt_off := local_offset env |})
| den_local s t day secs : day_literal s day -> time_literal t secs ->
    denotes env path KDateTime (s ++ L " at " ++ t) (VDate {| dt_local := (day * 86400 + secs)%Z; dt_nanos := 0; dt_off := local_offset env |})
| den_zoned s t z day secs east : day_literal s day -> time_literal t secs -> zone_literal (overflow_checks env) z east ->
    denotes env path KDateTime (s ++ L " at " ++ t ++ L " " ++ z) (VDate {| dt_local := (day * 86400 + secs)%Z; dt_nanos := 0; dt_off := east |})
| den_path s v ds name r : one_line s -> between_quotes (L "path") s v ->
    path = file_path ds name -> Forall plain_component ds -> plain_component name ->
    walk (is_absolute v) (0, if is_absolute v then [] else ds) (split_char "/" v) r ->
    denotes env path KPath (L "path" ++ [DQ] ++ s ++ [DQ]) (VPath (place_text (is_absolute v) r))
| den_enum s v : one_line s -> between_quotes (L "enum") s v ->
    denotes env path KEnum (L "enum" ++ [DQ] ++ s ++ [DQ]) (VEnum v).

(** A list stands for the list of what its items stand for, all of one kind. *)
Inductive stands_for (env : dsl_env) (path : str) : vnode -> value -> Prop :=
| sf_literal k t v : denotes env path k t v -> stands_for env path (VNode (Some k) t []) v
| sf_list raw ns vs : Forall2 (stands_for env path) ns vs -> homogeneous vs -> stands_for env path (VNode (Some KList) raw ns) (VList vs).
(** The value of a field with this value in a source file at [path]. *)
Definition read_node (env : dsl_env) (path : str) (vn : vnode) (v : value) : Prop :=
  exists p, from_node env path vn = M_Text.Ok p /\ v = M_Dsl.to_value p.
