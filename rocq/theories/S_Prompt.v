(** What the theorems about prompts speak about. *)
From Verif Require Import M_Graph S_Graph.
From Verif Require Export M_Prompt S_Grow.
From Coq Require Export Sorting.Sorted.
Close Scope Z_scope.

(** [core] is what remains of [acts] when some lines and choices are left out. *)
Inductive among : list act -> list act -> Prop :=
| among_end : among [] []
| among_keep a core acts : among core acts -> among (a :: core) (a :: acts)
| among_drop a core acts : a <> Escapes -> a <> Interrupts -> among core acts -> among core (a :: acts).

(** Lines that say yes or no. *)
Definition says (b : bool) (s : str) : Prop :=
  if b then lower s = L "y" \/ lower s = L "yes" else lower s = L "n" \/ lower s = L "no".
(** The reference names an entity of the graph, or a field it has. *)
Definition names_known (g : graph) (s : str) (r : ref_value) : Prop :=
  exists t i e, ~ In "."%char t /\ ~ In "."%char i /\ get_entity g (compose_entity_id t i) = Some e /\
    ((s = t ++ "."%char :: i /\ r = REntity (compose_entity_id t i)) \/
     exists f v, ~ In "."%char f /\ s = t ++ "."%char :: i ++ "."%char :: f /\ r = RField (compose_entity_id t i) f /\ first_value e f v).
(** A line with a time of day, in seconds; an empty one stands for noon. *)
Definition says_time (s : str) (secs : Z) : Prop := (s = [] /\ secs = 43200%Z) \/ (s <> [] /\ parse_hm s = Some secs).
(** A line with whole hours ahead of UTC; an empty one stands for those of the machine. *)
Definition says_hours (c : ctx) (s : str) (h : Z) : Prop :=
  (s = [] /\ h = Z.quot (local_offset (c_env c)) 3600) \/ (s <> [] /\ parse_i32 s = Some h).

(** The answers by which a value is entered, none of them refused. *)
Inductive enters (c : ctx) (pe : prompt_env) (g : graph) (target : path) : field_type -> option (list str) -> list act -> value -> Prop :=
| enters_bool al s b : says b s -> enters c pe g target TBool al [Types s] (VBool b)
| enters_str al s : ~ all_space s -> enters c pe g target TStr al [Types s] (VStr s)
| enters_int al s z : parse_i64 s = Some z -> enters c pe g target TInt al [Types s] (VInt z)
| enters_float al s f : pe_float pe s = Some f -> enters c pe g target TFloat al [Types s] (VFloat f)
| enters_cur al s a n k : pe_decimal pe s = Some a -> nth_error (pe_codes pe) n = Some k -> enters c pe g target TCur al [Types s; Picks n] (VCur a k)
| enters_ref al s r : names_known g s r -> enters c pe g target TRef al [Types s] (VRef r)
| enters_date al day s1 secs s2 h : says_time s1 secs -> says_hours c s2 h -> (-12 <= h <= 14)%Z ->
    enters c pe g target TDate al [PicksDay day; Types s1; Types s2] (VDate {| dt_local := (day * 86400 + secs)%Z; dt_nanos := 0; dt_off := (h * 3600)%Z |})
| enters_path al s : enters c pe g target TPath al [Types s] (VPath (prompt_path c target s))
| enters_enum vs n x : nth_error vs n = Some x -> enters c pe g target TEnum (Some vs) [Picks n] (VEnum x)
| enters_list al n t parts vs : nth_error [TStr; TInt; TFloat; TBool; TDate; TCur] n = Some t -> Forall2 (enters c pe g target t None) parts vs ->
    enters c pe g target TList al (Picks n :: concat parts ++ [Escapes]) (VList vs).
(** The same for several fields, one after the other; those that are neither
    required nor enums may be skipped. *)
Inductive chat (c : ctx) (pe : prompt_env) (g : graph) (target : path) : list (field_id * fschema) -> list act -> list (field_id * value) -> Prop :=
| chat_end : chat c pe g target [] [] []
| chat_value i f l part v acts fvs : enters c pe g target (fs_type f) (fs_allowed f) part v -> chat c pe g target l acts fvs ->
    chat c pe g target ((i, f) :: l) (part ++ acts) ((i, v) :: fvs)
| chat_skip i f l acts fvs : fs_required f = false -> fs_type f <> TEnum -> chat c pe g target l acts fvs ->
    chat c pe g target ((i, f) :: l) (Escapes :: acts) fvs.

(** The fields of a schema that are or are not required, in the order of their ids. *)
Definition asked_for (required : bool) (s : schema) (l : list (field_id * fschema)) : Prop :=
  (forall p, In p l <-> In p (s_fields s) /\ fs_required (snd p) = required) /\
  StronglySorted (fun p q => str_cmp (fst p) (fst q) = Lt) l.
(** The schemas in the order of their names. *)
Definition offered (schemas l : list schema) : Prop :=
  Permutation l schemas /\ StronglySorted (fun a b => str_cmp (s_type a) (s_type b) = Lt) l.
(** The dialogue in which [e] is entered, given the schemas and the graph. *)
Definition dialogue (c : ctx) (pe : prompt_env) (g : graph) (schemas : list schema) (file : option str) (acts : list act) (e : entity) : Prop :=
  exists l n s name lr ar fr answer lo ao fo,
    let target := dsl_path c (s_type s) file in
    offered schemas l /\ nth_error l n = Some s /\
    asked_for true s lr /\ chat c pe g target lr ar fr /\
    ((says true answer /\ asked_for false s lo /\ chat c pe g target lo ao fo) \/ ((says false answer \/ answer = []) /\ ao = [] /\ fo = [])) /\
    acts = Picks n :: Types name :: ar ++ Types answer :: ao /\
    e_id e = compute_unique_entity_id g (s_type s) name /\ e_type e = s_type s /\ e_fields e = fr ++ fo.

(** What is assumed of the libraries: decimals fit, and the currencies that can
    be picked are those that can be read. *)
Definition faithful (c : ctx) (pe : prompt_env) : Prop :=
  (forall s a, pe_decimal pe s = Some a -> valid_dec a) /\
  (forall k, In k (pe_codes pe) -> known_currency (c_env c) k = true /\ ~ In " "%char k).
(** Values that can be written such that they are read again. *)
Inductive writable (c : ctx) : value -> Prop :=
| writable_bool b : writable c (VBool b)
| writable_str s : utf8 s -> ~ In LF s -> ~ In DQ s -> writable c (VStr s)
| writable_int z : writable c (VInt z)
| writable_float f : parse_f64 (show_f64 (c_env c) f) = Some f -> writable c (VFloat f)
| writable_cur a k : writable c (VCur a k)
| writable_ref r : writable c (VRef r)
| writable_list vs : Forall (writable c) vs -> writable c (VList vs)
| writable_date d : (let '(y, _, _) := civil_of_days (dt_date d) in (0 <= y <= 9999)%Z) -> writable c (VDate d)
| writable_path p : writable c (VPath p)
| writable_enum x : taggable (L "enum") x -> writable c (VEnum x).
