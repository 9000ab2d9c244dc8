(** What the theorems about the text of the graph speak about. *)
From Coq Require Export Permutation.
From Verif Require Export M_GraphJson S_Save S_Dsl.
From Verif Require Import M_Graph.
Close Scope Z_scope.

(** ** Numbers as text *)
Definition digits (s : str) : Prop := s <> [] /\ forallb is_digit s = true.
(** Digits without a leading zero. *)
Definition whole (s : str) : Prop := digits s /\ forall r, s = "0"%char :: r -> r = [].
Inductive number_text : str -> Prop :=
| number_text_of sign ints frac ex : sign = [] \/ sign = L "-" -> whole ints ->
    frac = [] \/ (exists ds, digits ds /\ frac = "."%char :: ds) ->
    ex = [] \/ (exists e s ds, (e = "e"%char \/ e = "E"%char) /\ (s = [] \/ s = L "+" \/ s = L "-") /\ digits ds /\ ex = e :: s ++ ds) ->
    number_text (sign ++ ints ++ frac ++ ex).
(** A decimal text of [f], whose digits without the point are a number below
    2^53 (so: any text of at most 15 digits), at most 22 after the point. *)
Definition short_decimal (t : str) (f : f64) : Prop :=
  exists neg a b n, t = (if neg : bool then L "-" else []) ++ a ++ L "." ++ b /\ whole a /\ digits b /\
    digits_val 0 (a ++ b) = Some n /\ (n < 2 ^ 53)%N /\ length b <= 22 /\ parse_f64 t = Some f.

(** Every finite float is written as a number. *)
Definition writes_numbers (env : json_env) : Prop := forall f, f_is_finite f = true -> number_text (je_float env f).

(** ** What can be stored *)
(** How many brackets and braces are open inside the text of a value. *)
Fixpoint levels (v : value) : nat :=
  match v with
  | VCur _ _ | VRef (REntity _) => 2
  | VRef (RField _ _) => 3
  | VList vs => 2 + fold_right Nat.max 0 (map levels vs)
  | _ => 1
  end.
(** A date-time with a year of four digits and an offset of whole minutes. *)
Definition storable_date (d : datetime) : Prop :=
  (let '(y, _, _) := civil_of_days (dt_date d) in 0 <= y <= 9999)%Z /\
  (0 <= dt_nanos d < 1000000000)%Z /\ (exists m, - 1440 < m < 1440 /\ dt_off d = m * 60)%Z.
Inductive storable (env : json_env) : value -> Prop :=
| st_bool b : storable env (VBool b)
| st_str s : is_text s = true -> storable env (VStr s)
| st_int z : in_i64 z = true -> storable env (VInt z)
| st_float f : f_is_finite f = true -> short_decimal (je_float env f) f -> storable env (VFloat f)
| st_cur a k : valid_dec a -> je_known env k = true -> is_text k = true -> storable env (VCur a k)
| st_entity id : is_text id = true -> storable env (VRef (REntity id))
| st_field id f : is_text id = true -> is_text f = true -> storable env (VRef (RField id f))
| st_list vs : Forall (storable env) vs -> storable env (VList vs)
| st_date d : storable_date d -> storable env (VDate d)
| st_path p : is_text p = true -> storable env (VPath p)
| st_enum s : is_text s = true -> storable env (VEnum s).
(** Six brackets and braces are open around a value; 127 may be. *)
Definition storable_entity (env : json_env) (e : entity) : Prop :=
  is_text (e_id e) = true /\ is_text (e_type e) = true /\
  Forall (fun fv => is_text (fst fv) = true /\ storable env (snd fv) /\ 6 + levels (snd fv) <= 127) (e_fields e).
(** Fewer nodes and fewer edges than there are indices. *)
Definition countable (g : graph) : Prop :=
  (N.of_nat (length (g_nodes g)) < 4294967295)%N /\ (N.of_nat (length (g_edges g)) < 4294967295)%N.

(** ** Hash maps *)
(** The walks over the hash maps reach every entry. *)
Definition walks (env : json_env) : Prop :=
  (forall l, Permutation (je_ids env l) l) /\ (forall l, Permutation (je_kinds env l) l).
(** The walks go in the order of the model's lists. *)
Definition walks_in_order (env : json_env) : Prop :=
  (forall l, je_ids env l = l) /\ (forall l, je_kinds env l = l).
(** The same graph, but for the order inside the hash maps. *)
Definition same_graph (g g' : graph) : Prop :=
  g_nodes g' = g_nodes g /\ g_edges g' = g_edges g /\ Permutation (g_map g') (g_map g) /\ Permutation (g_types g') (g_types g).
