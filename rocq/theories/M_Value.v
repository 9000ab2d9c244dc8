(** Field values, entities: firm_core/src/field.rs, entity.rs. *)
From Verif Require Export M_Str M_Ids M_Float M_Time.
Close Scope Z_scope.

(** rust_decimal [Decimal]: a signed 96-bit integer mantissa over a power of
    ten, scale 0..28. *)
Record dec := { d_mant : Z; d_scale : nat }.
Definition pow10 (n : nat) : Z := (10 ^ Z.of_nat n)%Z.

(** [Ord for Decimal]: numeric order. *)
Definition dec_cmp (a b : dec) : comparison :=
  Z.compare (d_mant a * pow10 (d_scale b)) (d_mant b * pow10 (d_scale a)).

Definition dec_limit : Z := (2 ^ 96)%Z.
(** [Decimal + Decimal] while the exact sum at the larger scale fits in 96
    bits. Beyond that the library re-scales with rounding or panics; that
    outcome is [None] here and is never treated as a value. *)
Definition dec_add (a b : dec) : option dec :=
  let s := Nat.max (d_scale a) (d_scale b) in
  let m := (d_mant a * pow10 (s - d_scale a) + d_mant b * pow10 (s - d_scale b))%Z in
  if (Z.abs m <? dec_limit)%Z then Some {| d_mant := m; d_scale := s |} else None.
Definition dec_zero : dec := {| d_mant := 0; d_scale := 0 |}.

(** firm_core/src/field.rs:43-48. *)
Inductive ref_value :=
| REntity (id : entity_id)
| RField (id : entity_id) (f : field_id).

(** firm_core/src/field.rs:60-72. A currency is represented by its ISO code. *)
Inductive value :=
| VBool (b : bool)
| VStr (s : str)
| VInt (z : Z)
| VFloat (f : f64)
| VCur (amount : dec) (code : str)
| VRef (r : ref_value)
| VList (vs : list value)
| VDate (d : datetime)
| VPath (p : str)
| VEnum (s : str).

(** firm_core/src/field.rs:13-24. *)
Inductive field_type :=
| TBool | TStr | TInt | TFloat | TCur | TRef | TList | TDate | TPath | TEnum.

Definition field_type_eqb (a b : field_type) : bool :=
  match a, b with
  | TBool, TBool | TStr, TStr | TInt, TInt | TFloat, TFloat | TCur, TCur
  | TRef, TRef | TList, TList | TDate, TDate | TPath, TPath | TEnum, TEnum => true
  | _, _ => false
  end.

(** firm_core/src/field.rs:102-119. *)
Definition get_type (v : value) : field_type :=
  match v with
  | VBool _ => TBool | VStr _ => TStr | VInt _ => TInt | VFloat _ => TFloat
  | VCur _ _ => TCur | VRef (REntity _) => TRef | VRef (RField _ _) => TRef
  | VList _ => TList | VDate _ => TDate | VPath _ => TPath | VEnum _ => TEnum
  end.

(** firm_core/src/field.rs:122-124. *)
Definition is_type (v : value) (t : field_type) : bool := field_type_eqb (get_type v) t.

(** firm_core/src/field.rs:50-57, [Display for ReferenceValue]. *)
Definition ref_display (r : ref_value) : str :=
  match r with
  | REntity id => id
  | RField id f => id ++ L "." ++ f
  end.

(** firm_core/src/entity.rs:9-13. *)
Record entity := {
  e_id : entity_id;
  e_type : entity_type;
  e_fields : list (field_id * value)
}.

(** firm_core/src/entity.rs:17-23, 26-32. *)
Definition entity_new (id : entity_id) (t : entity_type) : entity :=
  {| e_id := id; e_type := t; e_fields := [] |}.
Definition with_field (e : entity) (f : field_id) (v : value) : entity :=
  {| e_id := e_id e; e_type := e_type e; e_fields := e_fields e ++ [(f, v)] |}.

(** firm_core/src/entity.rs:35-40: first field with that id. *)
Definition get_field (e : entity) (f : field_id) : option value :=
  match find (fun p => str_eqb (fst p) f) (e_fields e) with
  | Some (_, v) => Some v
  | None => None
  end.
