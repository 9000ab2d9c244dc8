(** IEEE-754 binary64, as [f64] in Rust: the standard library's [SpecFloat]
    with precision 53 and maximal exponent 1024, rounding to nearest even.
    All NaNs are identified. *)
From Coq Require Export ZArith Bool.
From Coq Require Export Floats.SpecFloat.

Definition f64 := spec_float.
Definition fprec : Z := 53.
Definition femax : Z := 1024.

Definition f_add : f64 -> f64 -> f64 := SFadd fprec femax.
Definition f_sub : f64 -> f64 -> f64 := SFsub fprec femax.
Definition f_div : f64 -> f64 -> f64 := SFdiv fprec femax.
Definition f_abs : f64 -> f64 := SFabs.

Definition f_zero : f64 := S754_zero false.

(** [n as f64] for an integer. *)
Definition f_of_Z (n : Z) : f64 :=
  match n with
  | Z0 => f_zero
  | Zpos p => binary_normalize fprec femax (Zpos p) 0 false
  | Zneg p => binary_normalize fprec femax (Zneg p) 0 true
  end.

(** [f64::partial_cmp]. *)
Definition f_cmp : f64 -> f64 -> option comparison := SFcompare.
Definition f_lt (a b : f64) : bool := match f_cmp a b with Some Lt => true | _ => false end.
Definition f_gt (a b : f64) : bool := match f_cmp a b with Some Gt => true | _ => false end.
Definition f_le (a b : f64) : bool := match f_cmp a b with Some (Lt | Eq) => true | _ => false end.
Definition f_ge (a b : f64) : bool := match f_cmp a b with Some (Gt | Eq) => true | _ => false end.
Definition f_eq (a b : f64) : bool := match f_cmp a b with Some Eq => true | _ => false end.
Definition f_ne (a b : f64) : bool := negb (f_eq a b).

Definition f_is_nan (a : f64) : bool := match a with S754_nan => true | _ => false end.
Definition f_is_finite (a : f64) : bool := match a with S754_zero _ | S754_finite _ _ _ => true | _ => false end.

(** [f64::EPSILON] = 2^-52. *)
Definition f_epsilon : f64 := S754_finite false 4503599627370496 (-104).

Definition i64_min : Z := (-9223372036854775808)%Z.
Definition i64_max : Z := 9223372036854775807%Z.
Definition in_i64 (z : Z) : bool := ((i64_min <=? z) && (z <=? i64_max))%Z.

(** [n as i64]: truncation towards zero, saturating, NaN to 0. *)
Definition f_trunc (a : f64) : Z :=
  match a with
  | S754_finite s m e =>
      let v := if (0 <=? e)%Z then (Zpos m * 2 ^ e)%Z else (Zpos m / 2 ^ (- e))%Z in
      if s then (- v)%Z else v
  | _ => 0%Z
  end.
Definition f_to_i64 (a : f64) : Z :=
  match a with
  | S754_infinity false => i64_max
  | S754_infinity true => i64_min
  | S754_nan => 0%Z
  | _ => Z.max i64_min (Z.min i64_max (f_trunc a))
  end.

(** [n.fract() == 0.0]: infinities and NaN have a NaN fraction. *)
Definition f_is_integral (a : f64) : bool :=
  match a with
  | S754_zero _ => true
  | S754_finite _ m e => ((0 <=? e) || (Zpos m mod 2 ^ (- e) =? 0))%Z
  | _ => false
  end.

(** Correctly rounded quotient of two positive integers, as used by decimal
    to binary conversion ([str::parse::<f64>]). *)
Definition f_of_ratio (neg : bool) (num : Z) (den : positive) : f64 :=
  match num with
  | Zpos p =>
      let '(q, e, l) := SFdiv_core_binary fprec femax (Zpos p) 0 (Zpos den) 0 in
      binary_round_aux fprec femax neg q e l
  | _ => S754_zero neg
  end.
