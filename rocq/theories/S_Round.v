(** Rounding of integers to the precision of binary64. *)
From Coq Require Import ZArith.
From Verif Require Import M_Float.
Local Open Scope Z_scope.

(** [m] is [z] rounded to 53 binary digits: to the nearest multiple of [2 ^ k],
    where [k] digits are too many, and half way to the even one. *)
Definition rounded (z m : Z) : Prop :=
  exists k q, (k = 0 /\ Z.abs z < 2 ^ 53 \/ 0 < k /\ 2 ^ (52 + k) <= Z.abs z < 2 ^ (53 + k)) /\
    m = q * 2 ^ k /\ 2 * Z.abs (z - m) <= 2 ^ k /\ (2 * Z.abs (z - m) = 2 ^ k -> Z.even q = true).
(** An integer of at most 53 binary digits, with zeros behind them. *)
Definition has_53_digits (m : Z) : Prop := exists a e, m = a * 2 ^ e /\ 0 <= e /\ Z.abs a < 2 ^ 53.
(** The 64-bit integer nearest to [m]. *)
Definition saturated (m n : Z) : Prop :=
  (- 2 ^ 63 <= m < 2 ^ 63 /\ n = m) \/ (m < - 2 ^ 63 /\ n = - 2 ^ 63) \/ (2 ^ 63 <= m /\ n = 2 ^ 63 - 1).
(** From here on an integer is nearer to [2 ^ 1024], which binary64 has not, than
    to the largest number it has. *)
Definition f64_limit : Z := 2 ^ 1024 - 2 ^ 970.

(** A finite number of binary64 (the model's floats have every mantissa and
    exponent), and its value in units of [2 ^ -1074], the smallest there is. *)
Definition finite_double (f : f64) : Prop := valid_binary fprec femax f = true /\ f_is_finite f = true.
Definition units (f : f64) : Z :=
  match f with
  | S754_finite s m e => (if s then - Zpos m else Zpos m) * 2 ^ (e + 1074)
  | _ => 0
  end.
(** The distance from which two floats are told apart, in the same units: that
    is [f64::EPSILON], less the part a difference is rounded up by. *)
Definition told_apart : Z := 2 ^ 1022 - 2 ^ 968.
