(** Rounding of fractions to binary64. *)
From Coq Require Import ZArith.
From Verif Require Import M_Float S_Round.
Local Open Scope Z_scope.

(** How far the float is from [n / d], [d * 2 ^ 1074] times. *)
Definition off (n : Z) (d : positive) (f : f64) : Z := Z.abs (units f * Zpos d - n * 2 ^ 1074).
Definition even_mantissa (f : f64) : Prop := match f with S754_finite _ m _ => Z.even (Zpos m) = true | _ => True end.
(** [f] is what IEEE 754 says [n / d] is rounded to: no number of binary64 is
    nearer, and where another is as near, [f] is the even one. From half way
    between the largest number there is and [2 ^ 1024] on, it is an infinity. *)
Definition nearest_double (n : Z) (d : positive) (f : f64) : Prop :=
  if Z.abs n <? f64_limit * Zpos d then
    finite_double f /\ forall g, finite_double g -> off n d f <= off n d g /\ (off n d g = off n d f -> units g <> units f -> even_mantissa f)
  else f = S754_infinity (n <? 0).
Definition negative (f : f64) : bool :=
  match f with S754_zero s | S754_infinity s | S754_finite s _ _ => s | S754_nan => false end.
