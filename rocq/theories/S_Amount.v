(** Currency amounts and the floats they are compared with in queries. *)
From Coq Require Import ZArith.
From Verif Require Import M_Query M_Dsl M_QParse S_Query S_QText S_Round.
Local Open Scope Z_scope.

(** The decimal and the float are one number. *)
Definition same_number (d : dec) (f : f64) : Prop := d_mant d * 2 ^ 1074 = units f * pow10 (d_scale d).
(** What is used of [Decimal::from_f64_retain]: floats up to 2^95 have a decimal;
    it is the same number if a decimal is; in any case it is off by no more than
    a 10^24th part and 10^-27. *)
Definition retains (x : ext) : Prop := forall f, finite_double f ->
  (Z.abs (units f) < 2 ^ (95 + 1074) -> exists d, dec_of_f64 x f = Some d) /\
  (forall d, Z.abs (d_mant d) < dec_limit -> (d_scale d <= 28)%nat -> same_number d f ->
    exists d', dec_of_f64 x f = Some d' /\ same_number d' f) /\
  (forall d, dec_of_f64 x f = Some d ->
    Z.abs (d_mant d * 2 ^ 1074 - units f * pow10 (d_scale d)) * 10 ^ 27 <= (Z.abs (units f) * 10 ^ 3 + 2 ^ 1074) * pow10 (d_scale d)).
(** Amounts written with up to five decimals and fewer than 15 digits. *)
Definition ordinary_amount (d : dec) : Prop := (d_scale d <= 5)%nat /\ Z.abs (d_mant d) < 10 ^ 15.
(** The amount is a whole number of halves, quarters, eighths ...: of as many
    as it has decimals. *)
Definition binary_amount (d : dec) : Prop := (5 ^ Z.of_nat (d_scale d) | d_mant d).
(** One [Decimal::from_f64_retain] with these properties: the nearest decimal
    with as many decimals as fit, for examples. *)
Fixpoint nearest_decimal (u : Z) (s : nat) : option dec :=
  let m := (2 * (u * pow10 s) + 2 ^ 1074) / (2 * 2 ^ 1074) in
  if Z.abs m <? dec_limit then Some {| d_mant := m; d_scale := s |}
  else match s with O => None | S s' => nearest_decimal u s' end.
Definition retaining (x : ext) : ext :=
  {| dec_of_f64 := fun f => nearest_decimal (units f) 28; dec_to_f64 := dec_to_f64 x; dec_add_round := dec_add_round x;
     overflow_checks := overflow_checks x; sum_start_negative := sum_start_negative x |}.

(** The query [from * | where price == 19.99 EUR], for an amount [d]. *)
Definition amount_query (f : str) (o : operator) (d : dec) (c : str) : str :=
  L "from * | where " ++ f ++ L " " ++ operator_text o ++ L " " ++ show_dec d ++ L " " ++ c.
(** The one condition a text is read as. *)
Definition condition_read (text : str) (k : condition) : Prop :=
  read_query text = Ok {| q_from := SAll; q_ops := [QWhere {| cc_conds := [k]; cc_comb := CAnd |}]; q_agg := None |}.
