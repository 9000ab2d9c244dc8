(** Amounts in queries. *)
From Coq Require Import Lia Znumtheory Zpow_facts.
From Verif Require Import M_Query S_Round S_Amount L_FloatInt L_Ratio L_Round L_FloatSub L_Near.
Local Open Scope Z_scope.

Lemma pow10_pos n : 0 < pow10 n.
Proof. apply Z.pow_pos_nonneg; lia. Qed.
Lemma small_pow10 s : (s <= 5)%nat -> 1 <= pow10 s <= 100000 /\ Zpos (Pos.of_nat 10 ^ Pos.of_nat s) = (match s with O => 10 | _ => pow10 s end).
Proof. intros H. destruct s as [|[|[|[|[|[|]]]]]]; try lia; split; try reflexivity; split; discriminate. Qed.

(** The arithmetic: [m / h] written, [k * w] its float in units, [w * g] units to
    one, [m' / t] the decimal of the float. *)
Section Arith.
Variables m h k g w m' t : Z.
Hypothesis W : 0 < w.
Hypothesis G : 0 < g.
Hypothesis T : 0 < t.
Hypothesis H : 1 <= h <= 100000.
Hypothesis M : 0 < Z.abs m < 10 ^ 15.
Hypothesis B : 2 ^ 52 * h <= Z.abs m * g < 2 ^ 53 * h.
Hypothesis K : Z.abs k <= 2 ^ 53.
Hypothesis N : 2 * Z.abs (m * g - k * h) <= h.
Hypothesis E : Z.abs (m' * (w * g) - k * w * t) * 10 ^ 27 <= (Z.abs (k * w) * 10 ^ 3 + w * g) * t.

Lemma room : 4 * h < g.
Proof. change (10 ^ 15) with 1000000000000000 in M. change (2 ^ 52) with 4503599627370496 in B. nia. Qed.
Lemma error : Z.abs (m' * (w * g) - k * w * t) * 10 ^ 27 <= (9007199254740992 * 10 ^ 3 + g) * (w * t).
Proof.
  eapply Z.le_trans; [exact E|]. rewrite Z.abs_mul, (Z.abs_eq w) by lia. change (2 ^ 53) with 9007199254740992 in K.
  replace ((9007199254740992 * 10 ^ 3 + g) * (w * t)) with ((9007199254740992 * w * 10 ^ 3 + w * g) * t) by ring.
  apply Z.mul_le_mono_nonneg_r; [lia|]. assert (Z.abs k * w <= 9007199254740992 * w) by (apply Z.mul_le_mono_nonneg_r; lia). lia.
Qed.
Lemma near_amount : Z.abs (m' * h - m * t) < t.
Proof.
  pose proof room as R. pose proof error as X. set (x := Z.abs (m' * (w * g) - k * w * t)) in *. set (y := Z.abs (m * g - k * h)) in *.
  assert (A : Z.abs (m' * h - m * t) * (w * g) <= h * x + t * w * y).
  { rewrite <- (Z.abs_eq (w * g)) by (apply Z.mul_nonneg_nonneg; lia). rewrite <- Z.abs_mul.
    replace ((m' * h - m * t) * (w * g)) with (h * (m' * (w * g) - k * w * t) + - (t * w * (m * g - k * h))) by ring.
    eapply Z.le_trans; [apply Z.abs_triangle|]. rewrite Z.abs_opp, !Z.abs_mul, (Z.abs_eq h), (Z.abs_eq t), (Z.abs_eq w) by lia. subst x y. rewrite !Z.abs_mul || idtac. lia. }
  set (z := Z.abs (m' * h - m * t)) in *. destruct (Z.lt_ge_cases z t) as [C|C]; [exact C|exfalso].
  assert (P : 0 < t * w) by (apply Z.mul_pos_pos; lia). assert (WG : 0 < w * g) by (apply Z.mul_pos_pos; lia).
  assert (A0 : t * (w * g) <= z * (w * g)) by (apply Z.mul_le_mono_nonneg_r; lia).
  assert (A1 : t * (w * g) * (2 * 10 ^ 27) <= h * (x * 10 ^ 27) * 2 + t * w * (2 * y) * 10 ^ 27) by lia.
  assert (A2 : h * (x * 10 ^ 27) <= h * ((9007199254740992 * 10 ^ 3 + g) * (w * t))) by (apply Z.mul_le_mono_nonneg_l; lia).
  assert (A3 : t * w * (2 * y) <= t * w * h) by (apply Z.mul_le_mono_nonneg_l; lia).
  assert (A4 : (t * w) * (g * (2 * 10 ^ 27)) <= (t * w) * (2 * h * (9007199254740992 * 10 ^ 3 + g) + h * 10 ^ 27)) by lia.
  apply Z.mul_le_mono_pos_l in A4; [|exact P]. assert (h * g <= 100000 * g) by (apply Z.mul_le_mono_nonneg_r; lia). lia.
Qed.
Lemma others_as_written n : n <> m -> (n * t ?= m' * h) = (n * h ?= m * h).
Proof.
  intros D. pose proof near_amount as A. destruct (Z.lt_trichotomy n m) as [L|[L|L]]; [|congruence|].
  - assert ((n + 1) * t <= m * t) by (apply Z.mul_le_mono_nonneg_r; lia). transitivity Lt; [apply Z.compare_lt_iff; lia|symmetry; apply Z.compare_lt_iff; apply Z.mul_lt_mono_pos_r; lia].
  - assert ((m + 1) * t <= n * t) by (apply Z.mul_le_mono_nonneg_r; lia). transitivity Gt; [apply Z.compare_gt_iff; lia|symmetry; apply Z.compare_gt_iff; apply Z.mul_lt_mono_pos_r; lia].
Qed.
Lemma equal_only_exact : m' * h = m * t -> m * g = k * h.
Proof.
  intros Q. destruct (Z.eq_dec (m * g) (k * h)) as [C|C]; [exact C|exfalso]. pose proof error as X.
  assert (Y : 1 <= Z.abs (m * g - k * h)) by lia.
  assert (Z1 : h * Z.abs (m' * (w * g) - k * w * t) = t * w * Z.abs (m * g - k * h)).
  { rewrite <- (Z.abs_eq h) at 1 by lia. rewrite <- (Z.abs_eq (t * w)) by (apply Z.mul_nonneg_nonneg; lia). rewrite <- !Z.abs_mul. f_equal.
    replace (h * (m' * (w * g) - k * w * t)) with ((m' * h) * (w * g) - k * w * t * h) by ring. rewrite Q. ring. }
  set (x := Z.abs (m' * (w * g) - k * w * t)) in *. assert (P : 0 < t * w) by (apply Z.mul_pos_pos; lia).
  assert (A0 : t * w * 1 <= t * w * Z.abs (m * g - k * h)) by (apply Z.mul_le_mono_nonneg_l; lia).
  assert (A1 : t * w * 10 ^ 27 <= h * (x * 10 ^ 27)) by lia.
  assert (A2 : h * (x * 10 ^ 27) <= h * ((9007199254740992 * 10 ^ 3 + g) * (w * t))) by (apply Z.mul_le_mono_nonneg_l; lia).
  assert (A3 : (t * w) * 10 ^ 27 <= (t * w) * (h * (9007199254740992 * 10 ^ 3 + g))) by lia.
  apply Z.mul_le_mono_pos_l in A3; [|exact P]. change (2 ^ 53) with 9007199254740992 in B.
  assert (G1 : 1 * g <= Z.abs m * g) by (apply Z.mul_le_mono_nonneg_r; lia).
  assert (G2 : h * g <= 100000 * (9007199254740992 * 100000)) by (apply Z.mul_le_mono_nonneg; lia). lia.
Qed.
End Arith.

Lemma pow10_split s : pow10 s = 5 ^ Z.of_nat s * 2 ^ Z.of_nat s.
Proof. unfold pow10. change 10 with (5 * 2) at 1. apply Z.pow_mul_l. Qed.
Lemma exact_amount m k s n : 0 <= n -> m * 2 ^ n = k * pow10 s -> (5 ^ Z.of_nat s | m).
Proof.
  intros Hn Q. apply Gauss with (2 ^ n).
  - exists (k * 2 ^ Z.of_nat s). rewrite pow10_split in Q. rewrite Z.mul_comm, Q. ring.
  - apply rel_prime_Zpower; [lia|exact Hn|]. apply bezout_rel_prime. apply Bezout_intro with 1 (-2). reflexivity.
Qed.
Lemma exact_enough m k s n : 0 <= n -> (5 ^ Z.of_nat s | m) -> 4 * pow10 s < 2 ^ n -> 2 * Z.abs (m * 2 ^ n - k * pow10 s) <= pow10 s -> m * 2 ^ n = k * pow10 s.
Proof.
  intros Hn [j ->] R N. pose proof (pow10_pos s) as P. assert (F : 0 < 5 ^ Z.of_nat s) by (apply Z.pow_pos_nonneg; lia).
  assert (T : 0 < 2 ^ Z.of_nat s) by (apply Z.pow_pos_nonneg; lia).
  assert (Ln : Z.of_nat s <= n).
  { apply Z.lt_le_incl, (Z.pow_lt_mono_r_iff 2); [lia|lia|]. rewrite pow10_split in R, P. nia. }
  replace (j * 5 ^ Z.of_nat s * 2 ^ n) with (j * 2 ^ (n - Z.of_nat s) * pow10 s) in *.
  2: { rewrite pow10_split. replace n with (n - Z.of_nat s + Z.of_nat s) at 2 by lia. rewrite (Z.pow_add_r 2 (n - Z.of_nat s) (Z.of_nat s)) by lia. ring. }
  f_equal. rewrite <- Z.mul_sub_distr_r, Z.abs_mul, (Z.abs_eq (pow10 s)) in N by lia. set (z := j * 2 ^ (n - Z.of_nat s)) in *. nia.
Qed.

Lemma ordinary_exp p den s : (s <= 5)%nat -> Zpos den = pow10 s -> Zpos p < 10 ^ 15 -> -900 <= ratio_exp p den <= 52.
Proof.
  intros S D P. unfold ratio_exp. cbn [Zdigits2]. destruct (digits_bounds p) as [A B]. destruct (digits_bounds den) as [A' B'].
  assert (U : Zpos (digits2_pos p) - 1 < 50) by (apply (Z.pow_lt_mono_r_iff 2); [lia|lia|]; change (10 ^ 15) with 1000000000000000 in P; change (2 ^ 50) with 1125899906842624; lia).
  assert (U' : Zpos (digits2_pos den) - 1 < 17).
  { apply (Z.pow_lt_mono_r_iff 2); [lia|lia|]. destruct (small_pow10 s S) as [Y _]. change (2 ^ 17) with 131072. lia. }
  lia.
Qed.

Definition amount_float (d : dec) (den : positive) : f64 := f_of_ratio (d_mant d <? 0) (Z.abs (d_mant d)) den.

Lemma amount_close x d den : retains x -> ordinary_amount d -> Zpos den = pow10 (d_scale d) ->
  exists d', dec_of_f64 x (amount_float d den) = Some d' /\
    (forall n, n <> d_mant d -> (n * pow10 (d_scale d') ?= d_mant d' * pow10 (d_scale d)) = (n ?= d_mant d)) /\
    (d_mant d * pow10 (d_scale d') = d_mant d' * pow10 (d_scale d) <-> binary_amount d).
Proof.
  intros R [S M] D. unfold amount_float. set (m := d_mant d) in *. set (s := d_scale d) in *.
  destruct (Z.eq_dec m 0) as [Z0|NZ].
  { rewrite Z0. cbn [Z.ltb Z.abs Z.compare f_of_ratio].
    assert (F : finite_double (S754_zero false)) by (split; reflexivity).
    destruct (R _ F) as (_ & R2 & _). destruct (R2 {| d_mant := 0; d_scale := 0 |}) as (d' & E & Q); [reflexivity|cbn; lia|reflexivity|].
    exists d'. split; [exact E|]. unfold same_number in Q. cbn [units] in Q.
    assert (P2 : 0 < 2 ^ 1074) by (apply Z.pow_pos_nonneg; lia). set (w := 2 ^ 1074) in *. clearbody w.
    assert (Q0 : d_mant d' = 0) by nia. rewrite Q0. pose proof (pow10_pos (d_scale d')) as P. split.
    - intros n Hn. rewrite Z.mul_0_l. destruct n as [|n|n]; [lia| |]; destruct (pow10 (d_scale d')); try lia; reflexivity.
    - unfold binary_amount. fold m. rewrite Z0. split; [intros _; apply Z.divide_0_r|intros _; lia]. }
  assert (A : exists p, Z.abs m = Zpos p) by (destruct m as [|p|p]; [lia|exists p; reflexivity|exists p; reflexivity]). destruct A as [p Ep]. rewrite Ep.
  destruct (ratio_near (m <? 0) p den (ordinary_exp p den s S D ltac:(lia))) as (e & k0 & Ee & B & K0 & N & F & U).
  set (f := f_of_ratio (m <? 0) (Zpos p) den) in *. clearbody f. set (k := if m <? 0 then - k0 else k0) in *.
  assert (Ek : Z.abs k = k0 /\ Zpos p * 2 ^ (- e) - k0 * Zpos den = (if m <? 0 then -1 else 1) * (m * 2 ^ (- e) - k * Zpos den)).
  { subst k. assert (0 < 2 ^ 52) by reflexivity. destruct (Z.ltb_spec m 0); split; lia. }
  destruct Ek as [Ek N2]. rewrite N2, Z.abs_mul in N. replace (Z.abs (if m <? 0 then -1 else 1)) with 1 in N by (destruct (m <? 0); reflexivity). rewrite Z.mul_1_l in N.
  rewrite <- Ep in B. rewrite D in *. clear N2.
  assert (W : 0 < 2 ^ (e + 1074)) by (apply Z.pow_pos_nonneg; lia). assert (G : 0 < 2 ^ (- e)) by (apply Z.pow_pos_nonneg; lia).
  assert (WG : 2 ^ 1074 = 2 ^ (e + 1074) * 2 ^ (- e)) by (rewrite <- (Z.pow_add_r 2 (e + 1074) (- e)) by lia; f_equal; lia).
  pose proof (small_pow10 s S) as [H _]. assert (M0 : 0 < Z.abs m < 10 ^ 15) by lia. assert (K : Z.abs k <= 2 ^ 53) by lia.
  destruct (R f F) as (R1 & R2 & R3).
  destruct R1 as [d' E'].
  { rewrite U, Z.abs_mul, (Z.abs_eq (2 ^ (e + 1074))) by lia. rewrite (Z.pow_add_r 2 95 1074) by lia.
    apply Z.le_lt_trans with (2 ^ 53 * 2 ^ 1074); [apply Z.mul_le_mono_nonneg; try lia; apply Z.pow_le_mono_r; lia|].
    apply Z.mul_lt_mono_pos_r; [apply Z.pow_pos_nonneg; lia|reflexivity]. }
  exists d'. split; [exact E'|]. pose proof (R3 d' E') as X. rewrite U, WG in X. pose proof (pow10_pos (d_scale d')) as T. set (t := pow10 (d_scale d')) in *. set (m' := d_mant d') in *. set (w := 2 ^ (e + 1074)) in *. set (g := 2 ^ (- e)) in *. set (h := pow10 s) in *.
  assert (RM : 4 * h < g) by (eapply (room m h k g w m' t); eassumption).
  split.
  - intros n Hn. rewrite (others_as_written m h k g w m' t) by assumption. symmetry. apply Zmult_compare_compat_r. lia.
  - split; intros Q.
    + unfold binary_amount. fold m s. apply (exact_amount m k s (- e)); [lia|]. fold g h. apply (equal_only_exact m h k g w m' t); auto.
    + assert (Q1 : m * g = k * h) by (apply (exact_enough m k s (- e)); [lia|exact Q|exact RM|exact N]).
      destruct (R2 d) as (d2 & E2 & S2).
      * fold m. change (10 ^ 15) with 1000000000000000 in M0. change dec_limit with 79228162514264337593543950336. lia.
      * fold s. lia.
      * unfold same_number. fold m s h. rewrite U, WG. replace (m * (w * g)) with (m * g * w) by ring. rewrite Q1. ring.
      * rewrite E' in E2. injection E2 as <-. unfold same_number in S2. fold m' t in S2. rewrite U, WG in S2.
        assert (WGp : 0 < w * g) by (apply Z.mul_pos_pos; lia).
        apply (Z.mul_reg_r _ _ (w * g)); [lia|]. replace (m' * h * (w * g)) with (m' * (w * g) * h) by ring. rewrite S2.
        replace (m * t * (w * g)) with (m * g * (w * t)) by ring. rewrite Q1. ring.
Qed.
