From Coq Require Import Lia.
From Verif Require Import M_Float S_Round L_FloatInt.
Local Open Scope Z_scope.

(** ** What is rounded *)
Lemma pow_le a b : 0 <= a -> 2 ^ a < 2 ^ b -> a < b.
Proof. intros A H. destruct (Z.lt_ge_cases a b) as [X|X]; [exact X|]. pose proof (Z.pow_le_mono_r 2 b a ltac:(lia) X). lia. Qed.
Lemma digits_too_many z k k' : (k = 0 /\ Z.abs z < 2 ^ 53 \/ 0 < k /\ 2 ^ (52 + k) <= Z.abs z < 2 ^ (53 + k)) ->
  (k' = 0 /\ Z.abs z < 2 ^ 53 \/ 0 < k' /\ 2 ^ (52 + k') <= Z.abs z < 2 ^ (53 + k')) -> k = k'.
Proof.
  intros [[-> A]|[K [A B]]] [[-> A']|[K' [A' B']]]; [reflexivity| | |].
  - pose proof (pow_le (52 + k') 53 ltac:(lia) ltac:(lia)). lia.
  - pose proof (pow_le (52 + k) 53 ltac:(lia) ltac:(lia)). lia.
  - pose proof (pow_le (52 + k) (53 + k') ltac:(lia) ltac:(lia)). pose proof (pow_le (52 + k') (53 + k) ltac:(lia) ltac:(lia)). lia.
Qed.
Lemma rounded_once z m m' : rounded z m -> rounded z m' -> m = m'.
Proof.
  intros (k & q & K & -> & D & E) (k' & q' & K' & -> & D' & E'). pose proof (digits_too_many z k k' K K') as <-. clear K'.
  assert (P : 0 < 2 ^ k) by (apply Z.pow_pos_nonneg; lia). set (w := 2 ^ k) in *. clearbody w.
  f_equal. destruct (Z.eq_dec q q') as [->|N]; [reflexivity|]. exfalso.
  assert (T : 2 * Z.abs (z - q * w) = w /\ 2 * Z.abs (z - q' * w) = w /\ (q' = q + 1 \/ q = q' + 1)).
  { destruct (Z.lt_ge_cases q q') as [L|L]; [assert (q + 1 <= q') by lia|assert (q' + 1 <= q) by lia]; repeat split; nia. }
  destruct T as (T1 & T2 & T3). specialize (E T1). specialize (E' T2).
  destruct T3 as [-> | ->]; rewrite Z.even_add in *; [rewrite E in E'|rewrite E' in E]; discriminate.
Qed.
(** No other integer of 53 digits is nearer. *)
Lemma digits_apart a e k w : 0 <= e -> 0 <= k -> Z.abs a < 2 ^ 53 -> 2 ^ (52 + k) <= Z.abs (a * 2 ^ e) -> w = 2 ^ k -> exists b, a * 2 ^ e = b * w.
Proof.
  intros E K A B ->. assert (k <= e).
  { destruct (Z.le_gt_cases k e) as [X|X]; [exact X|]. exfalso. rewrite Z.abs_mul, (Z.abs_eq (2 ^ e)) in B by (apply Z.pow_nonneg; lia).
    assert (2 ^ (52 + k) < 2 ^ (53 + e)); [|pose proof (Z.pow_le_mono_r 2 (53 + e) (52 + k)); lia].
    rewrite (Z.pow_add_r 2 53 e) by lia. assert (0 < 2 ^ e) by (apply Z.pow_pos_nonneg; lia). nia. }
  exists (a * 2 ^ (e - k)). rewrite <- Z.mul_assoc, <- Z.pow_add_r by lia. do 2 f_equal. lia.
Qed.
Lemma nearer z q b w : 0 < w -> 2 * Z.abs (z - q * w) <= w -> Z.abs (z - q * w) <= Z.abs (z - b * w).
Proof.
  intros P D. destruct (Z.lt_trichotomy b q) as [X|[->|X]]; [|lia|].
  - assert (b * w <= q * w - w) by nia. lia.
  - assert (q * w <= b * w - w) by nia. lia.
Qed.
Lemma rounded_nearest z m m' : rounded z m -> has_53_digits m' -> Z.abs (z - m) <= Z.abs (z - m').
Proof.
  intros (k & q & K & -> & D & E) (a & e & -> & He & A). destruct K as [[-> K]|[K [K1 K2]]]; [change (2 ^ 0) with 1 in *; lia|].
  assert (P : 0 < 2 ^ k) by (apply Z.pow_pos_nonneg; lia).
  destruct (Z.le_gt_cases (2 ^ (52 + k)) (Z.abs (a * 2 ^ e))) as [X|X].
  - destruct (digits_apart a e k _ He ltac:(lia) A X eq_refl) as [b ->]. now apply nearer.
  - rewrite Z.pow_add_r in * by lia. set (w := 2 ^ k) in *. set (m' := a * 2 ^ e) in *. clearbody m'.
    assert (exists b, Z.abs (z - b * w) <= Z.abs (z - m')) as (b & Y).
    { destruct (Z.le_gt_cases 0 z); [exists (2 ^ 52)|exists (- 2 ^ 52)]; lia. }
    pose proof (nearer z q b w P D). lia.
Qed.
Lemma short_rounded z : Z.abs z < 2 ^ 53 -> rounded z z.
Proof. intros H. exists 0, z. change (2 ^ 0) with 1. split; [left; lia|]. split; [lia|]. split; lia. Qed.
Lemma digits_rounded z m : rounded z m -> has_53_digits z -> m = z.
Proof. intros R H. pose proof (rounded_nearest z m z R H). lia. Qed.
Lemma rounded_opp z m : rounded z m -> rounded (- z) (- m).
Proof.
  intros (k & q & K & -> & D & E). exists k, (- q). rewrite Z.abs_opp. split; [exact K|]. split; [lia|].
  replace (- z - - (q * 2 ^ k)) with (- (z - q * 2 ^ k)) by lia. rewrite Z.abs_opp, Z.even_opp. auto.
Qed.

(** ** What the library's arithmetic does *)
(** After [n] digits were shifted out of [p]. *)
Definition shifted (p n : Z) (r : shr_record) : Prop :=
  exists x, p = shr_m r * 2 ^ n + x /\ 0 <= x < 2 ^ n /\ 0 <= shr_m r /\
    match shr_r r, shr_s r with
    | false, false => x = 0
    | false, true => 0 < 2 * x < 2 ^ n
    | true, false => 2 * x = 2 ^ n
    | true, true => 2 * x > 2 ^ n
    end.
Lemma shift_once p n r : 0 <= n -> shifted p n r -> shifted p (n + 1) (shr_1 r).
Proof.
  intros N (x & E & B & M & C). rewrite Z.add_1_r. unfold shifted. rewrite Z.pow_succ_r by exact N.
  assert (P : 0 < 2 ^ n) by (apply Z.pow_pos_nonneg; lia). set (w := 2 ^ n) in *. clearbody w.
  destruct r as [m r s]; cbn [shr_m shr_r shr_s] in *. destruct m as [|[m|m|]|m]; [| | | |lia];
    cbn [shr_1 shr_m shr_r shr_s].
  - exists x. destruct r, s; cbn [orb]; lia.
  - exists (w + x). destruct r, s; cbn [orb]; lia.
  - exists x. destruct r, s; cbn [orb]; lia.
  - exists (w + x). destruct r, s; cbn [orb]; lia.
Qed.
Lemma shift_many p k : forall n r, 0 <= n -> shifted p n r -> shifted p (n + Zpos k) (iter_pos shr_1 k r).
Proof.
  induction k as [k IH|k IH|]; intros n r N H; cbn [iter_pos].
  - replace (n + Zpos k~1) with (n + 1 + Zpos k + Zpos k) by lia. apply IH; [lia|]. apply IH; [lia|]. now apply shift_once.
  - replace (n + Zpos k~0) with (n + Zpos k + Zpos k) by lia. apply IH; [lia|]. now apply IH.
  - now apply shift_once.
Qed.
Lemma round_off p n r m : 0 < n -> shifted p n r -> m = round_nearest_even (shr_m r) (loc_of_shr_record r) ->
  2 * Z.abs (p - m * 2 ^ n) <= 2 ^ n /\ (2 * Z.abs (p - m * 2 ^ n) = 2 ^ n -> Z.even m = true).
Proof.
  intros N (x & E & B & M & C) ->. assert (P : 0 < 2 ^ n) by (apply Z.pow_pos_nonneg; lia). set (w := 2 ^ n) in *. clearbody w.
  destruct r as [m r s]; cbn [shr_m shr_r shr_s] in *. destruct r, s; cbn [loc_of_shr_record round_nearest_even].
  - split; [lia|]. lia.
  - destruct (Z.even m) eqn:Ev; [split; [lia|auto]|]. split; [lia|]. intros _. rewrite Z.even_add, Ev. reflexivity.
  - split; lia.
  - split; lia.
Qed.
Lemma round_long neg p : 2 ^ 53 <= Zpos p -> Zpos p < f64_limit ->
  exists k e, binary_round_aux fprec femax neg (Zpos p) 0 loc_Exact = S754_finite neg k e /\ 0 <= e /\ rounded (Zpos p) (Zpos k * 2 ^ e).
Proof.
  intros H Lim. pose proof (digits_bounds p) as [B1 B2]. set (d := Zpos (digits2_pos p)) in *.
  assert (D1 : 53 < d) by (apply pow_le; lia). unfold f64_limit in Lim.
  assert (D2 : d - 1 < 1024) by (apply pow_le; [lia|]; pose proof (Z.pow_pos_nonneg 2 970); lia).
  assert (Hn : exists n, d - 53 = Zpos n) by (destruct (d - 53) eqn:X; try lia; eauto). destruct Hn as [n Hn].
  unfold binary_round_aux, shr_fexp. cbn [shr_record_of_loc Zdigits2]. fold d. rewrite fexp_big by lia.
  replace (d + 0 - 53 - 0) with (Zpos n) by lia. cbn [shr].
  assert (S0 : shifted (Zpos p) 0 {| shr_m := Zpos p; shr_r := false; shr_s := false |}) by (exists 0; cbn [shr_m shr_r shr_s]; change (2 ^ 0) with 1; lia).
  pose proof (shift_many (Zpos p) n 0 _ (Z.le_refl 0) S0) as Sh. rewrite Z.add_0_l in *. set (r := iter_pos shr_1 n _) in *.
  pose proof (round_off _ _ _ _ (eq_refl : 0 < Zpos n) Sh eq_refl) as [R1 R2]. set (m := round_nearest_even (shr_m r) (loc_of_shr_record r)) in *. clearbody m.
  assert (Pw : 0 < 2 ^ Zpos n) by (apply Z.pow_pos_nonneg; lia).
  assert (Q : 2 ^ 52 <= m <= 2 ^ 53).
  { clear - B1 B2 R1 Hn Pw D1. replace (d - 1) with (52 + Zpos n) in B1 by lia. replace d with (53 + Zpos n) in B2 by lia.
    rewrite Z.pow_add_r in B1, B2 by lia. set (w := 2 ^ Zpos n) in *. clearbody w. split; nia. }
  assert (RD : rounded (Zpos p) (m * 2 ^ Zpos n)).
  { exists (Zpos n), m. split; [right; split; [lia|]|auto]. rewrite Z.abs_eq by lia. replace (52 + Zpos n) with (d - 1) by lia. replace (53 + Zpos n) with d by lia. lia. }
  destruct (Z.eq_dec m (2 ^ 53)) as [->|N53].
  - assert (N971 : Zpos n <> 971).
    { intros E. rewrite E in R1. clear - R1 Lim. change (2 ^ 1024) with (2 ^ 53 * 2 ^ 971) in Lim. change (2 ^ 971) with (2 * 2 ^ 970) in *.
      assert (0 < 2 ^ 970) by reflexivity. set (w := 2 ^ 970) in *. clearbody w. lia. }
    exists (Pos.pow 2 52), (Zpos n + 1). cbn [shr_record_of_loc]. replace (Zdigits2 (2 ^ 53)) with 54 by reflexivity. rewrite fexp_big by lia.
    replace (54 + Zpos n - 53 - Zpos n) with 1 by lia. cbn [shr]. change (iter_pos shr_1 1 _) with {| shr_m := Zpos (Pos.pow 2 52); shr_r := false; shr_s := false |}. cbn [shr_m].
    assert (X : (Zpos n + 1 <=? femax - fprec) = true) by (apply Z.leb_le; unfold femax, fprec; lia). rewrite X.
    split; [reflexivity|]. split; [lia|]. replace (Zpos (2 ^ 52) * 2 ^ (Zpos n + 1)) with (2 ^ 53 * 2 ^ Zpos n); [exact RD|].
    rewrite Z.pow_add_r by lia. change (2 ^ 53) with (Zpos (2 ^ 52) * 2). change (2 ^ 1) with 2. lia.
  - assert (Hm : exists k, m = Zpos k) by (destruct m; try lia; eauto). destruct Hm as [k ->].
    cbn [shr_record_of_loc Zdigits2]. rewrite (digits_unique k 53), fexp_big by lia. replace (53 + Zpos n - 53 - Zpos n) with 0 by lia. cbn [shr shr_m].
    assert (X : (Zpos n <=? femax - fprec) = true) by (apply Z.leb_le; unfold femax, fprec; lia). rewrite X.
    exists k, (Zpos n). split; [reflexivity|]. split; [lia|exact RD].
Qed.
Lemma round_beyond neg p : f64_limit <= Zpos p -> binary_round_aux fprec femax neg (Zpos p) 0 loc_Exact = S754_infinity neg.
Proof.
  intros Lim. pose proof (digits_bounds p) as [B1 B2]. set (d := Zpos (digits2_pos p)) in *.
  assert (D1 : 1023 < d).
  { apply pow_le; [lia|]. unfold f64_limit in Lim. change (2 ^ 1024) with (2 * 2 ^ 1023) in Lim. assert (2 ^ 970 < 2 ^ 1023) by reflexivity. lia. }
  assert (Hn : exists n, d - 53 = Zpos n) by (destruct (d - 53) eqn:X; try lia; eauto). destruct Hn as [n Hn].
  unfold binary_round_aux, shr_fexp. cbn [shr_record_of_loc Zdigits2]. fold d. rewrite fexp_big by lia.
  replace (d + 0 - 53 - 0) with (Zpos n) by lia. cbn [shr].
  assert (S0 : shifted (Zpos p) 0 {| shr_m := Zpos p; shr_r := false; shr_s := false |}) by (exists 0; cbn [shr_m shr_r shr_s]; change (2 ^ 0) with 1; lia).
  pose proof (shift_many (Zpos p) n 0 _ (Z.le_refl 0) S0) as Sh. rewrite Z.add_0_l in *. set (r := iter_pos shr_1 n _) in *.
  pose proof (round_off _ _ _ _ (eq_refl : 0 < Zpos n) Sh eq_refl) as [R1 R2]. set (m := round_nearest_even (shr_m r) (loc_of_shr_record r)) in *. clearbody m.
  assert (Pw : 0 < 2 ^ Zpos n) by (apply Z.pow_pos_nonneg; lia).
  assert (Q : 2 ^ 52 <= m <= 2 ^ 53).
  { clear - B1 B2 R1 Hn Pw D1. replace (d - 1) with (52 + Zpos n) in B1 by lia. replace d with (53 + Zpos n) in B2 by lia.
    rewrite Z.pow_add_r in B1, B2 by lia. set (w := 2 ^ Zpos n) in *. clearbody w. split; nia. }
  destruct (Z.eq_dec m (2 ^ 53)) as [->|N53].
  - cbn [shr_record_of_loc]. replace (Zdigits2 (2 ^ 53)) with 54 by reflexivity. rewrite fexp_big by lia.
    replace (54 + Zpos n - 53 - Zpos n) with 1 by lia. cbn [shr]. change (iter_pos shr_1 1 _) with {| shr_m := Zpos (Pos.pow 2 52); shr_r := false; shr_s := false |}. cbn [shr_m].
    assert (X : (Zpos n + 1 <=? femax - fprec) = false) by (apply Z.leb_gt; unfold femax, fprec; lia). now rewrite X.
  - assert (Hm : exists k, m = Zpos k) by (destruct m; try lia; eauto). destruct Hm as [k ->].
    cbn [shr_record_of_loc Zdigits2]. rewrite (digits_unique k 53), fexp_big by lia. replace (53 + Zpos n - 53 - Zpos n) with 0 by lia. cbn [shr shr_m].
    assert (N971 : Zpos n <> 971).
    { intros E. rewrite E in R1, R2, Pw. unfold f64_limit in Lim. clear - R1 R2 Lim Q N53 Pw. change (2 ^ 1024) with (2 ^ 53 * 2 ^ 971) in Lim.
      change (2 ^ 971) with (2 * 2 ^ 970) in *. set (w := 2 ^ 970) in *. clearbody w.
      assert (K : Zpos k = 2 ^ 53 - 1) by nia. rewrite K in *. assert (T : 2 * Z.abs (Zpos p - (2 ^ 53 - 1) * (2 * w)) = 2 * w) by lia.
      discriminate (R2 T). }
    assert (X : (Zpos n <=? femax - fprec) = false) by (apply Z.leb_gt; unfold femax, fprec; lia). now rewrite X.
Qed.
Lemma ratio_long neg p : 2 ^ 53 <= Zpos p -> f_of_ratio neg (Zpos p) 1 = binary_round_aux fprec femax neg (Zpos p) 0 loc_Exact.
Proof.
  intros H. pose proof (digits_bounds p) as [B1 B2]. set (d := Zpos (digits2_pos p)) in *.
  assert (D1 : 53 < d) by (apply pow_le; lia). unfold f_of_ratio, SFdiv_core_binary.
  replace (Zdigits2 (Zpos p)) with d by reflexivity. replace (Zdigits2 1) with 1 by reflexivity. rewrite fexp_big by lia.
  replace (Z.min (d + 0 - (1 + 0) - 53) (0 - 0)) with 0 by lia. change (0 - 0 - 0) with 0. cbv iota.
  assert (Ed : Z.div_eucl (Zpos p) 1 = (Zpos p, 0)).
  { pose proof (Z.div_1_r (Zpos p)) as A. pose proof (Z.mod_1_r (Zpos p)) as B.
    unfold Z.div, Z.modulo in *. destruct (Z.div_eucl (Zpos p) 1). cbn in *. congruence. }
  rewrite Ed. reflexivity.
Qed.
(** The integer that a literal of digits is read as. *)
Lemma literal_rounded z : Z.abs z < f64_limit -> exists m, rounded z m /\
  let f := f_of_ratio (z <? 0) (Z.abs z) 1 in f_is_integral f = true /\ f_is_finite f = true /\ f_trunc f = m.
Proof.
  intros H. destruct (Z.eq_dec z 0) as [->|NZ].
  { exists 0. split; [apply short_rounded; reflexivity|repeat split]. }
  assert (Hp : exists p, Z.abs z = Zpos p) by (destruct (Z.abs z) eqn:X; try lia; eauto). destruct Hp as [p Hp].
  assert (Sg : forall m, rounded (Zpos p) m -> rounded z (if z <? 0 then - m else m)).
  { intros m R. destruct (Z.ltb_spec z 0); [replace z with (- Zpos p) by lia; now apply rounded_opp|]. replace z with (Zpos p) by lia. exact R. }
  rewrite Hp in *. destruct (Z.lt_ge_cases (Zpos p) (2 ^ 53)) as [X|X].
  - destruct (ratio_exact (z <? 0) p X) as (k & e & E & Be & K). destruct (exact_int _ p _ k e E Be K) as (I1 & I2 & I3).
    exists (if z <? 0 then - Zpos p else Zpos p). split; [apply Sg, short_rounded; lia|]. cbv zeta. rewrite I3. repeat split; auto.
  - destruct (round_long (z <? 0) p X H) as (k & e & E & Be & R). rewrite (ratio_long _ _ X), E. eexists. split; [exact (Sg _ R)|].
    assert (Y : (0 <=? e) = true) by (apply Z.leb_le; lia). cbv zeta. cbn [f_is_integral f_is_finite f_trunc]. rewrite Y. repeat split.
Qed.
Lemma literal_beyond z : f64_limit <= Z.abs z -> f_of_ratio (z <? 0) (Z.abs z) 1 = S754_infinity (z <? 0).
Proof.
  intros H. assert (Hp : exists p, Z.abs z = Zpos p).
  { assert (0 < f64_limit) by reflexivity. destruct (Z.abs z) eqn:X; try lia; eauto. }
  destruct Hp as [p Hp]. rewrite Hp in *. rewrite ratio_long, (round_beyond _ _ H); [reflexivity|]. assert (2 ^ 53 <= f64_limit) by discriminate. lia.
Qed.
Lemma clamp_saturated m : saturated m (Z.max i64_min (Z.min i64_max m)).
Proof. unfold saturated, i64_min, i64_max. change (2 ^ 63) with 9223372036854775808. lia. Qed.
Lemma in_64 z : in_i64 z = true -> Z.abs z < f64_limit /\ forall n, saturated z n -> n = z.
Proof.
  unfold in_i64, i64_min, i64_max. intros B. apply andb_true_iff in B as [B1 B2]. apply Z.leb_le in B1, B2. split.
  - assert (2 ^ 63 < f64_limit) by reflexivity. change (2 ^ 63) with 9223372036854775808 in *. lia.
  - unfold saturated. change (2 ^ 63) with 9223372036854775808. lia.
Qed.
