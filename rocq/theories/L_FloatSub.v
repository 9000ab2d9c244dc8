(** Differences and comparison of floats. *)
From Coq Require Import Lia.
From Verif Require Import M_Float S_Round L_FloatInt L_Round.
Local Open Scope Z_scope.

Lemma fexp_is x : fexp fprec femax x = Z.max (x - 53) (-1074).
Proof. reflexivity. Qed.
Lemma rounded_scale z m j : 0 <= j -> 2 ^ 53 <= Z.abs z -> rounded z m -> rounded (z * 2 ^ j) (m * 2 ^ j).
Proof.
  intros J B (k & q & K & -> & D & E). destruct K as [[-> K]|[K0 [K1 K2]]]; [lia|]. assert (P : 0 < 2 ^ j) by (apply Z.pow_pos_nonneg; lia).
  exists (k + j), q. rewrite !Z.add_assoc, (Z.pow_add_r 2 k j), (Z.pow_add_r 2 (52 + k) j), (Z.pow_add_r 2 (53 + k) j) by lia.
  rewrite Z.abs_mul, (Z.abs_eq (2 ^ j)) by lia.
  replace (z * 2 ^ j - q * 2 ^ k * 2 ^ j) with ((z - q * 2 ^ k) * 2 ^ j) by lia. rewrite Z.abs_mul, (Z.abs_eq (2 ^ j)) by lia.
  set (w := 2 ^ j) in *. clearbody w. split; [right; split; [lia|split; nia]|]. split; [lia|]. split; [nia|]. intros T. apply E. nia.
Qed.
Lemma digits_kept z : has_53_digits z -> rounded z z.
Proof.
  intros (a & e & -> & E & A). destruct (Z.eq_dec a 0) as [->|NZ]; [apply short_rounded; cbn; lia|].
  destruct (Z.lt_ge_cases (Z.abs (a * 2 ^ e)) (2 ^ 53)) as [X|X]; [now apply short_rounded|].
  assert (Hp : exists p, Z.abs (a * 2 ^ e) = Zpos p) by (destruct (Z.abs (a * 2 ^ e)) eqn:Y; try lia; eauto). destruct Hp as [p Hp].
  pose proof (digits_bounds p) as [B1 B2]. set (d := Zpos (digits2_pos p)) in *. rewrite <- Hp in *.
  assert (D1 : 53 < d) by (apply pow_le; lia).
  destruct (digits_apart a e (d - 53) _ E ltac:(lia) A ltac:(replace (52 + (d - 53)) with (d - 1) by lia; lia) eq_refl) as [b Hb].
  exists (d - 53), b. split; [right; replace (52 + (d - 53)) with (d - 1) by lia; replace (53 + (d - 53)) with d by lia; lia|].
  assert (0 < 2 ^ (d - 53)) by (apply Z.pow_pos_nonneg; lia). split; [exact Hb|]. rewrite Z.sub_diag. cbn [Z.abs]. split; lia.
Qed.
(** A mantissa and exponent as binary64 has them. *)
Definition proper (k : positive) (e : Z) : Prop := -1074 <= e <= 971 /\ Zpos k < 2 ^ 53 /\ (-1074 < e -> 2 ^ 52 <= Zpos k).
Lemma proper_of s k e : valid_binary fprec femax (S754_finite s k e) = true -> proper k e.
Proof.
  unfold valid_binary, bounded, canonical_mantissa. intros H. apply andb_true_iff in H as [H1 H2]. apply Zeq_is_eq_bool in H1. apply Z.leb_le in H2.
  unfold femax, fprec in H2. rewrite fexp_is in H1. pose proof (digits_bounds k) as [B1 B2]. set (d := Zpos (digits2_pos k)) in *.
  split; [lia|]. assert (D : d <= 53) by lia. split.
  - pose proof (Z.pow_le_mono_r 2 d 53 ltac:(lia) D). lia.
  - intros G. replace d with 53 in B1 by lia. exact B1.
Qed.
(** Rounding, in units of [2 ^ -1074]. *)
Lemma round_units sx p e : -1074 <= e -> exists r, rounded (Zpos p * 2 ^ (e + 1074)) r /\
  (binary_round fprec femax sx p e = S754_infinity sx /\ 2 ^ 2045 < r \/
   exists k e', binary_round fprec femax sx p e = S754_finite sx k e' /\ proper k e' /\ r = Zpos k * 2 ^ (e' + 1074)).
Proof.
  intros E. pose proof (digits_bounds p) as [B1 B2]. set (d := Zpos (digits2_pos p)) in *.
  assert (D0 : 1 <= d) by (unfold d; lia).
  unfold binary_round. fold d. rewrite fexp_is. set (x := Z.max (d + e - 53) (-1074)) in *.
  destruct (Z.le_gt_cases e x) as [X|X].
  - (* nothing is shifted to the left *)
    assert (Al : shl_align p e x = (p, e)) by (unfold shl_align; destruct (x - e) eqn:Y; [reflexivity|reflexivity|lia]).
    rewrite Al. unfold binary_round_aux, shr_fexp. cbn [shr_record_of_loc Zdigits2]. fold d. rewrite fexp_is. fold x.
    destruct (Z.eq_dec x e) as [Xe|Ne].
    + (* nor to the right *)
      rewrite Xe, Z.sub_diag. cbn [shr shr_m loc_of_shr_record round_nearest_even Zdigits2 shr_record_of_loc]. fold d. rewrite fexp_is. fold x.
      rewrite Xe, Z.sub_diag. cbn [shr shr_m].
      assert (D53 : d <= 53) by lia. pose proof (Z.pow_le_mono_r 2 d 53 ltac:(lia) D53) as Pd.
      exists (Zpos p * 2 ^ (e + 1074)). split; [apply digits_kept; exists (Zpos p), (e + 1074); repeat split; [lia|]; rewrite Z.abs_eq by lia; lia|].
      destruct (e <=? femax - fprec) eqn:Le; [right|left].
      * exists p, e. split; [reflexivity|]. apply Z.leb_le in Le. unfold femax, fprec in Le. split; [|reflexivity].
        split; [lia|]. split; [lia|]. intros G. replace d with 53 in B1 by lia. exact B1.
      * split; [reflexivity|]. apply Z.leb_gt in Le. unfold femax, fprec in Le. pose proof (Z.pow_lt_mono_r 2 2045 (e + 1074) ltac:(lia) ltac:(lia) ltac:(lia)). nia.
    + (* rounded *)
      assert (Hx : x = d + e - 53) by lia. assert (Hn : exists n, x - e = Zpos n) by (destruct (x - e) eqn:Y; try lia; eauto). destruct Hn as [n Hn].
      rewrite Hn. cbn [shr].
      assert (S0 : shifted (Zpos p) 0 {| shr_m := Zpos p; shr_r := false; shr_s := false |}) by (exists 0; cbn [shr_m shr_r shr_s]; change (2 ^ 0) with 1; lia).
      pose proof (shift_many (Zpos p) n 0 _ (Z.le_refl 0) S0) as Sh. rewrite Z.add_0_l in Sh. set (r := iter_pos shr_1 n _) in *.
      pose proof (round_off _ _ _ _ (eq_refl : 0 < Zpos n) Sh eq_refl) as [R1 R2]. set (m := round_nearest_even (shr_m r) (loc_of_shr_record r)) in *. clearbody m.
      assert (Pw : 0 < 2 ^ Zpos n) by (apply Z.pow_pos_nonneg; lia).
      assert (Q : 2 ^ 52 <= m <= 2 ^ 53).
      { clear - B1 B2 R1 Hn Pw Hx. replace (d - 1) with (52 + Zpos n) in B1 by lia. replace d with (53 + Zpos n) in B2 by lia.
        rewrite Z.pow_add_r in B1, B2 by lia. set (w := 2 ^ Zpos n) in *. clearbody w. split; nia. }
      assert (RD : rounded (Zpos p) (m * 2 ^ Zpos n)).
      { exists (Zpos n), m. split; [right; split; [lia|]|auto]. rewrite Z.abs_eq by lia. replace (52 + Zpos n) with (d - 1) by lia. replace (53 + Zpos n) with d by lia. lia. }
      assert (P53 : 2 ^ 53 <= Zpos p) by (pose proof (Z.pow_le_mono_r 2 53 (d - 1) ltac:(lia) ltac:(lia)); lia).
      exists (m * 2 ^ Zpos n * 2 ^ (e + 1074)). split; [apply rounded_scale; [lia|rewrite Z.abs_eq by lia; exact P53|exact RD]|].
      replace (m * 2 ^ Zpos n * 2 ^ (e + 1074)) with (m * 2 ^ (e + Zpos n + 1074)) by (rewrite <- Z.mul_assoc, <- Z.pow_add_r by lia; do 2 f_equal; lia).
      destruct (Z.eq_dec m (2 ^ 53)) as [->|N53].
      * cbn [shr_record_of_loc]. replace (Zdigits2 (2 ^ 53)) with 54 by reflexivity. rewrite fexp_is.
        replace (Z.max (54 + (e + Zpos n) - 53) (-1074) - (e + Zpos n)) with 1 by lia.
        cbn [shr]. change (iter_pos shr_1 1 _) with {| shr_m := Zpos (Pos.pow 2 52); shr_r := false; shr_s := false |}. cbn [shr_m].
        replace (2 ^ 53 * 2 ^ (e + Zpos n + 1074)) with (Zpos (2 ^ 52) * 2 ^ (e + Zpos n + 1 + 1074)).
        2: { replace (e + Zpos n + 1 + 1074) with (Z.succ (e + Zpos n + 1074)) by lia. rewrite Z.pow_succ_r by lia. change (2 ^ 53) with (Zpos (2 ^ 52) * 2). lia. }
        destruct (e + Zpos n + 1 <=? femax - fprec) eqn:Le; [right|left].
        -- eexists _, _. split; [reflexivity|]. split; [|reflexivity]. apply Z.leb_le in Le. unfold femax, fprec in Le. split; [lia|]. split; [reflexivity|]. intros _. discriminate.
        -- split; [reflexivity|]. apply Z.leb_gt in Le. unfold femax, fprec in Le.
           pose proof (Z.pow_lt_mono_r 2 2045 (e + Zpos n + 1 + 1074) ltac:(lia) ltac:(lia) ltac:(lia)). nia.
      * assert (Hm : exists k, m = Zpos k) by (destruct m; try lia; eauto). destruct Hm as [k ->].
        cbn [shr_record_of_loc Zdigits2]. rewrite (digits_unique k 53), fexp_is by lia.
        replace (Z.max (53 + (e + Zpos n) - 53) (-1074) - (e + Zpos n)) with 0 by lia. cbn [shr shr_m].
        destruct (e + Zpos n <=? femax - fprec) eqn:Le; [right|left].
        -- eexists _, _. split; [reflexivity|]. split; [|reflexivity]. apply Z.leb_le in Le. unfold femax, fprec in Le. split; [lia|]. split; [lia|]. lia.
        -- split; [reflexivity|]. apply Z.leb_gt in Le. unfold femax, fprec in Le.
           pose proof (Z.pow_lt_mono_r 2 2045 (e + Zpos n + 1074) ltac:(lia) ltac:(lia) ltac:(lia)). nia.
  - (* zeros are shifted in from the right *)
    assert (Hn : exists n, x - e = Zneg n) by (destruct (x - e) eqn:Y; try lia; eauto). destruct Hn as [n Hn].
    assert (Al : shl_align p e x = (shift_pos n p, x)) by (unfold shl_align; rewrite Hn; reflexivity). rewrite Al.
    set (k := shift_pos n p) in *. assert (K : Zpos k = Zpos p * 2 ^ Zpos n) by (unfold k; apply shift_pos_mul). clearbody k.
    assert (Dk : Zpos (digits2_pos k) = d + Zpos n) by (apply digits_shift; [lia|exact K]).
    unfold binary_round_aux, shr_fexp. cbn [shr_record_of_loc Zdigits2]. rewrite Dk, fexp_is.
    replace (Z.max (d + Zpos n + x - 53) (-1074) - x) with 0 by lia.
    cbn [shr shr_m loc_of_shr_record round_nearest_even Zdigits2 shr_record_of_loc]. rewrite Dk, fexp_is.
    replace (Z.max (d + Zpos n + x - 53) (-1074) - x) with 0 by lia. cbn [shr shr_m].
    assert (V : Zpos p * 2 ^ (e + 1074) = Zpos k * 2 ^ (x + 1074)).
    { rewrite K, <- Z.mul_assoc, <- Z.pow_add_r by lia. do 2 f_equal. lia. }
    pose proof (digits_bounds k) as [C1 C2]. rewrite Dk in C1, C2. assert (D53 : d + Zpos n <= 53) by lia.
    pose proof (Z.pow_le_mono_r 2 (d + Zpos n) 53 ltac:(lia) D53) as Pd.
    exists (Zpos k * 2 ^ (x + 1074)). split; [rewrite V; apply digits_kept; exists (Zpos k), (x + 1074); repeat split; [lia|]; rewrite Z.abs_eq by lia; lia|].
    destruct (x <=? femax - fprec) eqn:Le; [right|left].
    + exists k, x. split; [reflexivity|]. apply Z.leb_le in Le. unfold femax, fprec in Le. split; [|reflexivity].
      split; [lia|]. split; [lia|]. intros G. replace (d + Zpos n) with 53 in C1 by lia. exact C1.
    + split; [reflexivity|]. apply Z.leb_gt in Le. unfold femax, fprec in Le. pose proof (Z.pow_lt_mono_r 2 2045 (x + 1074) ltac:(lia) ltac:(lia) ltac:(lia)). nia.
Qed.

(** ** Comparison is that of the values *)
Lemma proper_apart k e k' e' : proper k e -> proper k' e' -> e < e' -> Zpos k * 2 ^ (e + 1074) < Zpos k' * 2 ^ (e' + 1074).
Proof.
  intros (E & K & _) (E' & _ & K') L. replace (e' + 1074) with (e + 1074 + (e' - e)) by lia. rewrite (Z.pow_add_r 2 (e + 1074) (e' - e)) by lia.
  assert (P : 0 < 2 ^ (e + 1074)) by (apply Z.pow_pos_nonneg; lia). assert (T : 2 ^ 1 <= 2 ^ (e' - e)) by (apply Z.pow_le_mono_r; lia).
  specialize (K' ltac:(lia)). change (2 ^ 1) with 2 in T. change (2 ^ 53) with (2 * 2 ^ 52) in K.
  assert (2 ^ 53 <= Zpos k' * 2 ^ (e' - e)) by (change (2 ^ 53) with (2 ^ 52 * 2); apply Z.mul_le_mono_nonneg; lia).
  change (2 ^ 53) with (2 * 2 ^ 52) in *. set (w := 2 ^ (e + 1074)) in *. clearbody w. set (u := 2 ^ (e' - e)) in *. clearbody u. nia.
Qed.
Lemma compare_proper k e k' e' : proper k e -> proper k' e' ->
  (match e ?= e' with Eq => Pos.compare_cont Eq k k' | c => c end) = (Zpos k * 2 ^ (e + 1074) ?= Zpos k' * 2 ^ (e' + 1074)).
Proof.
  intros H H'. symmetry. destruct (Z.compare_spec e e') as [->|L|L].
  - destruct H as (E & _). assert (P : 0 < 2 ^ (e' + 1074)) by (apply Z.pow_pos_nonneg; lia).
    change (Pos.compare_cont Eq k k') with (Pos.compare k k'). change (k ?= k')%positive with (Zpos k ?= Zpos k').
    destruct (Z.compare_spec (Zpos k) (Zpos k')) as [Q|Q|Q].
    + rewrite Q. apply Z.compare_refl.
    + apply Z.compare_lt_iff. nia.
    + apply Z.compare_gt_iff. nia.
  - apply Z.compare_lt_iff. now apply proper_apart.
  - apply Z.compare_gt_iff. now apply proper_apart.
Qed.
Lemma units_pos k e : proper k e -> 0 < Zpos k * 2 ^ (e + 1074).
Proof. intros (E & _). assert (0 < 2 ^ (e + 1074)) by (apply Z.pow_pos_nonneg; lia). lia. Qed.
Lemma compare_units a b : finite_double a -> finite_double b -> f_cmp a b = Some (units a ?= units b).
Proof.
  intros [Va Fa] [Vb Fb]. unfold f_cmp. destruct a as [sa| | |sa ka ea]; try discriminate; destruct b as [sb| | |sb kb eb]; try discriminate.
  - reflexivity.
  - pose proof (units_pos _ _ (proper_of _ _ _ Vb)) as P. cbn [SFcompare units]. f_equal. destruct sb; symmetry; [apply Z.compare_gt_iff|apply Z.compare_lt_iff]; lia.
  - pose proof (units_pos _ _ (proper_of _ _ _ Va)) as P. cbn [SFcompare units]. f_equal. destruct sa; symmetry; [apply Z.compare_lt_iff|apply Z.compare_gt_iff]; lia.
  - pose proof (proper_of _ _ _ Va) as Pa. pose proof (proper_of _ _ _ Vb) as Pb. pose proof (units_pos _ _ Pa). pose proof (units_pos _ _ Pb).
    cbn [SFcompare units]. destruct sa, sb.
    + replace (- Zpos ka * 2 ^ (ea + 1074)) with (- (Zpos ka * 2 ^ (ea + 1074))) by lia. replace (- Zpos kb * 2 ^ (eb + 1074)) with (- (Zpos kb * 2 ^ (eb + 1074))) by lia.
      rewrite Z.compare_opp, (Z.compare_antisym (Zpos ka * _)), <- (compare_proper _ _ _ _ Pa Pb). destruct (ea ?= eb); reflexivity.
    + f_equal. symmetry. apply Z.compare_lt_iff. lia.
    + f_equal. symmetry. apply Z.compare_gt_iff. lia.
    + rewrite <- (compare_proper _ _ _ _ Pa Pb). destruct (ea ?= eb); reflexivity.
Qed.

(** ** Differences *)
Lemma rounded_below n r : 0 < n -> rounded n r -> (r < 2 ^ 1022 <-> n < told_apart).
Proof.
  intros N (k & q & K & -> & D & E). unfold told_apart. assert (Pk : 0 < 2 ^ k) by (apply Z.pow_pos_nonneg; lia).
  assert (P968 : 0 < 2 ^ 968) by reflexivity.
  destruct K as [[-> K]|[K0 [K1 K2]]].
  - change (2 ^ 0) with 1 in *. assert (2 ^ 53 < 2 ^ 1022 - 2 ^ 968) by reflexivity. lia.
  - rewrite Z.abs_eq in K1, K2 by lia. rewrite Z.pow_add_r in K1, K2 by lia.
    destruct (Z.lt_trichotomy k 969) as [L|[->|L]].
    + assert (T : 2 ^ k <= 2 ^ 968) by (apply Z.pow_le_mono_r; lia). change (2 ^ 1022) with (2 ^ 54 * 2 ^ 968). set (u := 2 ^ 968) in *. set (w := 2 ^ k) in *. clearbody u w. lia.
    + change (2 ^ 1022) with (2 ^ 53 * 2 ^ 969). change (2 ^ 969) with (2 * 2 ^ 968) in *. set (u := 2 ^ 968) in *. clearbody u. split; intros H.
      * assert (q <= 2 ^ 53 - 1) by nia. destruct (Z.eq_dec q (2 ^ 53 - 1)) as [->|Nq]; [|nia].
        destruct (Z.lt_ge_cases n (2 ^ 53 * (2 * u) - u)) as [X|X]; [exact X|]. exfalso.
        assert (T : 2 * Z.abs (n - (2 ^ 53 - 1) * (2 * u)) = 2 * u) by lia. discriminate (E T).
      * assert (q < 2 ^ 53) by nia. nia.
    + assert (T : 2 ^ 970 <= 2 ^ k) by (apply Z.pow_le_mono_r; lia). change (2 ^ 1022) with (2 ^ 54 * 2 ^ 968). change (2 ^ 970) with (4 * 2 ^ 968) in T.
      set (u := 2 ^ 968) in *. set (w := 2 ^ k) in *. clearbody u w. split; intros H; exfalso.
      * assert (q * w < 2 ^ 52 * w) by lia. assert (q < 2 ^ 52) by nia. nia.
      * lia.
Qed.
Lemma epsilon_double : finite_double f_epsilon /\ units f_epsilon = 2 ^ 1022.
Proof. split; [split; reflexivity|reflexivity]. Qed.
Lemma below_epsilon s p e : -1074 <= e -> f_lt (f_abs (binary_round fprec femax s p e)) f_epsilon = (Zpos p * 2 ^ (e + 1074) <? told_apart).
Proof.
  intros E. destruct (round_units s p e E) as (r & R & H). assert (P : 0 < Zpos p * 2 ^ (e + 1074)) by (assert (0 < 2 ^ (e + 1074)) by (apply Z.pow_pos_nonneg; lia); lia).
  pose proof (rounded_below _ _ P R) as B. destruct H as [[-> G]|(k & e' & -> & Pr & ->)].
  - change (f_lt (f_abs (S754_infinity s)) f_epsilon) with false. symmetry. apply Z.ltb_ge.
    assert (2 ^ 1022 < 2 ^ 2045) by reflexivity. destruct (Z.lt_ge_cases (Zpos p * 2 ^ (e + 1074)) told_apart) as [X|X]; [apply B in X; lia|exact X].
  - cbn [f_abs SFabs]. unfold f_lt, f_cmp, f_epsilon. cbn [SFcompare].
    assert (Pe : proper 4503599627370496 (-104)) by (split; [lia|]; split; [reflexivity|]; discriminate).
    pose proof (compare_proper k e' _ _ Pr Pe) as C. change (Zpos 4503599627370496 * 2 ^ (-104 + 1074)) with (2 ^ 1022) in C.
    assert (X : (match e' ?= -104 with Eq => Pos.compare_cont Eq k 4503599627370496 | Lt => Lt | Gt => Gt end) = (Zpos k * 2 ^ (e' + 1074) ?= 2 ^ 1022)).
    { rewrite <- C. destruct (e' ?= -104); reflexivity. }
    rewrite X. destruct (Z.compare_spec (Zpos k * 2 ^ (e' + 1074)) (2 ^ 1022)); symmetry; [apply Z.ltb_ge|apply Z.ltb_lt|apply Z.ltb_ge]; lia.
Qed.
Lemma shl_aligned m e c : c <= e -> -1074 <= c -> Zpos (fst (shl_align m e c)) * 2 ^ (c + 1074) = Zpos m * 2 ^ (e + 1074).
Proof.
  intros C B. unfold shl_align. destruct (c - e) as [|d|d] eqn:D; cbn [fst].
  - replace c with e by lia. reflexivity.
  - lia.
  - rewrite shift_pos_mul, <- Z.mul_assoc, <- Z.pow_add_r by lia. do 2 f_equal. lia.
Qed.
Lemma below_epsilon_proper s k e : proper k e -> f_lt (f_abs (S754_finite s k e)) f_epsilon = (Zpos k * 2 ^ (e + 1074) <? told_apart).
Proof.
  intros Pr. pose proof (units_pos _ _ Pr) as P.
  assert (R : rounded (Zpos k * 2 ^ (e + 1074)) (Zpos k * 2 ^ (e + 1074))).
  { apply digits_kept. exists (Zpos k), (e + 1074). destruct Pr as (E & K & _). repeat split; [lia|]. rewrite Z.abs_eq by lia. exact K. }
  pose proof (rounded_below _ _ P R) as B. cbn [f_abs SFabs]. unfold f_lt, f_cmp, f_epsilon. cbn [SFcompare].
  assert (Pe : proper 4503599627370496 (-104)) by (split; [lia|]; split; [reflexivity|]; discriminate).
  pose proof (compare_proper k e _ _ Pr Pe) as C. change (Zpos 4503599627370496 * 2 ^ (-104 + 1074)) with (2 ^ 1022) in C.
  assert (X : (match e ?= -104 with Eq => Pos.compare_cont Eq k 4503599627370496 | Lt => Lt | Gt => Gt end) = (Zpos k * 2 ^ (e + 1074) ?= 2 ^ 1022)).
  { rewrite <- C. destruct (e ?= -104); reflexivity. }
  rewrite X. destruct (Z.compare_spec (Zpos k * 2 ^ (e + 1074)) (2 ^ 1022)); symmetry; [apply Z.ltb_ge|apply Z.ltb_lt|apply Z.ltb_ge]; lia.
Qed.
Lemma sub_units a b : finite_double a -> finite_double b ->
  f_lt (f_abs (f_sub a b)) f_epsilon = (Z.abs (units a - units b) <? told_apart).
Proof.
  intros [Va Fa] [Vb Fb]. destruct a as [sa| | |sa ka ea]; try discriminate; destruct b as [sb| | |sb kb eb]; try discriminate.
  - cbn [units]. change (Z.abs (0 - 0) <? told_apart) with true. destruct sa, sb; reflexivity.
  - pose proof (proper_of _ _ _ Vb) as Pb. pose proof (units_pos _ _ Pb). change (f_sub (S754_zero sa) (S754_finite sb kb eb)) with (S754_finite (negb sb) kb eb).
    rewrite below_epsilon_proper by exact Pb. cbn [units]. f_equal. destruct sb; lia.
  - pose proof (proper_of _ _ _ Va) as Pa. pose proof (units_pos _ _ Pa). change (f_sub (S754_finite sa ka ea) (S754_zero sb)) with (S754_finite sa ka ea).
    rewrite below_epsilon_proper by exact Pa. cbn [units]. f_equal. destruct sa; lia.
  - pose proof (proper_of _ _ _ Va) as Pa. pose proof (proper_of _ _ _ Vb) as Pb. unfold f_sub. cbn [SFsub units]. set (c := Z.min ea eb).
    assert (C : -1074 <= c) by (destruct Pa as (? & _), Pb as (? & _); lia).
    pose proof (shl_aligned ka ea c ltac:(lia) C) as A. pose proof (shl_aligned kb eb c ltac:(lia) C) as B.
    set (x := fst (shl_align ka ea c)) in *. set (y := fst (shl_align kb eb c)) in *.
    assert (W : 0 < 2 ^ (c + 1074)) by (apply Z.pow_pos_nonneg; lia).
    set (d := cond_Zopp sa (Zpos x) - cond_Zopp sb (Zpos y)).
    assert (D : (if sa then - Zpos ka else Zpos ka) * 2 ^ (ea + 1074) - (if sb then - Zpos kb else Zpos kb) * 2 ^ (eb + 1074) = d * 2 ^ (c + 1074)).
    { subst d. destruct sa, sb; cbn [cond_Zopp]; lia. }
    rewrite D, Z.abs_mul, (Z.abs_eq (2 ^ (c + 1074))) by lia. clearbody d. clear D. destruct d as [|p|p]; cbn [binary_normalize Z.abs].
    + reflexivity.
    + now apply below_epsilon.
    + now apply below_epsilon.
Qed.
(** ** Integers as floats *)
Lemma valid_of s k e : proper k e -> valid_binary fprec femax (S754_finite s k e) = true.
Proof.
  intros (E & K & G). cbn [valid_binary]. unfold bounded, canonical_mantissa. apply andb_true_intro. split.
  - apply Zeq_is_eq_bool. rewrite fexp_is. pose proof (digits_bounds k) as [B1 B2]. set (d := Zpos (digits2_pos k)) in *.
    assert (D : d <= 53) by (assert (d - 1 < 53); [apply pow_le; lia|lia]).
    destruct (Z.eq_dec e (-1074)) as [->|Ne]; [lia|]. assert (52 < d) by (apply pow_le; lia). lia.
  - apply Z.leb_le. unfold femax, fprec. lia.
Qed.
Lemma integer_units z : Z.abs z < 2 ^ 64 -> exists m, rounded z m /\ finite_double (f_of_Z z) /\ units (f_of_Z z) = m * 2 ^ 1074.
Proof.
  intros Z64.
  assert (K : forall p, Zpos p < 2 ^ 64 -> forall s, exists m, rounded (Zpos p) m /\ exists k e, binary_round fprec femax s p 0 = S754_finite s k e /\ proper k e /\ Zpos k * 2 ^ (e + 1074) = m * 2 ^ 1074).
  { intros p P s. destruct (round_units s p 0 ltac:(lia)) as (r & R & H). change (0 + 1074) with 1074 in R.
    assert (Q : exists m, rounded (Zpos p) m /\ r = m * 2 ^ 1074).
    { destruct (Z.lt_ge_cases (Zpos p) (2 ^ 53)) as [X|X].
      - exists (Zpos p). split; [apply short_rounded; exact X|]. apply (rounded_once _ _ _ R). apply digits_kept. exists (Zpos p), 1074. repeat split; [lia|exact X].
      - destruct (literal_rounded (Zpos p)) as (m & M & _); [change (Z.abs (Zpos p)) with (Zpos p); assert (2 ^ 64 < f64_limit) by reflexivity; lia|].
        exists m. split; [exact M|]. apply (rounded_once _ _ _ R). apply rounded_scale; [lia|exact X|exact M]. }
    destruct Q as (m & M & ->). exists m. split; [exact M|]. destruct H as [[_ H]|(k & e & E & Pr & Eq)]; [|exists k, e; auto]. exfalso.
    assert (B : Z.abs (Zpos p - m) <= Z.abs (Zpos p - 0)) by (apply rounded_nearest; [exact M|]; exists 0, 0; repeat split; lia).
    rewrite Z.sub_0_r in B. change (Z.abs (Zpos p)) with (Zpos p) in B. assert (U : m <= 2 ^ 65) by lia.
    assert (T : 2 ^ 65 * 2 ^ 1074 < 2 ^ 2045) by reflexivity. assert (W : 0 < 2 ^ 1074) by reflexivity.
    set (w := 2 ^ 1074) in *. clearbody w. set (v := 2 ^ 2045) in *. clearbody v. nia. }
  destruct z as [|p|p].
  - exists 0. split; [now apply short_rounded|]. split; [split; reflexivity|reflexivity].
  - destruct (K p Z64 false) as (m & M & k & e & E & Pr & Q). exists m. split; [exact M|].
    change (f_of_Z (Zpos p)) with (binary_round fprec femax false p 0). rewrite E. split; [split; [now apply valid_of|reflexivity]|exact Q].
  - destruct (K p Z64 true) as (m & M & k & e & E & Pr & Q). exists (- m). split; [exact (rounded_opp _ _ M)|].
    change (f_of_Z (Zneg p)) with (binary_round fprec femax true p 0). rewrite E. split; [split; [now apply valid_of|reflexivity]|].
    cbn [units]. lia.
Qed.
(** ** Floats beyond one *)
Lemma units_multiple s k e : proper k e -> -52 <= e -> exists q, units (S754_finite s k e) = q * 2 ^ 1022.
Proof.
  intros _ E. exists ((if s then - Zpos k else Zpos k) * 2 ^ (e + 52)). cbn [units]. rewrite <- Z.mul_assoc, <- Z.pow_add_r by lia. do 2 f_equal. lia.
Qed.
Lemma units_small s k e : proper k e -> e < -52 -> Z.abs (units (S754_finite s k e)) < 2 ^ 1074.
Proof.
  intros (E & K & _) L. assert (A : Z.abs (units (S754_finite s k e)) = Zpos k * 2 ^ (e + 1074)).
  { cbn [units]. assert (0 < 2 ^ (e + 1074)) by (apply Z.pow_pos_nonneg; lia). destruct s; lia. }
  rewrite A. assert (T : 2 ^ (e + 1074) <= 2 ^ 1021) by (apply Z.pow_le_mono_r; lia). change (2 ^ 1074) with (2 ^ 53 * 2 ^ 1021).
  assert (P : 0 < 2 ^ (e + 1074)) by (apply Z.pow_pos_nonneg; lia). set (w := 2 ^ (e + 1074)) in *. clearbody w. set (v := 2 ^ 1021) in *. clearbody v. nia.
Qed.
Lemma beyond_one a b : finite_double a -> finite_double b -> 2 ^ 1074 < Z.abs (units a) -> units a <> units b -> told_apart <= Z.abs (units a - units b).
Proof.
  intros [Va Fa] [Vb Fb] A N.
  assert (Ha : exists q, units a = q * 2 ^ 1022).
  { destruct a as [sa| | |sa ka ea]; try discriminate. pose proof (proper_of _ _ _ Va) as Pa.
    destruct (Z.lt_ge_cases ea (-52)) as [L|L]; [pose proof (units_small sa ka ea Pa L); lia|now apply units_multiple]. }
  assert (Hb : (exists q, units b = q * 2 ^ 1022) \/ Z.abs (units b) < 2 ^ 1074).
  { destruct b as [sb| | |sb kb eb]; try discriminate; [left; exists 0; reflexivity|]. pose proof (proper_of _ _ _ Vb) as Pb.
    destruct (Z.lt_ge_cases eb (-52)) as [L|L]; [right; now apply units_small|left; now apply units_multiple]. }
  unfold told_apart. destruct Ha as [p Hp]. rewrite Hp in *. clear Hp. assert (0 < 2 ^ 968) by reflexivity. set (v := 2 ^ 968) in *. clearbody v.
  change (2 ^ 1074) with (2 ^ 52 * 2 ^ 1022) in *. assert (W : 0 < 2 ^ 1022) by reflexivity. set (w := 2 ^ 1022) in *. clearbody w.
  destruct Hb as [[q Hq]|B].
  - rewrite Hq in *. assert (p <> q) by (intros X; apply N; now rewrite X). nia.
  - assert (P : 2 ^ 52 < Z.abs p) by nia. assert (2 ^ 52 * w + w <= Z.abs p * w) by nia. rewrite <- (Z.abs_eq w) in H0 at 3 by lia. rewrite <- Z.abs_mul in H0. lia.
Qed.
