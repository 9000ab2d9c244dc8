(** Integers of at most 53 binary digits are exact in binary64. *)
From Coq Require Import Lia.
From Verif Require Import M_Float.
Local Open Scope Z_scope.

Lemma digits_size p : digits2_pos p = Pos.size p.
Proof. induction p; cbn; congruence. Qed.
Lemma digits_bounds p : 2 ^ (Zpos (digits2_pos p) - 1) <= Zpos p < 2 ^ Zpos (digits2_pos p).
Proof.
  rewrite digits_size. pose proof (Pos.size_gt p) as G. pose proof (Pos.size_le p) as E.
  rewrite <- Pos2Z.inj_pow in *. split.
  - assert (H : 2 ^ Zpos (Pos.size p) <= 2 * Zpos p).
    { rewrite <- Pos2Z.inj_pow. change (2 * Z.pos p) with (Z.pos p~0). exact E. }
    replace (Zpos (Pos.size p)) with (Z.succ (Zpos (Pos.size p) - 1)) in H by lia.
    rewrite Z.pow_succ_r in H; lia.
  - exact G.
Qed.
Lemma digits_unique p n : 0 < n -> 2 ^ (n - 1) <= Zpos p < 2 ^ n -> Zpos (digits2_pos p) = n.
Proof.
  intros N [A B]. destruct (digits_bounds p) as [C D].
  assert (Zpos (digits2_pos p) - 1 < n) by (apply (Z.pow_lt_mono_r_iff 2); lia).
  assert (n - 1 < Zpos (digits2_pos p)) by (apply (Z.pow_lt_mono_r_iff 2); lia). lia.
Qed.
Lemma fexp_big x : -1000 <= x -> fexp fprec femax x = x - 53.
Proof. intros H. unfold fexp, emin, fprec, femax. lia. Qed.

(** Rounding a 54-digit mantissa whose last digit is 0. *)
Lemma round_aux_exact sx k e : 2 ^ 52 <= Zpos k < 2 ^ 53 -> -900 <= e <= 0 ->
  binary_round_aux fprec femax sx (Zpos k~0) (e - 1) loc_Exact = S754_finite sx k e.
Proof.
  intros K E. assert (D : Zpos (digits2_pos k) = 53) by (apply digits_unique; lia).
  assert (D0 : Zpos (digits2_pos k~0) = 54) by (cbn [digits2_pos]; lia).
  unfold binary_round_aux, shr_fexp, Zdigits2. rewrite D0, fexp_big by lia.
  replace (54 + (e - 1) - 53 - (e - 1)) with 1 by lia.
  cbn [shr iter_pos shr_1 shr_record_of_loc shr_m shr_r shr_s orb loc_of_shr_record round_nearest_even].
  rewrite D, fexp_big by lia. replace (53 + (e - 1 + 1) - 53 - (e - 1 + 1)) with 0 by lia.
  cbn [shr shr_m shr_record_of_loc].
  assert (H : (e - 1 + 1 <=? femax - fprec) = true) by (apply Z.leb_le; unfold femax, fprec; lia).
  rewrite H. f_equal. lia.
Qed.

Lemma ratio_exact neg p : Zpos p < 2 ^ 53 -> exists k e, f_of_ratio neg (Zpos p) 1 = S754_finite neg k e /\
  -900 <= e <= 0 /\ Zpos k = Zpos p * 2 ^ (- e).
Proof.
  intros H. pose proof (digits_bounds p) as [B1 B2]. set (d := Zpos (digits2_pos p)) in *.
  assert (Hd : 1 <= d <= 53).
  { split; [unfold d; lia|]. assert (d - 1 < 53); [|lia]. apply (Z.pow_lt_mono_r_iff 2); lia. }
  unfold f_of_ratio, SFdiv_core_binary.
  replace (Zdigits2 (Zpos p)) with d by reflexivity. replace (Zdigits2 1) with 1 by reflexivity.
  rewrite fexp_big by lia.
  replace (Z.min (d + 0 - (1 + 0) - 53) (0 - 0)) with (d - 54) by lia.
  replace (0 - 0 - (d - 54)) with (54 - d) by lia.
  assert (Hs : exists s, 54 - d = Zpos s) by (destruct (54 - d) eqn:X; try lia; eauto). destruct Hs as [s Hs].
  rewrite Hs. rewrite Z.shiftl_mul_pow2 by lia. rewrite <- Hs.
  assert (Hk : exists k, Zpos k = Zpos p * 2 ^ (53 - d)).
  { assert (0 < 2 ^ (53 - d)) by (apply Z.pow_pos_nonneg; lia).
    destruct (Zpos p * 2 ^ (53 - d)) eqn:X; try lia. eauto. }
  destruct Hk as [k Hk].
  assert (Ek : Zpos p * 2 ^ (54 - d) = Zpos k~0).
  { replace (54 - d) with (Z.succ (53 - d)) by lia. rewrite Z.pow_succ_r by lia. lia. }
  rewrite Ek.
  assert (Ed : Z.div_eucl (Zpos k~0) 1 = (Zpos k~0, 0)).
  { pose proof (Z.div_1_r (Zpos k~0)) as A. pose proof (Z.mod_1_r (Zpos k~0)) as B.
    unfold Z.div, Z.modulo in *. destruct (Z.div_eucl (Zpos k~0) 1). cbn in *. congruence. }
  rewrite Ed. change (new_location 1 0) with loc_Exact.
  exists k, (d - 53). replace (d - 54) with (d - 53 - 1) by lia. rewrite round_aux_exact.
  - repeat split; try lia. rewrite Hk. do 2 f_equal. lia.
  - rewrite Hk. split.
    + replace 52 with ((d - 1) + (53 - d)) by lia. rewrite Z.pow_add_r by lia.
      apply Z.mul_le_mono_nonneg_r; [apply Z.pow_nonneg; lia|lia].
    + replace 53 with (d + (53 - d)) at 2 by lia. rewrite Z.pow_add_r by lia.
      apply Z.mul_lt_mono_pos_r; [apply Z.pow_pos_nonneg; lia|lia].
  - lia.
Qed.

(** The integer a float holds. *)
Lemma exact_int neg p f k e : f = S754_finite neg k e -> -900 <= e <= 0 -> Zpos k = Zpos p * 2 ^ (- e) ->
  f_is_integral f = true /\ f_is_finite f = true /\ f_trunc f = if neg then Zneg p else Zpos p.
Proof.
  intros -> E K. assert (P : 0 < 2 ^ (- e)) by (apply Z.pow_pos_nonneg; lia).
  split; [|split; auto].
  - unfold f_is_integral. rewrite K, Z.mod_mul by lia. rewrite Z.eqb_refl, orb_true_r. reflexivity.
  - unfold f_trunc.
    destruct (Z.leb_spec 0 e).
    + replace e with 0 in * by lia. rewrite Z.mul_1_r in *. rewrite K. destruct neg; lia.
    + rewrite K, Z.div_mul by lia. destruct neg; lia.
Qed.
Theorem ratio_integer neg n : 0 <= n <= 2 ^ 53 ->
  f_is_integral (f_of_ratio neg n 1) = true /\ f_is_finite (f_of_ratio neg n 1) = true /\
  f_to_i64 (f_of_ratio neg n 1) = if neg then - n else n.
Proof.
  intros H. destruct n as [|p|p]; [destruct neg; vm_compute; auto| |lia].
  destruct (Z.eq_dec (Zpos p) (2 ^ 53)) as [E|E].
  - rewrite E. destruct neg; vm_compute; auto.
  - destruct (ratio_exact neg p) as (k & e & F & R & K); [lia|].
    destruct (exact_int neg p _ k e F R K) as (A & B & C). split; [auto|split; [auto|]].
    rewrite F in *. unfold f_to_i64. rewrite C. destruct neg; unfold i64_min, i64_max; lia.
Qed.

(** ** Sums and comparison of such integers *)
Lemma iter_shr n : forall p k, Zpos p = Zpos k * 2 ^ Zpos n ->
  iter_pos shr_1 n {| shr_m := Zpos p; shr_r := false; shr_s := false |} =
  {| shr_m := Zpos k; shr_r := false; shr_s := false |}.
Proof.
  assert (One : forall p k, Zpos p = Zpos k * 2 -> shr_1 {| shr_m := Zpos p; shr_r := false; shr_s := false |} =
    {| shr_m := Zpos k; shr_r := false; shr_s := false |}).
  { intros p k H. destruct p as [p|p|]; [lia| |lia]. replace p with k by lia. reflexivity. }
  assert (Mid : forall k n, exists j, Zpos j = Zpos k * 2 ^ Zpos n).
  { intros k n'. assert (0 < 2 ^ Zpos n') by (apply Z.pow_pos_nonneg; lia).
    destruct (Zpos k * 2 ^ Zpos n') eqn:X; try lia. eauto. }
  induction n as [n IH|n IH|]; intros p k H; cbn [iter_pos].
  - destruct (Mid k n) as (j & Hj). destruct (Mid j n) as (i & Hi).
    rewrite (One p i), (IH i j), (IH j k); auto.
    rewrite H, Hi, Hj. change (Zpos n~1) with (2 * Zpos n + 1). rewrite Z.pow_add_r by lia.
    replace (2 * Zpos n) with (Zpos n + Zpos n) by lia. rewrite Z.pow_add_r by lia. lia.
  - destruct (Mid k n) as (j & Hj). rewrite (IH p j), (IH j k); auto.
    rewrite H, Hj. change (Zpos n~0) with (2 * Zpos n).
    replace (2 * Zpos n) with (Zpos n + Zpos n) by lia. rewrite Z.pow_add_r by lia. lia.
  - apply One. lia.
Qed.
Lemma digits_shift k p n : 0 <= n -> Zpos p = Zpos k * 2 ^ n -> Zpos (digits2_pos p) = Zpos (digits2_pos k) + n.
Proof.
  intros N H. destruct (digits_bounds k) as [A B]. assert (P : 0 < 2 ^ n) by (apply Z.pow_pos_nonneg; lia).
  apply digits_unique; [lia|]. rewrite H.
  replace (Zpos (digits2_pos k) + n - 1) with (Zpos (digits2_pos k) - 1 + n) by lia.
  rewrite !Z.pow_add_r by lia. split; [apply Z.mul_le_mono_nonneg_r; lia|apply Z.mul_lt_mono_pos_r; lia].
Qed.
Lemma shift_pos_mul d m : Zpos (Zpower.shift_pos d m) = Zpos m * 2 ^ Zpos d.
Proof. rewrite Zpower.shift_pos_correct. change (Z.pow_pos 2 d) with (2 ^ Zpos d). lia. Qed.

(** The mantissa and exponent of a value: 53 digits. *)
Lemma round_exact sx p e k E : 2 ^ 52 <= Zpos k < 2 ^ 53 -> -900 <= E <= 900 ->
  (E <= e /\ Zpos k = Zpos p * 2 ^ (e - E) \/ e <= E /\ Zpos p = Zpos k * 2 ^ (E - e)) ->
  binary_round fprec femax sx p e = S754_finite sx k E.
Proof.
  intros K R H. assert (Dk : Zpos (digits2_pos k) = 53) by (apply digits_unique; lia).
  assert (Dp : Zpos (digits2_pos p) + e = 53 + E).
  { destruct H as [[L H]|[L H]].
    - apply digits_shift in H; lia.
    - apply digits_shift in H; lia. }
  unfold binary_round. rewrite Dp, fexp_big by lia. replace (53 + E - 53) with E by lia.
  assert (F2 : shr_fexp fprec femax (Zpos k) E loc_Exact = ({| shr_m := Zpos k; shr_r := false; shr_s := false |}, E)).
  { unfold shr_fexp, Zdigits2. rewrite Dk, fexp_big by lia. replace (53 + E - 53 - E) with 0 by lia. reflexivity. }
  assert (G : forall mz ez, shr_fexp fprec femax (Zpos mz) ez loc_Exact = ({| shr_m := Zpos k; shr_r := false; shr_s := false |}, E) ->
    binary_round_aux fprec femax sx (Zpos mz) ez loc_Exact = S754_finite sx k E).
  { intros mz ez X. unfold binary_round_aux. rewrite X. cbn [shr_m loc_of_shr_record round_nearest_even]. rewrite F2.
    cbn [shr_m]. assert (Q : (E <=? femax - fprec) = true) by (apply Z.leb_le; unfold femax, fprec; lia). rewrite Q. reflexivity. }
  unfold shl_align. remember (E - e) as ed eqn:D. symmetry in D. destruct ed as [|d|d].
  - apply G. replace p with k; [replace e with E by lia; exact F2|].
    destruct H as [[_ H]|[_ H]]; [replace (e - E) with 0 in H by lia|]; lia.
  - apply G. destruct H as [[L H]|[L H]]; [lia|].
    unfold shr_fexp, Zdigits2. rewrite Dp, fexp_big by lia. replace (53 + E - 53 - e) with (Zpos d) by lia.
    cbn [shr shr_record_of_loc]. rewrite (iter_shr d p k) by auto. f_equal. lia.
  - destruct H as [[L H]|[L H]]; [|lia]. replace (e - E) with (Zpos d) in H by lia.
    assert (S : Zpower.shift_pos d p = k) by (apply Pos2Z.inj; rewrite shift_pos_mul; auto).
    rewrite S. apply G. exact F2.
Qed.

Definition small (z : Z) : Prop := Z.abs z < 2 ^ 53.
Lemma canon p : Zpos p < 2 ^ 53 -> exists k E, 2 ^ 52 <= Zpos k < 2 ^ 53 /\ -900 <= E <= 0 /\ Zpos k = Zpos p * 2 ^ (- E).
Proof.
  intros H. pose proof (digits_bounds p) as [B1 B2]. set (d := Zpos (digits2_pos p)) in *.
  assert (Hd : 1 <= d <= 53).
  { split; [unfold d; lia|]. assert (d - 1 < 53); [|lia]. apply (Z.pow_lt_mono_r_iff 2); lia. }
  assert (P : 0 < 2 ^ (53 - d)) by (apply Z.pow_pos_nonneg; lia).
  assert (Hk : exists k, Zpos k = Zpos p * 2 ^ (53 - d)) by (destruct (Zpos p * 2 ^ (53 - d)) eqn:X; try lia; eauto).
  destruct Hk as (k & Hk). exists k, (d - 53). rewrite Hk. replace (- (d - 53)) with (53 - d) by lia.
  repeat split; try lia.
  - replace 52 with ((d - 1) + (53 - d)) by lia. rewrite Z.pow_add_r by lia. apply Z.mul_le_mono_nonneg_r; lia.
  - replace 53 with (d + (53 - d)) at 2 by lia. rewrite Z.pow_add_r by lia. apply Z.mul_lt_mono_pos_r; lia.
Qed.
Definition sign_of (z : Z) : bool := z <? 0.
Lemma f_of_Z_canon z : z <> 0 -> small z -> exists k E, f_of_Z z = S754_finite (sign_of z) k E /\
  2 ^ 52 <= Zpos k < 2 ^ 53 /\ -900 <= E <= 0 /\ Zpos k = Z.abs z * 2 ^ (- E).
Proof.
  intros N S. destruct z as [|p|p]; [congruence| |]; unfold small in S; cbn [Z.abs] in *;
    destruct (canon p S) as (k & E & K & R & V); exists k, E; cbn [f_of_Z binary_normalize];
    (split; [apply round_exact; auto; try lia; left; split; [lia|]; rewrite V; do 2 f_equal; lia|auto]).
Qed.

Lemma cond_opp_scale z k E c : Zpos k = Z.abs z * 2 ^ (- E) -> E <= 0 -> c <= E ->
  cond_Zopp (sign_of z) (Zpos (fst (shl_align k E c))) = z * 2 ^ (- c).
Proof.
  intros V R L.
  assert (X : Zpos (fst (shl_align k E c)) = Zpos k * 2 ^ (E - c)).
  { unfold shl_align. destruct (c - E) as [|d|d] eqn:D; cbn [fst].
    - replace (E - c) with 0 by lia. lia.
    - lia.
    - rewrite shift_pos_mul. do 2 f_equal. lia. }
  rewrite X, V. rewrite <- Z.mul_assoc, <- Z.pow_add_r by lia. replace (- E + (E - c)) with (- c) by lia.
  unfold cond_Zopp, sign_of. destruct (Z.ltb_spec z 0); [rewrite Z.abs_neq by lia|rewrite Z.abs_eq by lia]; lia.
Qed.
(** Addition is exact. *)
Theorem add_exact a b : small a -> small b -> small (a + b) -> f_add (f_of_Z a) (f_of_Z b) = f_of_Z (a + b).
Proof.
  intros Sa Sb Sc. destruct (Z.eq_dec a 0) as [->|Na].
  - cbn [Z.add]. destruct (Z.eq_dec b 0) as [->|Nb]; [reflexivity|].
    destruct (f_of_Z_canon b Nb Sb) as (k & E & -> & _). reflexivity.
  - destruct (f_of_Z_canon a Na Sa) as (ka & ea & Ea & Ka & Ra & Va).
    destruct (Z.eq_dec b 0) as [->|Nb]; [rewrite Z.add_0_r, Ea; reflexivity|].
    destruct (f_of_Z_canon b Nb Sb) as (kb & eb & Eb & Kb & Rb & Vb).
    rewrite Ea, Eb. unfold f_add, SFadd. set (c := Z.min ea eb).
    rewrite (cond_opp_scale a ka ea c Va), (cond_opp_scale b kb eb c Vb) by lia.
    rewrite <- Z.mul_add_distr_r.
    assert (P : 0 < 2 ^ (- c)) by (apply Z.pow_pos_nonneg; lia).
    destruct (Z.eq_dec (a + b) 0) as [->|Ns]; [reflexivity|].
    destruct (f_of_Z_canon (a + b) Ns Sc) as (k & E & -> & K & R & V).
    assert (Hp : exists p, Zpos p = Z.abs (a + b) * 2 ^ (- c)) by (destruct (Z.abs (a + b) * 2 ^ (- c)) eqn:X; try lia; eauto).
    destruct Hp as (p & Hp).
    assert (Hn : (a + b) * 2 ^ (- c) = if sign_of (a + b) then Zneg p else Zpos p).
    { unfold sign_of. destruct (Z.ltb_spec (a + b) 0).
      - rewrite Z.abs_neq in Hp by lia. change (Zneg p) with (- Zpos p). lia.
      - rewrite Z.abs_eq in Hp by lia. lia. }
    assert (Q : binary_round fprec femax (sign_of (a + b)) p c = S754_finite (sign_of (a + b)) k E).
    { apply round_exact; auto; [lia|]. rewrite Hp, V. destruct (Z.le_ge_cases E c).
      - left. split; auto. rewrite <- Z.mul_assoc, <- Z.pow_add_r by lia. do 2 f_equal. lia.
      - right. split; auto. rewrite <- Z.mul_assoc, <- Z.pow_add_r by lia. do 2 f_equal. lia. }
    rewrite Hn. destruct (sign_of (a + b)); exact Q.
Qed.
(** Comparison is exact. *)
Theorem cmp_exact a b : small a -> small b -> f_cmp (f_of_Z a) (f_of_Z b) = Some (Z.compare a b).
Proof.
  intros Sa Sb.
  destruct (Z.eq_dec a 0) as [->|Na]; destruct (Z.eq_dec b 0) as [->|Nb].
  - reflexivity.
  - destruct (f_of_Z_canon b Nb Sb) as (k & E & -> & _). cbn. unfold sign_of. destruct b; try lia; reflexivity.
  - destruct (f_of_Z_canon a Na Sa) as (k & E & -> & _). cbn. unfold sign_of. destruct a; try lia; reflexivity.
  - destruct (f_of_Z_canon a Na Sa) as (ka & ea & -> & Ka & Ra & Va).
    destruct (f_of_Z_canon b Nb Sb) as (kb & eb & -> & Kb & Rb & Vb).
    assert (C : match Z.compare ea eb with Eq => Pos.compare_cont Eq ka kb | c => c end = Z.compare (Z.abs a) (Z.abs b)).
    { destruct (Z.compare_spec ea eb) as [E|E|E].
      - subst eb. change (Pos.compare_cont Eq ka kb) with (Z.compare (Zpos ka) (Zpos kb)). rewrite Va, Vb.
        assert (P : 0 < 2 ^ (- ea)) by (apply Z.pow_pos_nonneg; lia).
        symmetry. rewrite !(Z.mul_comm _ (2 ^ (- ea))). apply Zmult_compare_compat_l. lia.
      - symmetry. apply Z.compare_lt_iff. assert (X : 2 ^ (- ea) = 2 ^ (- eb) * 2 ^ (eb - ea)) by (rewrite <- Z.pow_add_r by lia; f_equal; lia).
        assert (P : 0 < 2 ^ (- eb)) by (apply Z.pow_pos_nonneg; lia).
        assert (Y : 2 <= 2 ^ (eb - ea)) by (replace (eb - ea) with (Z.succ (eb - ea - 1)) by lia; rewrite Z.pow_succ_r by lia;
          assert (0 < 2 ^ (eb - ea - 1)) by (apply Z.pow_pos_nonneg; lia); lia).
        rewrite X in Va. assert (2 * (Z.abs a * 2 ^ (- eb)) <= Zpos ka) by nia. nia.
      - symmetry. apply Z.compare_gt_iff. assert (X : 2 ^ (- eb) = 2 ^ (- ea) * 2 ^ (ea - eb)) by (rewrite <- Z.pow_add_r by lia; f_equal; lia).
        assert (P : 0 < 2 ^ (- ea)) by (apply Z.pow_pos_nonneg; lia).
        assert (Y : 2 <= 2 ^ (ea - eb)) by (replace (ea - eb) with (Z.succ (ea - eb - 1)) by lia; rewrite Z.pow_succ_r by lia;
          assert (0 < 2 ^ (ea - eb - 1)) by (apply Z.pow_pos_nonneg; lia); lia).
        rewrite X in Vb. assert (2 * (Z.abs b * 2 ^ (- ea)) <= Zpos kb) by nia. nia. }
    cbn [f_cmp SFcompare]. f_equal. unfold sign_of.
    destruct (Z.ltb_spec a 0) as [A|A], (Z.ltb_spec b 0) as [B|B].
    + rewrite (Z.abs_neq a), (Z.abs_neq b), Z.compare_opp in C by lia.
      rewrite (Z.compare_antisym b a). rewrite <- C. rewrite (Z.compare_antisym eb ea) in *.
      destruct (eb ?= ea); reflexivity.
    + symmetry. apply Z.compare_lt_iff. lia.
    + symmetry. apply Z.compare_gt_iff. lia.
    + rewrite (Z.abs_eq a), (Z.abs_eq b) in C by lia. exact C.
Qed.
