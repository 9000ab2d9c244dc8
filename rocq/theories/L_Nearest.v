(** The quotient of two integers as a float is the nearest float. *)
From Coq Require Import Lia.
From Verif Require Import M_Float S_Round L_FloatInt L_Ratio L_Round L_FloatSub L_Near S_Nearest.
Local Open Scope Z_scope.

Lemma recorded_many y k : forall w r, 0 < w -> recorded y w r -> recorded y (2 ^ Zpos k * w) (iter_pos shr_1 k r).
Proof.
  induction k as [k IH|k IH|]; intros w r P H; cbn [iter_pos].
  - replace (2 ^ Zpos k~1 * w) with (2 ^ Zpos k * (2 ^ Zpos k * (2 * w))).
    + assert (0 < 2 ^ Zpos k) by (apply Z.pow_pos_nonneg; lia). apply IH; [nia|]. apply IH; [lia|]. now apply recorded_once.
    + replace (Zpos k~1) with (Zpos k + Zpos k + 1) by lia. rewrite !Z.pow_add_r by lia. change (2 ^ 1) with 2. ring.
  - replace (2 ^ Zpos k~0 * w) with (2 ^ Zpos k * (2 ^ Zpos k * w)).
    + assert (0 < 2 ^ Zpos k) by (apply Z.pow_pos_nonneg; lia). apply IH; [nia|]. now apply IH.
    + replace (Zpos k~0) with (Zpos k + Zpos k) by lia. rewrite !Z.pow_add_r by lia. ring.
  - change (2 ^ 1) with 2. now apply recorded_once.
Qed.
Lemma recorded_even y w r m : 0 < w -> recorded y w r -> m = round_nearest_even (shr_m r) (loc_of_shr_record r) ->
  2 * Z.abs (y - m * w) = w -> Z.even m = true.
Proof.
  intros P (x & E & B & M & C) -> T. destruct r as [m r s]; cbn [shr_m shr_r shr_s] in *. destruct r, s; cbn [loc_of_shr_record round_nearest_even] in *; try lia.
  destruct (Z.even m) eqn:Ev; [exact Ev|]. rewrite Z.even_add, Ev. reflexivity.
Qed.

(** What is left of rounding once the digits are cut off. *)
Lemma finish neg m e : 0 <= m <= 2 ^ 53 -> -1074 <= e -> (2 ^ 52 <= m \/ e = -1074) ->
  let f := match shr_fexp fprec femax m e loc_Exact with
    (mrs, e') => match shr_m mrs with Z0 => S754_zero neg | Zpos k => if e' <=? femax - fprec then S754_finite neg k e' else S754_infinity neg | Zneg _ => S754_nan end end in
  if m * 2 ^ (e + 1074) <? 2 ^ (1024 + 1074) then finite_double f /\ units f = (if neg then - m else m) * 2 ^ (e + 1074) /\ (Z.even m = true -> even_mantissa f)
  else f = S754_infinity neg.
Proof.
  intros M E C. assert (P52 : 0 < 2 ^ 52) by reflexivity. assert (PG : 0 < 2 ^ (e + 1074)) by (apply Z.pow_pos_nonneg; lia).
  assert (Lim : 2 ^ (1024 + 1074) = 2 ^ 53 * 2 ^ (971 + 1074)) by (rewrite <- Z.pow_add_r by lia; reflexivity).
  destruct m as [|k|k]; [| |lia].
  - destruct C as [C|C]; [lia|]. subst e. change (0 * 2 ^ (-1074 + 1074) <? 2 ^ (1024 + 1074)) with true. cbv iota.
    unfold shr_fexp. cbn [shr_record_of_loc Zdigits2]. rewrite fexp_is. change (Z.max (0 + -1074 - 53) (-1074) - -1074) with 0. cbn [shr shr_m]. cbv zeta.
    split; [split; reflexivity|]. split; [destruct neg; reflexivity|]. intros _. exact I.
  - unfold shr_fexp. cbn [shr_record_of_loc Zdigits2]. rewrite fexp_is.
    destruct (Z.eq_dec (Zpos k) (2 ^ 53)) as [K|K].
    + rewrite (digits_unique k 54) by lia. replace (Z.max (54 + e - 53) (-1074) - e) with 1 by lia. injection K as ->.
      cbn [shr iter_pos shr_1 shr_m orb shr_r shr_s]. cbv zeta. unfold shr_1. cbn [shr_m]. change (femax - fprec) with 971.
      destruct (Z.leb_spec (e + 1) 971) as [B|B].
      * replace (9007199254740992 * 2 ^ (e + 1074) <? 2 ^ (1024 + 1074)) with true.
        2: { symmetry. apply Z.ltb_lt. rewrite Lim. apply Z.mul_lt_mono_pos_l; [reflexivity|]. apply Z.pow_lt_mono_r; lia. }
        assert (Pr : proper 4503599627370496 (e + 1)) by (split; [lia|]; split; [reflexivity|]; discriminate).
        split; [split; [now apply valid_of|reflexivity]|]. split; [|intros _; reflexivity]. cbn [units]. assert (X : 2 ^ (e + 1 + 1074) = 2 * 2 ^ (e + 1074)) by (rewrite <- Z.pow_succ_r by lia; f_equal; lia). rewrite X.
        destruct neg; lia.
      * replace (9007199254740992 * 2 ^ (e + 1074) <? 2 ^ (1024 + 1074)) with false; [reflexivity|].
        symmetry. apply Z.ltb_ge. rewrite Lim. apply Z.mul_le_mono_nonneg_l; [discriminate|]. apply Z.pow_le_mono_r; lia.
    + assert (Dg : Z.max (Zpos (digits2_pos k) + e - 53) (-1074) - e = 0).
      { destruct C as [C| ->]; [rewrite (digits_unique k 53) by lia; lia|]. destruct (digits_bounds k) as [B _].
        assert (Zpos (digits2_pos k) - 1 < 53) by (apply (Z.pow_lt_mono_r_iff 2); lia). lia. }
      rewrite Dg. cbn [shr shr_m]. cbv zeta. change (femax - fprec) with 971. destruct (Z.leb_spec e 971) as [B|B].
      * replace (Zpos k * 2 ^ (e + 1074) <? 2 ^ (1024 + 1074)) with true.
        2: { symmetry. apply Z.ltb_lt. rewrite Lim. apply Z.lt_le_trans with (2 ^ 53 * 2 ^ (e + 1074)); [apply Z.mul_lt_mono_pos_r; lia|].
             apply Z.mul_le_mono_nonneg_l; [discriminate|]. apply Z.pow_le_mono_r; lia. }
        assert (Pr : proper k e) by (split; [lia|]; split; [lia|]; lia).
        split; [split; [now apply valid_of|reflexivity]|]. split; [reflexivity|]. intros H. exact H.
      * replace (Zpos k * 2 ^ (e + 1074) <? 2 ^ (1024 + 1074)) with false; [reflexivity|].
        symmetry. apply Z.ltb_ge. destruct C as [C|C]; [|lia]. replace (2 ^ (1024 + 1074)) with (2 ^ 52 * 2 ^ (972 + 1074)) by (rewrite <- Z.pow_add_r by lia; reflexivity).
        apply Z.le_trans with (2 ^ 52 * 2 ^ (e + 1074)); [|apply Z.mul_le_mono_nonneg_r; lia]. apply Z.mul_le_mono_nonneg_l; [discriminate|]. apply Z.pow_le_mono_r; lia.
Qed.

Definition finished (neg : bool) (m e : Z) (f : f64) : Prop :=
  if m * 2 ^ (e + 1074) <? 2 ^ (1024 + 1074) then finite_double f /\ units f = (if neg then - m else m) * 2 ^ (e + 1074) /\ (Z.even m = true -> even_mantissa f)
  else f = S754_infinity neg.
(** Where the digits are cut off. *)
Lemma ratio_cut neg p den : exists e m k, -1074 <= e /\ 0 <= k < 2 ^ 53 /\ (2 ^ 52 <= k \/ e = -1074) /\ k <= m <= k + 1 /\
  k * (2 ^ (e + 1074) * Zpos den) <= Zpos p * 2 ^ 1074 < (k + 1) * (2 ^ (e + 1074) * Zpos den) /\
  2 * Z.abs (Zpos p * 2 ^ 1074 - m * (2 ^ (e + 1074) * Zpos den)) <= 2 ^ (e + 1074) * Zpos den /\
  (2 * Z.abs (Zpos p * 2 ^ 1074 - m * (2 ^ (e + 1074) * Zpos den)) = 2 ^ (e + 1074) * Zpos den -> Z.even m = true) /\
  finished neg m e (f_of_ratio neg (Zpos p) den).
Proof.
  remember (f_of_ratio neg (Zpos p) den) as f eqn:F. unfold f_of_ratio in F. rewrite div_core in F. fold (ratio_exp p den) in F.
  remember (Z.min (fexp fprec femax (ratio_exp p den)) 0) as e0 eqn:E0. pose proof (start_here p den e0 E0) as SH.
  rewrite fexp_is in E0. cbv zeta in F. assert (B0 : -1074 <= e0 <= 0) by lia.
  destruct (located (Zpos p) (Zpos den) e0) as [q l] eqn:Lo. pose proof (recorded_located (Zpos p) (Zpos den) e0 q l (Pos2Z.is_pos p) (Pos2Z.is_pos den) ltac:(lia) Lo) as Rc.
  assert (Sm : shr_m (shr_record_of_loc q l) = q) by (destruct l as [|[]]; reflexivity).
  unfold binary_round_aux in F. unfold shr_fexp at 1 in F.
  assert (FE : e0 <= fexp fprec femax (Zdigits2 q + e0)).
  { destruct (Z.le_gt_cases e0 (ratio_exp p den - 53)) as [X|X]; [exact (proj2 (SH (or_intror X)))|]. rewrite fexp_is. lia. }
  remember (fexp fprec femax (Zdigits2 q + e0)) as e1 eqn:E1. rewrite fexp_is in E1.
  assert (Q0 : 0 <= q) by (destruct Rc as (x & _ & _ & X & _); rewrite Sm in X; exact X).
  assert (Dq : q < 2 ^ Zdigits2 q /\ (0 < q -> 2 ^ (Zdigits2 q - 1) <= q) /\ 0 <= Zdigits2 q /\ (q = 0 -> Zdigits2 q = 0)).
  { destruct q as [|q|q]; [| |lia]; cbn [Zdigits2]; [change (2 ^ 0) with 1; lia|]. destruct (digits_bounds q). lia. }
  remember (Zdigits2 q) as dq eqn:EDq. clear EDq. destruct Dq as (D1 & D2 & D3 & D4).
  set (n := e1 - e0) in *. assert (N : 0 <= n) by (unfold n; lia).
  set (r := fst (shr (shr_record_of_loc q l) e0 n)).
  assert (SR : shr (shr_record_of_loc q l) e0 n = (r, e1)).
  { unfold r, shr. destruct n as [|k|k] eqn:NK; cbn [fst]; f_equal; lia. }
  rewrite SR in F. cbn [fst snd] in F.
  remember (Zpos p * 2 ^ (- e0)) as y eqn:Y. set (w := Zpos den) in *. assert (W : 0 < w) by (subst w; lia).
  assert (R1 : recorded y (2 ^ n * w) r).
  { unfold r, shr. destruct n as [|k|k]; [|apply recorded_many; assumption|lia]. cbn [fst]. change (2 ^ 0) with 1. rewrite Z.mul_1_l. exact Rc. }
  assert (PN : 0 < 2 ^ n) by (apply Z.pow_pos_nonneg; lia). assert (PW : 0 < 2 ^ n * w) by (apply Z.mul_pos_pos; assumption).
  remember (round_nearest_even (shr_m r) (loc_of_shr_record r)) as m eqn:Em.
  destruct (recorded_off y (2 ^ n * w) r m PW R1 Em) as [O1 O2]. pose proof (recorded_even y (2 ^ n * w) r m PW R1 Em) as O3. clear Em.
  set (k := shr_m r) in *.
  assert (Yk : k * (2 ^ n * w) <= y < (k + 1) * (2 ^ n * w) /\ 0 <= k) by (destruct R1 as (x & X1 & X2 & X3 & _); fold k in X1, X3; lia).
  destruct Yk as [Yk K0].
  assert (Yq : q * w <= y < (q + 1) * w) by (destruct Rc as (x & X1 & X2 & X3 & _); rewrite Sm in *; lia).
  assert (K1 : k < 2 ^ 53).
  { assert (2 ^ dq <= 2 ^ 53 * 2 ^ n) by (rewrite <- Z.pow_add_r by lia; apply Z.pow_le_mono_r; lia).
    destruct (Z.lt_ge_cases k (2 ^ 53)) as [X|X]; [exact X|exfalso]. assert (2 ^ 53 * (2 ^ n * w) <= k * (2 ^ n * w)) by (apply Z.mul_le_mono_nonneg_r; lia).
    assert ((q + 1) * w <= 2 ^ dq * w) by (apply Z.mul_le_mono_nonneg_r; lia). assert (2 ^ dq * w <= 2 ^ 53 * 2 ^ n * w) by (apply Z.mul_le_mono_nonneg_r; lia). lia. }
  assert (K2 : 2 ^ 52 <= k \/ e1 = -1074).
  { destruct (Z.eq_dec e1 (-1074)) as [X|X]; [now right|left]. assert (Q1 : 0 < q).
    { destruct (Z.eq_dec q 0) as [QZ|]; [|lia]. exfalso. assert (e0 <> -1074) by (specialize (D4 QZ); lia).
      assert (Y2 : e0 <= ratio_exp p den - 53) by lia. pose proof (proj1 (SH (or_intror Y2))). lia. }
    specialize (D2 Q1). assert (EN : 2 ^ (dq - 1) = 2 ^ 52 * 2 ^ n) by (rewrite <- Z.pow_add_r by lia; f_equal; lia).
    destruct (Z.lt_ge_cases k (2 ^ 52)) as [Z|Z]; [exfalso|exact Z]. assert ((k + 1) * (2 ^ n * w) <= 2 ^ 52 * (2 ^ n * w)) by (apply Z.mul_le_mono_nonneg_r; lia).
    assert (2 ^ (dq - 1) * w <= q * w) by (apply Z.mul_le_mono_nonneg_r; lia). rewrite EN in *. lia. }
  assert (PE : 0 < 2 ^ (e0 + 1074)) by (apply Z.pow_pos_nonneg; lia).
  assert (YA : y * 2 ^ (e0 + 1074) = Zpos p * 2 ^ 1074) by (rewrite Y, <- Z.mul_assoc, <- Z.pow_add_r by lia; do 2 f_equal; lia).
  assert (WA : 2 ^ n * w * 2 ^ (e0 + 1074) = 2 ^ (e1 + 1074) * w).
  { replace (e1 + 1074) with (n + (e0 + 1074)) by lia. rewrite (Z.pow_add_r 2 n) by lia. ring. }
  exists e1, m, k. split; [lia|]. split; [lia|]. split; [exact K2|]. split; [exact O2|].
  rewrite <- YA, <- WA. set (s := 2 ^ (e0 + 1074)) in *. set (v := 2 ^ n * w) in *. clearbody s v.
  split; [split; nia|].
  assert (AB : Z.abs (y * s - m * (v * s)) = Z.abs (y - m * v) * s) by (replace (y * s - m * (v * s)) with ((y - m * v) * s) by ring; rewrite Z.abs_mul, (Z.abs_eq s) by lia; reflexivity).
  rewrite AB. split; [nia|]. split.
  { intros T. apply O3. apply (Z.mul_cancel_r _ _ s); lia. }
  rewrite F. refine (finish neg m e1 _ _ _); [lia|lia|]. destruct K2; [left; lia|right; assumption].
Qed.

(** No float lies between the two it is cut off to. *)
Lemma none_between g k e : finite_double g -> 0 <= k < 2 ^ 53 -> -1074 <= e -> (2 ^ 52 <= k \/ e = -1074) ->
  units g <= k * 2 ^ (e + 1074) \/ (k + 1) * 2 ^ (e + 1074) <= units g.
Proof.
  intros [V F] K E C. set (G := 2 ^ (e + 1074)). assert (PG : 0 < G) by (apply Z.pow_pos_nonneg; lia).
  destruct C as [C| ->]; [|subst G; change (2 ^ (-1074 + 1074)) with 1; lia].
  destruct g as [s|s| |s a t]; try discriminate; [cbn [units]; left; nia|].
  apply proper_of in V. destruct V as (T & A & _). cbn [units]. assert (PT : 0 < 2 ^ (t + 1074)) by (apply Z.pow_pos_nonneg; lia).
  destruct s; [left; nia|]. destruct (Z.le_gt_cases e t) as [X|X].
  - assert (Y : 2 ^ (t + 1074) = 2 ^ (t - e) * G) by (unfold G; rewrite <- Z.pow_add_r by lia; f_equal; lia). rewrite Y.
    assert (0 < 2 ^ (t - e)) by (apply Z.pow_pos_nonneg; lia). set (j := Zpos a * 2 ^ (t - e)). replace (Zpos a * (2 ^ (t - e) * G)) with (j * G) by (unfold j; ring).
    destruct (Z.le_gt_cases j k) as [J|J]; [left; nia|right; nia].
  - left. assert (Y : 2 * 2 ^ (t + 1074) <= G) by (unfold G; rewrite <- Z.pow_succ_r by lia; apply Z.pow_le_mono_r; lia).
    change (2 ^ 53) with (2 ^ 52 * 2) in A. set (h := 2 ^ 52) in *. clearbody h. set (u := 2 ^ (t + 1074)) in *. clearbody u G.
    assert (Zpos a * u <= h * 2 * u) by (apply Z.mul_le_mono_nonneg_r; lia). assert (h * (2 * u) <= h * G) by (apply Z.mul_le_mono_nonneg_l; lia). assert (h * G <= k * G) by (apply Z.mul_le_mono_nonneg_r; lia). lia.
Qed.

Section Limit.
Context (A den k m e : Z) (D : 0 < den) (E : -1074 <= e) (K : 0 <= k < 2 ^ 53) (C : 2 ^ 52 <= k \/ e = -1074) (M : k <= m <= k + 1).
Let G := 2 ^ (e + 1074).
Context (Cut : k * (G * den) <= A < (k + 1) * (G * den)) (Near : 2 * Z.abs (A - m * (G * den)) <= G * den)
  (Tie : 2 * Z.abs (A - m * (G * den)) = G * den -> Z.even m = true).
Lemma limit_iff : A < f64_limit * 2 ^ 1074 * den <-> m * G < 2 ^ (1024 + 1074).
Proof.
  assert (PG : 0 < G) by (apply Z.pow_pos_nonneg; lia).
  set (H := 2 ^ (970 + 1074)). assert (PH : 0 < H) by reflexivity.
  assert (L1 : f64_limit * 2 ^ 1074 = (2 * 2 ^ 53 - 1) * H) by reflexivity.
  assert (L2 : 2 ^ (1024 + 1074) = 2 * 2 ^ 53 * H) by reflexivity. rewrite L1, L2. clear L1 L2.
  assert (P : 2 ^ 53 = 2 * 2 ^ 52) by reflexivity. assert (Pt : 0 < 2 ^ 52) by reflexivity.
  destruct (Z.lt_trichotomy e 971) as [X|[X|X]].
  - assert (GH : G <= H) by (unfold G, H; apply Z.pow_le_mono_r; lia). clearbody G H. rewrite P in *. set (h := 2 ^ 52) in *. clearbody h.
    assert (GD : 0 < G * den) by (apply Z.mul_pos_pos; lia). split; intros _.
    + assert (m * G <= (2 * h) * G) by (apply Z.mul_le_mono_nonneg_r; lia). assert (2 * h * G <= 2 * h * H) by (apply Z.mul_le_mono_nonneg_l; lia). nia.
    + assert ((k + 1) * (G * den) <= 2 * h * (G * den)) by (apply Z.mul_le_mono_nonneg_r; lia). assert (G * den <= H * den) by (apply Z.mul_le_mono_nonneg_r; lia).
      assert (2 * h * (G * den) <= 2 * h * (H * den)) by (apply Z.mul_le_mono_nonneg_l; lia).
      assert (2 * h * (H * den) < (2 * (2 * h) - 1) * H * den).
      { replace ((2 * (2 * h) - 1) * H * den) with (2 * h * (H * den) + (2 * h - 1) * (H * den)) by ring. assert (0 < H * den) by (apply Z.mul_pos_pos; lia). assert (0 < (2 * h - 1) * (H * den)) by (apply Z.mul_pos_pos; lia). lia. }
      lia.
  - assert (GH : G = 2 * H) by (unfold G, H; subst e; reflexivity). assert (OD : Z.even (2 ^ 53 - 1) = false) by reflexivity. destruct C as [C'|C']; [|lia]. clear C.
    rewrite GH in *. clearbody H. clear GH PG. assert (HD : 0 < H * den) by (apply Z.mul_pos_pos; lia).
    replace (m * (2 * H * den)) with (2 * m * (H * den)) in * by ring. replace (k * (2 * H * den)) with (2 * k * (H * den)) in * by ring. replace ((k + 1) * (2 * H * den)) with (2 * (k + 1) * (H * den)) in * by ring.
    replace (2 * H * den) with (2 * (H * den)) in * by ring. replace ((2 * 2 ^ 53 - 1) * H * den) with ((2 * 2 ^ 53 - 1) * (H * den)) by ring.
    set (v := H * den) in *. set (b := 2 ^ 53) in *.
    assert (MB : m = b \/ m <= b - 1) by lia. destruct MB as [->|MB].
    + split; intros Y; exfalso; [|nia]. clear Tie. assert (Z.abs (A - 2 * b * v) <= v) by lia. assert ((2 * b - 1) * v = 2 * b * v - v) by ring. lia.
    + split; intros _; [nia|]. destruct (Z.lt_ge_cases A ((2 * b - 1) * v)) as [Y|Y]; [exact Y|exfalso].
      assert (B1 : (2 * b - 1) * v <= A) by lia. assert (X1 : 2 * m * v <= 2 * (b - 1) * v) by nia. assert (X2 : (2 * b - 1) * v = 2 * (b - 1) * v + v) by ring.
      assert (X3 : A - 2 * m * v <= v) by lia. assert (X4 : 2 * m * v = 2 * (b - 1) * v) by lia. assert (X5 : m = b - 1) by nia.
      rewrite X5 in Tie. rewrite OD in Tie. assert (false = true); [|discriminate]. apply Tie. lia.
  - destruct C as [C'|C']; [|lia]. assert (GH : 4 * H <= G) by (unfold G, H; change 4 with (2 ^ 2); rewrite <- Z.pow_add_r by lia; apply Z.pow_le_mono_r; lia).
    clearbody G H. rewrite P in *. set (h := 2 ^ 52) in *. clearbody h.
    assert (X1 : h * (4 * H) <= h * G) by (apply Z.mul_le_mono_nonneg_l; lia). assert (X2 : h * G <= m * G) by (apply Z.mul_le_mono_nonneg_r; lia).
    split; intros Y; exfalso; [|lia].
    assert (X3 : h * G <= k * G) by (apply Z.mul_le_mono_nonneg_r; lia). assert (X4 : h * (4 * H) * den <= k * G * den) by (apply Z.mul_le_mono_nonneg_r; lia).
    assert (0 < H * den) by (apply Z.mul_pos_pos; lia). assert ((2 * (2 * h) - 1) * H * den = h * (4 * H) * den - H * den) by ring. lia.
Qed.
End Limit.

Lemma off_opp n d f g : units g = - units f -> off (- n) d g = off n d f.
Proof. intros E. unfold off. rewrite E. replace (- units f * Zpos d - - n * 2 ^ 1074) with (- (units f * Zpos d - n * 2 ^ 1074)) by ring. apply Z.abs_opp. Qed.
Lemma opp_double f : finite_double f -> finite_double (SFopp f) /\ units (SFopp f) = - units f.
Proof. intros [V F]. destruct f as [s|s| |s m e]; try discriminate; [split; [split; reflexivity|reflexivity]|]. split; [split; [exact V|reflexivity]|]. cbn [SFopp units]. destruct s; cbn [negb]; lia. Qed.

Theorem ratio_nearest (neg : bool) n den : 0 <= n -> nearest_double (if neg then - n else n) den (f_of_ratio neg n den).
Proof.
  intros N. destruct n as [|p|p]; [| |lia].
  { unfold nearest_double, off. replace (if neg then - 0 else 0) with 0 by (destruct neg; reflexivity). replace (Z.abs 0 <? f64_limit * Zpos den) with true.
    2: { symmetry. apply Z.ltb_lt. apply Z.mul_pos_pos; [reflexivity|lia]. }
    cbn [f_of_ratio units]. split; [split; reflexivity|]. intros g _. rewrite !Z.mul_0_l. cbn [Z.sub Z.opp Z.abs Z.add]. split; [lia|]. intros _ _. exact I. }
  destruct (ratio_cut neg p den) as (e & m & k & E & K & C & M & Cut & Near & Tie & F).
  assert (D : 0 < Zpos den) by lia. pose proof (limit_iff (Zpos p * 2 ^ 1074) (Zpos den) k m e D E K C M Cut Near Tie) as Lim. unfold finished in F. unfold nearest_double.
  assert (AB : Z.abs (if neg then - Zpos p else Zpos p) = Zpos p) by (destruct neg; reflexivity). rewrite AB.
  assert (P : 0 < 2 ^ 1074) by reflexivity.
  destruct (Z.ltb_spec (Zpos p) (f64_limit * Zpos den)) as [X|X].
  - assert (Y : Zpos p * 2 ^ 1074 < f64_limit * 2 ^ 1074 * Zpos den).
    { replace (f64_limit * 2 ^ 1074 * Zpos den) with (f64_limit * Zpos den * 2 ^ 1074) by ring. apply Z.mul_lt_mono_pos_r; assumption. }
    apply Lim in Y. apply Z.ltb_lt in Y. rewrite Y in F. destruct F as (FD & U & EM). split; [exact FD|].
    assert (H : forall g, finite_double g -> let o u := Z.abs (u * Zpos den - Zpos p * 2 ^ 1074) in
      o (m * 2 ^ (e + 1074)) <= o (units g) /\ (o (units g) = o (m * 2 ^ (e + 1074)) -> units g <> m * 2 ^ (e + 1074) -> even_mantissa (f_of_ratio neg (Zpos p) den))).
    { intros g FG o. pose proof (none_between g k e FG K E C) as NB. unfold o. clear o. set (G := 2 ^ (e + 1074)) in *. set (A := Zpos p * 2 ^ 1074) in *. set (u := units g) in *.
      clear Lim Y U AB FG X K C E P. clearbody G A u. set (w := Zpos den) in *. clearbody w.
      assert (GW : 0 < G * w) by nia. replace (m * G * w) with (m * (G * w)) by ring.
      assert (NB' : u * w <= k * (G * w) \/ (k + 1) * (G * w) <= u * w) by (destruct NB; [left|right]; nia).
      split.
      - set (v := G * w) in *. set (z := u * w) in *. clearbody v z. assert (m = k \/ m = k + 1) as [-> | ->] by lia; nia.
      - intros O NE. apply EM, Tie. assert (NE' : u * w <> m * (G * w)) by (intros Q; apply NE; apply (Z.mul_cancel_r _ _ w); lia).
        set (v := G * w) in *. set (z := u * w) in *. clearbody v z. assert (m = k \/ m = k + 1) as [-> | ->] by lia; nia. }
    intros g FG. destruct neg.
    + destruct (opp_double g FG) as [FO UO]. specialize (H _ FO). cbv zeta in H. rewrite UO in H. unfold off. rewrite U.
      assert (S : forall u, Z.abs (u * Zpos den - - Zpos p * 2 ^ 1074) = Z.abs (- u * Zpos den - Zpos p * 2 ^ 1074)).
      { intros u. replace (- u * Zpos den - Zpos p * 2 ^ 1074) with (- (u * Zpos den - - Zpos p * 2 ^ 1074)) by ring. symmetry. apply Z.abs_opp. }
      rewrite !S. replace (- (- m * 2 ^ (e + 1074))) with (m * 2 ^ (e + 1074)) by ring. destruct H as [H1 H2]. split; [exact H1|]. intros O NE. apply H2; [exact O|lia].
    + unfold off. rewrite U. exact (H g FG).
  - assert (Y : ~ m * 2 ^ (e + 1074) < 2 ^ (1024 + 1074)).
    { intros Y. apply Lim in Y. replace (f64_limit * 2 ^ 1074 * Zpos den) with (f64_limit * Zpos den * 2 ^ 1074) in Y by ring. apply Z.mul_lt_mono_pos_r in Y; lia. }
    apply Z.ltb_nlt in Y. rewrite Y in F. rewrite F. destruct neg; reflexivity.
Qed.

(** ** There is but one *)
Lemma next_double s m e : Z.even (Zpos m) = true -> proper m e -> proper (m + 1) e /\
  Z.abs (units (S754_finite s (m + 1) e)) = Z.abs (units (S754_finite s m e)) + 2 ^ (e + 1074).
Proof.
  intros Ev (E & M & K). assert (Zpos m + 1 < 2 ^ 53) by (destruct (Z.eq_dec (Zpos m) 9007199254740991) as [X|X]; [rewrite X in Ev; discriminate|change (2 ^ 53) with 9007199254740992 in *; lia]).
  split; [split; [exact E|]; split; [lia|]; intros X; specialize (K X); lia|].
  cbn [units]. assert (0 < 2 ^ (e + 1074)) by (apply Z.pow_pos_nonneg; lia). rewrite !Z.abs_mul, (Z.abs_eq (2 ^ _)) by lia.
  replace (Z.abs (if s then - Zpos (m + 1) else Zpos (m + 1))) with (Zpos m + 1) by (destruct s; lia).
  replace (Z.abs (if s then - Zpos m else Zpos m)) with (Zpos m) by (destruct s; lia). ring.
Qed.
Lemma size_finite s k e : Z.abs (units (S754_finite s k e)) = Zpos k * 2 ^ (e + 1074).
Proof. cbn [units]. rewrite Z.abs_mul, (Z.abs_eq (2 ^ _)) by (apply Z.pow_nonneg; lia). f_equal. destruct s; lia. Qed.
(** Between two even ones that follow each other away from zero there is a third. *)
Lemma even_apart s m e m' e' : proper m e -> proper m' e' -> Z.even (Zpos m) = true -> Z.even (Zpos m') = true ->
  Zpos m * 2 ^ (e + 1074) < Zpos m' * 2 ^ (e' + 1074) ->
  exists g, finite_double g /\ (exists k j, g = S754_finite s k j) /\ Zpos m * 2 ^ (e + 1074) < Z.abs (units g) < Zpos m' * 2 ^ (e' + 1074).
Proof.
  intros P P' Ev Ev' Lt'. destruct (next_double s m e Ev P) as [Q U]. exists (S754_finite s (m + 1) e).
  assert (0 < 2 ^ (e + 1074)) by (apply Z.pow_pos_nonneg; destruct P; lia).
  split; [split; [now apply valid_of|reflexivity]|]. split; [eauto|]. rewrite U, size_finite.
  destruct (Z.lt_trichotomy e e') as [X|[X|X]].
  - pose proof (proper_apart _ _ _ _ Q P' X) as Y. replace (Zpos (m + 1)) with (Zpos m + 1) in Y by lia. split; [lia|]. rewrite Z.mul_add_distr_r in Y. lia.
  - subst e'. apply Z.mul_lt_mono_pos_r in Lt'; [|assumption]. apply Z.even_spec in Ev, Ev'. destruct Ev as [a A], Ev' as [b B].
    assert (Zpos m + 1 < Zpos m') by lia. split; [lia|]. replace (Zpos m * 2 ^ (e + 1074) + 2 ^ (e + 1074)) with ((Zpos m + 1) * 2 ^ (e + 1074)) by ring. now apply Z.mul_lt_mono_pos_r.
  - pose proof (proper_apart _ _ _ _ P' P X). lia.
Qed.
Lemma between_evens f f' : finite_double f -> finite_double f' -> even_mantissa f -> even_mantissa f' -> units f < units f' ->
  exists g, finite_double g /\ units f < units g < units f'.
Proof.
  intros [V F] [V' F'] Ev Ev' Lt'.
  destruct f as [s| | |s m e]; try discriminate F; destruct f' as [s'| | |s' m' e']; try discriminate F'; [cbn [units] in Lt'; lia| | |].
  - apply proper_of in V'. pose proof (size_finite s' m' e') as Z'. pose proof (units_pos m' e' V') as P'. cbn [even_mantissa] in Ev'.
    exists (S754_finite false 1 (-1074)). split; [split; reflexivity|]. change (units (S754_finite false 1 (-1074))) with 1. change (units (S754_zero s)) with 0 in *.
    split; [lia|]. assert (X : units (S754_finite s' m' e') = Zpos m' * 2 ^ (e' + 1074)) by lia. rewrite X. clear - Ev' P' V'.
    assert (1 <= 2 ^ (e' + 1074)) by (assert (0 < 2 ^ (e' + 1074)) by (apply Z.pow_pos_nonneg; destruct V'; lia); lia).
    assert (2 <= Zpos m') by (destruct m'; try discriminate Ev'; lia). nia.
  - apply proper_of in V. pose proof (size_finite s m e) as Z'. pose proof (units_pos m e V) as P'. cbn [even_mantissa] in Ev.
    exists (S754_finite true 1 (-1074)). split; [split; reflexivity|]. change (units (S754_finite true 1 (-1074))) with (-1). change (units (S754_zero s')) with 0 in *.
    split; [|lia]. assert (X : units (S754_finite s m e) = - (Zpos m * 2 ^ (e + 1074))) by lia. rewrite X. clear - Ev P' V.
    assert (1 <= 2 ^ (e + 1074)) by (assert (0 < 2 ^ (e + 1074)) by (apply Z.pow_pos_nonneg; destruct V; lia); lia).
    assert (2 <= Zpos m) by (destruct m; try discriminate Ev; lia). nia.
  - cbn [even_mantissa] in Ev, Ev'. apply proper_of in V, V'. pose proof (size_finite s m e) as Zf. pose proof (size_finite s' m' e') as Zg.
    pose proof (units_pos m e V) as P. pose proof (units_pos m' e' V') as P'.
    assert (SF : forall s k j, 0 <= units (S754_finite s k j) -> s = false \/ units (S754_finite s k j) = 0).
    { intros [] k j; [right|now left]. cbn [units] in *. pose proof (Z.pow_nonneg 2 (j + 1074)). nia. }
    assert (SN : forall k j, units (S754_finite true k j) <= 0 /\ 0 <= units (S754_finite false k j)).
    { intros k j. cbn [units]. pose proof (Z.pow_nonneg 2 (j + 1074)). nia. }
    destruct s, s'.
    + destruct (even_apart true m' e' m e) as (g & G1 & (k & j & G2) & G3); auto.
      { pose proof (proj1 (SN m e)). pose proof (proj1 (SN m' e')). lia. }
      exists g. split; [exact G1|]. subst g. pose proof (proj1 (SN m e)). pose proof (proj1 (SN m' e')). pose proof (proj1 (SN k j)). lia.
    + exists (S754_zero false). split; [split; reflexivity|]. change (units (S754_zero false)) with 0. pose proof (proj1 (SN m e)). pose proof (proj2 (SN m' e')). lia.
    + pose proof (proj2 (SN m e)). pose proof (proj1 (SN m' e')). lia.
    + destruct (even_apart false m e m' e') as (g & G1 & (k & j & G2) & G3); auto.
      exists g. split; [exact G1|]. subst g. pose proof (proj2 (SN m e)). pose proof (proj2 (SN m' e')). pose proof (proj2 (SN k j)). lia.
Qed.
Lemma nearest_units n d f f' : finite_double f -> finite_double f' ->
  (forall g, finite_double g -> off n d f <= off n d g /\ (off n d g = off n d f -> units g <> units f -> even_mantissa f)) ->
  (forall g, finite_double g -> off n d f' <= off n d g /\ (off n d g = off n d f' -> units g <> units f' -> even_mantissa f')) ->
  units f < units f' -> False.
Proof.
  intros F F' H H' Lt'. destruct (H f' F') as [L1 T1]. destruct (H' f F) as [L2 T2].
  destruct (between_evens f f' F F') as (g & G & B); [apply T1; lia|apply T2; lia|exact Lt'|].
  destruct (H g G) as [L3 _]. destruct (H' g G) as [L4 _]. unfold off in *. clear - L1 L2 L3 L4 B.
  set (N := n * 2 ^ 1074) in *. clearbody N.
  assert (units f * Zpos d < units g * Zpos d < units f' * Zpos d) by (split; apply Z.mul_lt_mono_pos_r; lia). lia.
Qed.
Lemma same_double f f' : finite_double f -> finite_double f' -> units f = units f' -> negative f = negative f' -> f = f'.
Proof.
  intros [V F] [V' F'] U N. destruct f as [s| | |s m e]; try discriminate F; destruct f' as [s'| | |s' m' e']; try discriminate F'; cbn [negative] in N; subst s'; [reflexivity| | |].
  - apply proper_of in V'. pose proof (size_finite s m' e') as Z'. pose proof (units_pos m' e' V'). rewrite <- U in Z'. change (Z.abs 0 = Zpos m' * 2 ^ (e' + 1074)) in Z'. change (Z.abs 0) with 0 in Z'. lia.
  - apply proper_of in V. pose proof (size_finite s m e) as Z'. pose proof (units_pos m e V). rewrite U in Z'. change (Z.abs 0 = Zpos m * 2 ^ (e + 1074)) in Z'. change (Z.abs 0) with 0 in Z'. lia.
  - apply proper_of in V, V'. pose proof (size_finite s m e) as A. rewrite U, size_finite in A.
    destruct (Z.lt_trichotomy e e') as [X|[X|X]]; [pose proof (proper_apart _ _ _ _ V V' X); lia| |pose proof (proper_apart _ _ _ _ V' V X); lia].
    subst e'. apply Z.mul_cancel_r in A; [|apply Z.pow_nonzero; destruct V; lia]. injection A as ->. reflexivity.
Qed.
Lemma nearest_once n d f f' : nearest_double n d f -> nearest_double n d f' -> negative f = negative f' -> f = f'.
Proof.
  unfold nearest_double. destruct (Z.abs n <? f64_limit * Zpos d); [|congruence]. intros [F H] [F' H'] N. apply same_double; auto.
  destruct (Z.lt_trichotomy (units f) (units f')) as [X|[X|X]]; [destruct (nearest_units n d f f'); auto|exact X|destruct (nearest_units n d f' f); auto].
Qed.
