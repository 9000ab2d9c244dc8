(** The quotient of two integers as a float: how near it is. *)
From Coq Require Import Lia.
From Verif Require Import M_Float S_Round L_FloatInt L_Ratio L_Round L_FloatSub.
Local Open Scope Z_scope.

(** [y] is [shr_m r] times [w] and something; where it lies is recorded. *)
Definition recorded (y w : Z) (r : shr_record) : Prop :=
  exists x, y = shr_m r * w + x /\ 0 <= x < w /\ 0 <= shr_m r /\
    match shr_r r, shr_s r with
    | false, false => x = 0
    | false, true => 0 < 2 * x < w
    | true, false => 2 * x = w
    | true, true => 2 * x > w
    end.
Lemma recorded_once y w r : 0 < w -> recorded y w r -> recorded y (2 * w) (shr_1 r).
Proof.
  intros P (x & E & B & M & C). unfold recorded.
  destruct r as [m r s]; cbn [shr_m shr_r shr_s] in *. destruct m as [|[m|m|]|m]; [| | | |lia];
    cbn [shr_1 shr_m shr_r shr_s].
  - exists x. destruct r, s; cbn [orb]; lia.
  - exists (w + x). destruct r, s; cbn [orb]; lia.
  - exists x. destruct r, s; cbn [orb]; lia.
  - exists (w + x). destruct r, s; cbn [orb]; lia.
Qed.
Lemma recorded_located p den e q l : 0 < p -> 0 < den -> e <= 0 -> located p den e = (q, l) -> recorded (p * 2 ^ (- e)) den (shr_record_of_loc q l).
Proof.
  intros P D E H. unfold located in H. injection H as <- <-. set (y := p * 2 ^ (- e)).
  assert (Y : 0 <= y) by (assert (0 < 2 ^ (- e)) by (apply Z.pow_pos_nonneg; lia); subst y; nia).
  pose proof (Z.mod_pos_bound y den D) as B. pose proof (Z.div_mod y den ltac:(lia)) as DM. pose proof (Z.div_pos y den Y D) as Q.
  rewrite location_cases by exact B. exists (y mod den).
  destruct (Z.eqb_spec (y mod den) 0) as [Z0|Z0]; [cbn [shr_record_of_loc shr_m shr_r shr_s]; lia|].
  destruct (Z.compare_spec (2 * (y mod den)) den) as [C|C|C]; cbn [shr_record_of_loc shr_m shr_r shr_s]; lia.
Qed.
Lemma recorded_off y w r m : 0 < w -> recorded y w r -> m = round_nearest_even (shr_m r) (loc_of_shr_record r) ->
  2 * Z.abs (y - m * w) <= w /\ shr_m r <= m <= shr_m r + 1.
Proof.
  intros P (x & E & B & M & C) ->. destruct r as [m r s]; cbn [shr_m shr_r shr_s] in *. destruct r, s; cbn [loc_of_shr_record round_nearest_even].
  - split; lia.
  - destruct (Z.even m); split; lia.
  - split; lia.
  - split; lia.
Qed.
Lemma aux_exact neg m e : 2 ^ 52 <= m <= 2 ^ 53 -> -1074 <= e <= 0 ->
  let f := match shr_fexp fprec femax m e loc_Exact with
    (mrs, e') => match shr_m mrs with Z0 => S754_zero neg | Zpos k => if e' <=? femax - fprec then S754_finite neg k e' else S754_infinity neg | Zneg _ => S754_nan end end in
  finite_double f /\ units f = (if neg then - m else m) * 2 ^ (e + 1074).
Proof.
  intros M E. destruct m as [|k|k]; [exfalso; assert (0 < 2 ^ 52) by reflexivity; lia| |exfalso; assert (0 < 2 ^ 52) by reflexivity; lia].
  unfold shr_fexp. cbn [shr_record_of_loc Zdigits2]. rewrite fexp_is.
  destruct (Z.eq_dec (Zpos k) (2 ^ 53)) as [K|K].
  - rewrite (digits_unique k 54) by lia. replace (Z.max (54 + e - 53) (-1074) - e) with 1 by lia. injection K as ->.
    cbn [shr iter_pos shr_1 shr_m orb shr_r shr_s]. cbv zeta. unfold shr_1. cbn [shr_m].
    replace (e + 1 <=? femax - fprec) with true by (symmetry; apply Z.leb_le; unfold femax, fprec; lia). cbn [shr_m].
    assert (Pr : proper 4503599627370496 (e + 1)) by (split; [lia|]; split; [reflexivity|]; discriminate).
    split; [split; [now apply valid_of|reflexivity]|]. cbn [units]. replace (e + 1 + 1074) with (e + 1074 + 1) by lia. rewrite (Z.pow_add_r 2 (e + 1074) 1) by lia.
    destruct neg; lia.
  - rewrite (digits_unique k 53) by lia. replace (Z.max (53 + e - 53) (-1074) - e) with 0 by lia. cbn [shr shr_m]. cbv zeta.
    replace (e <=? femax - fprec) with true by (symmetry; apply Z.leb_le; unfold femax, fprec; lia).
    assert (Pr : proper k e) by (split; [lia|]; split; [lia|]; lia).
    split; [split; [now apply valid_of|reflexivity]|]. reflexivity.
Qed.
Lemma ratio_near neg p den : -900 <= ratio_exp p den <= 52 -> exists e m, -1000 <= e <= 0 /\
  2 ^ 52 * Zpos den <= Zpos p * 2 ^ (- e) < 2 ^ 53 * Zpos den /\ 2 ^ 52 <= m <= 2 ^ 53 /\
  2 * Z.abs (Zpos p * 2 ^ (- e) - m * Zpos den) <= Zpos den /\
  finite_double (f_of_ratio neg (Zpos p) den) /\ units (f_of_ratio neg (Zpos p) den) = (if neg then - m else m) * 2 ^ (e + 1074).
Proof.
  intros R. remember (f_of_ratio neg (Zpos p) den) as f eqn:F. unfold f_of_ratio in F. rewrite div_core in F. fold (ratio_exp p den) in F. set (D := ratio_exp p den) in *. rewrite fexp_is in F.
  replace (Z.min (Z.max (D - 53) (-1074)) 0) with (D - 53) in F by lia. set (e0 := D - 53) in *. cbv zeta in F.
  assert (E0 : -953 <= e0 <= -1) by lia.
  destruct (located (Zpos p) (Zpos den) e0) as [q l] eqn:Lo. pose proof (recorded_located (Zpos p) (Zpos den) e0 q l (Pos2Z.is_pos p) (Pos2Z.is_pos den) ltac:(lia) Lo) as Rc.
  assert (Sm : shr_m (shr_record_of_loc q l) = q) by (destruct l as [|[]]; reflexivity).
  destruct (ratio_bounds p den 53 (- e0)) as [B1 B2]; [unfold e0, D; lia|lia|lia|]. change (2 ^ (53 - 1)) with (2 ^ 52) in B1. change (2 ^ (53 + 1)) with (2 ^ 54) in B2.
  set (y := Zpos p * 2 ^ (- e0)) in *. set (w := Zpos den) in *. assert (W : 0 < w) by (subst w; lia).
  assert (Q : 2 ^ 52 <= q < 2 ^ 54).
  { destruct Rc as (x & X1 & X2 & X3 & _). rewrite Sm in *. split; [|nia]. destruct (Z.lt_ge_cases q (2 ^ 52)) as [C|C]; [|exact C]. nia. }
  unfold binary_round_aux in F. unfold shr_fexp at 1 in F. rewrite fexp_is in F.
  assert (Dq : Zdigits2 q = if q <? 2 ^ 53 then 53 else 54).
  { destruct q as [|k|k]; [exfalso; assert (0 < 2 ^ 52) by reflexivity; lia| |exfalso; assert (0 < 2 ^ 52) by reflexivity; lia]. cbn [Zdigits2].
    destruct (Z.ltb_spec (Zpos k) (2 ^ 53)); apply digits_unique; lia. }
  rewrite Dq in F. destruct (Z.ltb_spec q (2 ^ 53)) as [C|C].
  - replace (Z.max (53 + e0 - 53) (-1074) - e0) with 0 in F by lia. cbn [shr] in F. set (r := shr_record_of_loc q l) in *.
    destruct (recorded_off y w r _ W Rc eq_refl) as [O1 O2]. set (m := round_nearest_even (shr_m r) (loc_of_shr_record r)) in *. rewrite Sm in O2.
    exists e0, m. fold y. split; [lia|]. split; [destruct Rc as (x & X1 & X2 & X3 & _); rewrite Sm in *; nia|]. split; [lia|]. split; [exact O1|].
    rewrite F. exact (aux_exact neg m e0 ltac:(lia) ltac:(lia)).
  - replace (Z.max (54 + e0 - 53) (-1074) - e0) with 1 in F by lia. cbn [shr iter_pos] in F. pose proof (recorded_once y w _ W Rc) as Rc1. set (r := shr_1 (shr_record_of_loc q l)) in *.
    destruct (recorded_off y (2 * w) r _ ltac:(lia) Rc1 eq_refl) as [O1 O2]. set (m := round_nearest_even (shr_m r) (loc_of_shr_record r)) in *.
    assert (Y : y = 2 * (Zpos p * 2 ^ (- (e0 + 1)))).
    { subst y. replace (- e0) with (- (e0 + 1) + 1) by lia. rewrite (Z.pow_add_r 2 (- (e0 + 1)) 1) by lia. lia. }
    assert (M : 2 ^ 52 <= shr_m r < 2 ^ 53).
    { destruct Rc1 as (x & X1 & X2 & X3 & _). destruct Rc as (x' & X1' & X2' & X3' & _). rewrite Sm in *.
      change (2 ^ 53) with (2 * 2 ^ 52) in *. change (2 ^ 54) with (4 * 2 ^ 52) in *. set (t := 2 ^ 52) in *. clearbody t. nia. }
    exists (e0 + 1), m. split; [lia|]. split.
    { destruct Rc1 as (x & X1 & X2 & X3 & _). change (2 ^ 53) with (2 * 2 ^ 52) in *. change (2 ^ 54) with (4 * 2 ^ 52) in *. set (t := 2 ^ 52) in *. clearbody t. nia. }
    split; [lia|]. split; [lia|]. rewrite F. exact (aux_exact neg m (e0 + 1) ltac:(lia) ltac:(lia)).
Qed.
