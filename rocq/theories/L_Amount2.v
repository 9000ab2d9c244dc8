(** Amounts as texts; one conversion that retains them. *)
From Coq Require Import Lia.
From Verif Require Import M_Dsl S_QText L_Str L_Num L_DslVal L_QParse L_Filter S_Round S_Amount L_Amount.
Close Scope Z_scope.

Lemma den_scale s : Zpos (match s with O => 1 | _ => Pos.of_nat 10 ^ Pos.of_nat s end)%positive = pow10 s.
Proof.
  destruct s as [|s]; [reflexivity|]. unfold pow10. rewrite Pos2Z.inj_pow. change (Zpos (Pos.of_nat 10)) with 10%Z. f_equal. rewrite <- (positive_nat_Z (Pos.of_nat (S s))), Nat2Pos.id by lia. reflexivity.
Qed.
Lemma amount_read d : exists den, Zpos den = pow10 (d_scale d) /\ number_text (show_dec d) /\ parse_f64 (show_dec d) = Some (amount_float d den).
Proof.
  exists (match d_scale d with O => 1 | _ => Pos.of_nat 10 ^ Pos.of_nat (d_scale d) end)%positive. split; [apply den_scale|].
  unfold show_dec. set (a := Z.abs_N (d_mant d)). set (p := (10 ^ N.of_nat (d_scale d))%N).
  assert (Pp : (p <> 0)%N) by (apply N.pow_nonzero; lia).
  split.
  { exists (if (d_mant d <? 0)%Z then L "-" else []), (show_N (a / p)). split; [destruct (d_mant d <? 0)%Z; auto|]. split; [apply show_N_some|].
    destruct (d_scale d) as [|k]; [left; rewrite app_nil_r; reflexivity|right]. exists (padded (S k) (a mod p)). split; [|reflexivity].
    split; [|apply forallb_Forall, padded_digits]. pose proof (padded_length (S k) (a mod p)) as Q. intros E. rewrite E in Q. discriminate. }
  set (body := show_N (a / p) ++ match d_scale d with 0 => [] | S _ => L "." ++ padded (d_scale d) (a mod p) end).
  set (den := (match d_scale d with O => 1 | _ => Pos.of_nat 10 ^ Pos.of_nat (d_scale d) end)%positive).
  assert (B : forall neg, match split_once "." body with
              | None => option_map (fun n => f_of_ratio neg (Z.of_N n) 1) (parse_N body)
              | Some (x, y) => match parse_N (x ++ y), x, y with
                               | Some n, _ :: _, _ :: _ => Some (f_of_ratio neg (Z.of_N n) (Pos.of_nat 10 ^ Pos.of_nat (length y)))
                               | _, _, _ => None
                               end
              end = Some (f_of_ratio neg (Z.of_N a) den)).
  { intros neg. unfold body, den. destruct (d_scale d) as [|k] eqn:K.
    - rewrite app_nil_r, split_once_digits_none by apply show_N_digits. rewrite parse_show_N. cbn [option_map].
      unfold p. cbn [N.of_nat]. rewrite N.pow_0_r, N.div_1_r. reflexivity.
    - change (list_ascii_of_string "." ++ padded (S k) (a mod p)) with ("."%char :: padded (S k) (a mod p)).
      rewrite split_once_digits by apply show_N_digits.
      assert (V : parse_N (show_N (a / p) ++ padded (S k) (a mod p)) = Some a).
      { apply parse_N_val.
        - pose proof (show_N_nonnil (a / p)). destruct (show_N (a / p)); [congruence|discriminate].
        - rewrite digits_val_app by apply show_N_digits.
          pose proof (parse_show_N (a / p)) as Q. unfold parse_N in Q.
          pose proof (show_N_nonnil (a / p)). destruct (show_N (a / p)) as [|c s]; [congruence|]. rewrite Q.
          rewrite (digits_val_acc _ _ (a mod p)%N).
          + rewrite padded_length. fold p. f_equal. rewrite (N.div_mod a p) at 3 by auto. lia.
          + apply padded_val. apply N.mod_lt. auto. }
      rewrite V. pose proof (show_N_nonnil (a / p)). destruct (show_N (a / p)); [congruence|].
      pose proof (padded_length (S k) (a mod p)) as PL. destruct (padded (S k) (a mod p)); [discriminate|].
      rewrite PL. reflexivity. }
  unfold amount_float. replace (Z.abs (d_mant d)) with (Z.of_N a) by (unfold a; now rewrite N2Z.inj_abs_N).
  unfold parse_f64. destruct (Z.ltb_spec (d_mant d) 0) as [Neg|Pos].
  - change (list_ascii_of_string "-" ++ body) with ("-"%char :: body). cbv beta iota zeta. exact (B true).
  - cbn [app].
    assert (HM : match body with "-"%char :: s' => (true, s') | _ => (false, body) end = (false, body))
      by exact (head_not_minus (a / p) _ (bool * str) (fun s' => (true, s')) (fun s => (false, s))).
    match goal with |- (let (_, _) := ?m in _) = _ => replace m with (false, body) by (symmetry; exact HM) end.
    exact (B false).
Qed.

Lemma scale_up a s : d_scale a <= s -> pow10 s = (pow10 (s - d_scale a) * pow10 (d_scale a))%Z.
Proof. intros H. unfold pow10. rewrite <- Z.pow_add_r by lia. f_equal. lia. Qed.
Lemma amount_against d d' : 
  (forall n, n <> d_mant d -> (n * pow10 (d_scale d') ?= d_mant d' * pow10 (d_scale d)) = (n ?= d_mant d))%Z ->
  forall a, d_scale a <= d_scale d -> dec_cmp a d <> Eq -> dec_cmp a d' = dec_cmp a d.
Proof.
  intros H a S N. unfold dec_cmp in *. pose proof (scale_up a (d_scale d) S) as U.
  pose proof (pow10_pos (d_scale d - d_scale a)) as P. pose proof (pow10_pos (d_scale a)) as Pa. set (r := pow10 (d_scale d - d_scale a)) in *.
  set (n := (d_mant a * r)%Z).
  assert (E : Z.compare (d_mant a * pow10 (d_scale d)) (d_mant d * pow10 (d_scale a)) = Z.compare n (d_mant d)).
  { rewrite U. replace (d_mant a * (r * pow10 (d_scale a)))%Z with (n * pow10 (d_scale a))%Z by (unfold n; ring). symmetry. apply Zmult_compare_compat_r. lia. }
  rewrite E in *. rewrite <- H.
  2: { intros Q. apply N. apply Z.compare_eq_iff. exact Q. }
  rewrite U. unfold n. rewrite (Zmult_compare_compat_r (d_mant a * pow10 (d_scale d')) (d_mant d' * pow10 (d_scale a)) r)%Z by lia.
  f_equal; ring.
Qed.
Lemma amount_equal d d' a : dec_cmp a d = Eq ->
  (dec_cmp a d' = Eq <-> (d_mant d * pow10 (d_scale d') = d_mant d' * pow10 (d_scale d))%Z).
Proof.
  unfold dec_cmp. rewrite !Z.compare_eq_iff. intros Q. pose proof (pow10_pos (d_scale d)) as P. pose proof (pow10_pos (d_scale a)) as Pa.
  split; intros E.
  - apply (Z.mul_reg_r _ _ (pow10 (d_scale a))); [lia|].
    replace (d_mant d * pow10 (d_scale d') * pow10 (d_scale a))%Z with (d_mant d * pow10 (d_scale a) * pow10 (d_scale d'))%Z by ring. rewrite <- Q.
    replace (d_mant a * pow10 (d_scale d) * pow10 (d_scale d'))%Z with (d_mant a * pow10 (d_scale d') * pow10 (d_scale d))%Z by ring. rewrite E. ring.
  - apply (Z.mul_reg_r _ _ (pow10 (d_scale d))); [lia|].
    replace (d_mant a * pow10 (d_scale d') * pow10 (d_scale d))%Z with (d_mant a * pow10 (d_scale d) * pow10 (d_scale d'))%Z by ring. rewrite Q.
    replace (d_mant d * pow10 (d_scale a) * pow10 (d_scale d'))%Z with (d_mant d * pow10 (d_scale d') * pow10 (d_scale a))%Z by ring. rewrite E. ring.
Qed.

Local Open Scope Z_scope.
Lemma nearest_off z w : 0 < w -> Z.abs (2 * (((2 * z + w) / (2 * w)) * w) - 2 * z) <= w.
Proof.
  intros W. pose proof (Z.mod_pos_bound (2 * z + w) (2 * w) ltac:(lia)) as B. pose proof (Z.div_mod (2 * z + w) (2 * w) ltac:(lia)) as D.
  set (q := (2 * z + w) / (2 * w)) in *. set (r := (2 * z + w) mod (2 * w)) in *. clearbody q r. lia.
Qed.
Lemma nearest_exact q w : 0 < w -> (2 * (q * w) + w) / (2 * w) = q.
Proof. intros W. symmetry. apply (Z.div_unique _ _ _ w); lia. Qed.
Lemma nearest_found u s d : nearest_decimal u s = Some d ->
  d_mant d = (2 * (u * pow10 (d_scale d)) + 2 ^ 1074) / (2 * 2 ^ 1074) /\ (d_scale d <= s)%nat /\
  (d_scale d = s \/ dec_limit <= Z.abs ((2 * (u * pow10 (S (d_scale d))) + 2 ^ 1074) / (2 * 2 ^ 1074))).
Proof.
  revert d. induction s as [|s IH]; intros d; cbn [nearest_decimal].
  - destruct (Z.ltb_spec (Z.abs ((2 * (u * pow10 0) + 2 ^ 1074) / (2 * 2 ^ 1074))) dec_limit); [|discriminate].
    intros E. injection E as <-. cbn [d_mant d_scale]. split; [reflexivity|]. split; [lia|left; reflexivity].
  - destruct (Z.ltb_spec (Z.abs ((2 * (u * pow10 (S s)) + 2 ^ 1074) / (2 * 2 ^ 1074))) dec_limit) as [H|H].
    + intros E. injection E as <-. cbn [d_mant d_scale]. split; [reflexivity|]. split; [lia|left; reflexivity].
    + intros E. destruct (IH d E) as (A & B & C). split; [exact A|]. split; [lia|]. right. destruct C as [->|C]; [exact H|exact C].
Qed.
Lemma nearest_some u s s0 : (s0 <= s)%nat -> Z.abs ((2 * (u * pow10 s0) + 2 ^ 1074) / (2 * 2 ^ 1074)) < dec_limit ->
  exists d, nearest_decimal u s = Some d /\ (s0 <= d_scale d)%nat.
Proof.
  intros L H. induction s as [|s IH]; cbn [nearest_decimal].
  - replace s0 with 0%nat in H by lia. apply Z.ltb_lt in H. rewrite H. eexists. split; [reflexivity|]. cbn [d_scale]. lia.
  - destruct (Z.ltb_spec (Z.abs ((2 * (u * pow10 (S s)) + 2 ^ 1074) / (2 * 2 ^ 1074))) dec_limit) as [K|K].
    + eexists. split; [reflexivity|]. cbn [d_scale]. lia.
    + destruct (Nat.eq_dec s0 (S s)) as [E|E]; [subst s0; lia|]. apply IH. lia.
Qed.
Lemma pow10_S s : pow10 (S s) = 10 * pow10 s.
Proof. unfold pow10. rewrite Nat2Z.inj_succ, Z.pow_succ_r by lia. reflexivity. Qed.
Lemma retaining_retains x : retains (retaining x).
Proof.
  intros f F. cbn [dec_of_f64 retaining]. unfold same_number. set (u := units f). clearbody u.
  assert (W : 0 < 2 ^ 1074) by (apply Z.pow_pos_nonneg; lia).
  assert (LW : 2 ^ (95 + 1074) = 39614081257132168796771975168 * 2 ^ 1074) by (rewrite (Z.pow_add_r 2 95 1074) by lia; reflexivity).
  split; [|split].
  - intros H. rewrite LW in H. destruct (nearest_some u 28 0) as (d & E & _); [lia| |exists d; exact E].
    pose proof (nearest_off (u * pow10 0) (2 ^ 1074) W) as N. change (pow10 0) with 1 in *. rewrite Z.mul_1_r in *.
    set (q := (2 * u + 2 ^ 1074) / (2 * 2 ^ 1074)) in *. clearbody q. set (w := 2 ^ 1074) in *. clearbody w. change dec_limit with 79228162514264337593543950336. nia.
  - intros d V S Q. destruct (nearest_some u 28 (d_scale d)) as (d' & E & L); [exact S|rewrite <- Q, nearest_exact by exact W; exact V|].
    exists d'. split; [exact E|]. destruct (nearest_found u 28 d' E) as (A & _). rewrite A.
    assert (U : u * pow10 (d_scale d') = d_mant d * pow10 (d_scale d' - d_scale d) * 2 ^ 1074).
    { rewrite (scale_up d (d_scale d') L). replace (u * (pow10 (d_scale d' - d_scale d) * pow10 (d_scale d))) with (u * pow10 (d_scale d) * pow10 (d_scale d' - d_scale d)) by ring. rewrite <- Q. ring. }
    rewrite U, nearest_exact by exact W. reflexivity.
  - intros d E. destruct (nearest_found u 28 d E) as (A & B & C). pose proof (nearest_off (u * pow10 (d_scale d)) (2 ^ 1074) W) as N. rewrite <- A in N.
    pose proof (pow10_pos (d_scale d)) as P. destruct C as [C|C].
    + rewrite C in *. change (pow10 28) with 10000000000000000000000000000 in *. set (w := 2 ^ 1074) in *. clearbody w. set (m := d_mant d) in *. clearbody m. change (10 ^ 27) with 1000000000000000000000000000. change (10 ^ 3) with 1000. lia.
    + pose proof (nearest_off (u * pow10 (S (d_scale d))) (2 ^ 1074) W) as N2. rewrite pow10_S in *.
      set (q := (2 * (u * (10 * pow10 (d_scale d))) + 2 ^ 1074) / (2 * 2 ^ 1074)) in *. clearbody q.
      set (t := pow10 (d_scale d)) in *. clearbody t. set (w := 2 ^ 1074) in *. clearbody w. set (m := d_mant d) in *. clearbody m. clear A E LW.
      change dec_limit with 79228162514264337593543950336 in C. change (10 ^ 27) with 1000000000000000000000000000. change (10 ^ 3) with 1000.
      assert (Y : Z.abs (u * t) = Z.abs u * t) by (rewrite Z.abs_mul, (Z.abs_eq t) by lia; reflexivity).
      assert (QW : Z.abs (q * w) = Z.abs q * w) by (rewrite Z.abs_mul, (Z.abs_eq w) by lia; reflexivity).
      assert (CW : 79228162514264337593543950336 * w <= Z.abs q * w) by (apply Z.mul_le_mono_nonneg_r; lia).
      replace (2 * (u * (10 * t))) with (20 * (u * t)) in N2 by ring. set (y := u * t) in *. clearbody y. set (z := q * w) in *. clearbody z.
      set (mw := m * w) in *. clearbody mw.
      rewrite Z.mul_add_distr_r. replace (Z.abs u * 1000 * t) with (1000 * Z.abs y) by (rewrite Y; ring).
      assert (0 <= w * t) by (apply Z.mul_nonneg_nonneg; lia). lia.
Qed.
