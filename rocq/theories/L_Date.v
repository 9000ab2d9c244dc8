(** The civil calendar: day numbers and (year, month, day) correspond, in order. *)
From Coq Require Import Lia.
From Verif Require Import M_Time M_Num S_Date.
Open Scope Z_scope.
Ltac dm := Z.div_mod_to_equations; lia.

(** Days before year [y] of a 400-year era starting in March. *)
Definition ys (y : Z) : Z := 365 * y + y / 4 - y / 100.
(** Days before March-based month [mp]. *)
Definition ms (mp : Z) : Z := (153 * mp + 2) / 5.
Definition yoe_of (doe : Z) : Z := (doe - doe / 1460 + doe / 36524 - doe / 146096) / 365.
(** Last day number of the March-based year [y], which ends in February of [y + 1]. *)
Definition last_doy (y : Z) : Z := if is_leap (y + 1) then 365 else 364.

Lemma leap_cases y : is_leap y = true /\ (y mod 4 = 0 /\ (y mod 100 <> 0 \/ y mod 400 = 0)) \/
  is_leap y = false /\ (y mod 4 <> 0 \/ (y mod 100 = 0 /\ y mod 400 <> 0)).
Proof.
  unfold is_leap. destruct (Z.eqb_spec (y mod 4) 0), (Z.eqb_spec (y mod 100) 0), (Z.eqb_spec (y mod 400) 0); cbn; auto; lia.
Qed.

Lemma yoe_spec doe : 0 <= doe <= 146096 ->
  0 <= yoe_of doe <= 399 /\ ys (yoe_of doe) <= doe <= ys (yoe_of doe) + last_doy (yoe_of doe).
Proof.
  intros H. assert (A : 0 <= yoe_of doe <= 399 /\ ys (yoe_of doe) <= doe).
  { unfold ys, yoe_of. dm. }
  split; [tauto|]. split; [tauto|].
  unfold last_doy. set (y := yoe_of doe) in *.
  assert (E : 365 * y <= doe - doe / 1460 + doe / 36524 - doe / 146096 < 365 * y + 365) by (unfold y, yoe_of; dm).
  clearbody y. unfold ys in *.
  destruct (leap_cases (y + 1)) as [[-> L]|[-> L]]; dm.
Qed.
Lemma yoe_unique y doy : 0 <= y <= 399 -> 0 <= doy <= last_doy y -> yoe_of (ys y + doy) = y.
Proof.
  intros Y D. unfold last_doy in D. symmetry. unfold yoe_of.
  apply Z.div_unique with (r := (ys y + doy) - (ys y + doy) / 1460 + (ys y + doy) / 36524 - (ys y + doy) / 146096 - 365 * y); [left|lia].
  unfold ys in *.
  destruct (leap_cases (y + 1)) as [[E L]|[E L]]; rewrite E in D; dm.
Qed.

(** ** Day of the year and month *)
Lemma month_spec doy : 0 <= doy <= 365 -> let mp := (5 * doy + 2) / 153 in
  0 <= mp <= 11 /\ ms mp <= doy < ms (mp + 1).
Proof. intros H. cbv zeta. unfold ms. dm. Qed.
Lemma month_unique mp d : 0 <= mp <= 11 -> ms mp <= d < ms (mp + 1) -> d <= 365 -> (5 * d + 2) / 153 = mp.
Proof. intros H. unfold ms. intros. dm. Qed.

(** The March-based year and month of a month. *)
Definition my (y m : Z) : Z := if m <=? 2 then y - 1 else y.
Definition mm (m : Z) : Z := if 2 <? m then m - 3 else m + 9.
Definition gs (y : Z) : Z := 365 * y + y / 4 - y / 100 + y / 400.

Lemma days_of_civil_eq y m d : days_of_civil y m d = gs (my y m) + ms (mm m) + d - 1 - 719468.
Proof. unfold days_of_civil, my, mm, ms, gs. destruct (m <=? 2); dm. Qed.

Local Arguments is_leap : simpl never.
Lemma valid_spec y m d : valid_civil y m d = true <->
  1 <= m <= 12 /\ 1 <= d /\ d - 1 < ms (mm m + 1) - ms (mm m) /\ ms (mm m) + d - 1 <= last_doy (my y m).
Proof.
  unfold valid_civil. rewrite !andb_true_iff, !Z.leb_le.
  unfold days_in_month, last_doy, my, mm, ms.
  split.
  - intros [[[M1 M2] D1] D2]. split; [lia|]. split; [lia|].
    assert (C : m = 1 \/ m = 2 \/ m = 3 \/ m = 4 \/ m = 5 \/ m = 6 \/ m = 7 \/ m = 8 \/ m = 9 \/ m = 10 \/ m = 11 \/ m = 12) by lia.
    destruct C as [->|[->|[->|[->|[->|[->|[->|[->|[->|[->|[->| ->]]]]]]]]]]]; revert D2; cbn [Z.eqb Pos.eqb Z.leb Z.ltb Z.compare Pos.compare Pos.compare_cont orb];
      try replace (y - 1 + 1) with y by lia; try destruct (is_leap y); try destruct (is_leap (y + 1)); intros; dm.
  - intros (M & D1 & D2 & D3). split; [lia|].
    assert (C : m = 1 \/ m = 2 \/ m = 3 \/ m = 4 \/ m = 5 \/ m = 6 \/ m = 7 \/ m = 8 \/ m = 9 \/ m = 10 \/ m = 11 \/ m = 12) by lia.
    destruct C as [->|[->|[->|[->|[->|[->|[->|[->|[->|[->|[->| ->]]]]]]]]]]]; revert D2 D3; cbn [Z.eqb Pos.eqb Z.leb Z.ltb Z.compare Pos.compare Pos.compare_cont orb];
      try replace (y - 1 + 1) with y by lia; try destruct (is_leap y); try destruct (is_leap (y + 1)); intros; dm.
Qed.

(** ** The correspondence *)
Lemma last_doy_le y : 364 <= last_doy y <= 365.
Proof. unfold last_doy. destruct (is_leap _); lia. Qed.
Lemma leap_shift y k : is_leap (y + 400 * k) = is_leap y.
Proof.
  unfold is_leap.
  replace (y + 400 * k) with (y + 100 * k * 4) at 1 by lia. rewrite Z.mod_add by lia.
  replace (y + 400 * k) with (y + 4 * k * 100) at 1 by lia. rewrite Z.mod_add by lia.
  replace (y + 400 * k) with (y + k * 400) by lia. rewrite Z.mod_add by lia. reflexivity.
Qed.
Lemma last_doy_shift y k : last_doy (y + k * 400) = last_doy y.
Proof. unfold last_doy. replace (y + k * 400 + 1) with (y + 1 + 400 * k) by lia. rewrite leap_shift. reflexivity. Qed.

Lemma civil_parts z : exists y mp doy, 0 <= mp <= 11 /\ 0 <= doy <= last_doy y /\ ms mp <= doy < ms (mp + 1) /\
  z + 719468 = gs y + doy /\
  civil_of_days z = (if mp <? 10 then y else y + 1, if mp <? 10 then mp + 3 else mp - 9, doy - ms mp + 1).
Proof.
  set (era := (z + 719468) / 146097). set (doe := z + 719468 - era * 146097).
  assert (D : 0 <= doe <= 146096) by (unfold doe, era; dm).
  destruct (yoe_spec doe D) as [Y O]. set (yoe := yoe_of doe) in *.
  pose proof (last_doy_le yoe) as LL.
  assert (Z0 : 0 <= doe - ys yoe <= 365) by lia.
  destruct (month_spec _ Z0) as [M1 M2].
  exists (yoe + era * 400), ((5 * (doe - ys yoe) + 2) / 153), (doe - ys yoe).
  rewrite last_doy_shift. split; [exact M1|]. split; [lia|]. split; [exact M2|]. split.
  - clearbody yoe. unfold gs, ys. unfold doe. clear - Y. clearbody era. dm.
  - unfold civil_of_days. cbv zeta. fold era. fold doe.
    change ((doe - doe / 1460 + doe / 36524 - doe / 146096) / 365) with yoe.
    change (365 * yoe + yoe / 4 - yoe / 100) with (ys yoe).
    set (mp := (5 * (doe - ys yoe) + 2) / 153) in *. fold (ms mp).
    destruct (Z.ltb_spec mp 10), (Z.leb_spec (mp + 3) 2), (Z.leb_spec (mp - 9) 2); try lia; reflexivity.
Qed.

Lemma days_of_civil_of_days z : let '(y, m, d) := civil_of_days z in
  days_of_civil y m d = z /\ valid_civil y m d = true.
Proof.
  destruct (civil_parts z) as (y & mp & doy & M & D & S & E & ->).
  assert (A : my (if mp <? 10 then y else y + 1) (if mp <? 10 then mp + 3 else mp - 9) = y /\
    mm (if mp <? 10 then mp + 3 else mp - 9) = mp).
  { unfold my, mm. destruct (Z.ltb_spec mp 10).
    - destruct (Z.leb_spec (mp + 3) 2), (Z.ltb_spec 2 (mp + 3)); lia.
    - destruct (Z.leb_spec (mp - 9) 2), (Z.ltb_spec 2 (mp - 9)); lia. }
  destruct A as [A1 A2]. rewrite days_of_civil_eq, A1, A2. split; [lia|].
  apply valid_spec. rewrite A1, A2. destruct (Z.ltb_spec mp 10); lia.
Qed.

Lemma civil_of_days_of_civil y m d : valid_civil y m d = true ->
  civil_of_days (days_of_civil y m d) = (y, m, d).
Proof.
  intros V. apply valid_spec in V as (M & D1 & D2 & D3).
  set (z := days_of_civil y m d).
  assert (Ez : z + 719468 = gs (my y m) + (ms (mm m) + d - 1)) by (unfold z; rewrite days_of_civil_eq; lia).
  set (Y := my y m) in *. set (mp := mm m) in *. set (doy := ms mp + d - 1) in *.
  assert (Mp : 0 <= mp <= 11) by (unfold mp, mm; destruct (Z.ltb_spec 2 m); lia).
  assert (Mp0 : 0 <= ms mp) by (unfold ms; dm).
  pose proof (last_doy_le Y) as LL.
  set (era := Y / 400). set (yoe := Y - era * 400).
  assert (Hy : 0 <= yoe <= 399) by (unfold yoe, era; dm).
  assert (EY : Y = yoe + era * 400) by (unfold yoe; lia).
  assert (G : gs Y = ys yoe + era * 146097) by (rewrite EY; unfold gs, ys; clear - Hy; dm).
  assert (LD : last_doy Y = last_doy yoe) by (rewrite EY; apply last_doy_shift).
  assert (B : 0 <= ys yoe + doy <= 146096).
  { split; [unfold ys; clear - Hy doy Mp0 D1; dm|]. rewrite LD in D3.
    unfold last_doy in D3. unfold ys. clear - Hy D3.
    destruct (leap_cases (yoe + 1)) as [[E L]|[E L]]; rewrite E in D3; dm. }
  assert (Er : (z + 719468) / 146097 = era) by (rewrite Ez, G; clear - B; dm).
  unfold civil_of_days. cbv zeta. rewrite Er.
  replace (z + 719468 - era * 146097) with (ys yoe + doy) by lia.
  fold (yoe_of (ys yoe + doy)). rewrite yoe_unique by lia.
  fold (ys yoe). replace (ys yoe + doy - ys yoe) with doy by lia.
  rewrite (month_unique mp doy) by lia. fold (ms mp).
  rewrite <- EY. unfold doy. replace (ms mp + d - 1 - ms mp + 1) with d by lia.
  unfold mp, mm, Y, my.
  destruct (Z.ltb_spec 2 m), (Z.leb_spec m 2); try lia.
  - destruct (Z.ltb_spec (m - 3) 10), (Z.leb_spec (m - 3 + 3) 2); try lia. f_equal. f_equal; lia.
  - destruct (Z.ltb_spec (m + 9) 10), (Z.leb_spec (m + 9 - 9) 2); try lia. f_equal. f_equal; lia.
Qed.

(** ** Order *)
Lemma days_lt a b y m d y' m' d' : a = (y, m, d) -> b = (y', m', d') ->
  valid_civil y m d = true -> valid_civil y' m' d' = true ->
  civil_cmp a b = Lt -> days_of_civil y m d < days_of_civil y' m' d'.
Proof.
  intros -> -> V V' C. apply valid_spec in V as (M & D1 & D2 & D3). apply valid_spec in V' as (M' & D1' & D2' & D3').
  rewrite !days_of_civil_eq. cbn [civil_cmp] in C.
  assert (K : my y m < my y' m' \/ my y m = my y' m' /\ (mm m < mm m' \/ mm m = mm m' /\ d < d')).
  { unfold my, mm. destruct (Z.compare_spec y y'); try discriminate.
    - destruct (Z.compare_spec m m'); try discriminate.
      + rewrite Z.compare_lt_iff in C. subst. right. split; auto.
      + destruct (Z.leb_spec m 2), (Z.leb_spec m' 2), (Z.ltb_spec 2 m), (Z.ltb_spec 2 m'); lia.
    - destruct (Z.leb_spec m 2), (Z.leb_spec m' 2), (Z.ltb_spec 2 m), (Z.ltb_spec 2 m'); lia. }
  assert (0 <= mm m <= 11) by (unfold mm; destruct (Z.ltb_spec 2 m); lia).
  assert (0 <= mm m' <= 11) by (unfold mm; destruct (Z.ltb_spec 2 m'); lia).
  assert (Z0 : 0 <= ms (mm m')) by (unfold ms; dm).
  destruct K as [K|[K [K2|[K2 K3]]]].
  - unfold last_doy in D3. set (Y := my y m) in *. set (Y' := my y' m') in *.
    assert (gs Y + (if is_leap (Y + 1) then 365 else 364) < gs Y').
    { assert (gs (Y + 1) <= gs Y') by (unfold gs; clear - K; dm).
      enough (gs Y + (if is_leap (Y + 1) then 365 else 364) < gs (Y + 1)) by lia.
      unfold gs. clear. destruct (leap_cases (Y + 1)) as [[-> L]|[-> L]]; dm. }
    lia.
  - rewrite K. assert (ms (mm m + 1) <= ms (mm m')) by (unfold ms; clear - K2; dm). lia.
  - rewrite K, K2. lia.
Qed.
Lemma civil_cmp_refl a : civil_cmp a a = Eq.
Proof. destruct a as [[y m] d]; cbn. rewrite !Z.compare_refl. auto. Qed.
Lemma civil_cmp_flip a b : civil_cmp b a = CompOpp (civil_cmp a b).
Proof.
  destruct a as [[y m] d], b as [[y' m'] d']; cbn. rewrite (Z.compare_antisym y y'), (Z.compare_antisym m m'), (Z.compare_antisym d d').
  destruct (y ?= y'), (m ?= m'), (d ?= d'); auto.
Qed.
Lemma civil_cmp_eq a b : civil_cmp a b = Eq -> a = b.
Proof.
  destruct a as [[y m] d], b as [[y' m'] d']; cbn.
  destruct (Z.compare_spec y y'), (Z.compare_spec m m'), (Z.compare_spec d d'); congruence.
Qed.
Lemma civil_cmp_days z z' : civil_cmp (civil_of_days z) (civil_of_days z') = Z.compare z z'.
Proof.
  pose proof (days_of_civil_of_days z) as A. pose proof (days_of_civil_of_days z') as B.
  destruct (civil_of_days z) as [[y m] d] eqn:E, (civil_of_days z') as [[y' m'] d'] eqn:E'.
  destruct A as [A V], B as [B V'].
  destruct (civil_cmp (y, m, d) (y', m', d')) eqn:C; symmetry.
  - apply civil_cmp_eq in C. rewrite Z.compare_eq_iff. congruence.
  - rewrite Z.compare_lt_iff. rewrite <- A, <- B. exact (days_lt _ _ _ _ _ _ _ _ eq_refl eq_refl V V' C).
  - rewrite Z.compare_gt_iff. rewrite <- A, <- B. apply (days_lt _ _ _ _ _ _ _ _ eq_refl eq_refl V' V). rewrite civil_cmp_flip, C. reflexivity.
Qed.
Close Scope Z_scope.
