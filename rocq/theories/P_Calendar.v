(** C20: the days of the year, month by month. *)
From Coq Require Import Lia.
From Verif Require Import M_Time M_Num L_Date S_Calendar.
Open Scope Z_scope.

Lemma leap_iff y : leap_year y <-> is_leap y = true.
Proof.
  unfold leap_year. rewrite <- !Z.mod_divide by lia. destruct (leap_cases y) as [[-> L]|[-> L]]; split; intros; try reflexivity; try discriminate; lia.
Qed.
Lemma length_iff y m n : month_length y m n <-> 1 <= m <= 12 /\ n = days_in_month y m.
Proof.
  unfold days_in_month. split.
  - intros H. inversion H as [m' I|m' I|L|L]; subst.
    + cbn [In] in I. decompose [or] I; subst; try contradiction; (split; [lia|reflexivity]).
    + cbn [In] in I. decompose [or] I; subst; try contradiction; (split; [lia|reflexivity]).
    + split; [lia|]. apply leap_iff in L. rewrite L. reflexivity.
    + split; [lia|]. destruct (is_leap y) eqn:E; [exfalso; apply L, leap_iff, E|reflexivity].
  - intros [M ->].
    assert (C : m = 1 \/ m = 2 \/ m = 3 \/ m = 4 \/ m = 5 \/ m = 6 \/ m = 7 \/ m = 8 \/ m = 9 \/ m = 10 \/ m = 11 \/ m = 12) by lia.
    decompose [or] C; subst; cbn [Z.eqb Pos.eqb orb]; try (apply ml_31; cbn [In]; tauto); try (apply ml_30; cbn [In]; tauto).
    destruct (is_leap y) eqn:E; [apply ml_29, leap_iff, E|apply ml_28]. intros L. apply leap_iff in L. congruence.
Qed.

(** Days are numbered from 1970-01-01, one by one; a date is valid if its month
    has such a day. *)
Theorem C20_gregorian : days_of_civil 1970 1 1 = 0 /\
  (forall y m d, valid_civil y m d = true <-> exists n, month_length y m n /\ 1 <= d <= n) /\
  (forall y m d y' m' d', day_after (y, m, d) (y', m', d') -> days_of_civil y' m' d' = days_of_civil y m d + 1).
Proof.
  split; [reflexivity|]. split.
  - intros y m d. unfold valid_civil. rewrite !Bool.andb_true_iff, !Z.leb_le. split.
    + intros (((A & B) & C) & D). exists (days_in_month y m). split; [apply length_iff; lia|lia].
    + intros (n & L & R). apply length_iff in L as [M ->]. lia.
  - intros y m d y' m' d' H. inversion H as [? ? ? n L R|? ? n L M|]; subst.
    + rewrite !days_of_civil_eq. lia.
    + apply length_iff in L as [M' ->]. rewrite !days_of_civil_eq. unfold days_in_month, my, mm, ms, gs.
      assert (C : m = 1 \/ m = 2 \/ m = 3 \/ m = 4 \/ m = 5 \/ m = 6 \/ m = 7 \/ m = 8 \/ m = 9 \/ m = 10 \/ m = 11) by lia.
      destruct (leap_cases y') as [[E Lp]|[E Lp]]; rewrite E; clear E; decompose [or] C; subst; cbn [Z.eqb Pos.eqb Z.leb Z.ltb Z.compare Pos.compare Pos.compare_cont orb Z.add Z.sub Pos.add Pos.succ Z.opp Z.pos_sub]; dm.
    + rewrite !days_of_civil_eq. unfold my, mm, ms, gs. cbn [Z.leb Z.ltb Z.compare Pos.compare Pos.compare_cont]. replace (y + 1 - 1) with y by lia. dm.
Qed.
Print Assumptions C20_gregorian.

Example C20_gregorian_case : day_after (2024, 2, 28) (2024, 2, 29) /\ day_after (2024, 2, 29) (2024, 3, 1) /\ day_after (1900, 2, 28) (1900, 3, 1) /\ day_after (1999, 12, 31) (2000, 1, 1) /\
  valid_civil 1900 2 29 = false /\ valid_civil 2000 2 29 = true /\ days_of_civil 2024 2 29 = 19782.
Proof.
  assert (A : leap_year 2024) by (apply leap_iff; reflexivity). assert (N : ~ leap_year 1900) by (rewrite leap_iff; discriminate).
  split; [apply (da_day 2024 2 28 29); [now constructor|lia]|]. split; [apply (da_month 2024 2 29); [now constructor|lia]|].
  split; [apply (da_month 1900 2 28); [now constructor|lia]|]. split; [apply (da_year 1999)|]. repeat split.
Qed.
