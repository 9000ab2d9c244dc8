(** Zones of any number of hours. *)
From Coq Require Import Lia.
From Verif Require Import M_Dsl L_Num L_DslVal.
Close Scope Z_scope.

Lemma parse_any_Z z : parse_i64 (show_Z z) = if in_i64 z then Some z else None.
Proof.
  destruct (in_i64 z) eqn:R; [now apply parse_show_Z|]. unfold parse_i64.
  assert (P : forall n, option_map Z.of_N (parse_N (show_N n)) = Some (Z.of_N n)) by (intros; rewrite parse_show_N; auto).
  assert (D : forall n, (match show_N n with
     | "-"%char :: s' => option_map (fun n => - Z.of_N n)%Z (parse_N s')
     | "+"%char :: s' => option_map Z.of_N (parse_N s')
     | _ => option_map Z.of_N (parse_N (show_N n)) end) = Some (Z.of_N n)).
  { intros n. rewrite P. pose proof (show_N_digits n) as H. pose proof (show_N_nonnil n) as NE.
    destruct (show_N n) as [|c s]; [congruence|]. cbn in H. apply andb_true_iff in H as [H _].
    destruct c as [[] [] [] [] [] [] [] []]; try discriminate; reflexivity. }
  destruct z as [|p|p].
  - discriminate.
  - change (show_Z (Z.pos p)) with (show_N (N.pos p)). rewrite D. change (Z.of_N (N.pos p)) with (Z.pos p). rewrite R. reflexivity.
  - change (show_Z (Z.neg p)) with ("-"%char :: show_N (N.pos p)). cbn match. rewrite parse_show_N. cbn [option_map].
    change (- Z.of_N (N.pos p))%Z with (Z.neg p). rewrite R. reflexivity.
Qed.
Lemma parse_plus_any z : (0 < z)%Z -> parse_i64 ("+"%char :: show_Z z) = if in_i64 z then Some z else None.
Proof.
  intros P. destruct (in_i64 z) eqn:R; [now apply parse_plus_Z|]. unfold parse_i64. destruct z as [|p|p]; try lia. cbn [show_Z].
  rewrite parse_show_N. cbn [option_map]. rewrite Z2N.id by lia. rewrite R. reflexivity.
Qed.
Lemma zone_any h : parse_i32 (zone_digits h) = if in_i32 h then Some h else None.
Proof.
  unfold parse_i32. replace (parse_i64 (zone_digits h)) with (if in_i64 h then Some h else None).
  - destruct (in_i64 h) eqn:I; [reflexivity|]. destruct (in_i32 h) eqn:J; [|reflexivity]. exfalso.
    unfold in_i32 in J. rewrite andb_true_iff, Z.leb_le, Z.ltb_lt in J.
    unfold in_i64, i64_min, i64_max in I. apply andb_false_iff in I. rewrite !Z.leb_gt in I. lia.
  - unfold zone_digits. destruct (Z.ltb_spec 0 h); symmetry; [now apply parse_plus_any|apply parse_any_Z].
Qed.
Lemma zone_not_empty h : zone_digits h <> [].
Proof. unfold zone_digits. destruct (Z.ltb 0 h); [discriminate|]. unfold show_Z. destruct h; try apply show_N_nonnil. discriminate. Qed.
Lemma zone_far env h : in_i32 h = false -> parse_utc_offset env (zone_digits h) = Err (InvalidTimezone (zone_digits h)).
Proof.
  intros H. pose proof (zone_any h) as P. rewrite H in P. pose proof (zone_not_empty h) as N. unfold parse_utc_offset.
  destruct (zone_digits h) as [|c s]; [congruence|]. rewrite P. reflexivity.
Qed.
Lemma zone_overflow env h : in_i32 h = true -> (596523 < Z.abs h)%Z ->
  parse_utc_offset env (zone_digits h) =
  if overflow_checks env then Panic else of_option (InvalidTimezone (zone_digits h)) (east_opt (wrap_i32 (h * 3600))).
Proof.
  intros H B. pose proof (zone_any h) as P. rewrite H in P. pose proof (zone_not_empty h) as N. unfold parse_utc_offset.
  destruct (zone_digits h) as [|c s]; [congruence|]. rewrite P. unfold mul_i32.
  replace (in_i32 (h * 3600)) with false; [destruct (overflow_checks env); reflexivity|].
  symmetry. unfold in_i32. apply andb_false_iff. rewrite Z.leb_gt, Z.ltb_ge. lia.
Qed.
(** The hours that wrap into a day: those near a multiple of [2 ^ 32] seconds. *)
Lemma wrapped h s : in_i32 h = true -> (596523 < Z.abs h)%Z ->
  (east_opt (wrap_i32 (h * 3600)) = Some s <-> exists k, (k <> 0 /\ h * 3600 = k * 2 ^ 32 + s /\ -86400 < s < 86400)%Z).
Proof.
  intros _ B. unfold east_opt, wrap_i32. set (w := ((h * 3600 + 2 ^ 31) mod 2 ^ 32 - 2 ^ 31)%Z).
  assert (W : (h * 3600 = 2 ^ 32 * ((h * 3600 + 2 ^ 31) / 2 ^ 32) + w)%Z) by (subst w; pose proof (Z.div_mod (h * 3600 + 2 ^ 31) (2 ^ 32)); lia).
  assert (R : (- 2 ^ 31 <= w < 2 ^ 31)%Z) by (subst w; pose proof (Z.mod_pos_bound (h * 3600 + 2 ^ 31) (2 ^ 32)); lia).
  clearbody w. generalize dependent ((h * 3600 + 2 ^ 31) / 2 ^ 32)%Z. intros q W. change (2 ^ 32)%Z with 4294967296%Z in *. change (2 ^ 31)%Z with 2147483648%Z in *.
  destruct (-86400 <? w)%Z eqn:A; [apply Z.ltb_lt in A|apply Z.ltb_ge in A]; destruct (w <? 86400)%Z eqn:C; [apply Z.ltb_lt in C|apply Z.ltb_ge in C|apply Z.ltb_lt in C|apply Z.ltb_ge in C]; cbn [andb]; split; intros H.
  1: { injection H as <-. exists q. lia. }
  1: { destruct H as (k & K & E & S). f_equal. lia. }
  all: try discriminate; destruct H as (k & K & E & S); exfalso; lia.
Qed.
