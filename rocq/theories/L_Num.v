(** Printing and reading numbers and dates. *)
From Coq Require Import Lia DecimalN DecimalNat DecimalPos NArith Nnat.
From Verif Require Import M_Num S_Date L_Str.

Lemma digit_code n : (n < 10)%N -> code (digit n) = (48 + n)%N.
Proof. intros H. unfold code, digit. apply N_ascii_embedding. lia. Qed.
Lemma digit_is n : (n < 10)%N -> is_digit (digit n) = true.
Proof.
  intros H. unfold is_digit. rewrite digit_code by auto. apply andb_true_iff. split; apply N.leb_le; lia.
Qed.

Lemma take_digits_app k s r acc : length s = k -> forallb is_digit s = true ->
  take_digits k acc (s ++ r) = match digits_val acc s with Some n => Some (n, r) | None => None end.
Proof.
  revert k acc; induction s as [|c s IH]; intros k acc <- H; cbn in *; auto.
  apply andb_true_iff in H as [H1 H2]. rewrite H1. apply IH; auto.
Qed.
Lemma digits_val_app a b acc : forallb is_digit a = true ->
  digits_val acc (a ++ b) = match digits_val acc a with Some n => digits_val n b | None => None end.
Proof.
  revert acc; induction a as [|c a IH]; intros acc H; cbn in *; auto.
  apply andb_true_iff in H as [H1 H2]. rewrite H1. apply IH; auto.
Qed.
Lemma digits_val_some s acc : forallb is_digit s = true -> exists n, digits_val acc s = Some n.
Proof.
  revert acc; induction s as [|c s IH]; intros acc H; cbn in *; eauto.
  apply andb_true_iff in H as [H1 H2]. rewrite H1. apply IH; auto.
Qed.

Lemma padded_length k n : length (padded k n) = k.
Proof. revert n; induction k as [|k IH]; intros n; cbn; auto. rewrite app_length, IH. cbn. lia. Qed.
Lemma padded_digits k n : forallb is_digit (padded k n) = true.
Proof.
  revert n; induction k as [|k IH]; intros n; cbn; auto.
  rewrite forallb_app, IH. cbn [forallb]. rewrite digit_is; auto. apply N.mod_lt. lia.
Qed.
Lemma padded_val k n : (n < 10 ^ N.of_nat k)%N -> digits_val 0 (padded k n) = Some n.
Proof.
  revert n; induction k as [|k IH]; intros n H.
  - cbn in *. f_equal. lia.
  - cbn [padded]. rewrite digits_val_app by apply padded_digits.
    rewrite Nat2N.inj_succ, N.pow_succ_r' in H.
    rewrite IH by (apply N.div_lt_upper_bound; lia).
    assert (M : (n mod 10 < 10)%N) by (apply N.mod_lt; lia).
    cbn [digits_val]. rewrite digit_is, digit_code by auto. f_equal.
    pose proof (N.div_mod n 10 ltac:(lia)). lia.
Qed.
Lemma take_padded k n r : (n < 10 ^ N.of_nat k)%N -> take_digits k 0 (padded k n ++ r) = Some (n, r).
Proof.
  intros H. rewrite take_digits_app; [|apply padded_length|apply padded_digits].
  rewrite padded_val by auto. reflexivity.
Qed.
Lemma expect_here c s : expect c (c :: s) = Some s.
Proof. cbn. rewrite Ascii.eqb_refl. reflexivity. Qed.

(** ** Unbounded numbers *)
Lemma uint_digits u : forallb is_digit (uint_str u) = true.
Proof. induction u; cbn; auto. Qed.
Lemma uint_val_acc u : forall acc, digits_val (Npos acc) (uint_str u) = Some (Npos (Pos.of_uint_acc u acc)).
Proof.
  induction u; intros acc; [reflexivity|..]; cbn [uint_str digits_val Pos.of_uint_acc];
  change (is_digit _) with true; cbn iota; rewrite <- IHu; f_equal;
  match goal with |- (_ + (?c - 48))%N = _ => let v := eval vm_compute in (c - 48)%N in change (c - 48)%N with v end; lia.
Qed.
Lemma uint_val u : digits_val 0 (uint_str u) = Some (N.of_uint u).
Proof.
  induction u; [reflexivity|..]; cbn [uint_str digits_val]; change (is_digit _) with true; cbn iota;
  match goal with |- digits_val (?a * 10 + (?c - 48)) _ = _ => let v := eval vm_compute in (a * 10 + (c - 48))%N in change (a * 10 + (c - 48))%N with v end;
  [exact IHu|apply uint_val_acc..].
Qed.
Lemma to_uint_nonnil n : N.to_uint n <> Decimal.Nil.
Proof.
  destruct n; [discriminate|]. intros E. pose proof (DecimalN.Unsigned.of_to (N.pos p)) as H. rewrite E in H. discriminate.
Qed.
Lemma uint_str_nonnil u : u <> Decimal.Nil -> uint_str u <> [].
Proof. destruct u; try discriminate. congruence. Qed.
Lemma show_N_digits n : forallb is_digit (show_N n) = true.
Proof. apply uint_digits. Qed.
Lemma show_N_nonnil n : show_N n <> [].
Proof. apply uint_str_nonnil, to_uint_nonnil. Qed.
Lemma parse_show_N n : parse_N (show_N n) = Some n.
Proof.
  unfold parse_N. pose proof (show_N_nonnil n). destruct (show_N n) as [|c s] eqn:E; [congruence|].
  rewrite <- E. unfold show_N. rewrite uint_val, DecimalN.Unsigned.of_to. reflexivity.
Qed.

Lemma digit_not_sign c : is_digit c = true -> c <> "-"%char /\ c <> "+"%char /\ c <> "."%char.
Proof. intros H. repeat split; intros ->; discriminate. Qed.

Lemma parse_show_Z z : in_i64 z = true -> parse_i64 (show_Z z) = Some z.
Proof.
  intros R. unfold parse_i64.
  assert (P : forall n, option_map Z.of_N (parse_N (show_N n)) = Some (Z.of_N n)) by (intros; rewrite parse_show_N; auto).
  assert (D : forall n (k : str -> option Z), (match show_N n with
     | "-"%char :: s' => option_map (fun n => - Z.of_N n)%Z (parse_N s')
     | "+"%char :: s' => option_map Z.of_N (parse_N s')
     | _ => option_map Z.of_N (parse_N (show_N n)) end) = Some (Z.of_N n)).
  { intros n _. rewrite P. pose proof (show_N_digits n) as H. pose proof (show_N_nonnil n) as NE.
    destruct (show_N n) as [|c s]; [congruence|]. cbn in H. apply andb_true_iff in H as [H _].
    destruct c as [[] [] [] [] [] [] [] []]; try discriminate; reflexivity. }
  destruct z as [|p|p].
  - reflexivity.
  - change (show_Z (Z.pos p)) with (show_N (N.pos p)). rewrite (D _ (fun _ => None)).
    change (Z.of_N (N.pos p)) with (Z.pos p). rewrite R. reflexivity.
  - cbn [show_Z]. rewrite parse_show_N. cbn [option_map].
    change (- Z.of_N (N.pos p))%Z with (Z.neg p). rewrite R. reflexivity.
Qed.

(** ** Dates *)

Lemma take_date_text y m d r : (y < 10000)%N -> valid_civil (Z.of_N y) (Z.of_N m) (Z.of_N d) = true ->
  take_date (date_text y m d ++ r) = Some (days_of_civil (Z.of_N y) (Z.of_N m) (Z.of_N d), r).
Proof.
  intros Hy V. assert (Hm : (m < 100)%N /\ (d < 100)%N).
  { unfold valid_civil, days_in_month in V. rewrite !andb_true_iff, !Z.leb_le in V.
    destruct (Z.of_N m =? 2)%Z; [destruct (is_leap _)|destruct (_ || _ || _ || _)%bool]; lia. }
  unfold take_date, date_text. rewrite <- !app_assoc. cbn [app]. rewrite <- !app_assoc. cbn [app].
  rewrite take_padded by (cbn; lia). rewrite expect_here.
  rewrite take_padded by (cbn; lia). rewrite expect_here.
  rewrite take_padded by (cbn; lia). rewrite V. reflexivity.
Qed.
Lemma parse_date_text y m d : (y < 10000)%N -> valid_civil (Z.of_N y) (Z.of_N m) (Z.of_N d) = true ->
  parse_naive_date (date_text y m d) = Some (days_of_civil (Z.of_N y) (Z.of_N m) (Z.of_N d)).
Proof.
  intros Hy V. unfold parse_naive_date. rewrite <- (app_nil_r (date_text y m d)), take_date_text by auto. reflexivity.
Qed.
Lemma rfc_date_text y m d : (y < 10000)%N -> valid_civil (Z.of_N y) (Z.of_N m) (Z.of_N d) = true ->
  parse_rfc3339 (date_text y m d) = None.
Proof.
  intros Hy V. unfold parse_rfc3339. rewrite <- (app_nil_r (date_text y m d)), take_date_text by auto. reflexivity.
Qed.
(** A date followed by " at ..." is neither a date nor an RFC 3339 date-time. *)
Lemma take_date_suffix s d r : take_date s = Some (d, r) -> exists p, s = p ++ r /\ length p = 10.
Proof.
  unfold take_date.
  assert (T : forall k acc s n r, take_digits k acc s = Some (n, r) -> exists p, s = p ++ r /\ length p = k).
  { induction k as [|k IH]; intros acc s0 n r0; cbn.
    - intros [= <- <-]. exists []; auto.
    - destruct s0 as [|c s0]; [discriminate|]. destruct (is_digit c); [|discriminate].
      intros H. apply IH in H as (p & -> & Lp). exists (c :: p). cbn; auto. }
  assert (X : forall c s r, expect c s = Some r -> exists p, s = p ++ r /\ length p = 1).
  { intros c [|c' s0] r0; cbn; [discriminate|]. destruct (Ascii.eqb c c'); [|discriminate]. intros [= <-]. exists [c']; auto. }
  destruct (take_digits 4 0 s) as [[y s1]|] eqn:E1; [|discriminate]. apply T in E1 as (p1 & -> & L1).
  destruct (expect "-" s1) as [s2|] eqn:E2; [|discriminate]. apply X in E2 as (p2 & -> & L2).
  destruct (take_digits 2 0 s2) as [[m s3]|] eqn:E3; [|discriminate]. apply T in E3 as (p3 & -> & L3).
  destruct (expect "-" s3) as [s4|] eqn:E4; [|discriminate]. apply X in E4 as (p4 & -> & L4).
  destruct (take_digits 2 0 s4) as [[dd s5]|] eqn:E5; [|discriminate]. apply T in E5 as (p5 & -> & L5).
  destruct (valid_civil _ _ _); [|discriminate]. intros [= <- <-].
  exists (p1 ++ p2 ++ p3 ++ p4 ++ p5). rewrite !app_length, <- !app_assoc. split; auto. lia.
Qed.
Lemma app_same_length {A} (a b c d : list A) : a ++ b = c ++ d -> length a = length c -> a = c /\ b = d.
Proof.
  revert c; induction a as [|x a IH]; intros [|y c] E H; cbn in *; try discriminate; auto.
  injection E as -> E. apply IH in E as [-> ->]; auto.
Qed.
Lemma at_literal_unreadable p r : length p = 10 ->
  parse_rfc3339 (p ++ L " at " ++ r) = None /\ parse_naive_date (p ++ L " at " ++ r) = None.
Proof.
  intros Lp. unfold parse_rfc3339, parse_naive_date.
  destruct (take_date (p ++ L " at " ++ r)) as [[d s]|] eqn:E; auto.
  apply take_date_suffix in E as (p' & E & Lp').
  apply app_same_length in E as [_ <-]; [|lia]. cbn. auto.
Qed.

Lemma parse_rfc_text y m d h mi s oh om (neg : bool) :
  (y < 10000)%N -> valid_civil (Z.of_N y) (Z.of_N m) (Z.of_N d) = true ->
  (h < 24)%N -> (mi < 60)%N -> (s < 60)%N -> (oh < 24)%N -> (om < 60)%N ->
  parse_rfc3339 (date_text y m d ++ "T"%char :: time_text h mi s ++ (if neg then "-"%char else "+"%char) :: padded 2 oh ++ ":"%char :: padded 2 om)
  = Some {| dt_local := (days_of_civil (Z.of_N y) (Z.of_N m) (Z.of_N d) * 86400 + Z.of_N h * 3600 + Z.of_N mi * 60 + Z.of_N s)%Z;
            dt_nanos := 0%Z; dt_off := ((if neg then -1 else 1) * (Z.of_N oh * 3600 + Z.of_N om * 60))%Z |}.
Proof.
  intros Hy V Hh Hmi Hs Hoh Hom. unfold parse_rfc3339. rewrite take_date_text by auto.
  change (Ascii.eqb "T" "T" || Ascii.eqb "T" "t" || Ascii.eqb "T" " ")%bool with true. cbn iota.
  unfold time_text. rewrite <- !app_assoc. cbn [app]. rewrite <- !app_assoc. cbn [app].
  rewrite take_padded by (cbn; lia). rewrite expect_here.
  rewrite take_padded by (cbn; lia). rewrite expect_here.
  rewrite take_padded by (cbn; lia).
  assert (T : take_offset ((if neg then "-"%char else "+"%char) :: padded 2 oh ++ ":"%char :: padded 2 om)
              = Some ((if neg then -1 else 1) * (Z.of_N oh * 3600 + Z.of_N om * 60))%Z).
  { assert (E : forall c, (c = "-"%char \/ c = "+"%char) ->
        take_offset (c :: padded 2 oh ++ ":"%char :: padded 2 om) =
        match (if Ascii.eqb c "+" then Some 1%Z else if Ascii.eqb c "-" then Some (-1)%Z else None) with
        | Some sg => Some (sg * (Z.of_N oh * 3600 + Z.of_N om * 60))%Z | None => None end).
    { intros c Hc. unfold take_offset.
      rewrite take_padded by (cbn; lia). cbn iota beta.
      rewrite <- (app_nil_r (padded 2 om)). rewrite take_padded by (cbn; lia).
      assert (B : ((om <? 60) && (oh <? 24))%N = true) by (apply andb_true_iff; split; apply N.ltb_lt; lia).
      rewrite B. destruct Hc as [-> | ->]; reflexivity. }
    destruct neg; rewrite E; auto. }
  assert (B : ((h <? 24) && (mi <? 60) && (s <? 60))%N = true)
    by (rewrite !andb_true_iff; repeat split; apply N.ltb_lt; lia).
  destruct neg; cbn iota; rewrite T, B; reflexivity.
Qed.
