(** Lemmas: references, numbers, dates, currencies, tags and lists of the DSL. *)
From Coq Require Import Lia NArith ZArith.
From Verif Require Import M_Dsl S_Dsl L_Str L_Ids L_Num L_Date L_Text L_DslStr L_Ratio.
Close Scope Z_scope.

(** ** References *)
Lemma compose_idem t i : new_id (compose_entity_id t i) = compose_entity_id t i.
Proof. apply to_snake_idem. Qed.

Lemma join2 (t i : str) : join ["."%char] [t; i] = t ++ "."%char :: i.
Proof. reflexivity. Qed.

Lemma compose_plain t i : new_id (t ++ "."%char :: i) = t ++ "."%char :: i ->
  compose_entity_id t i = t ++ "."%char :: i.
Proof.
  intros H. unfold compose_entity_id. rewrite lower_fix; [exact H|].
  intros c Hc. assert (X : In c (new_id (t ++ "."%char :: i))) by (rewrite H; apply in_app_iff; auto).
  apply to_snake_chars in X. tauto.
Qed.

Lemma entity_ref_survives id :
  obind (parse_reference id) (fun p => Ok (to_value p)) = Ok (VRef (REntity id)) <-> plain_entity_id id.
Proof.
  unfold parse_reference, plain_entity_id. split.
  - pose proof (join_split_char "."%char id) as J. pose proof (split_char_in "."%char id) as N.
    destruct (split_char "." id) as [|t [|i [|f [|? ?]]]]; cbn [obind to_value]; try discriminate.
    intros [= E]. split; [rewrite <- E; apply compose_idem|].
    exists t, i. rewrite join2 in J. split; auto. split; apply N; cbn; auto.
  - intros (H & t & i & -> & Ht & Hi). rewrite split_char_app, split_char_free by auto. cbn [obind to_value].
    rewrite compose_plain; auto.
Qed.

Lemma field_ref_survives id f :
  obind (parse_reference (id ++ L "." ++ f)) (fun p => Ok (to_value p)) = Ok (VRef (RField id f))
  <-> plain_entity_id id /\ ~ In "."%char f.
Proof.
  unfold parse_reference, plain_entity_id. split.
  - pose proof (join_split_char "."%char (id ++ L "." ++ f)) as J. pose proof (split_char_in "."%char (id ++ L "." ++ f)) as N.
    destruct (split_char "." (id ++ L "." ++ f)) as [|t [|i [|f' [|? ?]]]]; cbn [obind to_value]; try discriminate.
    intros [= E ->].
    assert (Nt : ~ In "."%char t /\ ~ In "."%char i /\ ~ In "."%char f) by (repeat split; apply N; cbn; auto).
    assert (I : id = t ++ "."%char :: i).
    { rewrite !join_cons in J by discriminate. cbn [join app] in J.
      replace (t ++ "."%char :: i ++ "."%char :: f) with ((t ++ "."%char :: i) ++ "."%char :: f) in J
        by (rewrite <- app_assoc; reflexivity).
      change (list_ascii_of_string "." ++ f) with ("."%char :: f) in J. apply app_inv_tail in J. auto. }
    split; [|tauto]. split; [rewrite <- E; apply compose_idem|]. exists t, i. tauto.
  - intros ((H & t & i & -> & Ht & Hi) & Hf). cbn [list_ascii_of_string app]. rewrite <- app_assoc. cbn [app].
    rewrite !split_char_app, split_char_free by auto. cbn [obind to_value]. rewrite compose_plain; auto.
Qed.

(** ** Integers *)
Lemma show_N_not c n : is_digit c = false -> ~ In c (show_N n).
Proof.
  intros H X. pose proof (show_N_digits n) as D. rewrite forallb_forall in D. rewrite (D c X) in H. discriminate.
Qed.
Lemma show_Z_not c z : is_digit c = false -> c <> "-"%char -> ~ In c (show_Z z).
Proof.
  intros H N. unfold show_Z. destruct z; try (apply show_N_not; auto). intros [X|X]; [congruence|].
  eapply show_N_not; eauto.
Qed.
Lemma int_survives z : in_i64 z = true -> parse_number (show_Z z) = Ok (PInt z).
Proof.
  intros H. unfold parse_number. change (L ".") with ["."%char].
  rewrite (proj2 (contains_char_false (show_Z z) ".")) by (apply show_Z_not; [reflexivity|discriminate]).
  rewrite parse_show_Z by auto. reflexivity.
Qed.

(** ** Decimals *)
Lemma digits_val_acc s acc v : digits_val 0 s = Some v -> digits_val acc s = Some (acc * 10 ^ N.of_nat (length s) + v)%N.
Proof.
  assert (G : forall (s : str) (acc : N), forallb is_digit s = true ->
    exists v, forall acc', digits_val acc' s = Some (acc' * 10 ^ N.of_nat (length s) + v)%N).
  { clear. induction s as [|c s IH]; intros acc H.
    - exists 0%N. intros acc'. cbn. f_equal. lia.
    - cbn in H. apply andb_true_iff in H as [H1 H2]. destruct (IH 0%N H2) as (v & Hv).
      exists ((code c - 48) * 10 ^ N.of_nat (length s) + v)%N. intros acc'.
      cbn [digits_val length]. rewrite H1, Hv. f_equal. replace (N.of_nat (S (length s))) with (N.succ (N.of_nat (length s))) by lia. rewrite N.pow_succ_r'. lia. }
  intros H. assert (D : forallb is_digit s = true).
  { revert H. generalize 0%N. clear. induction s as [|c s IH]; intros n; cbn; auto.
    destruct (is_digit c); [|discriminate]. cbn. apply IH. }
  destruct (G s 0%N D) as (w & W). rewrite W. pose proof (W 0%N) as X. rewrite H in X. injection X as ->. f_equal; lia.
Qed.

Lemma parse_N_val s n : s <> [] -> digits_val 0 s = Some n -> parse_N s = Some n.
Proof. destruct s; [congruence|auto]. Qed.

Lemma head_not_minus q (r : str) : forall X (a b : str -> X),
  match show_N q ++ r with "-"%char :: s' => a s' | _ => b (show_N q ++ r) end = b (show_N q ++ r).
Proof.
  intros X a b. pose proof (show_N_digits q) as D. pose proof (show_N_nonnil q) as N.
  destruct (show_N q) as [|c s]; [congruence|]. cbn in D. apply andb_true_iff in D as [D _].
  cbn. destruct (digit_not_sign c D) as [M _].
  destruct c as [[] [] [] [] [] [] [] []]; auto; congruence.
Qed.

Lemma split_once_digits s r : forallb is_digit s = true -> split_once "." (s ++ "."%char :: r) = Some (s, r).
Proof.
  intros D. apply split_once_app. intros X. rewrite forallb_forall in D. apply D in X. discriminate.
Qed.
Lemma split_once_digits_none s : forallb is_digit s = true -> split_once "." s = None.
Proof.
  intros D. apply split_once_none. intros X. rewrite forallb_forall in D. apply D in X. discriminate.
Qed.

Lemma dec_survives d : valid_dec d -> parse_dec (show_dec d) = Some d.
Proof.
  intros [V1 V2]. unfold show_dec. set (a := Z.abs_N (d_mant d)). set (p := (10 ^ N.of_nat (d_scale d))%N).
  assert (Pp : (p <> 0)%N) by (apply N.pow_nonzero; lia).
  set (body := show_N (a / p) ++ match d_scale d with 0 => [] | S _ => L "." ++ padded (d_scale d) (a mod p) end).
  assert (B : match split_once "." body with
              | None => option_map (fun n => (n, 0)) (parse_N body)
              | Some (x, y) => match parse_N (x ++ y), x, y with
                               | Some n, _ :: _, _ :: _ => Some (n, length y)
                               | _, _, _ => None
                               end
              end = Some (a, d_scale d)).
  { unfold body. destruct (d_scale d) as [|k] eqn:K.
    - rewrite app_nil_r, split_once_digits_none by apply show_N_digits. rewrite parse_show_N. cbn.
      unfold p. cbn. rewrite N.div_1_r. reflexivity.
    - change (list_ascii_of_string "." ++ padded (S k) (a mod p)) with ("."%char :: padded (S k) (a mod p)).
      rewrite split_once_digits by apply show_N_digits.
      assert (V : parse_N (show_N (a / p) ++ padded (S k) (a mod p)) = Some a).
      { apply parse_N_val.
        - pose proof (show_N_nonnil (a / p)). destruct (show_N (a / p)); [congruence|discriminate].
        - rewrite digits_val_app by apply show_N_digits.
          pose proof (parse_show_N (a / p)) as Q. unfold parse_N in Q.
          pose proof (show_N_nonnil (a / p)). destruct (show_N (a / p)) as [|c s]; [congruence|]. rewrite Q.
          rewrite (digits_val_acc _ _ (a mod p)%N).
          + rewrite padded_length. fold p. f_equal. rewrite (N.div_mod a p) at 3 by auto. lia.
          + apply padded_val. apply N.mod_lt. auto. }
      rewrite V. pose proof (show_N_nonnil (a / p)). destruct (show_N (a / p)); [congruence|].
      pose proof (padded_length (S k) (a mod p)) as PL. destruct (padded (S k) (a mod p)); [discriminate|].
      rewrite PL. reflexivity. }
  assert (F : (Z.ltb (Z.of_N a) dec_limit && (d_scale d <=? 28) = true)).
  { apply andb_true_iff. split; [|apply Nat.leb_le; auto]. apply Z.ltb_lt. unfold a. rewrite N2Z.inj_abs_N. auto. }
  unfold parse_dec. destruct (Z.ltb_spec (d_mant d) 0) as [Neg|Pos].
  - change (list_ascii_of_string "-" ++ body) with ("-"%char :: body). cbv beta iota zeta.
    match goal with |- match ?m with _ => _ end = _ => replace m with (Some (a, d_scale d)) by (symmetry; exact B) end.
    rewrite F. f_equal. destruct d as [m s]. cbn in *. f_equal. unfold a. rewrite N2Z.inj_abs_N. lia.
  - cbn [app].
    assert (HM : match body with "-"%char :: s' => (true, s') | _ => (false, body) end = (false, body))
      by exact (head_not_minus (a / p) _ (bool * str) (fun s' => (true, s')) (fun s => (false, s))).
    match goal with |- (let (_, _) := ?m in _) = _ => replace m with (false, body) by (symmetry; exact HM) end.
    cbv beta iota zeta.
    match goal with |- match ?m with _ => _ end = _ => replace m with (Some (a, d_scale d)) by (symmetry; exact B) end.
    rewrite F. f_equal. destruct d as [m s]. cbn in *. f_equal. unfold a. rewrite N2Z.inj_abs_N. lia.
Qed.

Lemma show_dec_no_space d : ~ In " "%char (show_dec d).
Proof.
  unfold show_dec. intros X. apply in_app_iff in X as [X|X].
  - destruct (Z.ltb (d_mant d) 0); cbn in X; [destruct X as [X|[]]; discriminate|auto].
  - apply in_app_iff in X as [X|X].
    + revert X. apply show_N_not. reflexivity.
    + destruct (d_scale d); [destruct X|]. cbn [list_ascii_of_string app] in X. destruct X as [X|X]; [discriminate|].
      pose proof (padded_digits (S n) (Z.abs_N (d_mant d) mod 10 ^ N.of_nat (S n))) as D.
      rewrite forallb_forall in D. apply D in X. discriminate.
Qed.

Lemma currency_survives env d c : valid_dec d -> known_currency env c = true -> ~ In " "%char c ->
  parse_currency env (show_dec d ++ L " " ++ c) = Ok (PCur d c).
Proof.
  intros V K N. unfold parse_currency. cbn [list_ascii_of_string app].
  rewrite split_char_app by apply show_dec_no_space. rewrite split_char_free by auto.
  rewrite dec_survives, K by auto. reflexivity.
Qed.

(** ** Date-times *)
Lemma contains_all s p c : contains s p = true -> In c p -> In c s.
Proof. intros H Hc. apply contains_spec in H as (a & b & ->). rewrite !in_app_iff. auto. Qed.

Lemma split_str_head c sep a b : ~ In c a ->
  split_str (c :: sep) (a ++ (c :: sep) ++ b) = a :: split_str (c :: sep) b.
Proof.
  intros N. apply split_str_app; [discriminate|]. intros x y E.
  destruct (Nat.le_gt_cases (length a) (length x)) as [|G]; auto. exfalso. apply N.
  assert (X : exists u v, a = x ++ u :: v /\ u = c).
  { clear N. revert a E G. induction x as [|z x IH]; intros a E G.
    - destruct a as [|u v]; [cbn in G; lia|]. cbn in E. injection E as E _. exists u, v. auto.
    - destruct a as [|u v]; [cbn in G; lia|]. cbn in E. injection E as -> E.
      destruct (IH v E ltac:(cbn in G; lia)) as (w & t & -> & ->). exists c, t. auto. }
  destruct X as (u & v & -> & ->). apply in_app_iff. cbn; auto.
Qed.

Lemma padded_not c k n : is_digit c = false -> ~ In c (padded k n).
Proof.
  intros H X. pose proof (padded_digits k n) as D. rewrite forallb_forall in D. rewrite (D c X) in H. discriminate.
Qed.

Lemma format_date_text day : format_date day =
  let '(y, m, d) := civil_of_days day in date_text (Z.to_N y) (Z.to_N m) (Z.to_N d).
Proof.
  unfold format_date, date_text. destruct (civil_of_days day) as [[y m] d]. reflexivity.
Qed.

Lemma format_date_chars day c : is_digit c = false -> c <> "-"%char -> ~ In c (format_date day).
Proof.
  intros D N. unfold format_date. destruct (civil_of_days day) as [[y m] d].
  rewrite !in_app_iff. intros [X|[X|[X|[X|X]]]];
    try (destruct X as [X|[]]; congruence); revert X; apply padded_not; auto.
Qed.

Lemma parse_format_date day : (let '(y, _, _) := civil_of_days day in (0 <= y <= 9999)%Z) ->
  parse_naive_date (format_date day) = Some day.
Proof.
  intros H. rewrite format_date_text. pose proof (days_of_civil_of_days day) as X.
  destruct (civil_of_days day) as [[y m] d]. destruct X as [X V].
  assert (M : (0 <= m /\ 0 <= d)%Z).
  { unfold valid_civil in V. rewrite !andb_true_iff, !Z.leb_le in V. lia. }
  rewrite parse_date_text; rewrite ?Z2N.id by lia; auto; [congruence|lia].
Qed.

Lemma padded2 n : (n < 100)%N -> padded 2 n = [digit (n / 10); digit (n mod 10)].
Proof. intros H. cbn [padded app]. rewrite (N.mod_small (n / 10) 10); [reflexivity|]. apply N.div_lt_upper_bound; lia. Qed.

Lemma take_two_padded n r : (n < 100)%N -> take_two (padded 2 n ++ r) = Some (n, r).
Proof.
  intros H. assert (A : (n / 10 < 10)%N) by (apply N.div_lt_upper_bound; lia).
  assert (B : (n mod 10 < 10)%N) by (apply N.mod_lt; lia).
  rewrite padded2 by auto. cbn [app take_two]. rewrite !digit_is, !digit_code by auto. f_equal. f_equal.
  rewrite (N.div_mod n 10) at 3 by lia. lia.
Qed.

Lemma parse_format_hm secs : (0 <= secs < 86400)%Z -> parse_hm (format_hm secs) = Some (secs - secs mod 60)%Z.
Proof.
  intros H. unfold parse_hm, format_hm.
  assert (A : (0 <= secs / 3600 < 24)%Z) by (split; [apply Z.div_pos|apply Z.div_lt_upper_bound]; lia).
  assert (B : (0 <= secs / 60 mod 60 < 60)%Z) by (apply Z.mod_pos_bound; lia).
  rewrite take_two_padded by lia. cbn [list_ascii_of_string app]. rewrite expect_here.
  rewrite <- (app_nil_r (padded 2 (Z.to_N (secs / 60 mod 60)))), take_two_padded by lia.
  replace ((Z.to_N (secs / 3600) <? 24) && (Z.to_N (secs / 60 mod 60) <? 60))%N with true
    by (symmetry; apply andb_true_iff; rewrite !N.ltb_lt; lia).
  f_equal. rewrite !Z2N.id by lia.
  pose proof (Z.div_mod secs 60 ltac:(lia)). pose proof (Z.div_mod (secs / 60) 60 ltac:(lia)).
  rewrite Z.div_div in * by lia. change (60 * 60)%Z with 3600%Z in *. lia.
Qed.

Lemma parse_plus_Z z : (0 < z)%Z -> in_i64 z = true -> parse_i64 ("+"%char :: show_Z z) = Some z.
Proof.
  intros P H. unfold parse_i64. destruct z as [|p|p]; try lia. cbn [show_Z].
  rewrite parse_show_N. cbn [option_map]. rewrite Z2N.id by lia. rewrite H. reflexivity.
Qed.

Definition tz_digits (off : Z) : str :=
  if Z.eqb off 0 then []
  else if Z.ltb 0 (Z.quot off 3600) then "+"%char :: show_Z (Z.quot off 3600) else show_Z (Z.quot off 3600).

Lemma parse_tz env off : (- 86400 < off < 86400)%Z ->
  parse_utc_offset env (tz_digits off) = Ok (3600 * Z.quot off 3600)%Z.
Proof.
  intros H. unfold tz_digits. destruct (Z.eqb_spec off 0) as [->|N]; [reflexivity|].
  assert (R : (-24 < Z.quot off 3600 < 24)%Z) by lia.
  set (h := Z.quot off 3600) in *. clearbody h.
  assert (I : in_i64 h = true) by (unfold in_i64, i64_min, i64_max; apply andb_true_iff; rewrite !Z.leb_le; lia).
  assert (P : parse_i32 (if Z.ltb 0 h then "+"%char :: show_Z h else show_Z h) = Some h).
  { unfold parse_i32. destruct (Z.ltb_spec 0 h).
    - rewrite parse_plus_Z by auto. unfold in_i32. replace ((- 2 ^ 31 <=? h)%Z && (h <? 2 ^ 31)%Z) with true; auto.
      symmetry. apply andb_true_iff. rewrite Z.leb_le, Z.ltb_lt. lia.
    - rewrite parse_show_Z by auto. unfold in_i32. replace ((- 2 ^ 31 <=? h)%Z && (h <? 2 ^ 31)%Z) with true; auto.
      symmetry. apply andb_true_iff. rewrite Z.leb_le, Z.ltb_lt. lia. }
  unfold parse_utc_offset.
  assert (NE : (if Z.ltb 0 h then "+"%char :: show_Z h else show_Z h) <> []).
  { destruct (Z.ltb 0 h); [discriminate|]. unfold show_Z. destruct h; try apply show_N_nonnil. discriminate. }
  rewrite P.
  match goal with |- match ?x with [] => _ | _ => _ end = _ => destruct x eqn:E; [exfalso; apply NE; exact E|] end.
  clear E.
  unfold mul_i32. replace (in_i32 (h * 3600)) with true.
  - cbn [obind]. unfold east_opt. replace ((-86400 <? h * 3600)%Z && (h * 3600 <? 86400)%Z) with true.
    + cbn [of_option]. f_equal. lia.
    + symmetry. apply andb_true_iff. rewrite !Z.ltb_lt. lia.
  - symmetry. unfold in_i32. apply andb_true_iff. rewrite Z.leb_le, Z.ltb_lt. lia.
Qed.

(** Zones of any number of hours. *)

Lemma generate_datetime_text d : generate_datetime d =
  format_date (dt_date d) ++ L " at " ++ format_hm (dt_secs d) ++ L " UTC" ++ tz_digits (dt_off d).
Proof.
  unfold generate_datetime, tz_digits.
  destruct (Z.eqb (dt_off d) 0); [reflexivity|]. destruct (Z.ltb 0 (Z.quot (dt_off d) 3600)); reflexivity.
Qed.

Lemma tz_digits_chars off c : is_digit c = false -> c <> "-"%char -> c <> "+"%char -> ~ In c (tz_digits off).
Proof.
  intros A B C. unfold tz_digits. destruct (Z.eqb off 0); [auto|].
  destruct (Z.ltb 0 (Z.quot off 3600)); [intros [X|X]; [congruence|]|intros X]; eapply show_Z_not; eauto.
Qed.

Lemma datetime_read env d : printable_datetime d ->
  parse_datetime env (generate_datetime d)
  = Ok (PDate {| dt_local := (dt_local d - dt_local d mod 60)%Z; dt_nanos := 0;
                 dt_off := (3600 * Z.quot (dt_off d) 3600)%Z |}).
Proof.
  intros H. unfold printable_datetime in H.
  assert (Y : let '(y, _, _) := civil_of_days (dt_date d) in (0 <= y <= 9999)%Z)
    by (destruct (civil_of_days (dt_date d)) as [[y m] dd]; tauto).
  assert (O : (- 86400 < dt_off d < 86400)%Z) by (destruct (civil_of_days (dt_date d)) as [[y m] dd]; tauto).
  assert (S : (0 <= dt_secs d < 86400)%Z) by (apply Z.mod_pos_bound; lia).
  rewrite generate_datetime_text. unfold parse_datetime.
  set (tail := format_hm (dt_secs d) ++ L " UTC" ++ tz_digits (dt_off d)).
  change (L " at ") with (" "%char :: L "at ").
  rewrite split_str_head by (apply format_date_chars; [reflexivity|discriminate]).
  assert (NA : forall c, is_digit c = false -> c <> ":"%char -> ~ In c (format_hm (dt_secs d))).
  { intros c A B. unfold format_hm. rewrite !in_app_iff. intros [X|[X|X]];
      try (destruct X as [X|[]]; congruence); revert X; apply padded_not; auto. }
  rewrite split_str_free; [|discriminate|].
  2:{ destruct (contains tail _) eqn:E; auto. exfalso. apply (contains_all _ _ "a"%char) in E; [|cbn; auto].
      unfold tail in E. rewrite !in_app_iff in E. destruct E as [E|[E|E]].
      - revert E. apply NA; [reflexivity|discriminate].
      - cbn in E. intuition discriminate.
      - revert E. apply tz_digits_chars; [reflexivity|discriminate|discriminate]. }
  rewrite parse_format_date by auto.
  replace (contains tail (L " UTC")) with true
    by (symmetry; apply contains_spec; exists (format_hm (dt_secs d)), (tz_digits (dt_off d)); reflexivity).
  unfold tail at 1. change (L " UTC") with (" "%char :: L "UTC").
  rewrite split_str_head by (apply NA; [reflexivity|discriminate]).
  rewrite split_str_free; [|discriminate|].
  2:{ destruct (contains (tz_digits (dt_off d)) _) eqn:E; auto. exfalso. apply (contains_all _ _ "U"%char) in E; [|cbn; auto].
      revert E. apply tz_digits_chars; [reflexivity|discriminate|discriminate]. }
  rewrite parse_tz by auto. cbn [obind]. rewrite parse_format_hm by auto. f_equal. f_equal. f_equal.
  unfold dt_date, dt_secs. pose proof (Z.div_mod (dt_local d) 86400 ltac:(lia)).
  replace ((dt_local d mod 86400) mod 60)%Z with (dt_local d mod 60)%Z; [lia|].
  change 86400%Z with (60 * 1440)%Z. rewrite Z.rem_mul_r by lia.
  rewrite Z.mul_comm, Z.mod_add by lia. rewrite Z.mod_mod by lia. reflexivity.
Qed.

(** ** Tagged literals *)
Lemma remove_much pat s : pat <> [] -> contains s pat = true ->
  length (replace_str pat [] s) + length pat <= length s.
Proof.
  intros N H. unfold replace_str. rewrite join_nil. rewrite (split_str_len pat s N).
  pose proof (split_go_not_nil pat 0 s) as NN. fold (split_str pat s) in NN.
  destruct (split_str pat s) as [|w ws] eqn:E; [congruence|].
  destruct ws as [|w2 ws].
  - apply split_str_one in E as [_ E]; congruence.
  - cbn [length]. nia.
Qed.

Lemma trim_start_len q s : length (trim_start_char q s) <= length s.
Proof. induction s as [|c s IH]; cbn; [lia|]. destruct (Ascii.eqb c q); cbn; lia. Qed.
Lemma trim_matches_len q s : length (trim_matches_char q s) <= length s.
Proof.
  unfold trim_matches_char, trim_end_char. rewrite rev_length.
  pose proof (trim_start_len q (rev (trim_start_char q s))). rewrite rev_length in H.
  pose proof (trim_start_len q s). lia.
Qed.
Lemma trim_start_no_lead q s r : trim_start_char q s <> q :: r.
Proof.
  induction s as [|c s IH]; cbn; [discriminate|]. destruct (Ascii.eqb_spec c q); auto. congruence.
Qed.
Lemma trim_start_suffix q s : exists a, s = a ++ trim_start_char q s.
Proof.
  induction s as [|c s (a & IH)]; cbn; [exists []; auto|]. destruct (Ascii.eqb_spec c q).
  - exists (c :: a). cbn. congruence.
  - exists []. auto.
Qed.
Lemma trim_matches_ends q s : (forall r, trim_matches_char q s <> q :: r) /\ (forall r, trim_matches_char q s <> r ++ [q]).
Proof.
  unfold trim_matches_char, trim_end_char. split; intros r H.
  - destruct (trim_start_suffix q (rev (trim_start_char q s))) as (a & E).
    apply (f_equal (@rev ascii)) in E. rewrite rev_involutive, rev_app_distr, H in E.
    eapply trim_start_no_lead. exact E.
  - apply (f_equal (@rev ascii)) in H. rewrite rev_involutive, rev_app_distr in H. cbn in H.
    eapply trim_start_no_lead. exact H.
Qed.
Lemma trim_final_quote q s : (forall r, s <> q :: r) -> (forall r, s <> r ++ [q]) -> trim_matches_char q (s ++ [q]) = s.
Proof.
  intros A B. unfold trim_matches_char, trim_end_char. destruct s as [|c s].
  - cbn. rewrite Ascii.eqb_refl. reflexivity.
  - rewrite (trim_start_char_free q ((c :: s) ++ [q])).
    + rewrite rev_app_distr. cbn [rev app trim_start_char]. rewrite Ascii.eqb_refl.
      change (rev s ++ [c]) with (rev (c :: s)). rewrite trim_start_char_free; [apply rev_involutive|].
      intros r H. apply (f_equal (@rev ascii)) in H. rewrite rev_involutive in H. cbn [rev] in H. apply (B (rev r)). exact H.
    + intros r H. cbn in H. injection H as -> H. eapply A. reflexivity.
Qed.

Lemma split_str_here sep b : sep <> [] -> split_str sep (sep ++ b) = [] :: split_str sep b.
Proof. intros N. apply (split_str_app sep [] b N). intros; cbn; lia. Qed.
Lemma replace_here pat b : pat <> [] -> replace_str pat [] (pat ++ b) = replace_str pat [] b.
Proof.
  intros N. unfold replace_str. rewrite split_str_here by auto.
  rewrite join_cons by apply split_go_not_nil. reflexivity.
Qed.

Definition untag (tag raw : str) : str := trim_matches_char DQ (replace_str (tag ++ [DQ]) [] raw).

Lemma untag_tagged tag v : tag <> [] -> (untag tag (tag ++ [DQ] ++ v ++ [DQ]) = v <-> taggable tag v).
Proof.
  intros T. assert (N : tag ++ [DQ] <> []) by (destruct tag; discriminate).
  unfold untag. replace (tag ++ [DQ] ++ v ++ [DQ]) with ((tag ++ [DQ]) ++ v ++ [DQ]) by (rewrite <- app_assoc; reflexivity).
  rewrite replace_here by auto. unfold taggable. split.
  - intros H. pose proof (trim_matches_ends DQ (replace_str (tag ++ [DQ]) [] (v ++ [DQ]))) as [A B]. rewrite H in A, B.
    repeat split; auto. intros a b E.
    assert (C : contains (v ++ [DQ]) (tag ++ [DQ]) = true).
    { apply contains_spec. exists a, b. rewrite E, <- app_assoc. reflexivity. }
    apply remove_much in C; auto. pose proof (trim_matches_len DQ (replace_str (tag ++ [DQ]) [] (v ++ [DQ]))) as D.
    rewrite H in D. rewrite !app_length in C. destruct tag; [congruence|]. cbn [length] in C. lia.
  - intros (A & B & C). rewrite replace_free; auto.
    + apply trim_final_quote; auto.
    + destruct (contains (v ++ [DQ]) (tag ++ [DQ])) eqn:E; auto. exfalso.
      apply contains_spec in E as (a & b & E). rewrite <- app_assoc in E. eapply C. exact E.
Qed.

Lemma enum_survives v : parse_enum (generate_enum v) = Ok (PEnum v) <-> taggable (L "enum") v.
Proof.
  rewrite <- untag_tagged by discriminate. unfold parse_enum, generate_enum. fold (untag (L "enum") (L "enum" ++ [DQ] ++ v ++ [DQ])).
  split; [intros [= H]; exact H|intros ->; reflexivity].
Qed.

(** ** Paths *)
Notation up := (L "..").
Lemma clean_go_walk abs cs : Forall (fun c => ~ In "/"%char c) cs -> forall n d, Forall plain_component d -> (abs = true -> n = 0) ->
  exists r, walk abs (n, d) cs r /\ Forall plain_component (snd r) /\ (abs = true -> fst r = 0) /\
  clean_go abs (rev (repeat up n ++ d)) (filter (fun c => negb (str_eqb c []) && negb (str_eqb c (L "."))) cs)
  = repeat up (fst r) ++ snd r.
Proof.
  induction 1 as [|c cs Hc _ IH]; intros n d Hd Ha.
  - exists (n, d). repeat split; auto; [constructor|]. cbn. apply rev_involutive.
  - cbn [filter]. destruct (str_eqb_spec c []) as [->|C1]; [|destruct (str_eqb_spec c (L ".")) as [->|C2]]; cbn [negb andb].
    + destruct (IH n d Hd Ha) as (r & W & R). exists r. split; auto. apply walk_here; auto.
    + destruct (IH n d Hd Ha) as (r & W & R). exists r. split; auto. apply walk_here; auto.
    + cbn [clean_go]. destruct (str_eqb_spec c up) as [->|C3].
      * destruct d as [|x d' _] using rev_ind.
        -- rewrite app_nil_r. destruct n as [|n].
           ++ cbn [repeat rev]. destruct abs.
              ** destruct (IH 0 [] Hd Ha) as (r & W & R). exists r. split; auto. apply walk_root; auto.
              ** destruct (IH 1 [] Hd ltac:(discriminate)) as (r & W & R). exists r. split; auto. apply walk_above; auto.
           ++ destruct abs; [specialize (Ha eq_refl); discriminate|].
              replace (rev (repeat up (S n))) with (up :: rev (repeat up n)).
              ** rewrite str_eqb_refl. destruct (IH (S (S n)) [] Hd ltac:(discriminate)) as (r & W & R). exists r. split; [apply walk_above; auto|].
                 destruct R as (R1 & R2 & R3). repeat split; auto. rewrite <- R3. f_equal. rewrite app_nil_r.
                 replace (repeat up (S (S n))) with (repeat up n ++ [up; up]).
                 --- rewrite rev_app_distr. reflexivity.
                 --- replace (S (S n)) with (n + 2) by lia. rewrite repeat_app. reflexivity.
              ** replace (S n) with (n + 1) by lia. rewrite repeat_app, rev_app_distr. reflexivity.
        -- apply Forall_app in Hd as [Hd Hx]. inversion Hx as [|? ? (X1 & X2 & X3 & X4) _]; subst.
           rewrite app_assoc, rev_app_distr. cbn [rev app].
           destruct (str_eqb_spec x up); [contradiction|].
           destruct (IH n d' Hd Ha) as (r & W & R). exists r. split; auto. apply walk_up; auto.
      * assert (P : plain_component c) by (repeat split; auto).
        destruct (IH n (d ++ [c])) as (r & W & R); auto.
        { apply Forall_app. auto. }
        exists r. split; [apply walk_down; auto|].
        rewrite app_assoc, rev_app_distr in R. exact R.
Qed.

Lemma clean_go_down abs ds cs : Forall plain_component ds -> forall out,
  clean_go abs out (ds ++ cs) = clean_go abs (rev ds ++ out) cs.
Proof.
  induction 1 as [|c ds (P1 & P2 & P3 & P4) _ IH]; intros out; [reflexivity|].
  cbn [app clean_go rev]. destruct (str_eqb_spec c up); [contradiction|].
  rewrite IH, <- app_assoc. reflexivity.
Qed.

Lemma plain_filter ds : Forall plain_component ds ->
  filter (fun c => negb (str_eqb c []) && negb (str_eqb c (L "."))) ds = ds.
Proof.
  intros H. apply filter_all. eapply Forall_impl; [|exact H]. intros c (P1 & P2 & _).
  destruct (str_eqb_spec c []); [contradiction|]. destruct (str_eqb_spec c (L ".")); [contradiction|]. reflexivity.
Qed.

Lemma plain_no_slash ds : Forall plain_component ds -> Forall (fun w => ~ In "/"%char w) ds.
Proof. apply Forall_impl. intros c H. apply H. Qed.

Lemma split_join_app ds b : ds <> [] -> Forall (fun w => ~ In "/"%char w) ds ->
  split_char "/" (join (L "/") ds ++ "/"%char :: b) = ds ++ split_char "/" b.
Proof.
  intros N H. induction H as [|c ds Hc _ IH]; [congruence|]. destruct ds as [|c2 ds].
  - cbn [join app]. apply split_char_app; auto.
  - rewrite join_cons by discriminate. change (L "/" ++ join (L "/") (c2 :: ds)) with ("/"%char :: join (L "/") (c2 :: ds)).
    rewrite <- app_assoc. cbn [app]. rewrite split_char_app by auto. cbn [app]. f_equal. apply IH. discriminate.
Qed.

Lemma parent_file ds name : Forall plain_component ds -> plain_component name ->
  path_parent (file_path ds name) = Some (join (L "/") ds).
Proof.
  intros H (N1 & N2 & N3 & N4). unfold path_parent, file_path.
  assert (J : split_char "/" (join (L "/") (ds ++ [name])) = ds ++ [name]).
  { apply split_char_join; [destruct ds; discriminate|]. apply Forall_app. split; [apply plain_no_slash; auto|auto]. }
  rewrite J, removelast_last. destruct (join (L "/") (ds ++ [name])) eqn:E; auto. exfalso.
  destruct ds as [|d ds]; [cbn in E; congruence|]. cbn [app] in E. rewrite join_cons in E by (destruct ds; discriminate).
  inversion H as [|? ? (D & _)]; subst. destruct d; [congruence|discriminate].
Qed.

Lemma abs_spec p : is_absolute p = true <-> exists r, p = "/"%char :: r.
Proof. unfold is_absolute. rewrite starts_with_spec. reflexivity. Qed.

Lemma abs_head c r : is_absolute (c :: r) = true <-> c = "/"%char.
Proof. rewrite abs_spec. split; [intros (x & [=]); auto|intros ->; eauto]. Qed.

Lemma rel_join d ds r : plain_component d -> is_absolute (join (L "/") (d :: ds) ++ r) = false.
Proof.
  intros (D1 & _ & _ & D4). destruct (is_absolute _) eqn:E; auto. exfalso.
  destruct d as [|c d]; [congruence|]. destruct ds as [|x ds].
  - cbn [join app] in E. apply abs_head in E. subst. apply D4; cbn; auto.
  - rewrite join_cons in E by discriminate. cbn [app] in E. apply abs_head in E. subst. apply D4; cbn; auto.
Qed.

Lemma join_end d ds : Forall plain_component (d :: ds) -> ends_with (join (L "/") (d :: ds)) (L "/") = false.
Proof.
  intros H. destruct (ends_with _ _) eqn:E; auto. exfalso. apply ends_with_spec in E as (r & E).
  destruct (exists_last (l := d :: ds) ltac:(discriminate)) as (ds' & x & D). rewrite D in *. clear D.
  apply Forall_app in H as [_ H]. inversion H as [|? ? (X1 & _ & _ & X4) _]; subst.
  assert (P : exists pre, join (L "/") (ds' ++ [x]) = pre ++ x).
  { destruct ds' as [|y ds']; [exists []; reflexivity|]. rewrite join_snoc by discriminate.
    eexists. rewrite app_assoc. reflexivity. }
  destruct P as (pre & P). rewrite P in E.
  destruct (exists_last X1) as (x' & c & ->). rewrite app_assoc in E. apply app_inj_tail in E as [_ ->].
  apply X4. apply in_app_iff; cbn; auto.
Qed.

(** What the directory of the file and the text of the path come to. *)
Definition resolved (dir target : str) : str :=
  let combined := if is_absolute target then target else path_join dir target in
  let cleaned := clean combined in
  if negb (is_absolute cleaned) && negb (starts_with_parent cleaned) then path_join (L "./") cleaned else cleaned.

Lemma split_no_slash s : Forall (fun c => ~ In "/"%char c) (split_char "/" s).
Proof. apply Forall_forall. intros w. apply split_char_in. Qed.

Lemma resolved_place ds target : Forall plain_component ds ->
  exists r, walk (is_absolute target) (0, if is_absolute target then [] else ds) (split_char "/" target) r
  /\ resolved (join (L "/") ds) target = place_text (is_absolute target) r.
Proof.
  intros H. unfold resolved. destruct (is_absolute target) eqn:A.
  - destruct (clean_go_walk true _ (split_no_slash target) 0 [] (Forall_nil _) ltac:(auto)) as ([n d] & W & P & Z & E).
    exists (n, d). split; auto. cbn [fst snd] in *. rewrite (Z eq_refl) in E. cbn [repeat app rev] in E.
    change (clean_go true [] (components target) = d) in E.
    assert (C : clean target = L "/" ++ join (L "/") d) by (unfold clean; rewrite A, E; reflexivity).
    rewrite C. cbn [list_ascii_of_string app place_text].
    rewrite (proj2 (abs_head "/"%char (join ["/"%char] d)) eq_refl). reflexivity.
  - destruct (clean_go_walk false _ (split_no_slash target) 0 ds H ltac:(discriminate)) as ([n d] & W & P & _ & E).
    exists (n, d). split; auto. cbn [fst snd] in *. cbn [repeat app] in E.
    assert (CB : is_absolute (path_join (join (L "/") ds) target) = false /\
                 components (path_join (join (L "/") ds) target)
                 = ds ++ components target).
    { unfold path_join, components. rewrite A. destruct ds as [|x ds]; [cbn [join]; auto|].
      assert (X : plain_component x) by (inversion H; auto).
      pose proof (rel_join x ds) as RJ. pose proof (split_join_app (x :: ds) target ltac:(discriminate) (plain_no_slash _ H)) as SJ.
      rewrite (join_end x ds) by auto.
      destruct (join (L "/") (x :: ds)) as [|c0 s0] eqn:J0.
      - exfalso. apply (f_equal (@length ascii)) in J0. destruct X as (X & _). destruct x; [congruence|].
        destruct ds; cbn in J0; [discriminate|]. discriminate.
      - split; [apply RJ; auto|].
        change ((c0 :: s0) ++ L "/" ++ target) with ((c0 :: s0) ++ "/"%char :: target). rewrite SJ, filter_app, plain_filter; auto. }
    destruct CB as [CA CC].
    change (clean_go false (rev ds) (components target) = repeat up n ++ d) in E.
    assert (C : clean (path_join (join (L "/") ds) target)
                = match repeat up n ++ d with [] => L "." | l => join (L "/") l end).
    { unfold clean. rewrite CA, CC, clean_go_down, app_nil_r, E; auto. destruct (repeat up n ++ d); reflexivity. }
    rewrite C. clear C CA CC E W. cbn [place_text]. destruct n as [|n]; cbn [repeat app].
    + destruct d as [|x d]; [reflexivity|].
      assert (X : plain_component x) by (inversion P; auto).
      pose proof (rel_join x d [] X) as RJ. rewrite app_nil_r in RJ. cbv beta iota.
      match goal with |- context [is_absolute ?t] => set (j := t); change (is_absolute j = false) in RJ; rewrite RJ end.
      assert (SP : starts_with_parent j = false).
      { unfold j, starts_with_parent. rewrite (split_char_join "/"); [|discriminate|apply plain_no_slash; auto].
        destruct (str_eqb_spec x up); auto. subst. destruct X as (_ & _ & X & _). congruence. }
      rewrite SP. cbn [negb andb]. unfold path_join. rewrite RJ. reflexivity.
    + assert (SP : starts_with_parent (join (L "/") (up :: repeat up n ++ d)) = true).
      { unfold starts_with_parent. rewrite (split_char_join "/"); [reflexivity|discriminate|].
        constructor; [cbn; intuition discriminate|]. apply Forall_app. split; [|apply plain_no_slash; auto].
        apply Forall_forall. intros w Hw. apply repeat_spec in Hw as ->. cbn; intuition discriminate. }
      rewrite SP, andb_false_r. destruct d; reflexivity.
Qed.

Lemma path_read path ds name v : path = file_path ds name -> Forall plain_component ds -> plain_component name ->
  taggable (L "path") v -> parse_path (generate_path v) path = Ok (PPath (resolved (join (L "/") ds) v)).
Proof.
  intros -> H1 H2 T. unfold parse_path, generate_path. fold (untag (L "path") (L "path" ++ [DQ] ++ v ++ [DQ])).
  rewrite (proj2 (untag_tagged (L "path") v ltac:(discriminate)) T).
  rewrite (parent_file ds name) by auto. reflexivity.
Qed.

Lemma plain_not_special c : plain_component c -> c <> [] /\ c <> L "." /\ c <> up.
Proof. intros (A & B & C & _); auto. Qed.

Ltac no_such_step := match goal with
  | P : plain_component _ |- _ => exfalso; apply plain_not_special in P; destruct P as (_ & _ & P); exact (P eq_refl)
  | C : ?c = [] \/ ?c = L ".", P : plain_component ?c |- _ => exfalso; apply plain_not_special in P; destruct C; tauto
  | C : _ = [] \/ _ = L "." |- _ => destruct C; discriminate
  | E : [] = ?d ++ [_] |- _ => destruct d; discriminate
  | E : ?d ++ [_] = [] |- _ => destruct d; discriminate
  end.
Lemma walk_unique abs p cs r : walk abs p cs r -> forall r', walk abs p cs r' -> r = r'.
Proof.
  induction 1 as [p|p c cs r C W IH|n d c cs r C W IH|n d c cs r W IH|n cs r A W IH|n cs r A W IH]; intros r' W'.
  - inversion W'; auto.
  - inversion W'; subst; auto; no_such_step.
  - inversion W'; subst; auto; no_such_step.
  - inversion W'; subst; auto; try no_such_step.
    match goal with E : _ ++ [_] = _ ++ [_] |- _ => apply app_inj_tail in E as [-> _] end. auto.
  - inversion W'; subst; auto; try discriminate; no_such_step.
  - inversion W'; subst; auto; try discriminate; no_such_step.
Qed.

Lemma walk_plain abs n d cs r : Forall plain_component cs -> walk abs (n, d ++ cs) [] r -> walk abs (n, d) cs r.
Proof.
  intros H. revert d. induction H as [|c cs C _ IH]; intros d W.
  - rewrite app_nil_r in W. exact W.
  - apply walk_down; auto. apply IH. rewrite <- app_assoc. exact W.
Qed.

(** ** Lists *)
Lemma type_name_kind p : type_name p = kind_name (to_value p).
Proof. destruct p; reflexivity. Qed.

(** The first item whose kind differs from that of item 0. *)
Lemma check_items_some ex i ps :
  match check_items (Some ex) i ps with
  | None => Forall (fun p => type_name p = ex) ps
  | Some e => exists a p b, ps = a ++ p :: b /\ Forall (fun q => type_name q = ex) a /\ type_name p <> ex
                            /\ e = HeterogeneousList ex (type_name p) (i + length a)
  end.
Proof.
  revert i. induction ps as [|p ps IH]; intros i; cbn [check_items]; [constructor|].
  destruct (str_eqb_spec (type_name p) ex) as [E|E].
  - specialize (IH (S i)). destruct (check_items (Some ex) (S i) ps) as [e|].
    + destruct IH as (a & q & b & -> & A & B & C). exists (p :: a), q, b. repeat split; auto.
      rewrite C. cbn [length]. f_equal. lia.
    + constructor; auto.
  - exists [], p, ps. repeat split; auto.
Qed.

Lemma list_cases ps :
  (parse_list_from_vec ps = Ok (PList ps) /\ homogeneous (map to_value ps)) \/
  (exists p0 a p b, ps = p0 :: a ++ p :: b /\ Forall (fun q => type_name q = type_name p0) a /\
     type_name p <> type_name p0 /\
     parse_list_from_vec ps = Err (HeterogeneousList (type_name p0) (type_name p) (S (length a)))).
Proof.
  unfold parse_list_from_vec. destruct ps as [|p0 ps]; cbn [check_items].
  - left. split; auto. intros a b [].
  - pose proof (check_items_some (type_name p0) 1 ps) as H.
    destruct (check_items (Some (type_name p0)) 1 ps) as [e|].
    + right. destruct H as (a & p & b & -> & A & B & ->). exists p0, a, p, b. repeat split; auto.
    + left. split; auto.
      assert (G : forall v, In v (map to_value (p0 :: ps)) -> kind_name v = type_name p0).
      { intros v Hv. apply in_map_iff in Hv as (q & <- & [<-|Hq]); rewrite <- type_name_kind; auto.
        rewrite Forall_forall in H. auto. }
      intros x y Hx Hy. rewrite (G x Hx), (G y Hy). reflexivity.
Qed.

Lemma from_node_list env path raw items :
  from_node env path (VNode (Some KList) raw items) = obind (omap (from_node env path) items) parse_list_from_vec.
Proof. reflexivity. Qed.

Lemma written_list env o vs : written env o (VList vs) = VNode (Some KList) (generate_value env o (VList vs)) (map (written env o) vs).
Proof. reflexivity. Qed.

Lemma list_survives env o path vs : survives env o path (VList vs) <-> Forall (survives env o path) vs /\ homogeneous vs.
Proof.
  unfold survives at 1, read_back. rewrite written_list, from_node_list. split.
  - intros H. apply obind_ok in H as (p & H & [= E]). apply obind_ok in H as (ps & H & L).
    apply omap_ok in H.
    destruct (list_cases ps) as [[LL HH]|(p0 & a & q & b & _ & _ & _ & LL)]; rewrite LL in L; [|discriminate].
    injection L as <-. cbn [to_value] in E. injection E as E. rewrite E in HH. split; auto.
    clear - H E. revert ps H E. induction vs as [|v vs IH]; intros ps H E; [constructor|].
    cbn [map] in H. inversion H as [|? p ? ps' A B]; subst. cbn [map] in E. injection E as E1 E2.
    constructor; [|eapply IH; eauto]. unfold survives, read_back. rewrite A. cbn [obind]. rewrite E1. reflexivity.
  - intros [H HH].
    assert (G : exists ps, omap (from_node env path) (map (written env o) vs) = Ok ps /\ map to_value ps = vs).
    { clear HH. induction H as [|v vs A _ (ps & P & Q)]; [exists []; auto|].
      unfold survives, read_back in A. apply obind_ok in A as (p & A & [= E]).
      exists (p :: ps). cbn [map]. rewrite omap_cons, A. cbn [obind]. rewrite P. cbn [obind map]. rewrite E, Q. auto. }
    destruct G as (ps & P & Q). rewrite P. cbn [obind].
    destruct (list_cases ps) as [[LL _]|(p0 & a & q & b & E & _ & D & _)].
    + rewrite LL. cbn [obind to_value]. rewrite Q. reflexivity.
    + exfalso. apply D. rewrite !type_name_kind. apply HH; rewrite <- Q, E; cbn [map]; rewrite ?map_app; cbn; auto.
      right. apply in_app_iff. cbn; auto.
Qed.

(** ** Entities *)
Lemma fields_survive env o path (fs : list (field_id * value)) :
  omap (convert_field env path)
    (map (fun fv => {| fn_id := Some (fst fv); fn_value := Some (written env o (snd fv)) |}) fs) = Ok fs
  <-> Forall (fun fv => survives env o path (snd fv)) fs.
Proof.
  induction fs as [|[f v] fs IH]; cbn [map].
  - split; [constructor|reflexivity].
  - rewrite omap_cons. unfold convert_field at 1, field_value. cbn [fn_id fn_value of_option obind fst snd].
    split.
    + intros H. apply obind_ok in H as (fv & A & H). apply obind_ok in H as (r & B & [= -> ->]).
      apply obind_ok in A as (p & A & [= E]). constructor.
      * cbn [snd]. unfold survives, read_back. destruct (from_node env path (written env o v)); try discriminate.
        cbn in A. injection A as ->. cbn [obind]. rewrite E. reflexivity.
      * apply IH. exact B.
    + intros H. inversion H as [|? ? A B]; subst. cbn [snd] in A. unfold survives, read_back in A.
      apply obind_ok in A as (p & A & [= E]). rewrite A. cbn [omap_err obind]. rewrite E.
      apply IH in B. rewrite B. reflexivity.
Qed.

Lemma entity_survives env o path e :
  to_entity env path (written_entity env o e) = Ok e <->
  lower (e_type e) = e_type e /\ compose_entity_id (e_type e) (snd (decompose_entity_id (e_id e))) = e_id e /\
  Forall (fun fv => survives env o path (snd fv)) (e_fields e).
Proof.
  unfold to_entity, written_entity. cbn [en_type en_id en_fields of_option obind]. split.
  - intros H. apply obind_ok in H as (fs & H & [= E]). destruct e as [id t fs']. cbn in *.
    injection E as E1 E2 E3. subst fs'. rewrite E2 in E1. repeat split; auto. apply fields_survive in H. exact H.
  - intros (A & B & C). apply fields_survive in C. rewrite C. cbn [obind]. rewrite A, B. destruct e; reflexivity.
Qed.

(** ** Floats *)
Definition read_unsigned (neg : bool) (s : str) : option f64 :=
  match split_once "."%char s with
  | None => option_map (fun n => f_of_ratio neg (Z.of_N n) 1) (parse_N s)
  | Some (a, b) =>
      match parse_N (a ++ b), a, b with
      | Some n, _ :: _, _ :: _ => Some (f_of_ratio neg (Z.of_N n) (Pos.of_nat 10 ^ Pos.of_nat (length b)))
      | _, _, _ => None
      end
  end.
Lemma parse_f64_sign s : (exists s', s = "-"%char :: s' /\ forall r, parse_f64 (s ++ r) = read_unsigned true (s' ++ r)) \/
  (s <> [] -> forall r, parse_f64 (s ++ r) = read_unsigned false (s ++ r)).
Proof.
  destruct s as [|c s]; [right; congruence|].
  destruct (Ascii.ascii_dec c "-") as [->|N]; [left; exists s; split; auto|].
  right. intros _ r. unfold parse_f64. cbn [app].
  destruct c as [[] [] [] [] [] [] [] []]; try reflexivity. congruence.
Qed.

Lemma read_unsigned_point neg s f : ~ In "."%char s -> read_unsigned neg s = Some f ->
  read_unsigned neg (s ++ L ".0") = Some f.
Proof.
  intros N. unfold read_unsigned. rewrite (proj2 (split_once_none _ _)) by auto.
  change (L ".0") with ("."%char :: L "0"). rewrite split_once_app by auto.
  destruct (parse_N s) as [n|] eqn:P; [|discriminate]. cbn [option_map]. intros [= <-].
  assert (NE : s <> []) by (intros ->; discriminate).
  assert (D : digits_val 0 s = Some n) by (destruct s; auto; congruence).
  assert (DD : forallb is_digit s = true).
  { revert D. generalize 0%N. clear. induction s as [|c s IH]; intros m; cbn; auto.
    destruct (is_digit c); [|discriminate]. cbn. apply IH. }
  rewrite (parse_N_val (s ++ L "0") (n * 10)%N).
  - destruct s as [|c s]; [congruence|]. cbn [list_ascii_of_string length].
    change (Pos.of_nat 10 ^ Pos.of_nat 1)%positive with 10%positive. f_equal.
    destruct n as [|p]; [reflexivity|]. change (Z.of_N (N.pos p * 10)) with (Zpos (p * 10)). cbn [Z.of_N].
    apply ratio_value. lia.
  - destruct s; discriminate.
  - rewrite digits_val_app by auto. rewrite D.
    change (digits_val n (L "0")) with (Some (n * 10 + 0)%N). rewrite N.add_0_r. reflexivity.
Qed.

Lemma float_survives env f : parse_f64 (show_f64 env f) = Some f -> parse_number (generate_float env f) = Ok (PFloat f).
Proof.
  intros H. unfold parse_number, generate_float. set (t := show_f64 env f) in *.
  change (L ".") with ["."%char]. destruct (contains t ["."%char]) eqn:C.
  - rewrite C, H. reflexivity.
  - rewrite (proj2 (contains_char (t ++ L ".0") "."%char)) by (apply in_app_iff; cbn; auto).
    apply contains_char_false in C.
    assert (P : parse_f64 (t ++ L ".0") = Some f).
    { destruct (parse_f64_sign t) as [(s' & E & S)|S].
      - rewrite S. apply read_unsigned_point.
        + rewrite E in C. intros X. apply C. right. exact X.
        + rewrite <- (app_nil_r s'), <- S, app_nil_r. exact H.
      - assert (NE : t <> []) by (intros E; rewrite E in H; discriminate).
        rewrite S by auto. apply read_unsigned_point; auto. rewrite <- (app_nil_r t), <- S, app_nil_r by auto. exact H. }
    rewrite P. reflexivity.
Qed.

(** ** Zones *)
Definition zone_digits (h : Z) : str := if Z.ltb 0 h then "+"%char :: show_Z h else show_Z h.
Lemma zone_parse h : in_i32 h = true -> parse_i32 (zone_digits h) = Some h /\ zone_digits h <> [].
Proof.
  intros R. assert (RR := R). unfold in_i32 in RR. rewrite andb_true_iff, Z.leb_le, Z.ltb_lt in RR.
  assert (I : in_i64 h = true) by (unfold in_i64, i64_min, i64_max; apply andb_true_iff; rewrite !Z.leb_le; lia).
  split.
  - unfold parse_i32, zone_digits. destruct (Z.ltb_spec 0 h).
    + rewrite parse_plus_Z by auto. rewrite R. reflexivity.
    + rewrite parse_show_Z by auto. rewrite R. reflexivity.
  - unfold zone_digits. destruct (Z.ltb 0 h); [discriminate|]. unfold show_Z. destruct h; try apply show_N_nonnil. discriminate.
Qed.
Lemma zone_offset env h : (Z.abs h <= 596523)%Z ->
  parse_utc_offset env (zone_digits h) = of_option (InvalidTimezone (zone_digits h)) (east_opt (h * 3600)).
Proof.
  intros H. assert (R : in_i32 h = true) by (unfold in_i32; apply andb_true_iff; rewrite Z.leb_le, Z.ltb_lt; lia).
  destruct (zone_parse h R) as [P N]. unfold parse_utc_offset. destruct (zone_digits h) as [|c s]; [congruence|].
  rewrite P. unfold mul_i32. replace (in_i32 (h * 3600)) with true; [reflexivity|].
  symmetry. unfold in_i32. apply andb_true_iff. rewrite Z.leb_le, Z.ltb_lt. lia.
Qed.
Lemma zone_ok env h : (-24 < h < 24)%Z -> parse_utc_offset env (zone_digits h) = Ok (h * 3600)%Z.
Proof.
  intros H. rewrite zone_offset by lia. unfold east_opt.
  replace ((-86400 <? h * 3600)%Z && (h * 3600 <? 86400)%Z) with true; [reflexivity|].
  symmetry. apply andb_true_iff. rewrite !Z.ltb_lt. lia.
Qed.
Lemma zone_bad env h : (24 <= Z.abs h <= 596523)%Z ->
  parse_utc_offset env (zone_digits h) = Err (InvalidTimezone (zone_digits h)).
Proof.
  intros H. rewrite zone_offset by lia. unfold east_opt.
  replace ((-86400 <? h * 3600)%Z && (h * 3600 <? 86400)%Z) with false; [reflexivity|].
  symmetry. apply andb_false_iff. rewrite !Z.ltb_ge. lia.
Qed.
