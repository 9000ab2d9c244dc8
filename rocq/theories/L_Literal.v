(** How the literals of the documented syntax are read. *)
From Coq Require Import Lia ZArith.
From Verif Require Import M_Float S_Round S_Nearest L_Nearest L_Amount L_Amount2 L_Str L_Num L_Text L_DslStr.
From Verif Require Import M_Graph M_Text M_Num M_Time M_Dsl S_Dsl L_DslVal S_Syntax L_Server L_Load L_Syntax S_Whole L_Whole S_Literal.
Close Scope Z_scope.

(** ** Numbers *)
Lemma ratio_sign neg n den : (0 <= n)%Z -> negative (f_of_ratio neg n den) = neg.
Proof.
  intros N. pose proof (ratio_nearest neg n den N) as H.
  assert (C : f_of_ratio neg n den = S754_nan \/ negative (f_of_ratio neg n den) = neg).
  { destruct n as [|p|p]; [now right| |lia]. unfold f_of_ratio. destruct (SFdiv_core_binary fprec femax (Zpos p) 0 (Zpos den) 0) as [[q e] l].
    unfold binary_round_aux. destruct (shr_fexp fprec femax q e l) as [m1 e1].
    destruct (shr_fexp fprec femax (round_nearest_even (shr_m m1) (loc_of_shr_record m1)) e1 loc_Exact) as [m2 e2].
    destruct (shr_m m2); [now right| |now left]. destruct (Z.leb e2 (femax - fprec)); now right. }
  destruct C as [C|C]; [|exact C]. rewrite C in H. unfold nearest_double in H.
  destruct (Z.abs (if neg then - n else n) <? f64_limit * Zpos den)%Z; [|discriminate]. destruct H as [[_ H] _]. discriminate.
Qed.
Lemma numeral_nonneg s n : numeral s n -> (0 <= n)%Z.
Proof. intros H. apply numeral_iff in H as (k & _ & ->). lia. Qed.
Lemma numeral_exists s : s <> [] -> Forall (fun c => is_digit c = true) s -> exists n, numeral s n.
Proof.
  intros N D. destruct (digits_val_digits s 0%N D) as (k & K). exists (Z.of_N k). apply numeral_iff. exists k. split; [now apply parse_N_val|reflexivity].
Qed.
Lemma some_digits n s : 0 < n -> digits_syntax n s -> s <> [] /\ Forall (fun c => is_digit c = true) s.
Proof. intros P [E D]. split; [destruct s; [cbn in E; lia|discriminate]|exact D]. Qed.
Lemma number_read s : number_syntax s -> exists neg n k, number_literal s neg n k.
Proof.
  intros (sg & a & rest & -> & Sg & (na & Pa & Da) & R). apply some_digits in Da as [Na Da]; [|exact Pa].
  assert (X : exists neg, forall t, sg ++ t = signed neg t) by (destruct Sg as [-> | ->]; [exists false|exists true]; reflexivity). destruct X as (neg & X). rewrite X.
  destruct R as [->|(b & nb & -> & Pb & Db)].
  - rewrite app_nil_r. destruct (numeral_exists a Na Da) as (n & H). exists neg, n, 0. now constructor.
  - apply some_digits in Db as [Nb Db]; [|exact Pb]. destruct (numeral_exists (a ++ b)) as (n & H); [destruct a; [congruence|discriminate]|apply Forall_app; auto|].
    exists neg, n, (length b). now constructor.
Qed.
Lemma signed_match X neg s (a b : str -> X) : (forall r, s <> "-"%char :: r) ->
  match signed neg s with "-"%char :: s' => a s' | _ => b (signed neg s) end = if neg then a s else b s.
Proof.
  intros N. destruct neg; [reflexivity|]. cbn [signed]. destruct s as [|c r]; [reflexivity|].
  destruct (Ascii.eqb_spec c "-"%char) as [->|X']; [now destruct (N r)|]. destruct c as [[] [] [] [] [] [] [] []]; try reflexivity; congruence.
Qed.
Lemma digits_no_minus s t : s <> [] -> Forall (fun c => is_digit c = true) s -> forall r, s ++ t <> "-"%char :: r.
Proof. intros N D r E. destruct s as [|c s]; [congruence|]. injection E as -> _. inversion D; discriminate. Qed.
Ltac unsign s NM := match goal with |- context [signed ?neg _] =>
  let E := fresh in pose proof (signed_match (bool * str) neg s (fun s0 => (true, s0)) (fun s0 => (false, s0)) NM) as E; cbv beta in E; unfold str in E |- *; rewrite E; clear E end.
Definition places (k : nat) : positive := Z.to_pos (10 ^ Z.of_nat k).
Lemma places_is k : Zpos (places k) = pow10 k.
Proof. unfold places. rewrite Z2Pos.id by (apply Z.pow_pos_nonneg; lia). unfold pow10. reflexivity. Qed.

Lemma parts_digits a b n : a <> [] -> numeral (a ++ b) n -> Forall (fun c => is_digit c = true) a /\ Forall (fun c => is_digit c = true) b.
Proof. intros _ H. apply numeral_digits in H as [_ H]. now apply Forall_app in H. Qed.
Lemma number_float t neg n k : number_literal t neg n k -> parse_f64 t = Some (f_of_ratio neg n (places k)).
Proof.
  intros H. destruct H as [neg a n H|neg a b n Na Nb H]; unfold parse_f64.
  - pose proof (numeral_digits a n H) as [NE D]. apply numeral_iff in H as (m & P & ->).
    pose proof (digits_no_minus a [] NE D) as NM. rewrite app_nil_r in NM. unsign a NM.
    assert (S1 : split_once "." a = None) by (apply split_once_digits_none, forallb_forall, Forall_forall; exact D).
    destruct neg; rewrite S1, P; reflexivity.
  - destruct (parts_digits a b n Na H) as [Da Db]. apply numeral_iff in H as (m & P & ->).
    pose proof (digits_no_minus a (L "." ++ b) Na Da) as NM. unsign (a ++ L "." ++ b) NM.
    assert (S1 : split_once "." (a ++ L "." ++ b) = Some (a, b)) by (apply split_once_digits, forallb_forall, Forall_forall; exact Da).
    assert (PL : (Pos.of_nat 10 ^ Pos.of_nat (length b))%positive = places (length b)).
    { apply Pos2Z.inj. rewrite places_is. rewrite <- (den_scale (length b)). destruct b; [congruence|]. reflexivity. }
    destruct a as [|a0 a]; [congruence|]. destruct b as [|b0 b]; [congruence|]. destruct neg; rewrite S1, P, PL; reflexivity.
Qed.
Lemma number_dec t neg n k : number_literal t neg n k ->
  parse_dec t = if (n <? dec_limit)%Z && (k <=? 28) then Some {| d_mant := with_sign neg n; d_scale := k |} else None.
Proof.
  intros H. destruct H as [neg a n H|neg a b n Na Nb H]; unfold parse_dec.
  - pose proof (numeral_digits a n H) as [NE D]. apply numeral_iff in H as (m & P & ->).
    pose proof (digits_no_minus a [] NE D) as NM. rewrite app_nil_r in NM. unsign a NM.
    assert (S1 : split_once "." a = None) by (apply split_once_digits_none, forallb_forall, Forall_forall; exact D).
    destruct neg; rewrite S1, P; reflexivity.
  - destruct (parts_digits a b n Na H) as [Da Db]. apply numeral_iff in H as (m & P & ->).
    pose proof (digits_no_minus a (L "." ++ b) Na Da) as NM. unsign (a ++ L "." ++ b) NM.
    assert (S1 : split_once "." (a ++ L "." ++ b) = Some (a, b)) by (apply split_once_digits, forallb_forall, Forall_forall; exact Da).
    destruct a as [|a0 a]; [congruence|]. destruct b as [|b0 b]; [congruence|]. destruct neg; rewrite S1, P; reflexivity.
Qed.
Lemma signed_in c neg s : c <> "-"%char -> (In c (signed neg s) <-> In c s).
Proof. intros N. destruct neg; [|reflexivity]. split; [intros [X|X]; [congruence|exact X]|intros X; now right]. Qed.
Lemma number_whole t neg n k : number_literal t neg n k ->
  parse_number t = if k =? 0 then if in_i64 (with_sign neg n) then Ok (PInt (with_sign neg n)) else Err (InvalidInteger t)
                   else Ok (PFloat (f_of_ratio neg n (places k))).
Proof.
  intros H. pose proof (number_float _ _ _ _ H) as F. destruct H as [neg a n H|neg a b n Na Nb H].
  - cbn [Nat.eqb]. apply integer_reads. destruct neg; [right|left; exact H]. exists a. split; [reflexivity|]. cbn [with_sign]. now rewrite Z.opp_involutive.
  - destruct b as [|b0 b]; [congruence|]. cbn [length Nat.eqb]. unfold parse_number.
    assert (C : contains (signed neg (a ++ L "." ++ b0 :: b)) (L ".") = true).
    { destruct (contains (signed neg (a ++ L "." ++ b0 :: b)) (L ".")) eqn:C; [reflexivity|exfalso]. apply contains_char_false in C. apply C.
      apply signed_in; [discriminate|]. apply in_or_app. right. now left. }
    rewrite C, F. reflexivity.
Qed.
Lemma number_no_space t neg n k : number_literal t neg n k -> ~ In " "%char t.
Proof.
  assert (X : forall s, Forall (fun c => is_digit c = true) s -> ~ In " "%char s) by (intros s F I; rewrite Forall_forall in F; apply F in I; discriminate).
  intros H. destruct H as [neg a n H|neg a b n Na Nb H]; rewrite signed_in by discriminate.
  - apply numeral_digits in H. apply X, H.
  - destruct (parts_digits a b n Na H) as [Da Db]. rewrite in_app_iff. intros [I|I]; [exact (X _ Da I)|]. destruct I as [I|I]; [discriminate|exact (X _ Db I)].
Qed.

(** ** Dates and times *)
Lemma numeral_val s n : numeral s n -> exists k, digits_val 0 s = Some k /\ n = Z.of_N k /\ forallb is_digit s = true.
Proof.
  intros H. pose proof (numeral_digits s n H) as [N D]. apply numeral_iff in H as (k & P & ->). exists k. split; [|split; [reflexivity|]].
  - unfold parse_N in P. destruct s; [congruence|exact P].
  - apply forallb_forall, Forall_forall, D.
Qed.
Lemma expect_is c s : expect c (c :: s) = Some s.
Proof. unfold expect. now rewrite Ascii.eqb_refl. Qed.
Lemma day_text ys ms ds y m d : length ys = 4 -> length ms = 2 -> length ds = 2 -> numeral ys y -> numeral ms m -> numeral ds d ->
  parse_naive_date (ys ++ L "-" ++ ms ++ L "-" ++ ds) = if valid_civil y m d then Some (days_of_civil y m d) else None.
Proof.
  intros Ly Lm Ld Y M D. apply numeral_val in Y as (y' & Vy & -> & Fy), M as (m' & Vm & -> & Fm), D as (d' & Vd & -> & Fd).
  unfold parse_naive_date, take_date. rewrite (take_digits_app 4 ys) by assumption. rewrite Vy.
  change (L "-" ++ ms ++ L "-" ++ ds) with ("-"%char :: (ms ++ L "-" ++ ds)). rewrite expect_is, (take_digits_app 2 ms) by assumption. rewrite Vm.
  change (L "-" ++ ds) with ("-"%char :: ds). rewrite expect_is. rewrite <- (app_nil_r ds), (take_digits_app 2 ds) by assumption. rewrite Vd.
  destruct (valid_civil (Z.of_N y') (Z.of_N m') (Z.of_N d')); reflexivity.
Qed.
Lemma day_read s day : day_literal s day -> parse_naive_date s = Some day.
Proof. intros (ys & ms & ds & y & m & d & -> & Ly & Lm & Ld & Y & M & D & V & ->). rewrite (day_text ys ms ds y m d) by assumption. now rewrite V. Qed.
Lemma day_only s day : date_syntax s -> parse_naive_date s = Some day -> day_literal s day.
Proof.
  intros (ys & ms & ds & -> & Y & M & D) P. destruct (numeral_exists ys) as (y & Ny); [apply (some_digits 4); [lia|exact Y]|apply Y|].
  destruct (numeral_exists ms) as (m & Nm); [apply (some_digits 2); [lia|exact M]|apply M|]. destruct (numeral_exists ds) as (d & Nd); [apply (some_digits 2); [lia|exact D]|apply D|].
  rewrite (day_text ys ms ds y m d) in P by (try apply Y; try apply M; try apply D; assumption). destruct (valid_civil y m d) eqn:V; [|discriminate]. injection P as <-.
  exists ys, ms, ds, y, m, d. destruct Y, M, D. auto 12.
Qed.
Lemma two_digits hs h r : length hs <= 2 -> numeral hs h -> (forall c t, r = c :: t -> is_digit c = false) -> take_two (hs ++ r) = Some (Z.to_N h, r).
Proof.
  intros Ln H R. pose proof (numeral_digits hs h H) as [NE _]. apply numeral_val in H as (k & V & -> & F). rewrite N2Z.id. destruct hs as [|a [|b [|c hs]]]; [congruence| | |cbn [length] in Ln; lia].
  - cbn [forallb] in F. rewrite andb_true_r in F. cbn [digits_val] in V. rewrite F in V. injection V as <-. unfold take_two. cbn [app]. rewrite F. destruct r as [|c t]; [try reflexivity; do 2 f_equal; lia|]. rewrite (R c t eq_refl). try reflexivity; do 2 f_equal; lia.
  - cbn [forallb] in F. apply andb_true_iff in F as [F1 F2]. rewrite andb_true_r in F2. cbn [digits_val] in V. rewrite F1, F2 in V. injection V as <-. unfold take_two. cbn [app]. rewrite F1, F2. try reflexivity; do 2 f_equal; lia.
Qed.
Lemma time_text hs ms h m : length hs <= 2 -> length ms = 2 -> numeral hs h -> numeral ms m ->
  parse_hm (hs ++ L ":" ++ ms) = if ((h <? 24) && (m <? 60))%Z then Some (h * 3600 + m * 60)%Z else None.
Proof.
  intros Lh Lm H M. pose proof (numeral_nonneg _ _ H). pose proof (numeral_nonneg _ _ M). unfold parse_hm.
  rewrite (two_digits hs h) by (try assumption; intros c t E; injection E as <- _; reflexivity). change (L ":" ++ ms) with (":"%char :: ms). rewrite expect_is.
  rewrite <- (app_nil_r ms), (two_digits ms m) by (try assumption; try lia; discriminate).
  replace (Z.to_N h <? 24)%N with (h <? 24)%Z by (destruct (Z.ltb_spec h 24), (N.ltb_spec (Z.to_N h) 24); lia).
  replace (Z.to_N m <? 60)%N with (m <? 60)%Z by (destruct (Z.ltb_spec m 60), (N.ltb_spec (Z.to_N m) 60); lia).
  destruct ((h <? 24)%Z && (m <? 60)%Z); [|reflexivity]. f_equal. lia.
Qed.
Lemma time_read s secs : time_literal s secs -> parse_hm s = Some secs.
Proof.
  intros (hs & ms & h & m & -> & Lh & Lm & H & M & A & B & ->). rewrite (time_text hs ms h m) by assumption.
  apply Z.ltb_lt in A, B. now rewrite A, B.
Qed.
Lemma time_only s secs : time_syntax s -> parse_hm s = Some secs -> time_literal s secs.
Proof.
  intros (hs & ms & -> & H & M) P. destruct (numeral_exists hs) as (h & Nh); [destruct H as [H|H]; eapply some_digits, H; lia|destruct H as [H|H]; apply H|].
  destruct (numeral_exists ms) as (m & Nm); [eapply some_digits, M; lia|apply M|].
  assert (length hs <= 2) by (destruct H as [[H _]|[H _]]; lia). destruct M as [Lm _].
  rewrite (time_text hs ms h m) in P by assumption. destruct (h <? 24)%Z eqn:A; [|discriminate]. destruct (m <? 60)%Z eqn:B; [|discriminate]. injection P as <-.
  apply Z.ltb_lt in A, B. exists hs, ms, h, m. auto 10.
Qed.

Lemma time_no c s secs : time_literal s secs -> is_digit c = false -> c <> ":"%char -> ~ In c s.
Proof.
  intros (hs & ms & h & m & -> & _ & _ & H & M & _) D N. apply numeral_digits in H as [_ H], M as [_ M]. rewrite Forall_forall in H, M.
  rewrite !in_app_iff. intros [I|[[I|[]]|I]]; [apply H in I|exact (N (eq_sym I))|apply M in I]; congruence.
Qed.
Lemma syntax_no c hs ms : (exists n, digits_syntax n hs) -> (exists n, digits_syntax n ms) -> is_digit c = false -> c <> ":"%char -> ~ In c (hs ++ L ":" ++ ms).
Proof.
  intros (n & _ & H) (n' & _ & M) D N. rewrite Forall_forall in H, M.
  rewrite !in_app_iff. intros [I|[[I|[]]|I]]; [apply H in I|exact (N (eq_sym I))|apply M in I]; congruence.
Qed.
Lemma time_syntax_no c s : time_syntax s -> is_digit c = false -> c <> ":"%char -> ~ In c s.
Proof. intros (hs & ms & -> & H & M). apply syntax_no; [destruct H; eauto|eauto]. Qed.
Lemma date_syntax_no c s : date_syntax s -> is_digit c = false -> c <> "-"%char -> ~ In c s.
Proof.
  intros (ys & ms & ds & -> & [_ Y] & [_ M] & [_ D]) Dc N. rewrite Forall_forall in Y, M, D. rewrite !in_app_iff.
  intros [I|[[I|[]]|[I|[[I|[]]|I]]]]; try exact (N (eq_sym I)); [apply Y in I|apply M in I|apply D in I]; congruence.
Qed.
Lemma numeral_syntax s n : numeral s n -> digits_syntax (length s) s.
Proof. intros H. split; [reflexivity|]. apply numeral_digits in H. apply H. Qed.
Lemma day_syntax s day : day_literal s day -> date_syntax s.
Proof.
  intros (ys & ms & ds & y & m & d & -> & Ly & Lm & Ld & Y & M & D & _). exists ys, ms, ds. split; [reflexivity|].
  apply numeral_syntax in Y, M, D. rewrite Ly in Y. rewrite Lm in M. rewrite Ld in D. auto.
Qed.
Lemma clock_syntax s secs : time_literal s secs -> time_syntax s.
Proof.
  intros (hs & ms & h & m & -> & Lh & Lm & H & M & _). exists hs, ms. split; [reflexivity|].
  pose proof (numeral_digits hs h H) as [N _]. apply numeral_syntax in H, M. rewrite Lm in M. split; [|exact M].
  destruct hs as [|a [|b [|c hs]]]; [congruence|now left|now right|cbn [length] in Lh; lia].
Qed.
Lemma local_read env s t : date_syntax s -> time_syntax t -> parse_datetime env (s ++ L " at " ++ t) =
  match parse_naive_date s with
  | None => Err (InvalidDateTime (s ++ L " at " ++ t))
  | Some day => match parse_hm t with None => Err (InvalidDateTime (s ++ L " at " ++ t))
                | Some secs => Ok (PDate {| dt_local := (day * 86400 + secs)%Z; dt_nanos := 0; dt_off := local_offset env |}) end
  end.
Proof.
  intros D T. unfold parse_datetime. assert (ST : ~ In " "%char t) by (apply time_syntax_no; [exact T|reflexivity|discriminate]).
  replace (split_str (L " at ") (s ++ L " at " ++ t)) with [s; t].
  - destruct (parse_naive_date s); [|reflexivity]. destruct (contains t (L " UTC")) eqn:C; [exfalso; apply (contains_all _ _ " "%char) in C; [exact (ST C)|now left]|].
    cbn [obind]. reflexivity.
  - symmetry. change (L " at ") with (" "%char :: L "at "). rewrite split_str_head by (apply date_syntax_no; [exact D|reflexivity|discriminate]).
    rewrite split_str_free; [reflexivity|discriminate|]. destruct (contains t (" "%char :: L "at ")) eqn:C; [exfalso; apply (contains_all _ _ " "%char) in C; [exact (ST C)|now left]|reflexivity].
Qed.
Lemma zoned_read env s t z : date_syntax s -> time_syntax t -> ~ In " "%char z -> parse_datetime env (s ++ L " at " ++ t ++ L " UTC" ++ z) =
  match parse_naive_date s with
  | None => Err (InvalidDateTime (s ++ L " at " ++ t ++ L " UTC" ++ z))
  | Some day => obind (parse_utc_offset env z) (fun o => match parse_hm t with None => Err (InvalidDateTime (s ++ L " at " ++ t ++ L " UTC" ++ z))
                | Some secs => Ok (PDate {| dt_local := (day * 86400 + secs)%Z; dt_nanos := 0; dt_off := o |}) end)
  end.
Proof.
  intros D T Z. unfold parse_datetime. assert (ST : forall c, is_digit c = false -> c <> ":"%char -> ~ In c t) by (intros; now apply time_syntax_no).
  set (u := t ++ L " UTC" ++ z). replace (split_str (L " at ") (s ++ L " at " ++ u)) with [s; u].
  - destruct (parse_naive_date s); [|reflexivity]. replace (contains u (L " UTC")) with true by (symmetry; apply contains_spec; exists t, z; reflexivity).
    replace (split_str (L " UTC") u) with [t; z]; [destruct (parse_utc_offset env z); reflexivity|].
    symmetry. unfold u. change (L " UTC") with (" "%char :: L "UTC"). rewrite split_str_head by (apply ST; [reflexivity|discriminate]).
    rewrite split_str_free; [reflexivity|discriminate|]. destruct (contains z (" "%char :: L "UTC")) eqn:C; [exfalso; apply (contains_all _ _ " "%char) in C; [exact (Z C)|now left]|reflexivity].
  - symmetry. change (L " at ") with (" "%char :: L "at "). rewrite split_str_head by (apply date_syntax_no; [exact D|reflexivity|discriminate]).
    rewrite split_str_free; [reflexivity|discriminate|]. destruct (contains u (" "%char :: L "at ")) eqn:C; [exfalso|reflexivity].
    apply contains_spec in C as (a & b & E). unfold u in E.
    assert (Q : In " "%char t \/ a = t /\ L " UTC" ++ z = L " at " ++ b \/ In " "%char z).
    { clear - E. revert a E. induction t as [|c t IH]; intros a E.
      - destruct a as [|x a]; [right; left; now split|]. cbn [app] in E. injection E as <- E.
        right. right. assert (In " "%char (L "UTC" ++ z)) by (change (L "UTC" ++ z = a ++ " "%char :: (L "at " ++ b)) in E; rewrite E; apply in_or_app; right; now left).
        destruct H as [H|[H|[H|H]]]; try discriminate. exact H.
      - destruct a as [|x a]; [injection E as -> _; left; now left|]. injection E as <- E. destruct (IH a E) as [H|[[H1 H2]|H]]; [left; now right|right; left; subst; auto|right; now right]. }
    destruct Q as [Q|[[_ Q]|Q]]; [apply (ST " "%char); [reflexivity|discriminate|exact Q]|discriminate Q|exact (Z Q)].
Qed.
Lemma zone_hours env (neg : bool) ds n : numeral ds n -> let h := with_sign neg n in
  parse_utc_offset env (L (if neg then "-" else "+") ++ ds) =
  if in_i32 h then obind (mul_i32 (overflow_checks env) h 3600) (fun secs => of_option (InvalidTimezone (L (if neg then "-" else "+") ++ ds)) (east_opt secs))
  else Err (InvalidTimezone (L (if neg then "-" else "+") ++ ds)).
Proof.
  intros H h. apply numeral_iff in H as (k & P & ->).
  assert (I : parse_i32 (L (if neg then "-" else "+") ++ ds) = if in_i32 h then Some h else None).
  { assert (X : parse_i64 (L (if neg then "-" else "+") ++ ds) = if in_i64 h then Some h else None) by (destruct neg; unfold parse_i64; cbn [L list_ascii_of_string app]; rewrite P; reflexivity).
    unfold parse_i32. rewrite X. destruct (in_i32 h) eqn:A; destruct (in_i64 h) eqn:B; rewrite ?A; try reflexivity. exfalso.
    unfold in_i32 in A. unfold in_i64, i64_min, i64_max in B. apply andb_true_iff in A as [A1 A2]. apply andb_false_iff in B. rewrite Z.leb_le in A1. rewrite Z.ltb_lt in A2. rewrite !Z.leb_gt in B. lia. }
  unfold parse_utc_offset. destruct (L (if neg then "-" else "+") ++ ds) eqn:E; [destruct neg; discriminate|]. rewrite I. destruct (in_i32 h); reflexivity.
Qed.
Lemma zone_read env z east : zone_literal (overflow_checks env) z east -> exists w, z = L "UTC" ++ w /\ parse_utc_offset env w = Ok east /\ ~ In " "%char w.
Proof.
  intros [[-> ->]|(neg & ds & n & -> & N & R & B & C)]; [exists []; auto|]. exists (L (if neg then "-" else "+") ++ ds). split; [reflexivity|].
  assert (NS : ~ In " "%char (L (if neg then "-" else "+") ++ ds)).
  { apply numeral_digits in N as [_ N]. rewrite Forall_forall in N. intros I. apply in_app_or in I as [I|I]; [destruct neg; destruct I as [I|[]]; discriminate|apply N in I; discriminate]. }
  split; [|exact NS]. rewrite (zone_hours env neg ds n N). set (h := with_sign neg n) in *. clearbody h.
  replace (in_i32 h) with true by (symmetry; unfold in_i32; apply andb_true_iff; rewrite Z.leb_le, Z.ltb_lt; lia).
  assert (E : east_opt east = Some east) by (unfold east_opt; replace ((- 86400 <? east) && (east <? 86400))%Z with true; [reflexivity|]; symmetry; apply andb_true_iff; rewrite !Z.ltb_lt; lia).
  unfold mul_i32. destruct (overflow_checks env).
  - subst east. replace (in_i32 (h * 3600)) with true by (symmetry; unfold in_i32; apply andb_true_iff; rewrite Z.leb_le, Z.ltb_lt; lia). cbn [obind]. rewrite E. reflexivity.
  - destruct C as (j & C). destruct (in_i32 (h * 3600)) eqn:I.
    + unfold in_i32 in I. apply andb_true_iff in I as [I1 I2]. rewrite Z.leb_le in I1. rewrite Z.ltb_lt in I2. cbn [obind]. replace (h * 3600)%Z with east by lia. rewrite E. reflexivity.
    + replace (wrap_i32 (h * 3600)) with east; [cbn [obind]; rewrite E; reflexivity|]. unfold wrap_i32.
      replace (h * 3600 + 2 ^ 31)%Z with (east + 2 ^ 31 + (- j) * 2 ^ 32)%Z by lia. rewrite Z.mod_add by lia. rewrite Z.mod_small by lia. lia.
Qed.
Lemma zone_only env z east w : zone_syntax z -> z = L "UTC" ++ w -> parse_utc_offset env w = Ok east -> zone_literal (overflow_checks env) z east.
Proof.
  intros ZS E P. destruct ZS as [->|(sg & ds & n & -> & Sg & Pn & D)].
  - apply (app_inv_head (L "UTC") [] w) in E. subst w. injection P as <-. now left.
  - apply app_inv_head in E. subst w. right. apply some_digits in D as [N D]; [|exact Pn]. destruct (numeral_exists ds N D) as (k & K).
    assert (X : exists neg : bool, sg = L (if neg then "-" else "+")) by (destruct Sg as [-> | ->]; [now exists false|now exists true]). destruct X as (neg & ->).
    exists neg, ds, k. split; [reflexivity|]. split; [exact K|]. rewrite (zone_hours env neg ds k K) in P. set (h := with_sign neg k) in *. clearbody h.
    destruct (in_i32 h) eqn:I; [|discriminate]. unfold in_i32 in I. apply andb_true_iff in I as [I1 I2]. rewrite Z.leb_le in I1. rewrite Z.ltb_lt in I2. split; [lia|].
    unfold mul_i32 in P. assert (Q : forall secs e, of_option e (east_opt secs) = (Ok east : presult Z) -> secs = east /\ (- 86400 < east < 86400)%Z).
    { intros secs e H. unfold east_opt in H. destruct ((-86400 <? secs) && (secs <? 86400))%Z eqn:X; [|discriminate]. injection H as <-. apply andb_true_iff in X. rewrite !Z.ltb_lt in X. auto. }
    destruct (in_i32 (h * 3600)).
    + cbn [obind] in P. apply Q in P as [<- B]. split; [exact B|]. destruct (overflow_checks env); [reflexivity|]. exists 0%Z. lia.
    + destruct (overflow_checks env); [discriminate|]. cbn [obind] in P. apply Q in P as [<- B]. split; [exact B|]. unfold wrap_i32.
      exists (- ((h * 3600 + 2 ^ 31) / 2 ^ 32))%Z. pose proof (Z.div_mod (h * 3600 + 2 ^ 31) (2 ^ 32) ltac:(lia)). lia.
Qed.

(** ** Tagged texts *)
Lemma last_quote (s a b : str) : ~ In DQ s -> s ++ [DQ] = a ++ [DQ] ++ b -> a = s /\ b = [].
Proof.
  revert a. induction s as [|c s IH]; intros a N E.
  - destruct a as [|x a]; [injection E as <-; auto|]. destruct a; discriminate.
  - destruct a as [|x a]; [injection E as -> _; exfalso; apply N; now left|]. injection E as <- E. destruct (IH a) as [-> ->]; auto. intros I. apply N. now right.
Qed.
Lemma no_end_quote s : ~ In DQ s -> trim_matches_char DQ s = s.
Proof.
  intros N. assert (T : forall u, ~ In DQ u -> trim_start_char DQ u = u).
  { intros u Nu. destruct u as [|c u]; [reflexivity|]. cbn [trim_start_char]. destruct (Ascii.eqb_spec c DQ) as [->|X]; [exfalso; apply Nu; now left|reflexivity]. }
  unfold trim_matches_char, trim_end_char. rewrite (T s N). rewrite (T (rev s)) by (rewrite <- in_rev; exact N). apply rev_involutive.
Qed.
Lemma untag_line tag s v : tag <> [] -> ~ In DQ s -> ~ In DQ tag -> (untag tag (tag ++ [DQ] ++ s ++ [DQ]) = v <-> between_quotes tag s v).
Proof.
  intros T N NT. assert (NE : tag ++ [DQ] <> []) by (destruct tag; discriminate).
  assert (C : (exists a, s = a ++ tag) \/ forall a, s <> a ++ tag).
  { destruct (ends_with s tag) eqn:E; [left; apply ends_with_spec in E as (a & E); eauto|right]. intros a X. assert (Y : ends_with s tag = true) by (apply ends_with_spec; eauto). congruence. }
  destruct C as [(a & E)|C].
  - assert (U : untag tag (tag ++ [DQ] ++ s ++ [DQ]) = a).
    { unfold untag. replace (tag ++ [DQ] ++ s ++ [DQ]) with ((tag ++ [DQ]) ++ s ++ [DQ]) by (rewrite <- app_assoc; reflexivity). rewrite replace_here by exact NE.
      assert (Na : ~ In DQ a) by (intros I; apply N; rewrite E; apply in_or_app; now left).
      assert (R : replace_str (tag ++ [DQ]) [] (s ++ [DQ]) = a).
      { unfold replace_str. rewrite join_nil. replace (s ++ [DQ]) with (a ++ (tag ++ [DQ]) ++ []) by (rewrite E, app_nil_r, <- app_assoc; reflexivity).
        rewrite split_str_app; [|exact NE|].
        - replace (split_str (tag ++ [DQ]) []) with [@nil ascii]; [cbn [concat]; now rewrite !app_nil_r|]. symmetry. apply split_str_free; [exact NE|]. destruct (contains [] (tag ++ [DQ])) eqn:X; [|reflexivity].
          apply contains_spec in X as (x & y & X). destruct x; [destruct tag; discriminate|discriminate].
        - intros x y X. assert (L2 : (a ++ tag) ++ [DQ] = (x ++ tag) ++ [DQ] ++ y) by (rewrite <- !app_assoc; rewrite app_nil_r, <- !app_assoc in X; exact X).
          apply last_quote in L2 as [L2 _]; [|rewrite <- E; exact N]. apply app_inv_tail in L2. now rewrite L2. }
      rewrite R. now apply no_end_quote. }
    rewrite U. split; [intros <-; right; exact E|]. intros [[-> X]|X]; [now destruct (X a)|]. rewrite E in X. now apply app_inv_tail in X.
  - assert (G : taggable tag s).
    { split; [intros r ->; apply N; now left|]. split; [intros r ->; apply N; apply in_or_app; right; now left|]. intros a b E.
      replace (a ++ tag ++ [DQ] ++ b) with ((a ++ tag) ++ [DQ] ++ b) in E by (now rewrite <- app_assoc). apply last_quote in E as [E _]; [|exact N]. exact (C a (eq_sym E)). }
    apply untag_tagged in G; [|exact T]. rewrite G. split; [intros <-; left; auto|]. intros [[-> _]|X]; [reflexivity|]. now destruct (C v).
Qed.

Lemma path_reads s ds name v r : ~ In DQ s -> Forall plain_component ds -> plain_component name -> between_quotes (L "path") s v ->
  walk (is_absolute v) (0, if is_absolute v then [] else ds) (split_char "/" v) r ->
  parse_path (L "path" ++ [DQ] ++ s ++ [DQ]) (file_path ds name) = Ok (PPath (place_text (is_absolute v) r)).
Proof.
  intros N D P B W. apply untag_line in B; [|discriminate|exact N|cbn; intuition discriminate]. unfold parse_path. fold (untag (L "path") (L "path" ++ [DQ] ++ s ++ [DQ])). rewrite B, (parent_file ds name) by auto.
  destruct (resolved_place ds v D) as (r' & W' & E). rewrite (walk_unique _ _ _ _ W r' W'). rewrite <- E. reflexivity.
Qed.

(** ** All of them *)
Lemma denotes_read env path k t v : denotes env path k t v -> (k = KString -> literal_syntax k t /\ parse_string t <> Panic) ->
  exists p, from_node env path (VNode (Some k) t []) = Ok p /\ v = to_value p.
Proof.
  intros H NP. destruct H as [b|t s H|t neg n H R|t neg n k f H K ND Sg|a c neg n k H R K NS C|t i T I|t i f T I F|s day H|s t day secs D T|s t z day secs east D T Z|s v ds name r O B -> D P W|s v O B]; cbn [from_node].
  - destruct b; (eexists; split; reflexivity).
  - destruct (NP eq_refl) as [LS X]. apply text_parse in H; [|exact LS|exact X]. rewrite H. eexists; split; reflexivity.
  - rewrite (number_whole _ _ _ _ H). cbn [Nat.eqb]. replace (in_i64 (with_sign neg n)) with true; [eexists; split; reflexivity|].
    symmetry. unfold in_i64, i64_min, i64_max. apply andb_true_iff. rewrite !Z.leb_le. lia.
  - rewrite (number_whole _ _ _ _ H). destruct k as [|k]; [lia|]. cbn [Nat.eqb]. eexists. split; [reflexivity|]. cbn [to_value]. f_equal.
    assert (NN : (0 <= n)%Z) by (inversion H; subst; eapply numeral_nonneg; eassumption).
    apply (nearest_once _ _ _ _ ND (ratio_nearest neg n (places (S k)) NN)). rewrite ratio_sign by exact NN. exact Sg.
  - unfold parse_currency. assert (S2 : split_char " " (a ++ L " " ++ c) = [a; c]).
    { exact (split_char_join " " [a; c] ltac:(discriminate) ltac:(repeat constructor; [eapply number_no_space; exact H|exact NS])). }
    rewrite S2, (number_dec _ _ _ _ H). assert (X : ((n <? dec_limit)%Z && (k <=? 28)) = true) by (apply andb_true_iff; rewrite Z.ltb_lt, Nat.leb_le; split; [exact R|exact K]).
    rewrite X, C. eexists; split; reflexivity.
  - unfold parse_reference. rewrite (split_two t i) by (now apply name_no_dot). eexists; split; reflexivity.
  - unfold parse_reference. rewrite (split_three t i f) by (now apply name_no_dot). eexists; split; reflexivity.
  - unfold parse_date. rewrite (day_read _ _ H). eexists; split; reflexivity.
  - rewrite local_read by (first [eapply day_syntax; eassumption|eapply clock_syntax; eassumption]). rewrite (day_read _ _ D), (time_read _ _ T). eexists; split; reflexivity.
  - destruct (zone_read env z east Z) as (w & -> & ZR & NW). change (L " " ++ L "UTC" ++ w) with (L " UTC" ++ w).
    rewrite zoned_read by (first [eapply day_syntax; eassumption|eapply clock_syntax; eassumption|exact NW]). rewrite (day_read _ _ D), ZR. cbn [obind]. rewrite (time_read _ _ T). eexists; split; reflexivity.
  - rewrite (path_reads s ds name v r) by (try assumption; apply O). eexists; split; reflexivity.
  - apply untag_line in B; [|discriminate|apply O|cbn; intuition discriminate]. unfold parse_enum. fold (untag (L "enum") (L "enum" ++ [DQ] ++ s ++ [DQ])). rewrite B. eexists; split; reflexivity.
Qed.
Lemma read_denotes env ds name k t p : Forall plain_component ds -> plain_component name -> literal_syntax k t ->
  from_node env (file_path ds name) (VNode (Some k) t []) = Ok p -> denotes env (file_path ds name) k t (to_value p).
Proof.
  intros DS PN LS H. pose proof LS as LS'. destruct LS as [b|s O|s U|s N|a c N C|s D|s t D T|s t z D T Z|t i T I|t i f T I F|s O|s O]; cbn [from_node] in H.
  - destruct b; injection H as <-; [apply (den_bool _ _ true)|apply (den_bool _ _ false)].
  - assert (NP : parse_string ([DQ] ++ s ++ [DQ]) <> Panic) by congruence.
    assert (X : exists a, p = PStr a) by (rewrite parse_line in H by exact O; injection H as <-; eauto). destruct X as (a & ->). apply text_parse in H; [|exact LS'|exact NP]. now constructor.
  - assert (NP : parse_string (q3 ++ s ++ q3) <> Panic) by congruence.
    assert (X : exists a, p = PStr a) by (rewrite parse_lines in H by exact U; destruct (trim_common_indentation s); try discriminate; injection H as <-; eauto). destruct X as (a & ->). apply text_parse in H; [|exact LS'|exact NP]. now constructor.
  - destruct (number_read s N) as (neg & n & kk & R). rewrite (number_whole _ _ _ _ R) in H. destruct (Nat.eqb_spec kk 0) as [K|K]; [rewrite K in R|].
    + destruct (in_i64 (with_sign neg n)) eqn:I; [|discriminate]. injection H as <-. constructor; [exact R|]. unfold in_i64, i64_min, i64_max in I. apply andb_true_iff in I. rewrite !Z.leb_le in I. lia.
    + injection H as <-. assert (NN : (0 <= n)%Z) by (inversion R; subst; eapply numeral_nonneg; eassumption). apply (den_decimal _ _ s neg n kk); [exact R|lia|exact (ratio_nearest neg n (places kk) NN)|now apply ratio_sign].
  - destruct (number_read a N) as (neg & n & k & R). assert (NS : ~ In " "%char c) by (destruct C as [_ C]; rewrite Forall_forall in C; intros I; apply C in I; discriminate).
    unfold parse_currency in H. assert (S2 : split_char " " (a ++ L " " ++ c) = [a; c]).
    { exact (split_char_join " " [a; c] ltac:(discriminate) ltac:(repeat constructor; [eapply number_no_space; exact R|exact NS])). }
    rewrite S2, (number_dec _ _ _ _ R) in H. destruct (n <? dec_limit)%Z eqn:X1; [|discriminate]. destruct (k <=? 28) eqn:X2; [|discriminate]. cbn [andb] in H. destruct (known_currency env c) eqn:KC; [|discriminate]. injection H as <-.
    apply Z.ltb_lt in X1. apply Nat.leb_le in X2. now constructor.
  - unfold parse_date in H. destruct (parse_naive_date s) as [day|] eqn:PD; [|discriminate]. injection H as <-. constructor. now apply day_only.
  - rewrite local_read in H by assumption. destruct (parse_naive_date s) as [day|] eqn:PD; [|discriminate]. destruct (parse_hm t) as [secs|] eqn:PT; [|discriminate]. injection H as <-.
    constructor; [now apply day_only|now apply time_only].
  - assert (X : exists w, z = L "UTC" ++ w /\ ~ In " "%char w).
    { destruct Z as [->|(sg & zs & n & -> & Sg & Pn & [_ ZD])]; [exists []; split; [reflexivity|intros []]|]. exists (sg ++ zs). split; [reflexivity|]. rewrite Forall_forall in ZD.
      intros I0. apply in_app_or in I0 as [I0|I0]; [destruct Sg as [-> | ->]; destruct I0 as [I0|[]]; discriminate|apply ZD in I0; discriminate]. }
    destruct X as (w & EZ & NW). rewrite EZ in H. change (L " " ++ L "UTC" ++ w) with (L " UTC" ++ w) in H. rewrite zoned_read in H by assumption.
    destruct (parse_naive_date s) as [day|] eqn:PD; [|discriminate]. destruct (parse_utc_offset env w) as [o| |] eqn:PO; try discriminate. cbn [obind] in H. destruct (parse_hm t) as [secs|] eqn:PT; [|discriminate]. injection H as <-.
    constructor; [now apply day_only|now apply time_only|eapply zone_only; eassumption].
  - unfold parse_reference in H. rewrite (split_two t i) in H by (now apply name_no_dot). injection H as <-. now constructor.
  - unfold parse_reference in H. rewrite (split_three t i f) in H by (now apply name_no_dot). injection H as <-. now constructor.
  - set (v := untag (L "path") (L "path" ++ [DQ] ++ s ++ [DQ])). destruct (resolved_place ds v DS) as (r & W & E).
    assert (B : between_quotes (L "path") s v) by (apply untag_line; [discriminate|apply O|cbn; intuition discriminate|reflexivity]).
    rewrite (path_reads s ds name v r) in H by (try assumption; apply O). injection H as <-. eapply den_path; eauto.
  - assert (B : between_quotes (L "enum") s (untag (L "enum") (L "enum" ++ [DQ] ++ s ++ [DQ]))) by (apply untag_line; [discriminate|apply O|cbn; intuition discriminate|reflexivity]).
    unfold parse_enum in H. injection H as <-. constructor; [exact O|exact B].
Qed.

(** ** Lists *)
Lemma denotes_iff env ds name k t v : Forall plain_component ds -> plain_component name -> literal_syntax k t ->
  from_node env (file_path ds name) (VNode (Some k) t []) <> Panic ->
  ((exists p, from_node env (file_path ds name) (VNode (Some k) t []) = Ok p /\ v = to_value p) <-> denotes env (file_path ds name) k t v).
Proof.
  intros D N LS NP. split.
  - intros (p & P & ->). now apply read_denotes.
  - intros H. apply denotes_read; [exact H|]. intros ->. split; [exact LS|exact NP].
Qed.
Lemma literal_not_list t : ~ literal_syntax KList t.
Proof. intros H. inversion H. Qed.
Lemma stands_iff env ds name vn : Forall plain_component ds -> plain_component name -> value_syntax vn -> forall v,
  from_node env (file_path ds name) vn <> Panic ->
  ((exists p, from_node env (file_path ds name) vn = Ok p /\ v = to_value p) <-> stands_for env (file_path ds name) vn v).
Proof.
  intros D N. set (path := file_path ds name). revert vn. fix IH 2. intros vn VS. destruct VS as [k raw LS|g vs t G IS FV]; intros v NP.
  - unfold path in *. rewrite (denotes_iff env ds name k raw v D N LS NP). split; [now constructor|]. intros H. inversion H; subst; [assumption|]. now destruct (literal_not_list raw).
  - assert (J : forall us, omap (from_node env path) vs <> Panic -> ((exists ps, omap (from_node env path) vs = Ok ps /\ us = map to_value ps) <-> Forall2 (stands_for env path) vs us)).
    { clear NP IS v G g t. induction FV as [|x xs Hx FV IHl]; intros us NP.
      - split; [intros (ps & [= <-] & ->); constructor|]. intros H. inversion H; subst. exists []. auto.
      - rewrite omap_cons in *. destruct (from_node env path x) as [p|e|] eqn:P; [| |now destruct NP].
        + cbn [obind] in *. assert (NP' : omap (from_node env path) xs <> Panic) by (intros X; rewrite X in NP; now apply NP). split.
          * intros (ps & E & ->). destruct (omap (from_node env path) xs) as [qs| |] eqn:Q; try discriminate. injection E as <-. cbn [map]. constructor.
            -- apply (IH x Hx); [rewrite P; discriminate|eauto].
            -- apply (IHl (map to_value qs) NP'). eauto.
          * intros H. inversion H as [|? u ? us' H1 H2]; subst. apply (IHl us' NP') in H2 as (qs & E & ->). rewrite E. cbn [obind].
            apply (IH x Hx) in H1 as (p' & E' & ->); [|rewrite P; discriminate]. rewrite P in E'. injection E' as <-. exists (p :: qs). auto.
        + cbn [obind]. split; [intros (ps & E & _); discriminate|]. intros H. inversion H as [|? u ? us' H1 H2]; subst.
          apply (IH x Hx) in H1 as (p' & E' & _); [congruence|rewrite P; discriminate]. }
    rewrite from_node_list in *. destruct (omap (from_node env path) vs) as [ps|e|] eqn:O; [| |now destruct NP].
    + cbn [obind] in *. destruct (list_cases ps) as [[LL HH]|(p0 & a & q & b & E & _ & NE & LL)]; rewrite LL in *.
      * split.
        -- intros (p & [= <-] & ->). cbn [to_value]. constructor; [|exact HH]. apply J; [discriminate|eauto].
        -- intros H. inversion H as [? ? ? H1|raw ns us F2 HO]; subst; [inversion H1|]. apply J in F2 as (qs & [= <-] & ->); [|discriminate]. exists (PList ps). auto.
      * split; [intros (p & X & _); discriminate|]. intros H. exfalso. inversion H as [? ? ? H1|raw ns us F2 HO]; subst; [inversion H1|].
        apply J in F2 as (qs & [= <-] & ->); [|discriminate]. apply NE. rewrite !type_name_kind. apply HO; cbn [map]; rewrite ?map_app; [|now left]. right. apply in_or_app. right. now left.
    + cbn [obind]. split; [intros (p & X & _); discriminate|]. intros H. inversion H as [? ? ? H1|raw ns us F2 HO]; subst; [inversion H1|].
      apply J in F2 as (qs & X & _); discriminate.
Qed.

(** ** In a workspace *)
Lemma get_first e f v : get_field e f = Some v <-> exists a b, e_fields e = a ++ (f, v) :: b /\ ~ In f (map fst a).
Proof.
  unfold get_field. induction (e_fields e) as [|[n u] l IH]; cbn [find].
  - split; [discriminate|]. intros ([|] & b & E & _); discriminate.
  - cbn [fst]. destruct (str_eqb_spec n f) as [->|N].
    + split; [intros [= <-]; exists [], l; auto|]. intros ([|[a1 a2] a] & b & E & NI); [now injection E as <- _|]. injection E as <- _ _. exfalso. apply NI. now left.
    + rewrite IH. split.
      * intros (a & b & -> & NI). exists ((n, u) :: a), b. split; [reflexivity|]. cbn. tauto.
      * intros ([|[a1 a2] a] & b & E & NI); [injection E as E _ _; congruence|]. injection E as <- _ E. exists a, b. split; [exact E|]. intros X. apply NI. now right.
Qed.
Lemma built_fields c w d st r s bs t i fs : built c w d st -> source_of w d r s -> file_syntax bs s ->
  In (EntityBlock {| en_type := Some t; en_id := Some i; en_fields := fs |}) bs ->
  exists e, In e (b_entities (st_build st)) /\ e_id e = compose_entity_id t i /\ e_type e = t /\
    (forall vn f, first_field fs f vn -> value_syntax vn /\ exists p, from_node (c_env c) (path_text r) vn = Ok p) /\
    forall f v, get_field e f = Some v <-> exists vn p, first_field fs f vn /\ value_syntax vn /\ from_node (c_env c) (path_text r) vn = Ok p /\ to_value p = v.
Proof.
  intros B SO FS I. destruct (built_parts c w d st B) as (ss & (_ & F & _) & _).
  assert (Ib : In (path_text r, {| en_type := Some t; en_id := Some i; en_fields := fs |}) (entity_blocks (st_files st))) by (apply (block_iff c w d st B); exists r, s, bs; auto).
  destruct (L_Load.Forall2_in_l _ _ _ _ F Ib) as (e & Ie & R). unfold reads_entity in R. cbn [fst snd] in R. exists e. split; [exact Ie|].
  destruct (block_shape bs s _ FS I) as (t' & i' & fs' & body & E & FSy). injection E as <- <- <-. pose proof (fields_shape fs body FSy) as SH.
  unfold to_entity in R. cbn [en_type en_id en_fields of_option obind] in R. destruct (omap (convert_field (c_env c) (path_text r)) fs) as [vs| |] eqn:O; try discriminate. cbn [obind] in R. injection R as <-. cbn [e_id e_type].
  split; [reflexivity|]. split; [reflexivity|]. split.
  - intros vn f (l & rr & -> & NI). apply omap_ok in O. rewrite Forall_forall in SH. destruct (SH (field_node f vn)) as (nm & vn' & E & VS); [apply in_or_app; right; now left|]. injection E as <- <-. split; [exact VS|].
    apply Forall2_app_inv_l in O as (l1 & l2 & _ & O & _). inversion O as [|? y ? ? C]; subst.
    replace (convert_field (c_env c) (path_text r) (field_node f vn)) with (obind (omap_err (fun _ : perr => InvalidFieldValue) (from_node (c_env c) (path_text r) vn)) (fun p => Ok (f, to_value p))) in C by reflexivity.
    destruct (from_node (c_env c) (path_text r) vn) as [p| |]; try discriminate. eauto.
  - intros f v. rewrite get_first. cbn [e_fields]. rewrite (first_field_iff (c_env c) (path_text r) fs vs f SH O v). reflexivity.
Qed.
Lemma no_quote_up_to s : ~ In DQ s -> up_to q3 s.
Proof.
  induction s as [|c s IH]; intros N a b E.
  - apply (f_equal (@length ascii)) in E. rewrite !app_length in E. cbn [length app] in E. destruct b; [reflexivity|]. cbn [length] in E. lia.
  - destruct a as [|x a]; [injection E as -> _; exfalso; apply N; now left|]. injection E as _ E. apply (IH ltac:(intros X; apply N; now right) a b E).
Qed.
