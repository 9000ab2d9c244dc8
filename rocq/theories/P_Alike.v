(** C77: what is written alike in a source file and in a query. *)
From Coq Require Import Lia ZArith.
From Verif Require Import M_Query M_QParse S_Query S_QText S_Round S_Nearest S_Amount P_Query L_Amount2 P_Amount.
From Verif Require Import M_Graph M_Text M_Dsl S_Whole S_Syntax S_Literal L_Literal L_Nearest S_Alike L_Alike P_Dsl.
Close Scope Z_scope.

(** A source file has [t] for the value [v] of a field. The query
    [from * | where f == t], with the same [t], finds every entity with this
    value in the field if the two languages mean the same by [t], and none
    otherwise. *)
Theorem C77_written_alike : forall env x path f k t v, retains x -> identifier f -> stored env path k t v -> ordinary_value v ->
  (means_the_same t v -> always_found x f t v) /\ (~ means_the_same t v -> never_found x f t v).
Proof. exact alike. Qed.
Print Assumptions C77_written_alike.

(** What a query takes a number for: the nearest binary64, like a source file
    does with decimals; and if that is an integer, the nearest 64-bit integer. *)
Theorem C77_numbers_in_queries : forall f t neg n k, identifier f -> number_literal t neg n k ->
  exists g w, nearest_double (with_sign neg n) (Z.to_pos (10 ^ Z.of_nat k)) g /\ negative g = neg /\
    condition_read (asking f t) {| c_field := FReg (new_id f); c_op := OpEq; c_value := w |} /\
    (f_is_finite g = false -> w = FFloat g) /\
    (finite_double g -> (forall m, units g <> m * 2 ^ 1074)%Z -> w = FFloat g) /\
    (finite_double g -> forall m i, units g = (m * 2 ^ 1074)%Z -> saturated m i -> w = FInt i).
Proof.
  intros f t neg n k I H. pose proof (literal_nonneg _ _ _ _ H) as NN. set (g := f_of_ratio neg n (places k)).
  exists g, (M_QParse.to_value (M_QParse.PNum g)). split; [exact (ratio_nearest neg n (places k) NN)|]. split; [now apply ratio_sign|]. split; [exact (reads_number f t neg n k I H)|].
  clearbody g. cbn [M_QParse.to_value]. split; [intros F; rewrite F, andb_false_r; reflexivity|]. split.
  - intros F N. destruct (f_is_integral g) eqn:J; [|reflexivity]. destruct (integral_units g F J) as [U _]. now apply N in U.
  - intros F m i U S0. pose proof F as [_ F']. rewrite F', andb_true_r. destruct (f_is_integral g) eqn:J.
    + destruct (integral_units g F J) as [U' _]. assert (P : (0 < 2 ^ 1074)%Z) by (apply Z.pow_pos_nonneg; lia). rewrite U' in U. apply Z.mul_reg_r in U; [|lia].
      replace (f_to_i64 g) with (Z.max i64_min (Z.min i64_max (f_trunc g))) by (destruct g; try discriminate F'; reflexivity). rewrite U. f_equal. clear - S0. unfold saturated, i64_min, i64_max in *. change (2 ^ 63)%Z with 9223372036854775808%Z in *. lia.
    + exfalso. exact (not_integral g m F J U).
Qed.
Print Assumptions C77_numbers_in_queries.

(** Findings: literals that a source file in a directory [d] takes, and whose
    value no query with the same literal finds. *)
Definition in_d : str := L "d/a.firm".
Definition lost : list (vkind * str * value) :=
  [ (KString, [DQ] ++ L " a" ++ [DQ], VStr (L " a"));
    (KString, q3 ++ L "a" ++ q3, VStr (L "a"));
    (KNumber, L "9007199254740993", VInt 9007199254740993);
    (KNumber, L "10000000000000000000.0", VFloat (f_of_ratio false 10000000000000000000 1));
    (KCurrency, L "19.99 EUR", VCur (cents 1999) eur);
    (KReference, L "person.JaneDoe", VRef (REntity (L "person.jane_doe")));
    (KDateTime, L "2026-01-01 at 09:00", VDate {| dt_local := 20454 * 86400 + 9 * 3600; dt_nanos := 0; dt_off := 3600 |});
    (KDateTime, L "2026-01-01 at 9:00 UTC+2", VDate {| dt_local := 20454 * 86400 + 9 * 3600; dt_nanos := 0; dt_off := 7200 |});
    (KPath, L "path" ++ [DQ] ++ L "b.txt" ++ [DQ], VPath (L "./d/b.txt"));
    (KEnum, L "enum" ++ [DQ] ++ L "my_enum" ++ [DQ], VEnum (L "my_")) ].
(** And some whose values are found. *)
Definition kept_alike : list (vkind * str * value) :=
  [ (KBoolean, L "true", VBool true);
    (KString, [DQ] ++ L "Jane's" ++ [DQ], VStr (L "Jane's"));
    (KNumber, L "-007", VInt (-7));
    (KNumber, L "9223372036854775807", VInt 9223372036854775807);
    (KNumber, L "0.1", VFloat (f_of_ratio false 1 10));
    (KNumber, L "-3.0", VFloat (f_of_Z (-3)));
    (KCurrency, L "19.75 EUR", VCur (cents 1975) eur);
    (KReference, L "Person.jane_doe", VRef (REntity (L "person.jane_doe")));
    (KReference, L "person.jane_doe.name", VRef (RField (L "person.jane_doe") (L "name")));
    (KDate, L "2024-02-29", VDate {| dt_local := 19782 * 86400; dt_nanos := 0; dt_off := 3600 |});
    (KPath, L "path" ++ [DQ] ++ L "/srv/b.txt" ++ [DQ], VPath (L "/srv/b.txt"));
    (KEnum, L "enum" ++ [DQ] ++ L "open" ++ [DQ], VEnum (L "open")) ].

Lemma digits_are n s : length s = n -> forallb is_digit s = true -> digits_syntax n s.
Proof. intros E F. split; [exact E|]. now apply Forall_forall, forallb_forall. Qed.
Lemma whole_syntax (neg : bool) a : 0 < length a -> forallb is_digit a = true -> number_syntax ((if neg then L "-" else []) ++ a).
Proof.
  intros N F. exists (if neg then L "-" else []), a, []. rewrite app_nil_r. split; [reflexivity|]. split; [destruct neg; auto|]. split; [|now left]. exists (length a). split; [exact N|now apply digits_are].
Qed.
Lemma decimal_syntax (neg : bool) a b : 0 < length a -> forallb is_digit a = true -> 0 < length b -> forallb is_digit b = true -> number_syntax ((if neg then L "-" else []) ++ a ++ L "." ++ b).
Proof.
  intros N F N' F'. exists (if neg then L "-" else []), a, (L "." ++ b). split; [reflexivity|]. split; [destruct neg; auto|]. split; [exists (length a); split; [exact N|now apply digits_are]|].
  right. exists b, (length b). split; [reflexivity|]. split; [exact N'|now apply digits_are].
Qed.
Lemma name_of s : match s with c :: r => (is_alpha c || Ascii.eqb c "_") && forallb (fun x => is_alpha x || is_digit x || Ascii.eqb x "_") r | [] => false end = true -> name_syntax s.
Proof.
  destruct s as [|c r]; [discriminate|]. intros H. apply andb_true_iff in H as [H F]. exists c, r. split; [reflexivity|]. split; [apply orb_true_iff in H as [H|H]; [now left|right; now apply Ascii.eqb_eq]|].
  apply Forall_forall. intros x X. rewrite forallb_forall in F. apply F in X. apply orb_true_iff in X as [X|X]; [apply orb_true_iff in X; tauto|right; right; now apply Ascii.eqb_eq].
Qed.
Lemma line_of' s : forallb (fun c => negb (Ascii.eqb c DQ) && negb (Ascii.eqb c LF)) s = true -> one_line s.
Proof. intros F. rewrite forallb_forall in F. split; intros X; apply F in X; vm_compute in X; discriminate. Qed.
Lemma date_of y m d : digits_syntax 4 y -> digits_syntax 2 m -> digits_syntax 2 d -> date_syntax (y ++ L "-" ++ m ++ L "-" ++ d).
Proof. intros A B C. exists y, m, d. auto. Qed.
Ltac dg := apply digits_are; reflexivity.
Lemma lost_stored k t v : In (k, t, v) lost -> stored env0 in_d k t v.
Proof.
  unfold lost. intros H. cbn [In] in H.
  repeat (destruct H as [H|H]; [injection H as <- <- <-; (split; [|eexists; split; vm_compute; reflexivity])|]); [..|destruct H].
  - apply (syn_string (L " a")), line_of'. reflexivity.
  - apply (syn_lines (L "a")). apply no_quote_up_to. cbn. intuition discriminate.
  - apply syn_number. apply (whole_syntax false (L "9007199254740993")); [cbn; lia|reflexivity].
  - apply syn_number. apply (decimal_syntax false (L "10000000000000000000") (L "0")); try reflexivity; cbn; lia.
  - apply (syn_currency (L "19.99") (L "EUR")); [apply (decimal_syntax false (L "19") (L "99")); try reflexivity; cbn; lia|split; [reflexivity|repeat constructor]].
  - apply (syn_entity (L "person") (L "JaneDoe")); apply name_of; reflexivity.
  - apply (syn_local (L "2026-01-01") (L "09:00")); [apply (date_of (L "2026") (L "01") (L "01")); dg|exists (L "09"), (L "00"); split; [reflexivity|]; split; [right; dg|dg]].
  - apply (syn_zoned (L "2026-01-01") (L "9:00") (L "UTC+2")); [apply (date_of (L "2026") (L "01") (L "01")); dg|exists (L "9"), (L "00"); split; [reflexivity|]; split; [left; dg|dg]|].
    right. exists (L "+"), (L "2"), 1. split; [reflexivity|]. split; [now left|]. split; [lia|dg].
  - apply (syn_path (L "b.txt")), line_of'. reflexivity.
  - apply (syn_enum (L "my_enum")), line_of'. reflexivity.
Qed.
Lemma kept_stored k t v : In (k, t, v) kept_alike -> stored env0 in_d k t v.
Proof.
  unfold kept_alike. intros H. cbn [In] in H.
  repeat (destruct H as [H|H]; [injection H as <- <- <-; (split; [|eexists; split; vm_compute; reflexivity])|]); [..|destruct H].
  - apply (syn_bool true).
  - apply (syn_string (L "Jane's")), line_of'. reflexivity.
  - apply syn_number. apply (whole_syntax true (L "007")); [cbn; lia|reflexivity].
  - apply syn_number. apply (whole_syntax false (L "9223372036854775807")); [cbn; lia|reflexivity].
  - apply syn_number. apply (decimal_syntax false (L "0") (L "1")); try reflexivity; cbn; lia.
  - apply syn_number. apply (decimal_syntax true (L "3") (L "0")); try reflexivity; cbn; lia.
  - apply (syn_currency (L "19.75") (L "EUR")); [apply (decimal_syntax false (L "19") (L "75")); try reflexivity; cbn; lia|split; [reflexivity|repeat constructor]].
  - apply (syn_entity (L "Person") (L "jane_doe")); apply name_of; reflexivity.
  - apply (syn_field (L "person") (L "jane_doe") (L "name")); apply name_of; reflexivity.
  - apply syn_date. apply (date_of (L "2024") (L "02") (L "29")); dg.
  - apply (syn_path (L "/srv/b.txt")), line_of'. reflexivity.
  - apply (syn_enum (L "open")), line_of'. reflexivity.
Qed.
Lemma lost_differ k t v : In (k, t, v) lost -> ordinary_value v /\ ~ means_the_same t v.
Proof.
  unfold lost. intros H. cbn [In] in H.
  repeat (destruct H as [H|H]; [injection H as <- <- <-; split; [try exact I|]|]); [..|destruct H].
  - intros (_ & _ & X). destruct (X " "%char (L "a") eq_refl). congruence.
  - intros (X & _). discriminate X.
  - intros [(a & e & E & P & B)|X]; [|discriminate X]. destruct (Z.eq_dec e 0) as [->|N]; [rewrite Z.pow_0_r in E; change (2 ^ 53)%Z with 9007199254740992%Z in B; lia|].
    replace e with (Z.succ (e - 1)) in E by lia. rewrite Z.pow_succ_r in E by lia. lia.
  - intros [_ X]. vm_compute in X. apply X. reflexivity.
  - split; [split; [cbn; lia|reflexivity]|exact eur_text].
  - intros [z Z]. cbn in Z. lia.
  - intros X. discriminate X.
  - intros X. apply (date_syntax_no " " _ X); [reflexivity|discriminate|]. cbn. auto 20.
  - intros X. apply (date_syntax_no " " _ X); [reflexivity|discriminate|]. cbn. auto 20.
  - intros (w & s & E & W & N & X). injection E as E. apply (f_equal (@length ascii)) in E, X. rewrite !app_length in E. unfold lower in X. rewrite !map_length in X. cbn in E, X. lia.
  - intros [X _]. discriminate X.
Qed.
Lemma kept_same k t v : In (k, t, v) kept_alike -> ordinary_value v /\ means_the_same t v.
Proof.
  unfold kept_alike. intros H. cbn [In] in H.
  repeat (destruct H as [H|H]; [injection H as <- <- <-; split; [try exact I|]|]); [..|destruct H]; try exact I.
  - split; [reflexivity|]. split; [apply line_of'; reflexivity|]. intros c r E. injection E as <- _. split; discriminate.
  - left. exists (-7)%Z, 0%Z. split; [reflexivity|]. split; [lia|reflexivity].
  - right. reflexivity.
  - split; [reflexivity|]. vm_compute. discriminate.
  - split; [reflexivity|]. vm_compute. discriminate.
  - split; [split; [cbn; lia|reflexivity]|exact eur_text].
  - exists 79%Z. reflexivity.
  - reflexivity.
  - reflexivity.
  - apply (date_of (L "2024") (L "02") (L "29")); dg.
  - exists [], (L "/srv/b.txt"). split; [reflexivity|]. split; [constructor|]. split; [|reflexivity]. intros c r E. injection E as <- _. split; discriminate.
  - split; [reflexivity|]. intros c r E. injection E as <- _. split; discriminate.
Qed.
Theorem C77_found_alike_refuted : forall x f, retains x -> identifier f ->
  Forall (fun '(k, t, v) => stored env0 in_d k t v /\ never_found x f t v) lost.
Proof.
  intros x f R I. apply Forall_forall. intros [[k t] v] H. pose proof (lost_stored k t v H) as S0. destruct (lost_differ k t v H) as [O N].
  split; [exact S0|]. now apply (C77_written_alike env0 x in_d f k t v).
Qed.
Print Assumptions C77_found_alike_refuted.
(** Which is not for want of a query: some of the ten are queries. *)
Example C77_case :
  retains (retaining ex_ext) /\ identifier (L "price") /\
  Forall (fun '(k, t, v) => stored env0 in_d k t v /\ ordinary_value v /\ means_the_same t v /\ always_found (retaining ex_ext) (L "price") t v) kept_alike /\
  map (fun '(k, t, v) => match read_query (asking (L "price") t) with M_Graph.Ok _ => true | _ => false end) lost =
    [true; false; true; true; true; true; true; false; true; true].
Proof.
  split; [apply retaining_retains|]. split; [exact price_identifier|]. split; [|vm_compute; reflexivity].
  apply Forall_forall. intros [[k t] v] H. pose proof (kept_stored k t v H) as S0. destruct (kept_same k t v H) as [O M]. split; [exact S0|]. split; [exact O|]. split; [exact M|].
  apply (C77_written_alike env0 _ in_d _ k t v); auto; [apply retaining_retains|exact price_identifier].
Qed.
