(** Properties C16 and C17: sum, average, median. *)
From Coq Require Import Lia.
From Verif Require Import S_Query L_Str L_Sort L_Order L_Agg L_Median P_Query.
Close Scope Z_scope.

Definition checked (x : ext) : ext := {|
  dec_of_f64 := dec_of_f64 x; dec_to_f64 := dec_to_f64 x; dec_add_round := dec_add_round x;
  overflow_checks := true; sum_start_negative := sum_start_negative x |}.

(** ** C16 *)
(** Integers whose absolute values add up to at most i64::MAX: exact, in every
    build. *)
Theorem C16_integer_sum_exact : forall x f es zs, column f es = map VInt zs ->
  (total (map Z.abs zs) <= i64_max)%Z ->
  exec_agg x (ASum (FReg f)) es = Ok (RSum (AVInt (total zs))).
Proof.
  intros x f es zs C H. cbn [exec_agg]. rewrite (exec_sum_int x f es zs C), (i64_sum_fits x zs 0) by (cbn; lia). reflexivity.
Qed.
Print Assumptions C16_integer_sum_exact.

(** With overflow checks (debug builds) any answer is the exact total. *)
Theorem C16_integer_sum_checked : forall x f es zs z, overflow_checks x = true -> column f es = map VInt zs ->
  exec_agg x (ASum (FReg f)) es = Ok (RSum (AVInt z)) -> z = total zs.
Proof.
  intros x f es zs z O C H. cbn [exec_agg] in H. rewrite (exec_sum_int x f es zs C) in H.
  destruct (i64_sum x 0 zs) as [z'|] eqn:E; [|discriminate]. injection H as <-.
  exact (i64_sum_checked x zs O 0 z' E).
Qed.
Print Assumptions C16_integer_sum_checked.

(** Without them (release builds) the answer is the total modulo 2^64. *)
Theorem C16_integer_sum_unchecked : forall x f es zs, overflow_checks x = false -> column f es = map VInt zs ->
  exists z, exec_agg x (ASum (FReg f)) es = Ok (RSum (AVInt z)) /\
  (i64_min <= z <= i64_max)%Z /\ exists k, z = (total zs + k * 2 ^ 64)%Z.
Proof.
  intros x f es zs O C. exists (wrap_i64 (total zs)). split; [|split].
  - cbn [exec_agg]. rewrite (exec_sum_int x f es zs C), (i64_sum_wrap x zs O 0) by reflexivity. reflexivity.
  - pose proof (wrap_in (total zs)) as H. unfold in_i64 in H. apply andb_true_iff in H as [H1 H2].
    apply Z.leb_le in H1, H2. auto.
  - exists (- ((total zs - i64_min) / 2 ^ 64))%Z. unfold wrap_i64.
    pose proof (Z.div_mod (total zs - i64_min) (2 ^ 64)). lia.
Qed.
Print Assumptions C16_integer_sum_unchecked.

Theorem C16_integer_sum_order_independent : forall x f es es' zs, overflow_checks x = false ->
  column f es = map VInt zs -> Permutation es es' ->
  exec_agg x (ASum (FReg f)) es' = exec_agg x (ASum (FReg f)) es.
Proof.
  intros x f es es' zs O C P. pose proof (column_perm f es es' P) as Q. rewrite C in Q.
  apply Permutation_sym, Permutation_map_inv in Q as (zs' & C' & Pz). cbn [exec_agg].
  rewrite (exec_sum_int x f es zs C), (exec_sum_int x f es' zs' C').
  rewrite !(i64_sum_wrap x _ O 0) by reflexivity. rewrite (total_perm zs zs' Pz). reflexivity.
Qed.
Print Assumptions C16_integer_sum_order_independent.

(** Amounts of one currency whose absolute values add up to less than 2^96 at
    the largest scale: exact, at that scale; hence independent of the order. *)
Theorem C16_currency_sum_exact : forall x f es c ds, ds <> [] ->
  column f es = map (fun d => VCur d c) ds -> (size_at (max_scale ds) ds < 2 ^ 96)%Z ->
  exec_agg x (ASum (FReg f)) es =
  Ok (RSum (AVCur {| d_mant := total_at (max_scale ds) ds; d_scale := max_scale ds |} c)).
Proof. intros x f es c ds NE C H. exact (exec_sum_cur x f es c ds NE C H). Qed.
Print Assumptions C16_currency_sum_exact.

(** In general the amounts are added one after the other, beginning with zero. *)
Theorem C16_currency_sum_is_added_up : forall x f es c ds r, ds <> [] -> column f es = map (fun d => VCur d c) ds ->
  (exec_agg x (ASum (FReg f)) es = Ok (RSum (AVCur r c)) <-> running_sum x {| d_mant := 0; d_scale := 0 |} ds r).
Proof. intros x f es c ds r NE C. exact (exec_sum_running x f es c ds r NE C). Qed.
Print Assumptions C16_currency_sum_is_added_up.
Theorem C16_currency_sum_order_independent : forall x f es es' c ds, ds <> [] ->
  column f es = map (fun d => VCur d c) ds -> (size_at (max_scale ds) ds < 2 ^ 96)%Z -> Permutation es es' ->
  exec_agg x (ASum (FReg f)) es' = exec_agg x (ASum (FReg f)) es.
Proof.
  intros x f es es' c ds NE C H P. pose proof (column_perm f es es' P) as Q. rewrite C in Q.
  apply Permutation_sym, Permutation_map_inv in Q as (ds' & C' & Pd).
  assert (NE' : ds' <> []) by (intros ->; apply Permutation_sym, Permutation_nil in Pd; auto).
  rewrite (C16_currency_sum_exact x f es c ds NE C H).
  rewrite (max_scale_perm ds ds' Pd) in H |- *. rewrite (size_at_perm _ ds ds' Pd) in H.
  rewrite (total_at_perm _ ds ds' Pd). exact (C16_currency_sum_exact x f es' c ds' NE' C' H).
Qed.
Print Assumptions C16_currency_sum_order_independent.

Theorem C16_currency_with_plain_numbers_is_an_error : forall x f es a c w,
  forallb is_numeric (column f es) = true ->
  In (VCur a c) (column f es) -> In w (column f es) -> (forall a c, w <> VCur a c) ->
  exec_agg x (ASum (FReg f)) es = Err (InvalidAggregation AggCurrencyAndNumbers).
Proof. exact sum_cur_and_number. Qed.
Print Assumptions C16_currency_with_plain_numbers_is_an_error.

Theorem C16_mixed_currencies_are_an_error : forall x f es a c b c',
  In (VCur a c) (column f es) -> In (VCur b c') (column f es) -> c <> c' ->
  exists e, exec_agg x (ASum (FReg f)) es = Err e.
Proof. exact sum_mixed_currencies. Qed.
Print Assumptions C16_mixed_currencies_are_an_error.

Theorem C16_non_numbers_are_an_error : forall x f es, forallb is_numeric (column f es) = false ->
  exists t, exec_agg x (ASum (FReg f)) es = Err (InvalidAggregation (AggNonNumeric f t)).
Proof. intros x f es H. destruct (non_numeric_err x f es H) as (t & E & _). exists t. exact E. Qed.
Print Assumptions C16_non_numbers_are_an_error.

(** The type and the id of an entity are not numbers. *)
Theorem C16_metadata_is_an_error : forall x m es a, In a [ASum (FMeta m); AAverage (FMeta m); AMedian (FMeta m)] ->
  exec_agg x a es = Err (InvalidAggregation AggMetadata).
Proof. intros x m es a [<-|[<-|[<-|[]]]]; reflexivity. Qed.
Print Assumptions C16_metadata_is_an_error.

Definition ex_n (vs : list value) : list entity := map (fun v => ex_item (L "i") [(L "n", v)]) vs.

(** Finding: a release build silently returns a wrong total. *)
Theorem C16_overflow_wraps_refuted : exists x f es zs, column f es = map VInt zs /\
  Forall (fun z => in_i64 z = true) zs /\ exec_agg x (ASum (FReg f)) es = Ok (RSum (AVInt i64_min)) /\
  total zs = (i64_max + 1)%Z.
Proof.
  exists ex_ext, (L "n"), (ex_n [VInt i64_max; VInt 1]), [i64_max; 1%Z].
  split; [reflexivity|]. split; [repeat constructor|]. split; vm_compute; reflexivity.
Qed.
Print Assumptions C16_overflow_wraps_refuted.
(** Finding: a debug build panics on one order of the entities and returns the
    exact total on another. *)
Theorem C16_checked_order_refuted : exists x f es es', Permutation es es' /\
  exec_agg x (ASum (FReg f)) es = Ok (RSum (AVInt i64_max)) /\
  exec_agg x (ASum (FReg f)) es' = Err Panicked.
Proof.
  exists (checked ex_ext), (L "n"), (ex_n [VInt 1; VInt (-1); VInt i64_max]), (ex_n [VInt i64_max; VInt 1; VInt (-1)]).
  split; [|vm_compute; auto]. apply Permutation_sym. cbn [ex_n map]. eapply perm_trans; [apply perm_swap|]. constructor. apply perm_swap.
Qed.
Print Assumptions C16_checked_order_refuted.
(** Finding: the sum of a float field depends on the order of the entities. *)
Theorem C16_float_order_refuted : exists x f es es', Permutation es es' /\
  exec_agg x (ASum (FReg f)) es = Ok (RSum (AVFloat f_zero)) /\
  exec_agg x (ASum (FReg f)) es' = Ok (RSum (AVFloat (f_of_Z 1))).
Proof.
  exists ex_ext, (L "n"), (ex_n (map VFloat [f_of_Z 1; f_of_Z (10 ^ 17); f_of_Z (- 10 ^ 17)])),
    (ex_n (map VFloat [f_of_Z (10 ^ 17); f_of_Z (- 10 ^ 17); f_of_Z 1])).
  split; [|vm_compute; auto]. cbn [ex_n map]. eapply perm_trans; [apply perm_swap|]. constructor. apply perm_swap.
Qed.
Print Assumptions C16_float_order_refuted.

Example C16_nontrivial :
  exec_agg ex_ext (ASum (FReg (L "n"))) ex_items = Ok (RSum (AVInt 7)) /\
  exec_agg ex_ext (ASum (FReg (L "n"))) (ex_n [VCur {| d_mant := 105; d_scale := 1 |} (L "EUR"); VCur {| d_mant := -25; d_scale := 2 |} (L "EUR")])
    = Ok (RSum (AVCur {| d_mant := 1025; d_scale := 2 |} (L "EUR"))) /\
  exec_agg ex_ext (ASum (FReg (L "n"))) (ex_n [VCur dec_zero (L "EUR"); VInt 1]) = Err (InvalidAggregation AggCurrencyAndNumbers) /\
  exec_agg ex_ext (ASum (FReg (L "n"))) (ex_n [VCur dec_zero (L "EUR"); VCur dec_zero (L "USD")])
    = Err (InvalidAggregation (AggMixedCurrencies (L "USD") (L "EUR"))).
Proof. vm_compute. auto. Qed.

(** ** C17 *)
(** The number a value stands for. *)
Definition as_number (x : ext) (v : value) : f64 :=
  match v with
  | VInt z => f_of_Z z
  | VFloat f => f
  | VCur a _ => match dec_to_f64 x a with Some f => f | None => f_zero end
  | _ => f_zero
  end.

Theorem C17_empty_is_an_error : forall x f es, column f es = [] ->
  exec_agg x (AAverage (FReg f)) es = Err (InvalidAggregation AggEmpty) /\
  exec_agg x (AMedian (FReg f)) es = Err (InvalidAggregation AggEmpty).
Proof. exact empty_err. Qed.
Print Assumptions C17_empty_is_an_error.

Theorem C17_non_numbers_are_an_error : forall x f es, forallb is_numeric (column f es) = false ->
  exists t, exec_agg x (AAverage (FReg f)) es = Err (InvalidAggregation (AggNonNumeric f t)) /\
            exec_agg x (AMedian (FReg f)) es = Err (InvalidAggregation (AggNonNumeric f t)).
Proof. intros x f es H. destruct (non_numeric_err x f es H) as (t & _ & E1 & E2). exists t. auto. Qed.
Print Assumptions C17_non_numbers_are_an_error.

(** Both are functions of the present values only; entities without the field
    are skipped. *)
Theorem C17_entities_without_the_field_are_skipped : forall x f es es', column f es = column f es' ->
  exec_agg x (AAverage (FReg f)) es = exec_agg x (AAverage (FReg f)) es' /\
  exec_agg x (AMedian (FReg f)) es = exec_agg x (AMedian (FReg f)) es' /\
  exec_agg x (ASum (FReg f)) es = exec_agg x (ASum (FReg f)) es'.
Proof.
  intros x f es es' C. cbn [exec_agg]. unfold exec_average, exec_median, exec_sum; cbn. rewrite !collect_column, C. auto.
Qed.
Print Assumptions C17_entities_without_the_field_are_skipped.

(** An odd number of present values, none NaN: the median is one of them, with
    as many values on either side; so it lies between the extremes. *)
Theorem C17_odd_median_is_the_middle_value : forall x f es,
  forallb is_numeric (column f es) = true -> Nat.Odd (length (column f es)) ->
  Forall (fun v => f_is_nan (as_number x v) = false) (column f es) ->
  exists m below above, exec_agg x (AMedian (FReg f)) es = Ok (RMedian m) /\
  Permutation (map (as_number x) (column f es)) (below ++ m :: above) /\ length below = length above /\
  Forall (fun a => f_le a m = true) below /\ Forall (fun a => f_le m a = true) above.
Proof. exact odd_median. Qed.
Print Assumptions C17_odd_median_is_the_middle_value.

(** An even number of present values, none NaN: half the sum of the two in the
    middle. *)
Theorem C17_even_median_is_half_the_middle_sum : forall x f es,
  column f es <> [] -> forallb is_numeric (column f es) = true -> Nat.Even (length (column f es)) ->
  Forall (fun v => f_is_nan (as_number x v) = false) (column f es) ->
  exists lo hi below above, exec_agg x (AMedian (FReg f)) es = Ok (RMedian (f_div (f_add lo hi) (f_of_Z 2))) /\
  Permutation (map (as_number x) (column f es)) (below ++ lo :: hi :: above) /\ length below = length above /\
  Forall (fun a => f_le a lo = true) below /\ f_le lo hi = true /\ Forall (fun a => f_le hi a = true) above.
Proof. exact even_median. Qed.
Print Assumptions C17_even_median_is_half_the_middle_sum.

(** The average of numbers is their float sum, taken in order, over their
    count. *)
Theorem C17_average_is_sum_over_count : forall x f es,
  column f es <> [] -> forallb is_numeric (column f es) = true ->
  exists zero, (zero = S754_zero true \/ zero = S754_zero false) /\
  exec_agg x (AAverage (FReg f)) es =
  Ok (RAverage (f_div (fold_left f_add (map (as_number x) (column f es)) zero)
                      (f_of_Z (Z.of_nat (length (column f es)))))).
Proof.
  intros x f es NE N. exists (S754_zero (sum_start_negative x)). split; [destruct (sum_start_negative x); auto|].
  rewrite (map_ext (as_number x) (number_of x)) by (intros v; symmetry; apply number_of_spec). exact (average_column x f es NE N).
Qed.
Print Assumptions C17_average_is_sum_over_count.

(** Integers whose absolute values add up to less than 2^53: the exact total
    over the count, rounded once; so the order does not matter. *)
Theorem C17_integer_average_is_exact_total_over_count : forall x f es zs,
  column f es = map VInt zs -> zs <> [] -> (total (map Z.abs zs) < 2 ^ 53)%Z ->
  exec_agg x (AAverage (FReg f)) es =
  Ok (RAverage (f_div (f_of_Z (total zs)) (f_of_Z (Z.of_nat (length zs))))).
Proof. exact average_small. Qed.
Print Assumptions C17_integer_average_is_exact_total_over_count.

(** Reordering the entities changes the median by at most the sign of zero. *)
Theorem C17_median_order_independent : forall x f es es' m,
  Forall (fun v => f_is_nan (as_number x v) = false) (column f es) -> Permutation es es' ->
  exec_agg x (AMedian (FReg f)) es = Ok (RMedian m) ->
  exists m', exec_agg x (AMedian (FReg f)) es' = Ok (RMedian m') /\
  (m = m' \/ exists s s', m = S754_zero s /\ m' = S754_zero s').
Proof. exact median_perm. Qed.
Print Assumptions C17_median_order_independent.

(** Finding: average and median accept mixed currencies, and currencies mixed
    with plain numbers, that sum rejects. *)
Theorem C17_mixed_currencies_refuted : exists x f es,
  (exists e, exec_agg x (ASum (FReg f)) es = Err e) /\
  (exists m, exec_agg x (AAverage (FReg f)) es = Ok (RAverage m)) /\
  (exists m, exec_agg x (AMedian (FReg f)) es = Ok (RMedian m)).
Proof.
  exists ex_ext, (L "n"), (ex_n [VCur dec_zero (L "EUR"); VCur dec_zero (L "USD"); VInt 3]).
  vm_compute. repeat split; eexists; reflexivity.
Qed.
Print Assumptions C17_mixed_currencies_refuted.
(** Finding: the median of two large finite values is infinite. *)
Theorem C17_median_bound_refuted : exists x f es a, column f es = [VFloat a; VFloat a] /\ f_is_finite a = true /\
  exec_agg x (AMedian (FReg f)) es = Ok (RMedian (S754_infinity false)) /\
  exec_agg x (AAverage (FReg f)) es = Ok (RAverage (S754_infinity false)).
Proof.
  exists ex_ext, (L "n"), (ex_n [VFloat (S754_finite false 9007199254740991 971); VFloat (S754_finite false 9007199254740991 971)]).
  eexists. vm_compute. repeat split.
Qed.
Print Assumptions C17_median_bound_refuted.
(** Finding: the average of a float field depends on the order. *)
Theorem C17_average_order_refuted : exists x f es es', Permutation es es' /\
  exec_agg x (AAverage (FReg f)) es = Ok (RAverage f_zero) /\
  exec_agg x (AAverage (FReg f)) es' <> Ok (RAverage f_zero).
Proof.
  exists ex_ext, (L "n"), (ex_n (map VFloat [f_of_Z 1; f_of_Z (10 ^ 17); f_of_Z (- 10 ^ 17)])),
    (ex_n (map VFloat [f_of_Z (10 ^ 17); f_of_Z (- 10 ^ 17); f_of_Z 1])).
  split; [cbn [ex_n map]; eapply perm_trans; [apply perm_swap|]; constructor; apply perm_swap|].
  split; vm_compute; [reflexivity|discriminate].
Qed.
Print Assumptions C17_average_order_refuted.

Example C17_nontrivial :
  exec_agg ex_ext (AMedian (FReg (L "n"))) ex_items = Ok (RMedian (f_of_Z 3)) /\
  exec_agg ex_ext (AAverage (FReg (L "n"))) (ex_n [VInt 1; VInt 2; VInt 6]) = Ok (RAverage (f_of_Z 3)) /\
  exec_agg ex_ext (AMedian (FReg (L "n"))) (ex_n [VInt 6; VInt 2]) = Ok (RMedian (f_of_Z 4)) /\
  Nat.Odd (length (column (L "n") ex_items)).
Proof. vm_compute. repeat split. exists 1. reflexivity. Qed.
Example C17_average_nontrivial : column (L "n") (ex_n [VInt 1; VInt 2; VInt 4]) = map VInt [1; 2; 4]%Z /\
  (total (map Z.abs [1; 2; 4]) < 2 ^ 53)%Z /\ Nat.Even (length (column (L "n") (ex_n [VInt 6; VInt 2]))) /\
  exec_agg ex_ext (AAverage (FReg (L "n"))) (ex_n [VInt 1; VInt 2; VInt 4]) = Ok (RAverage (f_of_ratio false 7 3)).
Proof. repeat split; try (vm_compute; reflexivity). exists 1. reflexivity. Qed.
