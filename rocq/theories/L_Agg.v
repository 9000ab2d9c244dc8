(** Aggregations. *)
From Coq Require Import Lia.
From Verif Require Import S_Query L_Str L_Sort L_Order.

Definition to_numeric (v : value) : option numeric :=
  match v with VInt z => Some (NInt z) | VFloat f => Some (NFloat f) | VCur a c => Some (NCur a c) | _ => None end.

(** Collecting depends on the column only. *)
Fixpoint numerics (f : field_id) (vs : list value) : qres (list numeric) :=
  match vs with
  | [] => Ok []
  | v :: vs' =>
      match to_numeric v with
      | Some n => match numerics f vs' with Ok l => Ok (n :: l) | Err e => Err e end
      | None => Err (InvalidAggregation (AggNonNumeric f (get_type v)))
      end
  end.

Lemma collect_column f es : collect_numeric f es = numerics f (column f es).
Proof.
  induction es as [|e es IH]; cbn; auto. destruct (get_field e f) as [v|]; cbn; auto.
  destruct v; cbn; rewrite ?IH; auto.
Qed.

Lemma column_app f es1 es2 : column f (es1 ++ es2) = column f es1 ++ column f es2.
Proof. unfold column. apply flat_map_app. Qed.
Lemma column_perm f es1 es2 : Permutation es1 es2 -> Permutation (column f es1) (column f es2).
Proof. intros P. unfold column. apply Permutation_flat_map; auto. Qed.

Lemma numerics_ok f vs ns : numerics f vs = Ok ns -> map to_numeric vs = map Some ns.
Proof.
  revert ns; induction vs as [|v vs IH]; cbn; intros ns.
  - intros [= <-]; auto.
  - destruct (to_numeric v) as [n|]; [|discriminate]. destruct (numerics f vs) as [l|]; [|discriminate].
    intros [= <-]. cbn. f_equal; auto.
Qed.
Lemma numerics_of f vs ns : map to_numeric vs = map Some ns -> numerics f vs = Ok ns.
Proof.
  revert ns; induction vs as [|v vs IH]; intros [|n ns] E; cbn in *; try discriminate; auto.
  injection E as E1 E2. rewrite E1. erewrite IH; eauto.
Qed.
Lemma numerics_all f vs : forallb is_numeric vs = true -> exists ns, numerics f vs = Ok ns.
Proof.
  induction vs as [|v vs IH]; cbn; [eauto|]. rewrite andb_true_iff. intros [H1 H2].
  destruct (IH H2) as (ns & ->). destruct v; try discriminate; cbn; eauto.
Qed.
Lemma numerics_bad f vs : forallb is_numeric vs = false ->
  exists t, numerics f vs = Err (InvalidAggregation (AggNonNumeric f t)).
Proof.
  induction vs as [|v vs IH]; cbn; [discriminate|]. rewrite andb_false_iff. intros H.
  destruct (to_numeric v) eqn:E; [|eauto].
  destruct H as [H|H]; [destruct v; discriminate|]. destruct (IH H) as (t & ->). eauto.
Qed.

(** ** Integer sums *)
Lemma numerics_int f zs : numerics f (map VInt zs) = Ok (map NInt zs).
Proof. apply numerics_of. rewrite !map_map. auto. Qed.
Lemma exec_sum_int x f es zs : column f es = map VInt zs ->
  exec_sum x (FReg f) es =
  match i64_sum x 0 zs with Some z => Ok (RSum (AVInt z)) | None => Err Panicked end.
Proof.
  intros C. unfold exec_sum; cbn [regular bind]. rewrite collect_column, C, numerics_int. cbn [bind].
  destruct zs as [|z zs]; [reflexivity|]. unfold sum_numeric.
  assert (K : classify (map NInt (z :: zs)) = Ok NTInt).
  { unfold classify.
    assert (E1 : forall l a, fold_left (fun (acc : option str) n => match n with NCur _ c => Some c | _ => acc end) (map NInt l) a = a)
      by (induction l; cbn; auto).
    assert (E2 : forall l, existsb (fun n => match n with NFloat _ => true | _ => false end) (map NInt l) = false)
      by (induction l; cbn; auto).
    rewrite E1, E2. auto. }
  cbn [map] in *. rewrite K. cbn [bind]. cbn [map]. rewrite map_map, map_id. reflexivity.
Qed.

Open Scope Z_scope.
Lemma total_cons y l : total (y :: l) = y + total l.
Proof. reflexivity. Qed.
Lemma total_nil : total [] = 0.
Proof. reflexivity. Qed.
Arguments total : simpl never.
Lemma i64_sum_checked x zs : overflow_checks x = true -> forall acc z,
  i64_sum x acc zs = Some z -> z = acc + total zs.
Proof.
  intros O. induction zs as [|y zs IH]; intros acc z; cbn; rewrite ?total_nil, ?total_cons.
  - intros [= <-]. lia.
  - unfold i64_add. destruct (in_i64 (acc + y)).
    + intros H. rewrite (IH _ _ H). lia.
    + rewrite O. discriminate.
Qed.

Lemma wrap_in z : in_i64 (wrap_i64 z) = true.
Proof.
  unfold in_i64, wrap_i64, i64_min, i64_max. change (2^64) with 18446744073709551616.
  pose proof (Z.mod_pos_bound (z - -9223372036854775808) 18446744073709551616 eq_refl).
  apply andb_true_iff. split; apply Z.leb_le; lia.
Qed.
Lemma wrap_small z : in_i64 z = true -> wrap_i64 z = z.
Proof.
  unfold in_i64, wrap_i64, i64_min, i64_max. rewrite andb_true_iff, !Z.leb_le. intros H.
  change (2^64) with 18446744073709551616. rewrite Z.mod_small; lia.
Qed.
Lemma wrap_add a b : wrap_i64 (wrap_i64 a + b) = wrap_i64 (a + b).
Proof.
  unfold wrap_i64. f_equal.
  replace ((a - i64_min) mod 2 ^ 64 + i64_min + b - i64_min) with ((a - i64_min) mod 2 ^ 64 + b) by lia.
  rewrite Zplus_mod_idemp_l. f_equal. lia.
Qed.
Lemma i64_sum_wrap x zs : overflow_checks x = false -> forall acc,
  in_i64 acc = true -> i64_sum x acc zs = Some (wrap_i64 (acc + total zs)).
Proof.
  intros O. induction zs as [|y zs IH]; intros acc I; cbn; rewrite ?total_nil, ?total_cons.
  - rewrite Z.add_0_r, wrap_small; auto.
  - unfold i64_add. destruct (in_i64 (acc + y)) eqn:E.
    + rewrite IH by auto. f_equal. f_equal. lia.
    + rewrite O, IH by apply wrap_in. rewrite wrap_add. f_equal. f_equal. lia.
Qed.
Lemma i64_sum_fits x zs : forall acc, Z.abs acc + total (map Z.abs zs) <= i64_max ->
  i64_sum x acc zs = Some (acc + total zs).
Proof.
  induction zs as [|y zs IH]; intros acc H; cbn in *; rewrite ?total_nil, ?total_cons in *.
  - f_equal. lia.
  - assert (P : 0 <= total (map Z.abs zs)) by (clear; induction zs; cbn; rewrite ?total_nil, ?total_cons; lia).
    unfold i64_add. assert (E : in_i64 (acc + y) = true).
    { unfold in_i64, i64_min, i64_max in *. apply andb_true_iff. split; apply Z.leb_le; lia. }
    rewrite E, IH; [f_equal; lia|]. lia.
Qed.
Lemma total_perm l1 l2 : Permutation l1 l2 -> total l1 = total l2.
Proof. induction 1; rewrite ?total_cons; lia. Qed.
Close Scope Z_scope.

(** ** Currency sums *)
Definition to_cur c d := VCur d c.
Lemma numerics_cur f ds c : numerics f (map (to_cur c) ds) = Ok (map (fun d => NCur d c) ds).
Proof. apply numerics_of. rewrite !map_map. auto. Qed.

Lemma classify_cur ds c : ds <> [] -> classify (map (fun d => NCur d c) ds) = Ok (NTCur c).
Proof.
  intros H. unfold classify.
  assert (E1 : forall l, existsb (fun n => match n with NFloat _ => true | _ => false end) (map (fun d => NCur d c) l) = false)
    by (induction l; cbn; auto).
  assert (E2 : forall l, existsb (fun n => match n with NInt _ => true | _ => false end) (map (fun d => NCur d c) l) = false)
    by (induction l; cbn; auto).
  rewrite E1, E2.
  assert (E3 : forall l, fold_left (fun (acc : option str) n => match n with NCur _ c => Some c | _ => acc end)
                 (map (fun d => NCur d c) l) (Some c) = Some c) by (induction l; cbn; auto).
  destruct ds as [|d ds]; [congruence|]. cbn [map fold_left]. rewrite E3. auto.
Qed.

Lemma pow10_add a b : pow10 (a + b) = (pow10 a * pow10 b)%Z.
Proof. unfold pow10. rewrite Nat2Z.inj_add, Z.pow_add_r; lia. Qed.

Lemma dec_add_some a b d : dec_add a b = Some d ->
  d_scale d = Nat.max (d_scale a) (d_scale b) /\
  (d_mant d = d_mant a * pow10 (d_scale d - d_scale a) + d_mant b * pow10 (d_scale d - d_scale b))%Z.
Proof. unfold dec_add. destruct (Z.ltb _ _); [|discriminate]. intros [= <-]. cbn. auto. Qed.

Lemma rescale m a b c : a <= b -> b <= c -> (m * pow10 (b - a) * pow10 (c - b) = m * pow10 (c - a))%Z.
Proof. intros. rewrite <- Z.mul_assoc, <- pow10_add. do 2 f_equal. lia. Qed.

Lemma total_at_cons s d l : total_at s (d :: l) = (d_mant d * pow10 (s - d_scale d) + total_at s l)%Z.
Proof. reflexivity. Qed.
Lemma size_at_cons s d l : size_at s (d :: l) = (Z.abs (d_mant d * pow10 (s - d_scale d)) + size_at s l)%Z.
Proof. reflexivity. Qed.
Lemma size_pos s l : (0 <= size_at s l)%Z.
Proof. unfold size_at. induction l as [|d l IH]; cbn [map]; rewrite ?total_nil, ?total_cons; lia. Qed.

Lemma cur_sum_exact x c ds : forall acc s, Nat.max (d_scale acc) (max_scale ds) <= s ->
  (Z.abs (d_mant acc * pow10 (s - d_scale acc)) + size_at s ds < dec_limit)%Z ->
  cur_sum x c acc (map (fun d => NCur d c) ds) =
  Ok {| d_mant := (d_mant acc * pow10 (Nat.max (d_scale acc) (max_scale ds) - d_scale acc)
                   + total_at (Nat.max (d_scale acc) (max_scale ds)) ds)%Z;
        d_scale := Nat.max (d_scale acc) (max_scale ds) |}.
Proof.
  induction ds as [|d ds IH]; intros acc s Hs H.
  - cbn. rewrite Nat.max_0_r, Nat.sub_diag. destruct acc as [m sc]; cbn. do 2 f_equal. change (pow10 0) with 1%Z. unfold total_at, total; cbn. lia.
  - cbn [map cur_sum]. rewrite str_eqb_refl. unfold dec_plus.
    change (max_scale (d :: ds)) with (Nat.max (d_scale d) (max_scale ds)) in *.
    rewrite size_at_cons in H. pose proof (size_pos s ds) as SP.
    set (k := Nat.max (d_scale acc) (d_scale d)).
    assert (D : dec_add acc d = Some {| d_mant := (d_mant acc * pow10 (k - d_scale acc) + d_mant d * pow10 (k - d_scale d))%Z; d_scale := k |}).
    { unfold dec_add. fold k. cbv zeta.
      assert (L : (Z.abs (d_mant acc * pow10 (k - d_scale acc) + d_mant d * pow10 (k - d_scale d)) <? dec_limit)%Z = true).
      { apply Z.ltb_lt. 
        assert (P : (1 <= pow10 (s - k))%Z) by (pose proof (pow10_pos (s - k)); lia).
        assert (E : (Z.abs ((d_mant acc * pow10 (k - d_scale acc) + d_mant d * pow10 (k - d_scale d)) * pow10 (s - k)) < dec_limit)%Z).
        { rewrite Z.mul_add_distr_r, !rescale by lia. lia. }
        rewrite Z.abs_mul, (Z.abs_eq (pow10 _)) in E by lia.
        pose proof (Z.abs_nonneg (d_mant acc * pow10 (k - d_scale acc) + d_mant d * pow10 (k - d_scale d))). nia. }
      rewrite L. reflexivity. }
    rewrite D. rewrite (IH _ s).
    + cbn [d_scale d_mant]. set (t := Nat.max k (max_scale ds)).
      replace (Nat.max (d_scale acc) (Nat.max (d_scale d) (max_scale ds))) with t by lia.
      do 2 f_equal. rewrite total_at_cons, Z.mul_add_distr_r, !rescale by lia. lia.
    + cbn [d_scale]. lia.
    + cbn [d_scale d_mant]. rewrite Z.mul_add_distr_r, !rescale by lia. lia.
Qed.

Lemma exec_sum_cur x f es c ds : ds <> [] -> column f es = map (to_cur c) ds ->
  (size_at (max_scale ds) ds < dec_limit)%Z ->
  exec_sum x (FReg f) es = Ok (RSum (AVCur {| d_mant := total_at (max_scale ds) ds; d_scale := max_scale ds |} c)).
Proof.
  intros NE C H. unfold exec_sum; cbn [regular bind]. rewrite collect_column, C, numerics_cur. cbn [bind].
  unfold sum_numeric. rewrite classify_cur by auto.
  destruct ds as [|d ds]; [congruence|]. cbn [map bind].
  change (NCur d c :: map (fun d => NCur d c) ds) with (map (fun d => NCur d c) (d :: ds)).
  rewrite (cur_sum_exact x c (d :: ds) dec_zero (max_scale (d :: ds))); [|cbn [d_scale dec_zero]; lia|exact H].
  reflexivity.
Qed.

Lemma added_spec x a b r : dec_plus x a b = Some r <-> added_amount x a b r.
Proof.
  unfold dec_plus, dec_add, added_amount, sum_at. cbv zeta. change (2 ^ 96)%Z with dec_limit. destruct (_ <? dec_limit)%Z; [|reflexivity].
  split; [intros [= <-]; auto|]. intros [A B]. destruct r as [m k]. cbn [d_mant d_scale] in *. subst. reflexivity.
Qed.
Lemma running_spec x c ds : forall acc r, cur_sum x c acc (map (fun d => NCur d c) ds) = Ok r <-> running_sum x acc ds r.
Proof.
  induction ds as [|d ds IH]; intros acc r; cbn [map cur_sum].
  - split; [intros [= <-]; constructor|]. intros H. inversion H; subst. reflexivity.
  - rewrite str_eqb_refl. destruct (dec_plus x acc d) as [s|] eqn:P.
    + rewrite IH. split; [intros H; econstructor; [apply added_spec; exact P|exact H]|]. intros H. inversion H as [|? ? ? s' ? A R]; subst. apply added_spec in A. congruence.
    + split; [discriminate|]. intros H. inversion H as [|? ? ? s' ? A R]; subst. apply added_spec in A. congruence.
Qed.
Lemma exec_sum_running x f es c ds r : ds <> [] -> column f es = map (to_cur c) ds ->
  (exec_sum x (FReg f) es = Ok (RSum (AVCur r c)) <-> running_sum x dec_zero ds r).
Proof.
  intros NE C. rewrite <- (running_spec x c). unfold exec_sum; cbn [regular bind]. rewrite collect_column, C, numerics_cur. cbn [bind].
  unfold sum_numeric. rewrite classify_cur by auto. destruct ds as [|d ds]; [congruence|]. cbn [map bind].
  change (NCur d c :: map (fun d => NCur d c) ds) with (map (fun d => NCur d c) (d :: ds)).
  destruct (cur_sum x c dec_zero _) as [s|e]; cbn [bind]; split; intros H; try discriminate; injection H as <-; reflexivity.
Qed.
Lemma max_scale_perm l1 l2 : Permutation l1 l2 -> max_scale l1 = max_scale l2.
Proof. unfold max_scale. induction 1; cbn; lia. Qed.
Lemma total_at_perm s l1 l2 : Permutation l1 l2 -> total_at s l1 = total_at s l2.
Proof. intros P. unfold total_at. apply total_perm, Permutation_map; auto. Qed.
Lemma size_at_perm s l1 l2 : Permutation l1 l2 -> size_at s l1 = size_at s l2.
Proof. intros P. unfold size_at. apply total_perm, Permutation_map; auto. Qed.

(** ** Mixed kinds *)
Lemma classify_last c0 ns : (exists d c, In (NCur d c) ns) ->
  exists c, fold_left (fun acc n => match n with NCur _ c => Some c | _ => acc end) ns c0 = Some c
            /\ exists d, In (NCur d c) ns.
Proof.
  revert c0; induction ns as [|n ns IH]; intros c0 (d & c & H); [contradiction|]. cbn [fold_left].
  destruct (existsb (fun n => match n with NCur _ _ => true | _ => false end) ns) eqn:E.
  - apply existsb_exists in E as ([| |d' c'] & I & X); try discriminate.
    destruct (IH (match n with NCur _ c => Some c | _ => c0 end) (ex_intro _ d' (ex_intro _ c' I))) as (k & Hk & d2 & I2).
    exists k. split; auto. exists d2; right; auto.
  - assert (NC : forall l (a : option str), existsb (fun n => match n with NCur _ _ => true | _ => false end) l = false ->
        fold_left (fun acc n => match n with NCur _ c => Some c | _ => acc end) l a = a).
    { clear. induction l as [|n l IH]; cbn; auto. intros a. rewrite orb_false_iff. intros [H1 H2].
      destruct n; try discriminate; apply IH; auto. }
    destruct H as [->|H].
    + exists c. rewrite NC by auto. split; auto. exists d; left; auto.
    + exfalso. assert (X : existsb (fun n => match n with NCur _ _ => true | _ => false end) ns = true); [|congruence].
      apply existsb_exists. exists (NCur d c). auto.
Qed.

Lemma numerics_in f vs ns v n : numerics f vs = Ok ns -> In v vs -> to_numeric v = Some n -> In n ns.
Proof.
  intros H I E. apply numerics_ok in H. assert (J : In (Some n) (map Some ns)) by (rewrite <- H, <- E; apply in_map; auto).
  apply in_map_iff in J as (m & [= ->] & J). auto.
Qed.

Lemma sum_cur_and_number x f es a c w : forallb is_numeric (column f es) = true ->
  In (VCur a c) (column f es) -> In w (column f es) -> (forall a c, w <> VCur a c) ->
  exec_sum x (FReg f) es = Err (InvalidAggregation AggCurrencyAndNumbers).
Proof.
  intros N I1 I2 NC. unfold exec_sum; cbn [regular bind]. rewrite collect_column.
  destruct (numerics_all f _ N) as (ns & E). rewrite E. cbn [bind].
  pose proof (numerics_in _ _ _ _ _ E I1 eq_refl) as J1.
  assert (Hw : exists n, to_numeric w = Some n /\ forall d c, n <> NCur d c).
  { assert (Nw : is_numeric w = true) by (rewrite forallb_forall in N; auto).
    destruct w; try discriminate; cbn; eauto; [eexists; split; [reflexivity|discriminate]..|].
    exfalso; eapply NC; reflexivity. }
  destruct Hw as (n & En & Nn). pose proof (numerics_in _ _ _ _ _ E I2 En) as J2.
  unfold sum_numeric. destruct ns as [|n0 ns']; [contradiction|]. set (ns := n0 :: ns') in *. clearbody ns.
  destruct (classify_last None ns (ex_intro _ a (ex_intro _ c J1))) as (k & Hk & _).
  unfold classify. rewrite Hk.
  assert (X : (existsb (fun n => match n with NInt _ => true | _ => false end) ns
     || existsb (fun n => match n with NFloat _ => true | _ => false end) ns)%bool = true).
  { apply orb_true_iff. destruct n as [z|fl|d c']; [left|right|exfalso; eapply Nn; reflexivity];
    apply existsb_exists; eexists; split; eauto. }
  rewrite X. reflexivity.
Qed.

Lemma cur_sum_mixed x expected ns : (exists d c, In (NCur d c) ns /\ c <> expected) ->
  forall acc, exists e, cur_sum x expected acc ns = Err e.
Proof.
  induction ns as [|n ns IH]; intros (d & c & I & NE) acc; [contradiction|]. cbn.
  destruct n as [z|fl|a c']; eauto. destruct (str_eqb c' expected) eqn:E; eauto.
  destruct (dec_plus x acc a); eauto. apply IH. destruct I as [[= -> ->]|I]; eauto.
  apply str_eqb_eq in E. congruence.
Qed.

Lemma sum_mixed_currencies x f es a c b c' :
  In (VCur a c) (column f es) -> In (VCur b c') (column f es) -> c <> c' ->
  exists e, exec_sum x (FReg f) es = Err e.
Proof.
  intros I1 I2 NE. unfold exec_sum; cbn [regular bind]. rewrite collect_column.
  destruct (numerics f (column f es)) as [ns|] eqn:E; cbn [bind]; [|eauto].
  pose proof (numerics_in _ _ _ _ _ E I1 eq_refl) as J1.
  pose proof (numerics_in _ _ _ _ _ E I2 eq_refl) as J2.
  unfold sum_numeric. destruct ns as [|n0 ns']; [contradiction|]. set (ns := n0 :: ns') in *. clearbody ns.
  destruct (classify_last None ns (ex_intro _ a (ex_intro _ c J1))) as (k & Hk & _).
  unfold classify. rewrite Hk. destruct (_ || _)%bool; cbn [bind]; [eauto|].
  assert (M : exists d c0, In (NCur d c0) ns /\ c0 <> k).
  { destruct (str_eqb c k) eqn:Ek; [apply str_eqb_eq in Ek; subst k; exists b, c'; auto|].
    exists a, c; split; auto. intros ->. rewrite str_eqb_refl in Ek; discriminate. }
  destruct (cur_sum_mixed x k ns M dec_zero) as (e & ->). cbn. eauto.
Qed.

(** Without a clash the same-currency sum never reports an error other than
    decimal overflow. *)

(** ** Count, select *)
Lemma count_field f es : length (filter (has_field f) es) = length (column f es).
Proof.
  unfold has_field, column. induction es as [|e es IH]; cbn; auto.
  destruct (get_field e f); cbn; auto.
Qed.

(** ** Average and median *)
Lemma empty_err x f es : column f es = [] ->
  exec_average x (FReg f) es = Err (InvalidAggregation AggEmpty) /\
  exec_median x (FReg f) es = Err (InvalidAggregation AggEmpty).
Proof. intros C. unfold exec_average, exec_median; cbn. rewrite !collect_column, C. auto. Qed.

Lemma non_numeric_err x f es : forallb is_numeric (column f es) = false ->
  exists t, exec_sum x (FReg f) es = Err (InvalidAggregation (AggNonNumeric f t)) /\
            exec_average x (FReg f) es = Err (InvalidAggregation (AggNonNumeric f t)) /\
            exec_median x (FReg f) es = Err (InvalidAggregation (AggNonNumeric f t)).
Proof.
  intros C. destruct (numerics_bad f _ C) as (t & E). exists t.
  unfold exec_sum, exec_average, exec_median; cbn. rewrite !collect_column, E. auto.
Qed.

Lemma tpo_fcmp : total_preorder_on f_cmp_or_eq (fun a => f_is_nan a = false).
Proof.
  assert (E : forall a b, f_is_nan a = false -> f_is_nan b = false -> f_cmp_or_eq a b = float_cmp_nan_last a b).
  { intros a b Ha Hb. unfold f_cmp_or_eq, float_cmp_nan_last. rewrite Ha, Hb. cbn. auto. }
  destruct tpo_float as [An Tr]. split.
  - intros a b Ha Hb. rewrite !E by auto. apply An.
  - intros a b c Ha Hb Hc. rewrite !E by auto. specialize (Tr a b c). unfold trans3 in Tr.
    destruct (float_cmp_nan_last a b), (float_cmp_nan_last b c), (float_cmp_nan_last a c); cbn in *; try congruence; try tauto.
Qed.
