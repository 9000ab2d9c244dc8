(** Rounding a quotient depends only on its value: multiplying numerator and
    denominator by the same number changes nothing. *)
From Coq Require Import Lia.
From Verif Require Import M_Float L_FloatInt.
Local Open Scope Z_scope.

Lemma location_cases steps k : 0 <= k < steps ->
  new_location steps k = if Z.eqb k 0 then loc_Exact else loc_Inexact (Z.compare (2 * k) steps).
Proof.
  intros H. unfold new_location, new_location_even, new_location_odd.
  assert (E : Zeq_bool k 0 = Z.eqb k 0).
  { destruct (Z.eqb_spec k 0) as [->|N]; [reflexivity|]. pose proof (Zeq_bool_if k 0) as B.
    destruct (Zeq_bool k 0); auto. contradiction. }
  destruct (Z.even steps) eqn:V; rewrite E; auto.
  destruct (Z.eqb k 0); auto. f_equal.
  assert (O : 2 * k <> steps).
  { intros <-. rewrite Z.even_mul in V. discriminate. }
  destruct (Z.compare_spec (2 * k + 1) steps), (Z.compare_spec (2 * k) steps); try reflexivity; lia.
Qed.

(** The quotient at exponent [e <= 0] and where the exact value lies above it. *)
Definition located (p den e : Z) : Z * location :=
  let y := p * 2 ^ (- e) in (y / den, new_location den (y mod den)).

Lemma located_scale p den e k : 0 < den -> 0 < k -> located (p * k) (den * k) e = located p den e.
Proof.
  intros D K. unfold located. replace (p * k * 2 ^ (- e)) with (p * 2 ^ (- e) * k) by lia.
  rewrite Z.div_mul_cancel_r by lia. f_equal. rewrite Z.mul_mod_distr_r by lia.
  pose proof (Z.mod_pos_bound (p * 2 ^ (- e)) den D) as M.
  rewrite !location_cases by (try lia; split; nia).
  set (r := p * 2 ^ (- e) mod den) in *.
  destruct (Z.eqb_spec r 0) as [->|N]; [reflexivity|].
  destruct (Z.eqb_spec (r * k) 0); [nia|]. f_equal.
  rewrite Z.mul_assoc. symmetry. destruct (Z.compare_spec (2 * r) den); symmetry.
  - apply Z.compare_eq_iff. nia.
  - apply Z.compare_lt_iff. nia.
  - apply Z.compare_gt_iff. nia.
Qed.

(** One digit less. *)
Lemma located_half p den e q1 l1 q2 l2 : 0 < p -> 0 < den -> e <= 0 ->
  located p den e = (q1, l1) -> located p den (e - 1) = (q2, l2) ->
  0 <= q1 /\ (q2 = 2 * q1 \/ q2 = 2 * q1 + 1) /\ shr_1 (shr_record_of_loc q2 l2) = shr_record_of_loc q1 l1.
Proof.
  intros P D E H1 H2. unfold located in *.
  replace (- (e - 1)) with (Z.succ (- e)) in H2 by lia. rewrite Z.pow_succ_r in H2 by lia.
  replace (p * (2 * 2 ^ (- e))) with (2 * (p * 2 ^ (- e))) in H2 by lia.
  assert (Y : 0 <= p * 2 ^ (- e)) by (pose proof (Z.pow_nonneg 2 (- e)); nia).
  set (y := p * 2 ^ (- e)) in *.
  pose proof (Z.div_mod y den ltac:(lia)) as DM. pose proof (Z.mod_pos_bound y den D) as MB.
  pose proof (Z.div_pos y den Y D) as QP.
  set (r := y mod den) in *. set (q := y / den) in *.
  injection H1 as <- <-. 
  assert (C : 2 * r < den /\ q2 = 2 * q /\ l2 = new_location den (2 * r) \/
              den <= 2 * r /\ q2 = 2 * q + 1 /\ l2 = new_location den (2 * r - den)).
  { destruct (Z.lt_ge_cases (2 * r) den) as [L|G].
    - left. split; auto. injection H2 as <- <-.
      rewrite (Z.div_unique_pos (2 * y) den (2 * q) (2 * r)) by lia.
      rewrite (Z.mod_unique_pos (2 * y) den (2 * q) (2 * r)) by lia. auto.
    - right. split; auto. injection H2 as <- <-.
      rewrite (Z.div_unique_pos (2 * y) den (2 * q + 1) (2 * r - den)) by lia.
      rewrite (Z.mod_unique_pos (2 * y) den (2 * q + 1) (2 * r - den)) by lia. auto. }
  split; auto. destruct C as [(L & -> & ->)|(G & -> & ->)]; (split; [auto|]).
  - rewrite !location_cases by lia. destruct (Z.eqb_spec r 0) as [R|R].
    + rewrite R. cbn [Z.mul Z.eqb]. destruct q; try lia; reflexivity.
    + destruct (Z.eqb_spec (2 * r) 0); [lia|].
      rewrite (proj2 (Z.compare_lt_iff (2 * r) den)) by lia.
      destruct (2 * (2 * r) ?= den); destruct q; try lia; reflexivity.
  - rewrite !location_cases by lia. destruct (Z.eqb_spec r 0) as [R|R]; [lia|].
    destruct (Z.eqb_spec (2 * r - den) 0) as [Z|Z].
    + rewrite (proj2 (Z.compare_eq_iff (2 * r) den)) by lia. destruct q; try lia; reflexivity.
    + rewrite (proj2 (Z.compare_gt_iff (2 * r) den)) by lia.
      destruct (2 * (2 * r - den) ?= den); destruct q; try lia; reflexivity.
Qed.

Lemma iter_comm {A} (f : A -> A) n : forall x, iter_pos f n (f x) = f (iter_pos f n x).
Proof. induction n as [n IH|n IH|]; intros x; cbn [iter_pos]; rewrite ?IH; auto. Qed.
Lemma iter_succ {A} (f : A -> A) n x : iter_pos f (Pos.succ n) x = iter_pos f n (f x).
Proof.
  revert x. induction n as [n IH|n IH|]; intros x; cbn [iter_pos Pos.succ]; auto.
  rewrite !IH. rewrite !iter_comm. reflexivity.
Qed.

Lemma digits_half q1 q2 : 0 < q1 -> q2 = 2 * q1 \/ q2 = 2 * q1 + 1 -> Zdigits2 q2 = Zdigits2 q1 + 1.
Proof. intros P [->| ->]; destruct q1; try lia; cbn; lia. Qed.

(** Starting one digit further to the right makes no difference. *)
Lemma shr_fexp_half p den e q1 l1 q2 l2 : 0 < p -> 0 < den -> e <= 0 ->
  located p den e = (q1, l1) -> located p den (e - 1) = (q2, l2) -> 0 < q1 ->
  e <= fexp fprec femax (Zdigits2 q1 + e) ->
  shr_fexp fprec femax q2 (e - 1) l2 = shr_fexp fprec femax q1 e l1.
Proof.
  intros P D E H1 H2 Q F. destruct (located_half p den e q1 l1 q2 l2) as (_ & C & S); auto.
  unfold shr_fexp. rewrite (digits_half q1 q2) by auto.
  replace (Zdigits2 q1 + 1 + (e - 1)) with (Zdigits2 q1 + e) by lia.
  set (x := fexp fprec femax (Zdigits2 q1 + e)) in *.
  replace (x - (e - 1)) with (Z.succ (x - e)) by lia.
  remember (x - e) as n eqn:N. destruct n as [|n|n]; [| |lia].
  - change (Z.succ 0) with 1. cbn [shr iter_pos]. rewrite S. f_equal. lia.
  - rewrite <- Pos2Z.inj_succ. cbn [shr]. rewrite iter_succ, S. f_equal. lia.
Qed.

(** [SFdiv_core_binary] in these terms. *)
Lemma div_core p den : SFdiv_core_binary fprec femax (Zpos p) 0 (Zpos den) 0 =
  let e := Z.min (fexp fprec femax (Zdigits2 (Zpos p) - Zdigits2 (Zpos den))) 0 in
  let '(q, l) := located (Zpos p) (Zpos den) e in (q, e, l).
Proof.
  unfold SFdiv_core_binary. rewrite !Z.add_0_r. replace (0 - 0) with 0 by lia.
  cbv zeta. set (e := Z.min (fexp fprec femax (Zdigits2 (Zpos p) - Zdigits2 (Zpos den))) 0).
  assert (E : e <= 0) by (unfold e; lia). clearbody e. unfold located. cbv zeta.
  assert (M : match 0 - e with Z0 => Zpos p | Zpos _ => Z.shiftl (Zpos p) (0 - e) | Zneg _ => Z0 end = Zpos p * 2 ^ (- e)).
  { replace (0 - e) with (- e) by lia. destruct (- e) eqn:X; [lia|rewrite Z.shiftl_mul_pow2 by lia; reflexivity|lia]. }
  rewrite M. unfold Z.div, Z.modulo. destruct (Z.div_eucl (Zpos p * 2 ^ (- e)) (Zpos den)) as [q r]. reflexivity.
Qed.

Lemma aux_same sx q1 e1 l1 q2 e2 l2 :
  shr_fexp fprec femax q1 e1 l1 = shr_fexp fprec femax q2 e2 l2 ->
  binary_round_aux fprec femax sx q1 e1 l1 = binary_round_aux fprec femax sx q2 e2 l2.
Proof. intros H. unfold binary_round_aux. rewrite H. reflexivity. Qed.

Definition ratio_exp (p den : positive) : Z := Zdigits2 (Zpos p) - Zdigits2 (Zpos den).

(** The quotient lies strictly between these powers of two (cleared of fractions). *)
Lemma ratio_bounds p den a b : a - b = ratio_exp p den -> 0 <= a - 1 -> 0 <= b ->
  2 ^ (a - 1) * Zpos den < Zpos p * 2 ^ b /\ Zpos p * 2 ^ b < 2 ^ (a + 1) * Zpos den.
Proof.
  intros H A B. unfold ratio_exp in H. cbn [Zdigits2] in H.
  destruct (digits_bounds p) as [P1 P2]. destruct (digits_bounds den) as [D1 D2].
  set (x := Zpos (digits2_pos p)) in *. set (y := Zpos (digits2_pos den)) in *.
  assert (X : 1 <= x) by (unfold x; lia). assert (Y : 1 <= y) by (unfold y; lia).
  assert (K1 : 2 ^ (a - 1) * 2 ^ y = 2 ^ (x - 1) * 2 ^ b) by (rewrite <- !Z.pow_add_r by lia; f_equal; lia).
  assert (K2 : 2 ^ x * 2 ^ b = 2 ^ (a + 1) * 2 ^ (y - 1)) by (rewrite <- !Z.pow_add_r by lia; f_equal; lia).
  assert (0 < 2 ^ (a - 1)) by (apply Z.pow_pos_nonneg; lia).
  assert (0 < 2 ^ (a + 1)) by (apply Z.pow_pos_nonneg; lia).
  assert (0 < 2 ^ b) by (apply Z.pow_pos_nonneg; lia). split.
  - apply Z.lt_le_trans with (2 ^ (a - 1) * 2 ^ y); [apply Z.mul_lt_mono_pos_l; lia|].
    rewrite K1. apply Z.mul_le_mono_nonneg_r; lia.
  - apply Z.lt_le_trans with (2 ^ x * 2 ^ b); [apply Z.mul_lt_mono_pos_r; lia|].
    rewrite K2. apply Z.mul_le_mono_nonneg_l; lia.
Qed.

Lemma ratio_exp_near p den p' den' : Zpos p * Zpos den' = Zpos p' * Zpos den ->
  ratio_exp p den <= ratio_exp p' den' + 1.
Proof.
  intros H. set (b := Z.max 0 (Z.max (1 - ratio_exp p den) (1 - ratio_exp p' den'))).
  destruct (ratio_bounds p den (ratio_exp p den + b) b) as [L _]; [lia|lia|lia|].
  destruct (ratio_bounds p' den' (ratio_exp p' den' + b) b) as [_ U]; [lia|lia|lia|].
  assert (G : 2 ^ (ratio_exp p den + b - 1) < 2 ^ (ratio_exp p' den' + b + 1)).
  { apply (Z.mul_lt_mono_pos_r (Zpos den * Zpos den')); [lia|].
    assert (L2 : 2 ^ (ratio_exp p den + b - 1) * Zpos den * Zpos den' < Zpos p * 2 ^ b * Zpos den') by (apply Z.mul_lt_mono_pos_r; lia).
    assert (U2 : Zpos p' * 2 ^ b * Zpos den < 2 ^ (ratio_exp p' den' + b + 1) * Zpos den' * Zpos den) by (apply Z.mul_lt_mono_pos_r; lia).
    assert (EQ : Zpos p * 2 ^ b * Zpos den' = Zpos p' * 2 ^ b * Zpos den) by (rewrite <- !Z.mul_assoc, (Z.mul_comm (2 ^ b)), (Z.mul_comm (2 ^ b) (Zpos den)), !Z.mul_assoc; congruence).
    lia. }
  apply Z.pow_lt_mono_r_iff in G; lia.
Qed.

Lemma located_cross p den p' den' e : Zpos p * Zpos den' = Zpos p' * Zpos den ->
  located (Zpos p) (Zpos den) e = located (Zpos p') (Zpos den') e.
Proof.
  intros H. rewrite <- (located_scale (Zpos p) (Zpos den) e (Zpos den')) by lia.
  rewrite <- (located_scale (Zpos p') (Zpos den') e (Zpos den)) by lia.
  rewrite H. f_equal. lia.
Qed.

(** At the larger of two neighbouring starting points. *)
Lemma start_here p den e : e = Z.min (fexp fprec femax (ratio_exp p den)) 0 -> e = ratio_exp p den - 53 \/ e <= ratio_exp p den - 53 ->
  let '(q, l) := located (Zpos p) (Zpos den) e in
  0 < q /\ e <= fexp fprec femax (Zdigits2 q + e).
Proof.
  intros He Hd. unfold located. cbv zeta. set (d := ratio_exp p den) in *.
  assert (E0 : e <= 0) by lia. assert (Ed : e <= d - 53) by lia.
  set (b := Z.max (- e) (1 - d)).
  destruct (ratio_bounds p den (d + b) b) as [L _]; [unfold d; lia|lia|lia|].
  (* p * 2^(-e) >= 2^(d-1-e) * den *)
  assert (G : 2 ^ (d - 1 - e) * Zpos den <= Zpos p * 2 ^ (- e)).
  { assert (W : 2 ^ (d + b - 1) = 2 ^ (d - 1 - e) * 2 ^ (b + e)) by (rewrite <- Z.pow_add_r by lia; f_equal; lia).
    assert (V : 2 ^ b = 2 ^ (- e) * 2 ^ (b + e)) by (rewrite <- Z.pow_add_r by lia; f_equal; lia).
    assert (T : 0 < 2 ^ (b + e)) by (apply Z.pow_pos_nonneg; lia).
    rewrite W, V in L. apply Z.lt_le_incl. apply (Z.mul_lt_mono_pos_r (2 ^ (b + e))); [lia|].
    replace (2 ^ (d - 1 - e) * Zpos den * 2 ^ (b + e)) with (2 ^ (d - 1 - e) * 2 ^ (b + e) * Zpos den) by lia. lia. }
  assert (Q : 2 ^ (d - 1 - e) <= Zpos p * 2 ^ (- e) / Zpos den).
  { apply Z.div_le_lower_bound; lia. }
  set (q := Zpos p * 2 ^ (- e) / Zpos den) in *.
  assert (T : 0 < 2 ^ (d - 1 - e)) by (apply Z.pow_pos_nonneg; lia).
  split; [lia|]. destruct q as [|q|q]; try lia. cbn [Zdigits2].
  assert (D : d - e <= Zpos (digits2_pos q)).
  { destruct (digits_bounds q) as [_ B]. assert (X : 2 ^ (d - 1 - e) < 2 ^ Zpos (digits2_pos q)) by lia.
    apply Z.pow_lt_mono_r_iff in X; lia. }
  unfold fexp, fprec, emin. lia.
Qed.

Lemma round_start p den p' den' sx : Zpos p * Zpos den' = Zpos p' * Zpos den ->
  ratio_exp p' den' = ratio_exp p den - 1 ->
  let e := Z.min (fexp fprec femax (ratio_exp p den)) 0 in
  let e' := Z.min (fexp fprec femax (ratio_exp p' den')) 0 in
  (let '(q, l) := located (Zpos p) (Zpos den) e in binary_round_aux fprec femax sx q e l) =
  (let '(q, l) := located (Zpos p') (Zpos den') e' in binary_round_aux fprec femax sx q e' l).
Proof.
  intros H D e e'. rewrite <- (located_cross p den p' den' e' H).
  assert (C : e' = e \/ e' = e - 1 /\ e <= ratio_exp p den - 53).
  { unfold e, e'. rewrite D. unfold fexp, fprec, femax, emin. lia. }
  destruct C as [->|[E' Ed]]; [reflexivity|].
  pose proof (start_here p den e eq_refl ltac:(auto)) as SH. rewrite E'.
  destruct (located (Zpos p) (Zpos den) e) as [q l] eqn:L1.
  destruct (located (Zpos p) (Zpos den) (e - 1)) as [q2 l2] eqn:L2. destruct SH as [Q F].
  apply aux_same. symmetry. apply (shr_fexp_half (Zpos p) (Zpos den) e q l q2 l2); auto; lia.
Qed.

Theorem ratio_value sx p den p' den' : Zpos p * Zpos den' = Zpos p' * Zpos den ->
  f_of_ratio sx (Zpos p) den = f_of_ratio sx (Zpos p') den'.
Proof.
  intros H. unfold f_of_ratio. rewrite !div_core. fold (ratio_exp p den) (ratio_exp p' den'). cbv zeta.
  pose proof (ratio_exp_near p den p' den' H). pose proof (ratio_exp_near p' den' p den (eq_sym H)).
  assert (X : forall p den e sx, (let '(q, e, l) := let '(q, l) := located (Zpos p) (Zpos den) e in (q, e, l) in
      binary_round_aux fprec femax sx q e l) = let '(q, l) := located (Zpos p) (Zpos den) e in binary_round_aux fprec femax sx q e l).
  { intros. destruct (located (Zpos p0) (Zpos den0) e); reflexivity. }
  rewrite !X.
  assert (C : ratio_exp p' den' = ratio_exp p den \/ ratio_exp p' den' = ratio_exp p den - 1 \/ ratio_exp p den = ratio_exp p' den' - 1) by lia.
  destruct C as [C|[C|C]].
  - rewrite C. rewrite (located_cross p den p' den') by auto. reflexivity.
  - apply round_start; auto.
  - symmetry. apply round_start; auto.
Qed.
