(** Lemmas: one division by a power of ten is the correctly rounded value of a
    short decimal. *)
From Coq Require Import Lia.
From Verif Require Import M_Json S_Json L_Str L_Num L_DslVal L_FloatInt L_Json.
Local Open Scope Z_scope.

Lemma new_location_compare b r : new_location b r = if Zeq_bool r 0 then loc_Exact else loc_Inexact (2 * r ?= b).
Proof.
  unfold new_location. destruct (Z.even b) eqn:E; [reflexivity|]. unfold new_location_odd. destruct (Zeq_bool r 0); [reflexivity|].
  assert (O : 2 * r <> b) by (intros <-; rewrite Z.even_mul in E; discriminate). f_equal.
  destruct (Z.compare_spec (2 * r + 1) b), (Z.compare_spec (2 * r) b); try lia; reflexivity.
Qed.
Lemma same_quotient a b a' b' : 0 < b -> 0 < b' -> a * b' = a' * b ->
  a / b = a' / b' /\ new_location b (a mod b) = new_location b' (a' mod b').
Proof.
  intros B B' H. assert (Q : a / b = a' / b').
  { rewrite <- (Z.div_mul_cancel_r a b b') by lia. rewrite H, (Z.mul_comm b b'). apply Z.div_mul_cancel_r; lia. }
  split; [exact Q|]. pose proof (Z.div_mod a b ltac:(lia)) as D. pose proof (Z.div_mod a' b' ltac:(lia)) as D'. rewrite Q in D.
  set (q := a' / b') in *. set (r := a mod b) in *. set (r' := a' mod b') in *.
  assert (R : r * b' = r' * b) by nia. rewrite !new_location_compare.
  assert (Z0 : Zeq_bool r 0 = Zeq_bool r' 0).
  { destruct (Zeq_bool r 0) eqn:X, (Zeq_bool r' 0) eqn:Y; try reflexivity.
    - apply Zeq_bool_eq in X. apply Zeq_bool_neq in Y. rewrite X in R. nia.
    - apply Zeq_bool_neq in X. apply Zeq_bool_eq in Y. rewrite Y in R. nia. }
  rewrite Z0. destruct (Zeq_bool r' 0); [reflexivity|]. f_equal.
  destruct (Z.compare_spec (2 * r) b), (Z.compare_spec (2 * r') b'); try reflexivity; nia.
Qed.
Lemma div_core m1 e1 m2 e2 d1 d2 s : Zdigits2 m1 = d1 -> Zdigits2 m2 = d2 ->
  -1000 <= d1 + e1 - (d2 + e2) <= 1000 -> d1 + e1 - (d2 + e2) - 53 <= e1 - e2 -> s = e1 - e2 - (d1 + e1 - (d2 + e2) - 53) ->
  SFdiv_core_binary fprec femax m1 e1 m2 e2 = (m1 * 2 ^ s / m2, d1 + e1 - (d2 + e2) - 53, new_location m2 ((m1 * 2 ^ s) mod m2)).
Proof.
  intros D1 D2 R E S. unfold SFdiv_core_binary. rewrite D1, D2. rewrite fexp_big by lia. rewrite Z.min_l by lia. rewrite <- S.
  assert (P : 0 <= s) by lia.
  assert (X : (match s with Z0 => m1 | Zpos _ => Z.shiftl m1 s | Zneg _ => 0 end) = m1 * 2 ^ s).
  { destruct s as [|p|p]; [lia|apply Z.shiftl_mul_pow2; lia|lia]. }
  rewrite X. pose proof (eq_refl (Z.div_eucl (m1 * 2 ^ s) m2)) as Y. unfold Z.div, Z.modulo. destruct (Z.div_eucl (m1 * 2 ^ s) m2). reflexivity.
Qed.
(** The floats of the powers of ten that have one. *)
Definition exact_power (k : nat) : bool :=
  match f_of_Z (10 ^ Z.of_nat k) with
  | S754_finite false m e =>
      let d := Zdigits2 (10 ^ Z.of_nat k) in
      (Zdigits2 (Zpos m) =? 53) && (e =? d - 53) && (Zpos m * 2 ^ d =? 10 ^ Z.of_nat k * 2 ^ 53) && (d <=? 100)
  | _ => false
  end.
Lemma exact_powers k : (k <= 22)%nat -> exact_power k = true.
Proof. intros H. do 23 (destruct k as [|k]; [vm_compute; reflexivity|]). lia. Qed.
Lemma divide_short n k p : 0 < n < 2 ^ 53 -> (k <= 22)%nat -> Zpos p = 10 ^ Z.of_nat k ->
  f_div (f_of_Z n) (f_pow10 (Z.of_nat k)) = f_of_ratio false n p.
Proof.
  intros N K P. destruct (f_of_Z_canon n ltac:(lia) ltac:(unfold small; lia)) as (m1 & e1 & F1 & M1 & R1 & V1).
  pose proof (exact_powers k K) as X. unfold exact_power in X. unfold f_pow10. rewrite <- P in *. rewrite F1. unfold sign_of. rewrite (proj2 (Z.ltb_ge n 0)) by lia.
  destruct (f_of_Z (Zpos p)) as [| | |[] m2 e2]; try discriminate. apply andb_true_iff in X as [X Y4]. apply andb_true_iff in X as [X Y3]. apply andb_true_iff in X as [Y1 Y2].
  apply Z.eqb_eq in Y1, Y2, Y3. apply Z.leb_le in Y4. set (d := Zdigits2 (Zpos p)) in *.
  assert (DP : 0 < d) by reflexivity. assert (D1 : Zdigits2 (Zpos m1) = 53) by (apply digits_unique; lia).
  destruct n as [|q|q]; try lia. cbn [Z.abs] in V1.
  assert (DQ : Zdigits2 (Zpos q) = 53 + e1). { symmetry in D1. unfold Zdigits2 in *. apply digits_shift in V1; lia. }
  assert (DQ1 : 0 < Zdigits2 (Zpos q)) by reflexivity. assert (DQ2 : Zdigits2 (Zpos q) <= 53) by lia.
  unfold f_div, SFdiv, f_of_ratio.
  rewrite (div_core (Zpos m1) e1 (Zpos m2) e2 53 53 53) by (auto; lia).
  rewrite (div_core (Zpos q) 0 (Zpos p) 0 (53 + e1) d (d - e1)) by (auto; lia).
  destruct (same_quotient (Zpos m1 * 2 ^ 53) (Zpos m2) (Zpos q * 2 ^ (d - e1)) (Zpos p)) as [Q L']; try lia.
  - rewrite V1. replace (d - e1) with (d + - e1) by lia. rewrite Z.pow_add_r by lia. transitivity (Zpos q * 2 ^ (- e1) * (Zpos p * 2 ^ 53)); [lia|]. rewrite <- Y3. lia.
  - rewrite Q, L'. cbn [xorb]. replace (53 + e1 - (53 + e2) - 53) with (53 + e1 + 0 - (d + 0) - 53) by lia. reflexivity.
Qed.
Lemma round_aux_opp neg q e l : binary_round_aux fprec femax neg q e l = signed neg (binary_round_aux fprec femax false q e l).
Proof.
  destruct neg; [|reflexivity]. cbn [signed]. unfold f_opp, binary_round_aux. destruct (shr_fexp fprec femax q e l) as [a b].
  destruct (shr_fexp fprec femax _ b loc_Exact) as [c d]. destruct (shr_m c); try reflexivity. destruct (_ <=? _); reflexivity.
Qed.
Lemma ratio_opp neg n p : f_of_ratio neg n p = signed neg (f_of_ratio false n p).
Proof. unfold f_of_ratio. destruct n; try (destruct neg; reflexivity). destruct (SFdiv_core_binary _ _ _ _ _ _) as [[a b] c]. apply round_aux_opp. Qed.
Close Scope Z_scope.
Lemma digits_val_split a : forall acc b v, digits_val acc (a ++ b) = Some v -> exists w, digits_val acc a = Some w /\ digits_val w b = Some v.
Proof. induction a as [|c a IH]; cbn [app digits_val]; intros acc b v H; [eauto|]. destruct (is_digit c); [eauto|discriminate]. Qed.
Lemma digits_no_point s : forallb is_digit s = true -> ~ In "."%char s.
Proof. intros F X. rewrite forallb_forall in F. specialize (F _ X). discriminate. Qed.
Lemma split_at_point a b : forallb is_digit a = true -> split_once "."%char (a ++ "."%char :: b) = Some (a, b).
Proof.
  induction a as [|c a IH]; cbn [forallb app split_once]; intros F; [reflexivity|]. apply andb_true_iff in F as [C F].
  destruct (Ascii.eqb_spec c ".") as [->|N]; [discriminate|]. rewrite (IH F). reflexivity.
Qed.
Lemma power_pos k : (1 <= k) -> (Zpos (Pos.of_nat 10 ^ Pos.of_nat k) = 10 ^ Z.of_nat k)%Z.
Proof. intros H. rewrite Pos2Z.inj_pow. f_equal. lia. Qed.
Lemma short_number t f : short_decimal t f -> exists neg a b, t = (if neg : bool then L "-" else []) ++ a ++ "."%char :: b /\ whole a /\ digits b /\ number_of neg a (Some b) None = Some (JvFloat f).
Proof.
  intros (neg & a & b & n & -> & W & D & V & B & K & P). exists neg, a, b. split; [reflexivity|]. split; [exact W|]. split; [exact D|].
  destruct W as [[NA FA] _]. destruct D as [NB FB].
  assert (PF : parse_f64 ((if neg then L "-" else []) ++ a ++ L "." ++ b) = Some (f_of_ratio neg (Z.of_N n) (Pos.of_nat 10 ^ Pos.of_nat (length b)))).
  { assert (G : L_DslVal.read_unsigned neg (a ++ L "." ++ b) = Some (f_of_ratio neg (Z.of_N n) (Pos.of_nat 10 ^ Pos.of_nat (length b)))).
    { unfold L_DslVal.read_unsigned. change (a ++ L "." ++ b) with (a ++ "."%char :: b). rewrite (split_at_point a b FA). unfold parse_N.
      destruct a as [|x a]; [congruence|]. destruct b as [|y b]; [congruence|]. cbn [app]. cbn [app] in V. rewrite V. reflexivity. }
    destruct neg; [exact G|]. cbn [app]. destruct a as [|x a]; [congruence|]. cbn [forallb] in FA. apply andb_true_iff in FA as [FX _].
    destruct (parse_f64_sign ((x :: a) ++ L "." ++ b)) as [(s' & E & _)|S].
    - injection E as -> _. discriminate FX.
    - rewrite <- (app_nil_r ((x :: a) ++ L "." ++ b)). rewrite S by discriminate. rewrite app_nil_r. exact G. }
  rewrite PF in P. injection P as <-. apply digits_val_split in V as (w & Va & Vb). pose proof (digits_val_ge _ _ _ Vb) as G.
  unfold number_of. assert (U : (2 ^ 53 <= u64_max)%N) by (vm_compute; discriminate). rewrite (accumulate_all a 0 w Va) by lia. rewrite (accumulate_all b w n Vb) by lia.
  cbn [length]. rewrite Nat.sub_0_r. unfold f64_from_parts. cbn [from_parts].
  assert (1 <= length b) by (destruct b; [congruence|cbn [length]; lia]). replace (Z.of_nat 0 - Z.of_nat (length b))%Z with (- Z.of_nat (length b))%Z by lia.
  rewrite (proj2 (Z.leb_le (Z.abs (- Z.of_nat (length b))) 308)) by lia. rewrite (proj2 (Z.leb_gt 0 (- Z.of_nat (length b)))) by lia. rewrite Z.opp_involutive. cbn [option_map].
  do 2 f_equal. rewrite ratio_opp. f_equal. destruct (N.eq_dec n 0) as [->|NZ].
  - pose proof (exact_powers _ K) as X. unfold exact_power in X. unfold f_pow10. destruct (f_of_Z (10 ^ Z.of_nat (length b))) as [| | |[] m e]; try discriminate. reflexivity.
  - apply divide_short; [|exact K|apply power_pos; lia]. change (2 ^ 53)%N with 9007199254740992%N in B. change (2 ^ 53)%Z with 9007199254740992%Z. lia.
Qed.
Lemma read_short t f r : short_decimal t f -> stops r -> read_number number_of (t ++ r) = Some (JvFloat f, r).
Proof.
  intros H S. apply short_number in H as (neg & a & b & -> & W & D & V). rewrite <- !app_assoc. cbn [app].
  pose proof (read_signed number_of neg a (Some b) None [] r) as R. cbn [frac_text app] in R. rewrite R; [rewrite V; reflexivity| |reflexivity|exact S].
  split; [exact W|]. split; [intros ds [= <-]; exact D|discriminate].
Qed.
Lemma short_text t f : short_decimal t f -> number_text t.
Proof.
  intros H. apply short_number in H as (neg & a & b & -> & W & D & _). rewrite <- (app_nil_r b). change ("."%char :: b ++ []) with (("."%char :: b) ++ []). 
  apply number_text_of; [destruct neg; auto|exact W|right; eauto|left; reflexivity].
Qed.
