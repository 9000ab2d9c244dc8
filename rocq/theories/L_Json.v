(** Lemmas: JSON text. *)
From Coq Require Import Lia DecimalFacts DecimalN.
From Verif Require Import M_Json S_Json L_Str L_Num.
Close Scope Z_scope.

Lemma jv_ind' (P : jv -> Prop) : P JvNull -> (forall b, P (JvBool b)) -> (forall z, P (JvInt z)) -> (forall f, P (JvFloat f)) ->
  (forall s, P (JvStr s)) -> (forall l, Forall P l -> P (JvArr l)) -> (forall l, Forall (fun kv => P (snd kv)) l -> P (JvObj l)) -> forall v, P v.
Proof.
  intros H1 H2 H3 H4 H5 H6 H7. fix IH 1. intros [|b|z|f|s|l|l]; [exact H1|apply H2|apply H3|apply H4|apply H5| |].
  - apply H6. induction l as [|v l IHl]; constructor; [apply IH|exact IHl].
  - apply H7. induction l as [|[k v] l IHl]; constructor; [apply IH|exact IHl].
Qed.

(** ** Strings *)
Lemma read_escape c r : read_str (escape c ++ r) = prepend [c] (read_str r).
Proof. destruct c as [[] [] [] [] [] [] [] []]; reflexivity. Qed.
Lemma read_quoted s r : read_str (concat (map escape s) ++ QT :: r) = Some (s, r).
Proof.
  induction s as [|c s IH]; [reflexivity|]. cbn [map concat]. rewrite <- app_assoc, read_escape, IH. reflexivity.
Qed.

(** ** Where a number ends *)
Definition stops (r : str) : Prop := match r with [] => True | c :: _ => is_digit c = false /\ c <> "."%char /\ c <> "e"%char /\ c <> "E"%char end.
Definition no_digit (r : str) : Prop := match r with [] => True | c :: _ => is_digit c = false end.
Lemma take_run_digits s r : forallb is_digit s = true -> no_digit r -> take_run is_digit (s ++ r) = (s, r).
Proof.
  induction s as [|c s IH]; cbn [forallb app].
  - intros _ H. destruct r as [|c r]; [reflexivity|]. cbn [take_run no_digit] in *. rewrite H. reflexivity.
  - intros H N. apply andb_true_iff in H as [A B]. cbn [take_run]. rewrite A, (IH B N). reflexivity.
Qed.
Lemma eqb_no c d : c <> d -> Ascii.eqb c d = false.
Proof. intros H. destruct (Ascii.eqb_spec c d); congruence. Qed.
Lemma read_fraction_none r : stops r -> read_fraction r = Some (None, r).
Proof. destruct r as [|c r]; [reflexivity|]. intros (_ & H & _). cbn [read_fraction]. rewrite (eqb_no _ _ H). reflexivity. Qed.
Lemma read_exponent_none r : stops r -> read_exponent r = Some (None, r).
Proof. destruct r as [|c r]; [reflexivity|]. intros (_ & _ & H & H'). cbn [read_exponent]. rewrite (eqb_no _ _ H), (eqb_no _ _ H'). reflexivity. Qed.
Lemma stops_no_digit r : stops r -> no_digit r.
Proof. destruct r; [auto|]. intros [H _]. exact H. Qed.

(** The parts of a number are read as the reader of numbers says. *)
Definition frac_text (frac : option str) : str := match frac with None => [] | Some ds => "."%char :: ds end.
Definition exp_text (ex : option (bool * str)) : str -> Prop := fun t =>
  match ex with
  | None => t = []
  | Some (down, ds) => exists e, (e = "e"%char \/ e = "E"%char) /\ (t = e :: (if down : bool then L "-" else []) ++ ds \/ (down = false /\ t = e :: L "+" ++ ds))
  end.
Definition parts_ok (ints : str) (frac : option str) (ex : option (bool * str)) : Prop :=
  whole ints /\ (forall ds, frac = Some ds -> digits ds) /\ (forall down ds, ex = Some (down, ds) -> digits ds).
Lemma whole_ok ints : whole ints -> no_leading_zero ints = true /\ forallb is_digit ints = true.
Proof.
  intros [[N F] Z]. split; [|exact F]. destruct ints as [|c [|d r]]; [congruence|reflexivity|]. cbn [no_leading_zero].
  destruct (Ascii.eqb_spec c "0") as [->|]; [|reflexivity]. specialize (Z _ eq_refl). discriminate.
Qed.
Lemma digits_head ds r : digits ds -> match ds ++ r with c :: _ => is_digit c = true | [] => False end.
Proof. intros [N F]. destruct ds as [|c ds]; [congruence|]. cbn in F |- *. apply andb_true_iff in F as [F _]. exact F. Qed.
Lemma read_exponent_some ex t r : exp_text ex t -> (forall down ds, ex = Some (down, ds) -> digits ds) -> stops r -> read_exponent (t ++ r) = Some (ex, r).
Proof.
  intros T D S. destruct ex as [[down ds]|]; [|cbn in T; subst t; apply read_exponent_none, S]. cbn [exp_text] in T.
  specialize (D _ _ eq_refl). destruct T as (e & E & T).
  assert (B : Ascii.eqb e "e" || Ascii.eqb e "E" = true) by (destruct E as [-> | ->]; reflexivity).
  pose proof (digits_head ds r D) as H. destruct D as [N F]. pose proof (take_run_digits ds r F (stops_no_digit r S)) as X.
  destruct T as [-> | [-> ->]]; cbn [app read_exponent]; rewrite B.
  - destruct down; cbn [app].
    + cbn [list_ascii_of_string app]. change (Ascii.eqb "-" "-") with true. cbn iota. rewrite X. destruct ds; [congruence|reflexivity].
    + destruct (ds ++ r) as [|c q] eqn:Q; [destruct H|]. destruct (digit_not_sign c H) as (M1 & M2 & _). rewrite (eqb_no _ _ M1), (eqb_no _ _ M2). rewrite X. destruct ds; [congruence|reflexivity].
  - cbn [list_ascii_of_string app]. change (Ascii.eqb "+" "-") with false. change (Ascii.eqb "+" "+") with true. cbn iota. rewrite X. destruct ds; [congruence|reflexivity].
Qed.
Lemma exp_head ex t r : exp_text ex t -> stops r -> match t ++ r with c :: _ => is_digit c = false /\ c <> "."%char | [] => True end.
Proof.
  intros T S. destruct ex as [[down ds]|]; cbn [exp_text] in T.
  - destruct T as (e & E & T). assert (X : is_digit e = false /\ e <> "."%char) by (destruct E as [-> | ->]; split; [reflexivity|discriminate|reflexivity|discriminate]).
    destruct T as [-> | [_ ->]]; exact X.
  - subst t. destruct r; [exact Logic.I|]. destruct S as (A & B & _). split; [exact A|exact B].
Qed.
Lemma read_parts nv neg ints frac ex t r : parts_ok ints frac ex -> exp_text ex t -> stops r ->
  read_unsigned nv neg (ints ++ frac_text frac ++ t ++ r) = option_map (fun v => (v, r)) (nv neg ints frac ex).
Proof.
  intros (W & F & X) T S. apply whole_ok in W as [Z D]. unfold read_unsigned. pose proof (exp_head ex t r T S) as H.
  assert (ND : no_digit (frac_text frac ++ t ++ r)).
  { destruct frac; cbn [frac_text app no_digit]; [reflexivity|]. destruct (t ++ r); [exact Logic.I|apply H]. }
  rewrite (take_run_digits ints _ D ND), Z.
  assert (RF : read_fraction (frac_text frac ++ t ++ r) = Some (frac, t ++ r)).
  { destruct frac as [ds|]; cbn [frac_text app].
    - cbn [read_fraction]. change (Ascii.eqb "." ".") with true. cbn iota. destruct (F ds eq_refl) as [N G].
      rewrite (take_run_digits ds (t ++ r) G); [destruct ds; [congruence|reflexivity]|]. destruct (t ++ r); [exact Logic.I|apply H].
    - destruct (t ++ r) as [|c q]; [reflexivity|]. cbn [read_fraction]. rewrite (eqb_no _ _ (proj2 H)). reflexivity. }
  rewrite RF, (read_exponent_some ex t r T X S). reflexivity.
Qed.
(** A text of a number, cut into its parts. *)
Lemma number_text_parts t : number_text t -> exists (neg : bool) ints frac ex e, t = (if neg then L "-" else []) ++ ints ++ frac_text frac ++ e /\ parts_ok ints frac ex /\ exp_text ex e.
Proof.
  intros [sign ints frac ex S W F X]. assert (SG : exists neg : bool, sign = if neg then L "-" else []) by (destruct S as [-> | ->]; [exists false|exists true]; reflexivity).
  destruct SG as (neg & ->).
  assert (FR : exists fr, frac = frac_text fr /\ forall ds, fr = Some ds -> digits ds).
  { destruct F as [-> | (ds & D & ->)]; [exists None; split; [reflexivity|discriminate]|exists (Some ds); split; [reflexivity|intros ? [= <-]; exact D]]. }
  destruct FR as (fr & -> & FD).
  assert (EX : exists x, exp_text x ex /\ forall down ds, x = Some (down, ds) -> digits ds).
  { destruct X as [-> | (e & s & ds & E & G & D & ->)]; [exists None; split; [reflexivity|discriminate]|].
    destruct G as [-> | [-> | ->]]; [exists (Some (false, ds))|exists (Some (false, ds))|exists (Some (true, ds))]; (split; [exists e; split; [exact E|]|intros ? ? [= <- <-]; exact D]); auto. }
  destruct EX as (x & T & XD). exists neg, ints, fr, x, ex. split; [reflexivity|]. split; [split; auto|exact T].
Qed.
Lemma read_signed nv (neg : bool) ints frac ex e r : parts_ok ints frac ex -> exp_text ex e -> stops r ->
  read_number nv ((if neg then L "-" else []) ++ ints ++ frac_text frac ++ e ++ r) = option_map (fun v => (v, r)) (nv neg ints frac ex).
Proof.
  intros P X S. destruct neg; cbn [list_ascii_of_string app].
  - cbn [read_number]. change (Ascii.eqb "-" "-") with true. cbn iota. apply read_parts; auto.
  - pose proof (digits_head ints (frac_text frac ++ e ++ r) (proj1 (proj1 P))) as H. pose proof (read_parts nv false ints frac ex e r P X S) as R.
    destruct (ints ++ frac_text frac ++ e ++ r) as [|c q]; [destruct H|]. cbn [read_number]. destruct (digit_not_sign c H) as (M & _). rewrite (eqb_no _ _ M). exact R.
Qed.

(** ** Integers *)
Lemma uint_no_zero u r : uint_str u = "0"%char :: r -> exists u', u = Decimal.D0 u' /\ uint_str u' = r.
Proof. destruct u; cbn [uint_str]; intros E; try discriminate. injection E as <-. eauto. Qed.
Lemma show_N_whole n : whole (show_N n).
Proof.
  split; [split; [apply show_N_nonnil|apply show_N_digits]|]. intros r E. unfold show_N in E. apply uint_no_zero in E as (u & E & <-).
  pose proof (Unsigned.to_of (N.to_uint n)) as H. rewrite Unsigned.of_to in H. rewrite E in H. unfold Decimal.unorm in H. cbn [Decimal.nzhead] in H.
  pose proof (nzhead_nonzero u) as Z. destruct (Decimal.nzhead u) as [|v| | | | | | | | |] eqn:Q; try discriminate.
  - injection H as ->. reflexivity.
  - exfalso. exact (Z v eq_refl).
Qed.
Lemma digits_val_ge s : forall acc v, digits_val acc s = Some v -> (acc <= v)%N.
Proof.
  induction s as [|c s IH]; cbn [digits_val]; intros acc v H; [injection H as <-; lia|]. destruct (is_digit c); [|discriminate]. apply IH in H. lia.
Qed.
Lemma accumulate_all s : forall acc v, digits_val acc s = Some v -> (v <= u64_max)%N -> accumulate acc s = (v, []).
Proof.
  induction s as [|c s IH]; cbn [digits_val accumulate]; intros acc v H B; [injection H as <-; reflexivity|]. destruct (is_digit c); [|discriminate].
  pose proof (digits_val_ge _ _ _ H) as G. rewrite (proj2 (N.leb_le _ _)) by lia. apply IH; auto.
Qed.
Lemma show_N_val n : digits_val 0 (show_N n) = Some n.
Proof. pose proof (parse_show_N n) as H. unfold parse_N in H. destruct (show_N n) eqn:E; [discriminate|exact H]. Qed.
Definition in_json (z : Z) : Prop := (- 9223372036854775808 <= z <= 18446744073709551615)%Z.
Lemma int_parts z : exists neg : bool, show_Z z = (if neg then L "-" else []) ++ show_N (Z.abs_N z) ++ frac_text None ++ [] /\ (neg = true <-> (z < 0)%Z).
Proof. destruct z as [|p|p]; [exists false|exists false|exists true]; (split; [unfold show_Z, frac_text; rewrite !app_nil_r; reflexivity|split; intros H; try discriminate; try reflexivity; lia]). Qed.
Lemma number_of_int (neg : bool) z : in_json z -> (neg = true <-> (z < 0)%Z) -> number_of neg (show_N (Z.abs_N z)) None None = Some (JvInt z).
Proof.
  intros B N. unfold number_of. rewrite (accumulate_all _ 0 (Z.abs_N z)); [|apply show_N_val|unfold u64_max; unfold in_json in B; lia]. destruct neg.
  - assert (z < 0)%Z by (apply N; reflexivity). unfold in_json in B.
    replace ((Z.abs_N z =? 0) || (9223372036854775808 <? Z.abs_N z))%N with false by (symmetry; apply orb_false_iff; split; [apply N.eqb_neq|apply N.ltb_ge]; lia).
    rewrite N2Z.inj_abs_N. do 2 f_equal. lia.
  - assert (~ (z < 0)%Z) by (intros H; apply N in H; discriminate). rewrite N2Z.inj_abs_N. do 2 f_equal. lia.
Qed.
Lemma read_int z r : in_json z -> stops r -> read_number number_of (show_Z z ++ r) = Some (JvInt z, r).
Proof.
  intros B S. destruct (int_parts z) as (neg & E & N). rewrite E, <- !app_assoc. rewrite (read_signed number_of neg _ None None [] r).
  - rewrite (number_of_int neg z B N). reflexivity.
  - split; [apply show_N_whole|]. split; discriminate.
  - reflexivity.
  - exact S.
Qed.
Lemma show_Z_number z : number_text (show_Z z).
Proof.
  destruct (int_parts z) as (neg & E & _). rewrite E. change (frac_text None) with (@nil ascii). apply number_text_of; auto; [destruct neg; auto|apply show_N_whole].
Qed.
