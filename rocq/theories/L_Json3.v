(** Lemmas: no beginning of the text of a container can be read. *)
From Coq Require Import Lia.
From Verif Require Import M_Json S_Json L_Str L_Num L_Json L_Json2.
Close Scope Z_scope.

(** Values whose text shows where it ends. *)
Definition closed (v : jv) : bool := match v with JvInt _ | JvFloat _ => false | _ => true end.
Definition open_numbers (nv : number_reader) : Prop := forall neg a b e v, nv neg a b e = Some v -> closed v = false.
Lemma number_of_open : open_numbers number_of.
Proof.
  intros neg a b e v. unfold number_of. destruct (accumulate 0 a) as [sig more].
  assert (F : forall neg s x, option_map JvFloat (f64_from_parts neg s x) = Some v -> closed v = false) by (intros n s x; destruct (f64_from_parts n s x); [intros [= <-]; reflexivity|discriminate]).
  destruct b as [ds|], e as [[down k]|].
  - destruct (accumulate sig ds). destruct (digits_val 0 k); [|discriminate]. destruct (_ <? _)%N; [destruct (_ && _); [discriminate|intros [= <-]; reflexivity]|apply F].
  - destruct (accumulate sig ds). apply F.
  - destruct (digits_val 0 k); [|discriminate]. destruct (_ <? _)%N; [destruct (_ && _); [discriminate|intros [= <-]; reflexivity]|apply F].
  - destruct more; [|apply F]. destruct neg; [destruct (_ || _)|]; intros [= <-]; reflexivity.
Qed.
(** A reader that does not look at the value of a number. *)
Definition skim : number_reader := fun _ _ _ _ => Some (JvInt 0).
Lemma skim_open : open_numbers skim.
Proof. intros neg a b e v [= <-]. reflexivity. Qed.

(** ** More text *)
Lemma skip_more a b : skip_ws a <> [] -> skip_ws (a ++ b) = skip_ws a ++ b.
Proof. induction a as [|c a IH]; cbn [skip_ws app]; [congruence|]. destruct (is_ws c); auto. Qed.
Lemma skip_cons a c s b : skip_ws a = c :: s -> skip_ws (a ++ b) = c :: s ++ b.
Proof. intros H. rewrite skip_more by congruence. rewrite H. reflexivity. Qed.
Lemma word_more w a r b : word w a = Some r -> word w (a ++ b) = Some (r ++ b).
Proof. revert a. induction w as [|c w IH]; cbn [word]; intros a; [intros [= <-]; reflexivity|]. destruct a as [|x a]; [discriminate|]. cbn [app]. destruct (Ascii.eqb c x); [apply IH|discriminate]. Qed.
Lemma take_run_more p a x r b : take_run p a = (x, r) -> r <> [] -> take_run p (a ++ b) = (x, r ++ b).
Proof.
  revert x. induction a as [|c a IH]; cbn [take_run app]; intros x; [intros [= <- <-]; congruence|]. destruct (p c).
  - destruct (take_run p a) as [y q]. intros [= <- <-] N. rewrite (IH y eq_refl N). reflexivity.
  - intros [= <- <-] _. reflexivity.
Qed.
Lemma prepend_some a o s r : prepend a o = Some (s, r) -> exists s', o = Some (s', r) /\ s = a ++ s'.
Proof. destruct o as [[s' r']|]; [|discriminate]. intros [= <- <-]. eauto. Qed.
Lemma read_str_more n : forall a s r b, length a <= n -> read_str a = Some (s, r) -> read_str (a ++ b) = Some (s, r ++ b).
Proof.
  induction n as [|n IH]; intros a s r b K H; destruct a as [|c a]; cbn [length] in K; try lia; try discriminate. cbn [read_str app] in *.
  destruct (Ascii.eqb c QT); [injection H as <- <-; reflexivity|]. destruct (Ascii.eqb c BSL).
  - destruct a as [|e a]; [discriminate|]. cbn [app length] in *. destruct (Ascii.eqb e "u").
    + destruct a as [|a1 [|a2 [|a3 [|a4 a]]]]; try discriminate. cbn [app length] in *. destruct (hex4 a1 a2 a3 a4) as [m|]; [|discriminate].
      destruct (_ && _); [discriminate|]. destruct (_ && _).
      * destruct a as [|x [|y [|b1 [|b2 [|b3 [|b4 a]]]]]]; try discriminate. cbn [app length] in *. destruct (_ && _); [|discriminate]. destruct (hex4 b1 b2 b3 b4) as [k|]; [|discriminate].
        destruct (_ && _); [|discriminate]. apply prepend_some in H as (s' & H & ->). rewrite (IH a s' r b ltac:(lia) H). reflexivity.
      * apply prepend_some in H as (s' & H & ->). rewrite (IH a s' r b ltac:(lia) H). reflexivity.
    + destruct (simple_escape e); [|discriminate]. apply prepend_some in H as (s' & H & ->). rewrite (IH a s' r b ltac:(lia) H). reflexivity.
  - destruct (code c <? 32)%N; [discriminate|]. apply prepend_some in H as (s' & H & ->). rewrite (IH a s' r b ltac:(lia) H). reflexivity.
Qed.
Lemma take_run_empty p a x : take_run p [] = (a, x) -> x = [].
Proof. cbn. congruence. Qed.
Lemma read_fraction_more s x r b : read_fraction s = Some (x, r) -> r <> [] -> read_fraction (s ++ b) = Some (x, r ++ b).
Proof.
  destruct s as [|c s]; cbn [read_fraction app]; [intros [= <- <-]; congruence|]. destruct (Ascii.eqb c "."); [|intros [= <- <-]; reflexivity].
  destruct (take_run is_digit s) as [ds q] eqn:T. intros H N. destruct ds as [|d ds]; [discriminate|]. injection H as <- <-. rewrite (take_run_more _ _ _ _ b T N). reflexivity.
Qed.
Lemma read_exponent_more s x r b : read_exponent s = Some (x, r) -> r <> [] -> read_exponent (s ++ b) = Some (x, r ++ b).
Proof.
  destruct s as [|c s]; cbn [read_exponent app]; [intros [= <- <-]; congruence|]. destruct (Ascii.eqb c "e" || Ascii.eqb c "E"); [|intros [= <- <-]; reflexivity].
  assert (G : forall down t, (let (ds, s3) := take_run is_digit t in match ds with [] => None | _ => Some (Some (down : bool, ds), s3) end) = Some (x, r) -> r <> [] ->
              (let (ds, s3) := take_run is_digit (t ++ b) in match ds with [] => None | _ => Some (Some (down, ds), s3) end) = Some (x, r ++ b)).
  { intros down t H N. destruct (take_run is_digit t) as [ds q] eqn:T. destruct ds as [|d ds]; [discriminate|]. injection H as <- <-. rewrite (take_run_more _ _ _ _ b T N). reflexivity. }
  destruct s as [|d s]; [discriminate|]. cbn [app]. destruct (Ascii.eqb d "-"); [apply G|]. destruct (Ascii.eqb d "+"); [apply G|]. apply (G false (d :: s)).
Qed.
Lemma read_fraction_nil s x r : read_fraction s = Some (x, r) -> r <> [] -> s <> [].
Proof. destruct s; [cbn; congruence|discriminate]. Qed.
Lemma read_exponent_nil s x r : read_exponent s = Some (x, r) -> r <> [] -> s <> [].
Proof. destruct s; [cbn; congruence|discriminate]. Qed.
Lemma read_unsigned_more nv neg s v r b : read_unsigned nv neg s = Some (v, r) -> r <> [] -> read_unsigned nv neg (s ++ b) = Some (v, r ++ b).
Proof.
  unfold read_unsigned. destruct (take_run is_digit s) as [ints s1] eqn:T. destruct (no_leading_zero ints) eqn:Z; [|discriminate].
  destruct (read_fraction s1) as [[fr s2]|] eqn:F; [|discriminate]. destruct (read_exponent s2) as [[ex s3]|] eqn:X; [|discriminate]. destruct (nv neg ints fr ex) as [w|] eqn:V; [|discriminate].
  cbn [option_map]. intros [= <- <-] N. pose proof (read_exponent_nil _ _ _ X N) as N2. pose proof (read_fraction_nil _ _ _ F N2) as N1.
  rewrite (take_run_more _ _ _ _ b T N1), Z, (read_fraction_more _ _ _ b F N2), (read_exponent_more _ _ _ b X N), V. reflexivity.
Qed.
Lemma read_number_more nv s v r b : read_number nv s = Some (v, r) -> r <> [] -> read_number nv (s ++ b) = Some (v, r ++ b).
Proof. destruct s as [|c s]; cbn [read_number app]; [discriminate|]. destruct (Ascii.eqb c "-"); [apply read_unsigned_more|apply (read_unsigned_more nv false (c :: s))]. Qed.
Lemma read_number_open nv s v r : open_numbers nv -> read_number nv s = Some (v, r) -> closed v = false.
Proof.
  intros O. assert (G : forall neg t, read_unsigned nv neg t = Some (v, r) -> closed v = false).
  { intros neg t. unfold read_unsigned. destruct (take_run is_digit t) as [ints s1]. destruct (no_leading_zero ints); [|discriminate].
    destruct (read_fraction s1) as [[fr s2]|]; [|discriminate]. destruct (read_exponent s2) as [[ex s3]|]; [|discriminate]. destruct (nv neg ints fr ex) as [w|] eqn:V; [|discriminate].
    intros [= <- <-]. eapply O; eauto. }
  destruct s as [|c s]; cbn [read_number]; [discriminate|]. destruct (Ascii.eqb c "-"); apply G.
Qed.
(** One reader does what another does, on more text and with more rounds. *)
Definition extends (rv rv' : str -> option (jv * str)) : Prop :=
  forall s v r b, rv s = Some (v, r) -> r <> [] \/ closed v = true -> rv' (s ++ b) = Some (v, r ++ b).
Lemma items_more rv rv' k : extends rv rv' -> forall k' s l r b, k <= k' -> read_items rv k s = Some (l, r) -> read_items rv' k' (s ++ b) = Some (l, r ++ b).
Proof.
  intros X. induction k as [|k IH]; intros k' s l r b K H; [discriminate|]. destruct k' as [|k']; [lia|]. cbn [read_items] in *.
  destruct (rv s) as [[v s1]|] eqn:V; [|discriminate]. destruct (skip_ws s1) as [|c s2] eqn:W; [discriminate|].
  assert (N : s1 <> []) by (intros ->; discriminate W). rewrite (X _ _ _ b V (or_introl N)), (skip_cons _ _ _ b W).
  destruct (Ascii.eqb c ",").
  - destruct (read_items rv k s2) as [[l' s3]|] eqn:E; [|discriminate]. injection H as <- <-. rewrite (IH k' _ _ _ b ltac:(lia) E). reflexivity.
  - destruct (Ascii.eqb c "]"); [|discriminate]. injection H as <- <-. reflexivity.
Qed.
Lemma members_more rv rv' k : extends rv rv' -> forall k' s l r b, k <= k' -> read_members rv k s = Some (l, r) -> read_members rv' k' (s ++ b) = Some (l, r ++ b).
Proof.
  intros X. induction k as [|k IH]; intros k' s l r b K H; [discriminate|]. destruct k' as [|k']; [lia|]. cbn [read_members] in *.
  destruct (skip_ws s) as [|q s0] eqn:W0; [discriminate|]. rewrite (skip_cons _ _ _ b W0). destruct (Ascii.eqb q QT); [|discriminate].
  destruct (read_str s0) as [[key s1]|] eqn:R; [|discriminate]. rewrite (read_str_more _ _ _ _ b (le_n _) R).
  destruct (skip_ws s1) as [|c s2] eqn:W1; [discriminate|]. rewrite (skip_cons _ _ _ b W1). destruct (Ascii.eqb c ":"); [|discriminate].
  destruct (rv s2) as [[v s3]|] eqn:V; [|discriminate]. destruct (skip_ws s3) as [|d s4] eqn:W; [discriminate|].
  assert (N : s3 <> []) by (intros ->; discriminate W). rewrite (X _ _ _ b V (or_introl N)), (skip_cons _ _ _ b W).
  destruct (Ascii.eqb d ",").
  - destruct (read_members rv k s4) as [[l' s5]|] eqn:E; [|discriminate]. injection H as <- <-. rewrite (IH k' _ _ _ b ltac:(lia) E). reflexivity.
  - destruct (Ascii.eqb d "}"); [|discriminate]. injection H as <- <-. reflexivity.
Qed.
Lemma value_more nv d : open_numbers nv -> forall d', d <= d' -> extends (read_value nv d) (read_value nv d').
Proof.
  intros O. induction d as [|d IH]; intros d' K s v r b H C.
  - assert (G : forall c s1, skip_ws s = c :: s1 -> read_value nv 0 s = Some (v, r) -> read_value nv d' (s ++ b) = Some (v, r ++ b)).
    { intros c s1 W H'. destruct d' as [|d']; cbn [read_value] in *; rewrite W in H'; rewrite (skip_cons _ _ _ b W);
        (destruct (Ascii.eqb c "n"); [destruct (word _ s1) eqn:E; [|discriminate]; injection H' as <- <-; rewrite (word_more _ _ _ b E); reflexivity|]);
        (destruct (Ascii.eqb c "t"); [destruct (word _ s1) eqn:E; [|discriminate]; injection H' as <- <-; rewrite (word_more _ _ _ b E); reflexivity|]);
        (destruct (Ascii.eqb c "f"); [destruct (word _ s1) eqn:E; [|discriminate]; injection H' as <- <-; rewrite (word_more _ _ _ b E); reflexivity|]);
        (destruct (Ascii.eqb c QT); [destruct (read_str s1) as [[t q]|] eqn:E; [|discriminate]; injection H' as <- <-; rewrite (read_str_more _ _ _ _ b (le_n _) E); reflexivity|]);
        (destruct (Ascii.eqb c "["); [discriminate|]); (destruct (Ascii.eqb c "{"); [discriminate|]);
        (destruct C as [C|C]; [exact (read_number_more nv (c :: s1) v r b H' C)|pose proof (read_number_open nv _ _ _ O H'); congruence]). }
    destruct (skip_ws s) as [|c s1] eqn:W; [cbn [read_value] in H; rewrite W in H; discriminate|]. exact (G c s1 eq_refl H).
  - destruct d' as [|d']; [lia|]. cbn [read_value] in *. destruct (skip_ws s) as [|c s1] eqn:W; [discriminate|]. rewrite (skip_cons _ _ _ b W).
    destruct (Ascii.eqb c "n"); [destruct (word _ s1) eqn:E; [|discriminate]; injection H as <- <-; rewrite (word_more _ _ _ b E); reflexivity|].
    destruct (Ascii.eqb c "t"); [destruct (word _ s1) eqn:E; [|discriminate]; injection H as <- <-; rewrite (word_more _ _ _ b E); reflexivity|].
    destruct (Ascii.eqb c "f"); [destruct (word _ s1) eqn:E; [|discriminate]; injection H as <- <-; rewrite (word_more _ _ _ b E); reflexivity|].
    destruct (Ascii.eqb c QT); [destruct (read_str s1) as [[t q]|] eqn:E; [|discriminate]; injection H as <- <-; rewrite (read_str_more _ _ _ _ b (le_n _) E); reflexivity|].
    assert (X : extends (read_value nv d) (read_value nv d')) by (apply IH; lia).
    assert (K1 : length s1 <= length (s1 ++ b)) by (rewrite app_length; lia).
    destruct (Ascii.eqb c "[").
    { destruct (skip_ws s1) as [|x q] eqn:W1; [discriminate|]. rewrite (skip_cons _ _ _ b W1). destruct (Ascii.eqb x "]"); [injection H as <- <-; reflexivity|].
      destruct (read_items _ _ s1) as [[l q']|] eqn:E; [|discriminate]. injection H as <- <-. rewrite (items_more _ _ _ X (length (s1 ++ b)) _ _ _ b K1 E). reflexivity. }
    destruct (Ascii.eqb c "{").
    { destruct (skip_ws s1) as [|x q] eqn:W1; [discriminate|]. rewrite (skip_cons _ _ _ b W1). destruct (Ascii.eqb x "}"); [injection H as <- <-; reflexivity|].
      destruct (read_members _ _ s1) as [[l q']|] eqn:E; [|discriminate]. injection H as <- <-. rewrite (members_more _ _ _ X (length (s1 ++ b)) _ _ _ b K1 E). reflexivity. }
    destruct C as [C|C]; [exact (read_number_more nv (c :: s1) v r b H C)|pose proof (read_number_open nv _ _ _ O H); congruence].
Qed.

(** ** Skimming *)
Lemma unsigned_skim nv neg s v r : read_unsigned nv neg s = Some (v, r) -> read_unsigned skim neg s = Some (JvInt 0, r).
Proof.
  unfold read_unsigned. destruct (take_run is_digit s) as [ints s1]. destruct (no_leading_zero ints); [|discriminate].
  destruct (read_fraction s1) as [[fr s2]|]; [|discriminate]. destruct (read_exponent s2) as [[ex s3]|]; [|discriminate]. destruct (nv neg ints fr ex); [|discriminate]. intros [= <- <-]. reflexivity.
Qed.
Lemma number_skim nv s v r : read_number nv s = Some (v, r) -> read_number skim s = Some (JvInt 0, r).
Proof. destruct s as [|c s]; cbn [read_number]; [discriminate|]. destruct (Ascii.eqb c "-"); apply unsigned_skim. Qed.
Definition skims (rv rv' : str -> option (jv * str)) : Prop :=
  forall s v r, rv s = Some (v, r) -> exists v', rv' s = Some (v', r) /\ (closed v = true -> closed v' = true) /\ depth v' = depth v.
Lemma items_skim rv rv' k : skims rv rv' -> forall s l r, read_items rv k s = Some (l, r) -> exists l', read_items rv' k s = Some (l', r) /\ map depth l' = map depth l.
Proof.
  intros X. induction k as [|k IH]; intros s l r H; [discriminate|]. cbn [read_items] in *. destruct (rv s) as [[v s1]|] eqn:V; [|discriminate].
  destruct (X _ _ _ V) as (v' & -> & _ & D). destruct (skip_ws s1) as [|c s2]; [discriminate|]. destruct (Ascii.eqb c ",").
  - destruct (read_items rv k s2) as [[l' s3]|] eqn:E; [|discriminate]. injection H as <- <-. destruct (IH _ _ _ E) as (l2 & -> & D2). eexists. split; [reflexivity|]. cbn [map]. rewrite D, D2. reflexivity.
  - destruct (Ascii.eqb c "]"); [|discriminate]. injection H as <- <-. eexists. split; [reflexivity|]. cbn [map]. rewrite D. reflexivity.
Qed.
Lemma members_skim rv rv' k : skims rv rv' -> forall s l r, read_members rv k s = Some (l, r) -> exists l', read_members rv' k s = Some (l', r) /\ map (fun kv => depth (snd kv)) l' = map (fun kv => depth (snd kv)) l.
Proof.
  intros X. induction k as [|k IH]; intros s l r H; [discriminate|]. cbn [read_members] in *. destruct (skip_ws s) as [|q s0]; [discriminate|]. destruct (Ascii.eqb q QT); [|discriminate].
  destruct (read_str s0) as [[key s1]|]; [|discriminate]. destruct (skip_ws s1) as [|c s2]; [discriminate|]. destruct (Ascii.eqb c ":"); [|discriminate].
  destruct (rv s2) as [[v s3]|] eqn:V; [|discriminate]. destruct (X _ _ _ V) as (v' & -> & _ & D). destruct (skip_ws s3) as [|d s4]; [discriminate|]. destruct (Ascii.eqb d ",").
  - destruct (read_members rv k s4) as [[l' s5]|] eqn:E; [|discriminate]. injection H as <- <-. destruct (IH _ _ _ E) as (l2 & -> & D2). eexists. split; [reflexivity|]. cbn [map snd]. rewrite D, D2. reflexivity.
  - destruct (Ascii.eqb d "}"); [|discriminate]. injection H as <- <-. eexists. split; [reflexivity|]. cbn [map snd]. rewrite D. reflexivity.
Qed.
Lemma open_flat v : closed v = false -> depth v = 0.
Proof. destruct v; cbn; congruence || reflexivity. Qed.
Lemma value_skim nv d : open_numbers nv -> skims (read_value nv d) (read_value skim d).
Proof.
  intros O. induction d as [|d IH]; intros s v r H; cbn [read_value] in *; (destruct (skip_ws s) as [|c s1]; [discriminate|]);
    (destruct (Ascii.eqb c "n"); [destruct (word _ s1); [|discriminate]; injection H as <- <-; eexists; split; [reflexivity|auto]|]);
    (destruct (Ascii.eqb c "t"); [destruct (word _ s1); [|discriminate]; injection H as <- <-; eexists; split; [reflexivity|auto]|]);
    (destruct (Ascii.eqb c "f"); [destruct (word _ s1); [|discriminate]; injection H as <- <-; eexists; split; [reflexivity|auto]|]);
    (destruct (Ascii.eqb c QT); [destruct (read_str s1) as [[t q]|]; [|discriminate]; injection H as <- <-; eexists; split; [reflexivity|auto]|]).
  - destruct (Ascii.eqb c "["); [discriminate|]. destruct (Ascii.eqb c "{"); [discriminate|]. rewrite (number_skim _ _ _ _ H). eexists. split; [reflexivity|]. pose proof (read_number_open nv _ _ _ O H) as C. rewrite C, (open_flat _ C). split; [discriminate|reflexivity].
  - destruct (Ascii.eqb c "[").
    { destruct (skip_ws s1) as [|x q]; [discriminate|]. destruct (Ascii.eqb x "]"); [injection H as <- <-; eauto|].
      destruct (read_items _ _ s1) as [[l q']|] eqn:E; [|discriminate]. injection H as <- <-. destruct (items_skim _ _ _ IH _ _ _ E) as (l' & -> & D). eexists. split; [reflexivity|]. split; [reflexivity|]. cbn [depth]. rewrite D. reflexivity. }
    destruct (Ascii.eqb c "{").
    { destruct (skip_ws s1) as [|x q]; [discriminate|]. destruct (Ascii.eqb x "}"); [injection H as <- <-; eauto|].
      destruct (read_members _ _ s1) as [[l q']|] eqn:E; [|discriminate]. injection H as <- <-. destruct (members_skim _ _ _ IH _ _ _ E) as (l' & -> & D). eexists. split; [reflexivity|]. split; [reflexivity|]. cbn [depth]. rewrite D. reflexivity. }
    rewrite (number_skim _ _ _ _ H). eexists. split; [reflexivity|]. pose proof (read_number_open nv _ _ _ O H) as C. rewrite C, (open_flat _ C). split; [discriminate|reflexivity].
Qed.
Lemma back_skim wf v : (forall f, f_is_finite f = true -> number_text (wf f)) -> exists v', back wf skim v v'.
Proof.
  intros N. assert (T : forall t, number_text t -> forall r, stops r -> read_number skim (t ++ r) = Some (JvInt 0, r)).
  { intros t H r S. apply number_text_parts in H as (neg & ints & frac & ex & e & -> & P & X). rewrite <- !app_assoc. rewrite (read_signed skim neg ints frac ex e r P X S). reflexivity. }
  apply (jv_ind' (fun v => exists v', back wf skim v v')); clear v; try (intros; eexists; constructor; fail).
  - intros z. exists (JvInt 0). constructor. apply T, show_Z_number.
  - intros f. destruct (f_is_finite f) eqn:F; [exists (JvInt 0); apply back_float; auto|exists JvNull; apply back_no_number; exact F].
  - intros l F. assert (X : exists l', Forall2 (back wf skim) l l'). { induction F as [|x l (x' & B) F (l' & IH)]; [exists []; constructor|exists (x' :: l'); constructor; auto]. }
    destruct X as (l' & X). exists (JvArr l'). constructor. exact X.
  - intros l F. assert (X : exists l', Forall2 (fun kv kv' => fst kv = fst kv' /\ back wf skim (snd kv) (snd kv')) l l').
    { induction F as [|[k x] l (x' & B) F (l' & IH)]; [exists []; constructor|exists ((k, x') :: l'); constructor; auto]. }
    destruct X as (l' & X). exists (JvObj l'). constructor. exact X.
Qed.
(** A beginning of a text holds no container or string. *)
Lemma no_beginning_at wf v a b w r d : (forall f, f_is_finite f = true -> number_text (wf f)) -> show_jv wf v = a ++ b -> b <> [] -> read_value number_of d a = Some (w, r) -> closed w = false.
Proof.
  intros N E NB V. destruct (closed w) eqn:C; [|reflexivity]. exfalso.
  destruct (value_skim _ _ number_of_open _ _ _ V) as (w' & V' & C' & _). specialize (C' C). destruct (back_skim wf v N) as (v' & B).
  pose proof (value_more skim d skim_open (Nat.max d (depth v)) (Nat.le_max_l _ _) a w' r b V' (or_intror C')) as H.
  pose proof (read_back wf skim v v' (Nat.max d (depth v)) [] B (Nat.le_max_r _ _) Logic.I) as H'. rewrite app_nil_r, E in H'. rewrite H in H'. clear - H' NB.
  injection H' as _ Q. apply app_eq_nil in Q as [_ Q]. congruence.
Qed.
Lemma no_beginning wf v a b w : (forall f, f_is_finite f = true -> number_text (wf f)) -> show_jv wf v = a ++ b -> b <> [] -> read_json a = Some w -> closed w = false.
Proof.
  unfold read_json. generalize max_depth. intros d N E NB R. destruct (read_value number_of d a) as [[v1 r]|] eqn:V; [|discriminate].
  assert (v1 = w) as -> by (destruct (skip_ws r); congruence). eapply no_beginning_at; eauto.
Qed.

(** ** Too deep *)
Lemma items_depth rv k d : (forall s v r, rv s = Some (v, r) -> depth v <= d) -> forall s l r, read_items rv k s = Some (l, r) -> fold_right Nat.max 0 (map depth l) <= d.
Proof.
  intros X. induction k as [|k IH]; intros s l r H; [discriminate|]. cbn [read_items] in *. destruct (rv s) as [[v s1]|] eqn:V; [|discriminate]. pose proof (X _ _ _ V) as D.
  destruct (skip_ws s1) as [|c s2]; [discriminate|]. destruct (Ascii.eqb c ",").
  - destruct (read_items rv k s2) as [[l' s3]|] eqn:E; [|discriminate]. injection H as <- <-. apply IH in E. cbn [map fold_right]. lia.
  - destruct (Ascii.eqb c "]"); [|discriminate]. injection H as <- <-. cbn [map fold_right]. lia.
Qed.
Lemma members_depth rv k d : (forall s v r, rv s = Some (v, r) -> depth v <= d) -> forall s l r, read_members rv k s = Some (l, r) -> fold_right Nat.max 0 (map (fun kv => depth (snd kv)) l) <= d.
Proof.
  intros X. induction k as [|k IH]; intros s l r H; [discriminate|]. cbn [read_members] in *. destruct (skip_ws s) as [|q s0]; [discriminate|]. destruct (Ascii.eqb q QT); [|discriminate].
  destruct (read_str s0) as [[key s1]|]; [|discriminate]. destruct (skip_ws s1) as [|c s2]; [discriminate|]. destruct (Ascii.eqb c ":"); [|discriminate].
  destruct (rv s2) as [[v s3]|] eqn:V; [|discriminate]. pose proof (X _ _ _ V) as D. destruct (skip_ws s3) as [|x s4]; [discriminate|]. destruct (Ascii.eqb x ",").
  - destruct (read_members rv k s4) as [[l' s5]|] eqn:E; [|discriminate]. injection H as <- <-. apply IH in E. cbn [map snd fold_right]. lia.
  - destruct (Ascii.eqb x "}"); [|discriminate]. injection H as <- <-. cbn [map snd fold_right]. lia.
Qed.
Lemma read_depth nv d : open_numbers nv -> forall s v r, read_value nv d s = Some (v, r) -> depth v <= d.
Proof.
  intros O. induction d as [|d IH]; intros s v r H; cbn [read_value] in *; (destruct (skip_ws s) as [|c s1]; [discriminate|]);
    (destruct (Ascii.eqb c "n"); [destruct (word _ s1); [|discriminate]; injection H as <- <-; cbn; lia|]);
    (destruct (Ascii.eqb c "t"); [destruct (word _ s1); [|discriminate]; injection H as <- <-; cbn; lia|]);
    (destruct (Ascii.eqb c "f"); [destruct (word _ s1); [|discriminate]; injection H as <- <-; cbn; lia|]);
    (destruct (Ascii.eqb c QT); [destruct (read_str s1) as [[t q]|]; [|discriminate]; injection H as <- <-; cbn; lia|]).
  - destruct (Ascii.eqb c "["); [discriminate|]. destruct (Ascii.eqb c "{"); [discriminate|]. rewrite (open_flat _ (read_number_open nv _ _ _ O H)). lia.
  - destruct (Ascii.eqb c "[").
    { destruct (skip_ws s1) as [|x q]; [discriminate|]. destruct (Ascii.eqb x "]"); [injection H as <- <-; cbn; lia|].
      destruct (read_items _ _ s1) as [[l q']|] eqn:E; [|discriminate]. injection H as <- <-. apply (items_depth _ _ d IH) in E. cbn [depth]. lia. }
    destruct (Ascii.eqb c "{").
    { destruct (skip_ws s1) as [|x q]; [discriminate|]. destruct (Ascii.eqb x "}"); [injection H as <- <-; cbn; lia|].
      destruct (read_members _ _ s1) as [[l q']|] eqn:E; [|discriminate]. injection H as <- <-. apply (members_depth _ _ d IH) in E. cbn [depth]. lia. }
    rewrite (open_flat _ (read_number_open nv _ _ _ O H)). lia.
Qed.
Lemma back_depth wf nv v : open_numbers nv -> forall v', back wf nv v v' -> depth v' = depth v.
Proof.
  intros O. apply (jv_ind' (fun v => forall v', back wf nv v v' -> depth v' = depth v)); clear v.
  - intros v' B. inversion B. reflexivity.
  - intros b v' B. inversion B. reflexivity.
  - intros z v' B. inversion B as [| |? ? R| | | | |]; subst. specialize (R [] Logic.I). apply (open_flat _ (read_number_open nv _ _ _ O R)).
  - intros f v' B. inversion B as [| | |? ? F N R|? F| | |]; subst; [|reflexivity]. specialize (R [] Logic.I). apply (open_flat _ (read_number_open nv _ _ _ O R)).
  - intros s v' B. inversion B. reflexivity.
  - intros l IH v' B. inversion B as [| | | | | |? l' F|]; subst. cbn [depth]. do 2 f_equal. clear B. induction F as [|x x' l l' X F IHF]; [reflexivity|]. inversion IH; subst. cbn [map]. f_equal; auto.
  - intros l IH v' B. inversion B as [| | | | | | |? l' F]; subst. cbn [depth]. do 2 f_equal. clear B. induction F as [|x x' l l' X F IHF]; [reflexivity|]. inversion IH; subst. cbn [map]. destruct X. f_equal; auto.
Qed.
Lemma too_deep_at wf v d : (forall f, f_is_finite f = true -> number_text (wf f)) -> d < depth v -> read_value number_of d (show_jv wf v) = None.
Proof.
  intros N D. destruct (read_value number_of d (show_jv wf v)) as [[w r]|] eqn:V; [|reflexivity]. exfalso.
  destruct (value_skim _ _ number_of_open _ _ _ V) as (w' & V' & C' & _). pose proof (read_depth _ _ skim_open _ _ _ V') as Dw. destruct (back_skim wf v N) as (v' & B).
  pose proof (read_back wf skim v v' (depth v) [] B (le_n _) Logic.I) as H. rewrite app_nil_r in H.
  assert (CV : closed w' = true \/ closed w' = false) by (destruct (closed w'); auto). destruct CV as [C|C].
  - pose proof (value_more skim d skim_open (depth v) ltac:(lia) _ w' r [] V' (or_intror C)) as H'. rewrite !app_nil_r in H'. rewrite H in H'. injection H' as <- _. rewrite (back_depth wf skim v skim_open v' B) in Dw. lia.
  - assert (X : exists c s, skip_ws (show_jv wf v) = c :: s /\ (c = "["%char \/ c = "{"%char)).
    { destruct v; cbn [depth] in D; try lia; cbn [show_jv]; eexists; eexists; (split; [reflexivity|auto]). }
    destruct X as (c & s & W & CC). destruct d as [|d]; cbn [read_value] in V'; rewrite W in V'; destruct CC as [-> | ->]; cbn in V'; try discriminate;
      (destruct (skip_ws s) as [|x q]; [discriminate|]).
    + destruct (Ascii.eqb x "]"); [injection V' as <- _; discriminate|]. destruct (read_items _ _ _) as [[]|]; [injection V' as <- _; discriminate|discriminate].
    + destruct (Ascii.eqb x "}"); [injection V' as <- _; discriminate|]. destruct (read_members _ _ _) as [[]|]; [injection V' as <- _; discriminate|discriminate].
Qed.
Lemma too_deep wf v : (forall f, f_is_finite f = true -> number_text (wf f)) -> 127 < depth v -> read_json (show_jv wf v) = None.
Proof.
  intros N D. unfold read_json. change 127 with max_depth in D. revert D. generalize max_depth. intros d D. rewrite (too_deep_at wf v d N D). reflexivity.
Qed.
(** Nothing but white space may follow. *)
Lemma nothing_follows_at d s v x : read_value number_of d s = Some (v, []) -> closed v = true -> read_value number_of d (s ++ x) = Some (v, x).
Proof. intros R C. exact (value_more number_of d number_of_open d (le_n _) s v [] x R (or_intror C)). Qed.
