(** Facts about the string functions of [M_Str]. *)
From Coq Require Import Lia ZifyBool ZifyN.
From Verif Require Import M_Str.

Lemma code_inj a b : code a = code b -> a = b.
Proof.
  intros H. unfold code in H.
  rewrite <- (ascii_N_embedding a), <- (ascii_N_embedding b), H. reflexivity.
Qed.

Lemma code_bound c : (code c < 256)%N.
Proof. apply N_ascii_bounded. Qed.

Lemma str_eqb_eq a b : str_eqb a b = true <-> a = b.
Proof.
  revert b; induction a as [|x a IH]; intros [|y b]; cbn; try (split; congruence).
  rewrite andb_true_iff, Ascii.eqb_eq, IH. split; [intros [-> ->]|intros [= -> ->]]; auto.
Qed.

Lemma str_eqb_refl a : str_eqb a a = true.
Proof. apply str_eqb_eq; reflexivity. Qed.

Lemma str_eqb_neq a b : str_eqb a b = false <-> a <> b.
Proof.
  rewrite <- str_eqb_eq. destruct (str_eqb a b); split; congruence.
Qed.

Lemma str_eqb_sym a b : str_eqb a b = str_eqb b a.
Proof.
  destruct (str_eqb b a) eqn:E.
  - apply str_eqb_eq in E; subst; apply str_eqb_refl.
  - apply str_eqb_neq in E. apply str_eqb_neq. congruence.
Qed.

Lemma str_eq_dec (a b : str) : {a = b} + {a <> b}.
Proof. destruct (str_eqb a b) eqn:E; [left; apply str_eqb_eq|right; apply str_eqb_neq]; auto. Defined.

Lemma str_eqb_spec a b : reflect (a = b) (str_eqb a b).
Proof. destruct (str_eqb a b) eqn:E; constructor; [apply str_eqb_eq|apply str_eqb_neq]; auto. Qed.

Lemma ascii_cmp_refl a : ascii_cmp a a = Eq.
Proof. apply N.compare_refl. Qed.
Lemma ascii_cmp_eq a b : ascii_cmp a b = Eq -> a = b.
Proof. intros H; apply code_inj, N.compare_eq, H. Qed.
Lemma ascii_cmp_antisym a b : ascii_cmp b a = CompOpp (ascii_cmp a b).
Proof. unfold ascii_cmp. apply N.compare_antisym. Qed.

Lemma str_cmp_refl a : str_cmp a a = Eq.
Proof. induction a; cbn; rewrite ?ascii_cmp_refl; auto. Qed.

Lemma str_cmp_eq a b : str_cmp a b = Eq <-> a = b.
Proof.
  split; [|intros ->; apply str_cmp_refl].
  revert b; induction a as [|x a IH]; intros [|y b]; cbn; try congruence.
  destruct (ascii_cmp x y) eqn:E; try congruence.
  apply ascii_cmp_eq in E. intros H; apply IH in H; congruence.
Qed.

Lemma str_cmp_antisym a b : str_cmp b a = CompOpp (str_cmp a b).
Proof.
  revert b; induction a as [|x a IH]; intros [|y b]; cbn; auto.
  rewrite (ascii_cmp_antisym x y). destruct (ascii_cmp x y); cbn; auto.
Qed.

Lemma str_cmp_trans_lt a b c : str_cmp a b = Lt -> str_cmp b c = Lt -> str_cmp a c = Lt.
Proof.
  revert b c; induction a as [|x a IH]; intros [|y b] [|z c]; cbn; try congruence.
  unfold ascii_cmp.
  destruct (N.compare_spec (code x) (code y)) as [E1|E1|E1]; try congruence;
  destruct (N.compare_spec (code y) (code z)) as [E2|E2|E2]; try congruence; intros H1 H2;
  destruct (N.compare_spec (code x) (code z)) as [E3|E3|E3]; try lia; eauto.
Qed.

Lemma str_in_In x l : str_in x l = true <-> In x l.
Proof.
  unfold str_in. rewrite existsb_exists. split.
  - intros (y & Hy & E). apply str_eqb_eq in E; subst; auto.
  - intros H; exists x; split; auto using str_eqb_refl.
Qed.

Lemma str_in_not x l : str_in x l = false <-> ~ In x l.
Proof. rewrite <- str_in_In. destruct (str_in x l); split; congruence. Qed.

(** Characters. *)
Lemma code_of_N n : (n < 256)%N -> code (ascii_of_N n) = n.
Proof. intros H; unfold code; apply N_ascii_embedding; auto. Qed.

Lemma lower_ascii_not_upper c : is_upper (lower_ascii c) = false.
Proof.
  unfold lower_ascii. destruct (is_upper c) eqn:E; [|exact E].
  unfold is_upper in *. rewrite code_of_N; lia.
Qed.

Lemma lower_ascii_id c : is_upper c = false -> lower_ascii c = c.
Proof. intros H; unfold lower_ascii; rewrite H; auto. Qed.

Lemma lower_ascii_idem c : lower_ascii (lower_ascii c) = lower_ascii c.
Proof. apply lower_ascii_id, lower_ascii_not_upper. Qed.

Lemma lower_idem s : lower (lower s) = lower s.
Proof. unfold lower. rewrite map_map. apply map_ext. apply lower_ascii_idem. Qed.

Lemma lower_app a b : lower (a ++ b) = lower a ++ lower b.
Proof. apply map_app. Qed.

Lemma code_lower_upper c : is_upper c = true -> code (lower_ascii c) = (code c + 32)%N.
Proof.
  intros E. unfold lower_ascii. rewrite E. apply code_of_N.
  unfold is_upper in E; lia.
Qed.

Lemma eq_ignore_case_spec a b : eq_ignore_case a b = true <-> lower a = lower b.
Proof. apply str_eqb_eq. Qed.

Lemma starts_with_spec s p : starts_with s p = true <-> exists r, s = p ++ r.
Proof.
  revert s; induction p as [|x p IH]; intros s; cbn.
  - split; eauto.
  - destruct s as [|y s].
    + split; [congruence|intros (r & H); inversion H].
    + rewrite andb_true_iff, Ascii.eqb_eq, IH. split.
      * intros (-> & r & ->); eauto.
      * intros (r & [= -> ->]); eauto.
Qed.

Lemma contains_spec s p : contains s p = true <-> exists a b, s = a ++ p ++ b.
Proof.
  induction s as [|c s IH]; cbn [contains]; rewrite orb_true_iff, starts_with_spec.
  - split.
    + intros [(r & H)|]; [exists [], r; auto|congruence].
    + intros (a & b & H). left. symmetry in H. apply app_eq_nil in H as [-> H].
      exists b; auto.
  - rewrite IH. split.
    + intros [(r & H)|(a & b & ->)]; [exists [], r; auto|exists (c :: a), b; auto].
    + intros ([|x a] & b & H); cbn in H; [left; exists b; auto|right].
      injection H as -> ->. eauto.
Qed.

Lemma ends_with_spec s p : ends_with s p = true <-> exists r, s = r ++ p.
Proof.
  unfold ends_with. rewrite starts_with_spec. split; intros (r & H).
  - exists (rev r). apply (f_equal (@rev ascii)) in H. rewrite rev_app_distr, !rev_involutive in H. auto.
  - exists (rev r). rewrite H, rev_app_distr. auto.
Qed.

Lemma split_once_spec q s a b : split_once q s = Some (a, b) <-> s = a ++ q :: b /\ ~ In q a.
Proof.
  revert a b; induction s as [|c s IH]; intros a b; cbn.
  - split; [congruence|]. intros [H _]. destruct a; inversion H.
  - destruct (Ascii.eqb_spec c q) as [->|N].
    + split.
      * intros [= <- <-]; split; auto.
      * intros [H I]. destruct a as [|x a]; cbn in *; inversion H; subst; auto.
        exfalso; apply I; auto.
    + destruct (split_once q s) as [[x y]|] eqn:E.
      * specialize (IH x y) as [IH _]. specialize (IH eq_refl) as [-> I]. split.
        -- intros [= <- <-]. split; auto. cbn. intros [H|H]; auto.
        -- intros [H I2]. destruct a as [|z a]; cbn in *; inversion H; subst; [congruence|].
           f_equal. f_equal.
           ++ f_equal. assert (HH : x ++ q :: y = a ++ q :: b) by auto.
              clear -HH I I2. revert a HH I2; induction x as [|u x IHx]; intros [|v a] HH I2; cbn in *; auto.
              ** inversion HH; subst. exfalso; apply I2; auto.
              ** inversion HH; subst. exfalso; apply I; auto.
              ** inversion HH; subst. f_equal. apply IHx; auto. intros [K|K]; auto.
           ++ assert (HH : x ++ q :: y = a ++ q :: b) by auto.
              clear -HH I I2. revert a HH I2; induction x as [|u x IHx]; intros [|v a] HH I2; cbn in *; auto.
              ** inversion HH; auto.
              ** inversion HH; subst. exfalso; apply I2; auto.
              ** inversion HH; subst. exfalso; apply I; auto.
              ** inversion HH; subst. eapply IHx; eauto. intros [K|K]; auto.
      * split; [congruence|]. intros [H I]. destruct a as [|z a]; cbn in *; inversion H; subst; [congruence|].
        assert (None = Some (a, b)); [|congruence]. apply IH. split; auto.
Qed.

Lemma split_once_app q a b : ~ In q a -> split_once q (a ++ q :: b) = Some (a, b).
Proof. intros H. apply split_once_spec; auto. Qed.

Lemma split_once_none q s : split_once q s = None <-> ~ In q s.
Proof.
  induction s as [|c s IH]; cbn; [split; auto|].
  destruct (Ascii.eqb_spec c q) as [->|N].
  - split; [congruence|]. intros H; exfalso; auto.
  - destruct (split_once q s) as [[x y]|] eqn:E.
    + split; [congruence|]. intros H. exfalso. destruct IH as [_ IH].
      assert (Some (x, y) = None); [|congruence]. apply IH. intros I; auto.
    + split; auto. intros _ [H|H]; auto. apply IH in H; auto.
Qed.

Lemma split_char_not_nil q s : split_char q s <> [].
Proof.
  destruct s as [|c s]; cbn; [congruence|]. destruct (Ascii.eqb c q); [congruence|].
  destruct (split_char q s); congruence.
Qed.

Lemma split_char_free q s : ~ In q s -> split_char q s = [s].
Proof.
  induction s as [|c s IH]; cbn; auto. intros H.
  destruct (Ascii.eqb_spec c q) as [->|]; [exfalso; auto|].
  rewrite IH; auto.
Qed.

Lemma split_char_app q a b : ~ In q a -> split_char q (a ++ q :: b) = a :: split_char q b.
Proof.
  induction a as [|c a IH]; cbn; intros H.
  - rewrite Ascii.eqb_refl. auto.
  - destruct (Ascii.eqb_spec c q) as [->|]; [exfalso; auto|].
    rewrite IH; auto.
Qed.

Lemma trim_start_char_free q s : (forall s', s <> q :: s') -> trim_start_char q s = s.
Proof.
  destruct s as [|c s]; cbn; auto. intros H.
  destruct (Ascii.eqb_spec c q) as [->|]; auto. exfalso; eapply H; eauto.
Qed.

Lemma trim_matches_quoted q s : ~ In q s -> trim_matches_char q (q :: s ++ [q]) = s.
Proof.
  intros H. unfold trim_matches_char, trim_end_char. cbn. rewrite Ascii.eqb_refl.
  destruct s as [|c s].
  - cbn. rewrite Ascii.eqb_refl. auto.
  - rewrite (trim_start_char_free q ((c :: s) ++ [q])).
    + rewrite rev_app_distr. cbn [rev app]. cbn [trim_start_char]. rewrite Ascii.eqb_refl.
      rewrite trim_start_char_free; [cbn; rewrite rev_app_distr, rev_involutive; auto|].
      intros s' E. apply H. apply in_rev. cbn. rewrite E. left; auto.
    + cbn. intros s' [= -> _]. apply H; left; auto.
Qed.
