(** Lemmas about trimming, lines and string literals of the DSL. *)
From Coq Require Import Lia.
From Verif Require Import M_Text M_Dsl S_Dsl L_Str L_Text.
Close Scope Z_scope.

(** ** Trimming *)
Lemma headed_space s : headed ws_chars s <-> starts_with_space s.
Proof. reflexivity. Qed.
Lemma headed_rev s : headed (map (@rev ascii) ws_chars) (rev s) <-> ends_with_space s.
Proof.
  split.
  - intros (p & r & H & E). apply in_map_iff in H as (w & <- & H). exists w, (rev r). split; auto.
    rewrite <- (rev_involutive s), E, rev_app_distr, rev_involutive. reflexivity.
  - intros (w & r & H & ->). exists (rev w), (rev r). split; [apply in_map; auto|]. apply rev_app_distr.
Qed.

Lemma all_space_app a b : all_space a -> all_space b -> all_space (a ++ b).
Proof.
  intros (x & Hx & ->) (y & Hy & ->). exists (x ++ y). split; [apply Forall_app; auto|]. rewrite concat_app; auto.
Qed.
Lemma all_space_nil : all_space [].
Proof. exists []; auto. Qed.

Lemma utrim_start_spec s : exists a, all_space a /\ s = a ++ utrim_start s /\ ~ starts_with_space (utrim_start s).
Proof.
  unfold utrim_start. destruct (strip_any_suffix (length s) ws_chars s) as (ws & H & E).
  exists (concat ws). split; [exists ws; auto|]. split; auto.
  apply strip_any_done; auto using ws_nonempty.
Qed.

Lemma utrim_end_spec s : exists b, all_space b /\ s = utrim_end s ++ b /\ ~ ends_with_space (utrim_end s).
Proof.
  unfold utrim_end. set (ps := map (@rev ascii) ws_chars).
  destruct (strip_any_suffix (length s) ps (rev s)) as (ws & H & E).
  exists (rev (concat ws)). split; [|split].
  - rewrite rev_concat. exists (map (@rev ascii) (rev ws)). split; auto.
    apply Forall_map. apply Forall_rev. eapply Forall_impl; [|exact H].
    intros w Hw. apply in_map_iff in Hw as (x & <- & Hx). rewrite rev_involutive. auto.
  - rewrite <- (rev_involutive s) at 1. rewrite E at 1. rewrite rev_app_distr. reflexivity.
  - rewrite <- headed_rev, rev_involutive. apply strip_any_done; [apply ws_rev_nonempty|].
    rewrite rev_length; auto.
Qed.

Lemma starts_space_app s b : starts_with_space s -> starts_with_space (s ++ b).
Proof. intros (w & r & H & ->). exists w, (r ++ b). rewrite app_assoc; auto. Qed.

Lemma utrim_spec s : trimmed_of s (utrim s).
Proof.
  unfold utrim. destruct (utrim_start_spec s) as (a & A & Ea & Na).
  destruct (utrim_end_spec (utrim_start s)) as (b & B & Eb & Nb).
  split; [|split; [auto|]].
  - intros H. apply Na. rewrite Eb. apply starts_space_app, H.
  - exists a, b. repeat split; auto. rewrite Ea at 1. rewrite Eb at 1. reflexivity.
Qed.

(** A white space character cannot begin in [s] and end beyond it when what
    follows starts with a lead byte. *)
Lemma no_straddle s b : s <> [] -> ~ starts_with_space s ->
  match b with c :: _ => is_cont c = false | [] => True end -> ~ starts_with_space (s ++ b).
Proof.
  intros N H B (w & r & Hw & E). destruct (ws_shape w Hw) as (c & t & -> & _ & Ht).
  revert E. destruct s as [|d s]; [congruence|]. cbn. intros [= -> E].
  assert (X : exists u, s = t ++ u).
  { clear H N Hw. revert s E. induction t as [|x t IH]; intros s E; [exists s; reflexivity|].
    inversion Ht; subst. destruct s as [|y s]; cbn in E.
    - subst b. congruence.
    - injection E as -> E. destruct (IH ltac:(auto) s E) as (u & ->). exists u; reflexivity. }
  destruct X as (u & ->). apply H. exists (c :: t), u. auto.
Qed.

Lemma all_space_lead b : all_space b -> match b with c :: _ => is_cont c = false | [] => True end.
Proof.
  intros (ws & H & ->). destruct H as [|w ws Hw _]; cbn; auto.
  destruct (ws_shape w Hw) as (c & r & -> & Hc & _). exact Hc.
Qed.

Lemma utrim_start_around a s : all_space a -> ~ starts_with_space s -> utrim_start (a ++ s) = s.
Proof.
  intros (ws & H & ->) N. unfold utrim_start. rewrite app_length.
  apply strip_any_concat; auto using ws_prefix_free, ws_nonempty. lia.
Qed.

Lemma utrim_end_around s b : all_space b -> ~ ends_with_space s -> utrim_end (s ++ b) = s.
Proof.
  intros (ws & H & ->) N. unfold utrim_end. rewrite app_length, rev_app_distr, rev_concat.
  rewrite strip_any_concat; [apply rev_involutive|apply ws_suffix_free|apply ws_rev_nonempty| | |].
  - apply Forall_map, Forall_rev. eapply Forall_impl; [|exact H]. intros; apply in_map; auto.
  - rewrite <- rev_concat, rev_length. lia.
  - rewrite headed_rev. auto.
Qed.

Lemma all_space_not_started a : all_space a -> ~ starts_with_space a -> a = [].
Proof.
  intros (ws & H & ->) N. destruct H as [|w ws Hw _]; auto.
  exfalso. apply N. exists w, (concat ws). auto.
Qed.

Lemma utrim_around a s b : all_space a -> all_space b -> ~ starts_with_space s -> ~ ends_with_space s ->
  utrim (a ++ s ++ b) = s.
Proof.
  intros A B S1 S2. unfold utrim. destruct s as [|c s].
  - cbn [app]. rewrite <- (app_nil_r (a ++ b)).
    rewrite utrim_start_around; [reflexivity|apply all_space_app; auto|auto].
  - rewrite utrim_start_around; auto.
    + apply utrim_end_around; auto.
    + apply no_straddle; auto; [discriminate|]. apply all_space_lead; auto.
Qed.

Lemma utrim_fixed s : utrim s = s <-> ~ starts_with_space s /\ ~ ends_with_space s.
Proof.
  split.
  - intros E. destruct (utrim_spec s) as (A & B & _). rewrite E in *. auto.
  - intros [A B]. rewrite <- (app_nil_r s) at 1. change (s ++ []) with ([] ++ s ++ []).
    apply utrim_around; auto using all_space_nil.
Qed.

Lemma blank_spec l : blank l = true <-> all_space l.
Proof.
  unfold blank. destruct (utrim_spec l) as (A & B & a & b & Ha & Hb & E). split.
  - destruct (utrim l) eqn:U; [|discriminate]. intros _. rewrite E. apply all_space_app; auto.
  - intros H. replace (utrim l) with (@nil ascii); auto.
    rewrite <- (app_nil_r l). change (l ++ []) with (l ++ [] ++ []). symmetry. apply utrim_around; auto using all_space_nil.
    + intros (w & r & Hw & X). apply ws_nonempty in Hw. destruct w; [congruence|discriminate].
    + intros (w & r & Hw & X). apply ws_nonempty in Hw. destruct w; [congruence|]. destruct r; discriminate.
Qed.

Lemma nil_no_start : ~ starts_with_space [].
Proof. intros (w & r & Hw & X). apply ws_nonempty in Hw. destruct w; [congruence|discriminate]. Qed.
Lemma nil_no_end : ~ ends_with_space [].
Proof. intros (w & r & Hw & X). apply ws_nonempty in Hw. destruct w; [congruence|]. destruct r; discriminate. Qed.

(** ** Lines *)
Lemma split_char_in q s w : In w (split_char q s) -> ~ In q w.
Proof.
  revert w; induction s as [|c s IH]; intros w; cbn.
  - intros [<-|[]] [].
  - destruct (Ascii.eqb_spec c q) as [->|N].
    + intros [<-|H]; [intros []|apply IH; auto].
    + destruct (split_char q s) as [|v vs] eqn:E.
      * intros [<-|[]] [X|[]]; auto.
      * intros [<-|H].
        -- intros [X|X]; auto. apply (IH v); cbn; auto.
        -- apply IH; cbn; auto.
Qed.

Lemma join_split_char q s : join [q] (split_char q s) = s.
Proof. rewrite <- split_one_char. apply join_split_str. discriminate. Qed.

Lemma split_char_join q ws : ws <> [] -> Forall (fun w => ~ In q w) ws -> split_char q (join [q] ws) = ws.
Proof.
  induction ws as [|w ws IH]; [congruence|]. intros _ F. inversion F; subst.
  destruct ws as [|w2 ws]; [apply split_char_free; auto|].
  rewrite join_cons by discriminate. cbn [app]. rewrite split_char_app by auto. rewrite IH; auto; discriminate.
Qed.

Lemma split_char_two q s : In q s -> exists w ws, split_char q s = w :: ws /\ ws <> [] /\ s = w ++ q :: join [q] ws.
Proof.
  intros H. pose proof (join_split_char q s) as J. pose proof (split_char_not_nil q s) as N.
  destruct (split_char q s) as [|w ws] eqn:E; [congruence|]. exists w, ws. split; auto.
  destruct ws as [|w2 ws].
  - exfalso. cbn in J. subst w. apply (split_char_in q s s); auto. rewrite E; cbn; auto.
  - split; [discriminate|]. rewrite <- J. reflexivity.
Qed.

Lemma strip_cr_not w : (forall r, w <> r ++ [CR]) -> strip_cr w = w.
Proof.
  induction w as [|c w IH]; auto. intros H. destruct w as [|d w].
  - cbn. destruct (Ascii.eqb_spec c CR) as [->|]; auto. exfalso. apply (H []); auto.
  - change (strip_cr (c :: d :: w)) with (c :: strip_cr (d :: w)). rewrite IH; auto.
    intros r E. apply (H (c :: r)). rewrite E. reflexivity.
Qed.
Lemma strip_cr_app w : strip_cr (w ++ [CR]) = w.
Proof.
  induction w as [|c w IH]; [reflexivity|]. destruct w as [|d w]; [reflexivity|].
  change ((c :: d :: w) ++ [CR]) with (c :: (d :: (w ++ [CR]))).
  change (strip_cr (c :: d :: (w ++ [CR]))) with (c :: strip_cr ((d :: w) ++ [CR])). rewrite IH. reflexivity.
Qed.

Lemma finish_lines_app ws w : finish_lines (ws ++ [w]) = map strip_cr ws ++ match w with [] => [] | _ => [w] end.
Proof.
  induction ws as [|x ws IH]; [reflexivity|].
  cbn [app map]. rewrite <- IH. destruct (ws ++ [w]) eqn:E; [destruct ws; discriminate|]. reflexivity.
Qed.

Lemma lines_no_lf s l : In l (lines s) -> ~ In LF l.
Proof.
  unfold lines. pose proof (split_char_in LF s) as H.
  destruct (exists_last (split_char_not_nil LF s)) as (ws & w & E). rewrite E in *.
  rewrite finish_lines_app. intros X. apply in_app_iff in X as [X|X].
  - apply in_map_iff in X as (y & <- & Y).
    assert (S : forall c, In c (strip_cr y) -> In c y).
    { clear. induction y as [|d y IH]; auto. intros c. destruct y as [|e y].
      - cbn. destruct (Ascii.eqb d CR); cbn; tauto.
      - change (strip_cr (d :: e :: y)) with (d :: strip_cr (e :: y)). intros [->|X]; [left; auto|right; apply IH; auto]. }
    intros Z. apply (H y); [apply in_app_iff; auto|auto].
  - destruct w; [destruct X|]. destruct X as [<-|[]]. apply H. apply in_app_iff; cbn; auto.
Qed.

(** ** UTF-8 *)
Lemma utf8_head s : utf8 s -> match s with c :: _ => is_cont c = false | [] => True end.
Proof. destruct 1 as [|w s H _]; auto. destruct w as [|c w]; [destruct H|]. apply H. Qed.

Lemma utf8_tail c s : utf8 (c :: s) -> (code c < 128)%N -> utf8 s.
Proof.
  intros H A. inversion H as [|w s' Hw Hs E]; subst. destruct w as [|d w]; [destruct Hw|].
  cbn in E. injection E as -> E. destruct Hw as (_ & Hl & _). unfold cont_bytes in Hl.
  rewrite (proj2 (N.ltb_lt _ _) A) in Hl. destruct w; [|discriminate]. cbn in E. subst s. auto.
Qed.

Lemma utf8_split q a b : (code q < 128)%N -> utf8 (a ++ q :: b) -> utf8 a /\ utf8 b.
Proof.
  intros A. remember (length a) as n eqn:Hn. revert a Hn.
  induction n as [n IH] using lt_wf_ind. intros a -> H.
  destruct a as [|c a].
  - split; [constructor|]. eapply utf8_tail; eauto.
  - inversion H as [|w s' Hw Hs E]; subst. destruct w as [|d w]; [destruct Hw|].
    cbn in E. injection E as -> E.
    destruct Hw as (Hc & Hl & Hf).
    assert (X : exists u, a = w ++ u).
    { clear - A E Hf. revert a E. induction w as [|x w IHw]; intros a E; [exists a; auto|].
      inversion Hf as [|? ? Hx Hf']; subst. destruct a as [|y a]; cbn in E.
      - injection E as -> E. exfalso. unfold is_cont in Hx. rewrite andb_true_iff, !N.leb_le in Hx. lia.
      - injection E as -> E. destruct (IHw Hf' a E) as (u & ->). exists u; auto. }
    destruct X as (u & ->). rewrite <- app_assoc in E. apply app_inv_head in E. subst s'.
    destruct (IH (length u)) with (a := u) as [U1 U2]; auto.
    { cbn. rewrite app_length. lia. }
    split; auto. change (c :: w ++ u) with ((c :: w) ++ u). constructor; [|auto]. repeat split; auto.
Qed.

Lemma utf8_parts s w : utf8 s -> In w (split_char LF s) -> utf8 w.
Proof.
  intros H. pose proof (join_split_char LF s) as J. revert w s H J. 
  assert (G : forall ws s, utf8 s -> join [LF] ws = s -> forall w, In w ws -> utf8 w).
  { induction ws as [|x ws IH]; intros s H J w Hw; [destruct Hw|].
    destruct ws as [|y ws].
    - destruct Hw as [<-|[]]. cbn in J. subst; auto.
    - rewrite join_cons in J by discriminate. cbn [app] in J. subst s.
      apply utf8_split in H as [H1 H2]; [|reflexivity].
      destruct Hw as [<-|Hw]; auto. eapply IH; eauto. }
  intros w s H J. eapply G; eauto.
Qed.

(** ** One-line literals *)
Lemma contains_char s q : contains s [q] = true <-> In q s.
Proof.
  rewrite contains_spec. split.
  - intros (a & b & ->). apply in_app_iff. right. cbn; auto.
  - intros H. apply in_split in H as (a & b & ->). exists a, b. reflexivity.
Qed.
Lemma contains_char_false s q : contains s [q] = false <-> ~ In q s.
Proof. rewrite <- contains_char. destruct (contains s [q]); split; congruence. Qed.

Definition escaped (s : str) : str := concat (map (fun c => if Ascii.eqb c DQ then ["\"%char; DQ] else [c]) s).
Lemma escaped_free s : ~ In DQ s -> escaped s = s.
Proof.
  induction s as [|c s IH]; auto. intros H. cbn in *. unfold escaped in *. cbn.
  destruct (Ascii.eqb_spec c DQ); [exfalso; auto|]. cbn. rewrite IH; auto.
Qed.
Lemma escaped_len s : length s <= length (escaped s) /\ (In DQ s -> length s < length (escaped s)).
Proof.
  induction s as [|c s IH]; [cbn; split; [lia|tauto]|]. unfold escaped in *. cbn [map concat]. rewrite app_length.
  destruct IH as [A B]. destruct (Ascii.eqb_spec c DQ) as [->|N]; cbn [length]; split; try lia.
  intros [E|E]; [congruence|]. apply B in E. lia.
Qed.
Lemma escaped_no_lead s r : escaped s <> DQ :: r.
Proof.
  destruct s as [|c s]; [discriminate|]. unfold escaped. cbn [map concat].
  destruct (Ascii.eqb_spec c DQ) as [->|N]; cbn; [discriminate|]. intros [= E _]; congruence.
Qed.
Lemma escaped_app a b : escaped (a ++ b) = escaped a ++ escaped b.
Proof. unfold escaped. rewrite map_app, concat_app. reflexivity. Qed.

(** What is read back: every quote preceded by a backslash, and the quote at the
    very end lost. *)
Definition drop_final_quote (s : str) : str :=
  match rev s with c :: r => if Ascii.eqb c DQ then rev r else s | [] => [] end.

Lemma one_line_raw s o : ~ In LF s -> generate_string s o = DQ :: escaped s ++ [DQ].
Proof.
  intros H. unfold generate_string. rewrite (proj2 (contains_char_false s LF) H), replace_char. reflexivity.
Qed.

Lemma read_one_line s o : ~ In LF s ->
  parse_string (generate_string s o) = Ok (PStr (drop_final_quote (escaped s))).
Proof.
  intros H. rewrite one_line_raw by auto. unfold parse_string.
  assert (E : starts_with (DQ :: escaped s ++ [DQ]) q3 && ends_with (DQ :: escaped s ++ [DQ]) q3 = false).
  { apply andb_false_iff. left. destruct (starts_with _ q3) eqn:E; auto.
    apply starts_with_spec in E as (r & E). cbn in E. injection E as E.
    destruct s as [|c s]; [discriminate|].
    destruct (escaped (c :: s)) as [|d t] eqn:F.
    - pose proof (escaped_len (c :: s)) as [X _]. rewrite F in X. cbn in X. lia.
    - cbn in E. injection E as -> E. exfalso. eapply escaped_no_lead; eauto. }
  rewrite E. f_equal. f_equal. clear E. destruct s as [|c s]; [reflexivity|].
  unfold trim_matches_char, trim_end_char.
  cbn [trim_start_char]. change (Ascii.eqb DQ DQ) with true. cbn iota.
  rewrite (trim_start_char_free DQ (escaped (c :: s) ++ [DQ])).
  2:{ intros r X. destruct (escaped (c :: s)) as [|d t] eqn:F.
      - pose proof (escaped_len (c :: s)) as [Y _]; rewrite F in Y; cbn in Y; lia.
      - cbn in X. injection X as -> X. eapply escaped_no_lead; eauto. }
  rewrite rev_app_distr. cbn [rev app trim_start_char]. change (Ascii.eqb DQ DQ) with true. cbn iota.
  unfold drop_final_quote. destruct (@exists_last _ (c :: s)) as (u & x & E); [discriminate|]. rewrite E.
  rewrite escaped_app, rev_app_distr. unfold escaped at 1 3 5. cbn [map concat].
  destruct (Ascii.eqb_spec x DQ) as [->|N].
  - cbn. reflexivity.
  - cbn. rewrite (proj2 (Ascii.eqb_neq x DQ) N). cbn. rewrite rev_involutive. reflexivity.
Qed.

Lemma drop_final_len s : length (drop_final_quote s) <= length s /\ length s <= S (length (drop_final_quote s)).
Proof.
  unfold drop_final_quote. rewrite <- (rev_length s). destruct (rev s) as [|c r] eqn:E; cbn [length]; [lia|].
  destruct (Ascii.eqb c DQ); rewrite <- ?(rev_length s), ?E, ?rev_length; cbn [length]; lia.
Qed.

(** The number of backslashes. *)
Lemma escaped_backslash s : count_occ Ascii.ascii_dec (escaped s) "\"%char
  = count_occ Ascii.ascii_dec s "\"%char + count_occ Ascii.ascii_dec s DQ.
Proof.
  induction s as [|c s IH]; [reflexivity|]. unfold escaped in *. cbn [map concat].
  rewrite count_occ_app, IH. destruct (Ascii.eqb_spec c DQ) as [->|N].
  - cbn. lia.
  - cbn [count_occ]. destruct (Ascii.ascii_dec c "\"%char), (Ascii.ascii_dec c DQ); try congruence; lia.
Qed.
Lemma drop_final_count s : count_occ Ascii.ascii_dec (drop_final_quote s) "\"%char
  = count_occ Ascii.ascii_dec s "\"%char.
Proof.
  unfold drop_final_quote. destruct (rev s) as [|c r] eqn:E.
  - rewrite <- (rev_involutive s), E. reflexivity.
  - destruct (Ascii.eqb_spec c DQ) as [->|]; auto. rewrite <- (rev_involutive s), E. cbn [rev].
    rewrite count_occ_app. cbn. lia.
Qed.

Lemma one_line_survives s o : ~ In LF s ->
  (parse_string (generate_string s o) = Ok (PStr s) <-> ~ In DQ s).
Proof.
  intros H. rewrite read_one_line by auto. split.
  - intros [= E] Q. pose proof (drop_final_count (escaped s)) as X. rewrite E, escaped_backslash in X.
    apply (count_occ_In Ascii.ascii_dec) in Q. lia.
  - intros Q. rewrite escaped_free by auto. unfold drop_final_quote. destruct (rev s) as [|c r] eqn:E.
    + rewrite <- (rev_involutive s), E. reflexivity.
    + destruct (Ascii.eqb_spec c DQ) as [->|]; auto. exfalso. apply Q. apply in_rev. rewrite E. cbn; auto.
Qed.

(** ** Multi-line literals *)
Lemma q3_prefix r : starts_with (q3 ++ r) q3 = true.
Proof. apply starts_with_spec. exists r; auto. Qed.

Lemma parse_quoted body : quoted_body body ->
  parse_string (q3 ++ body ++ q3) = obind (trim_common_indentation body) (fun s => Ok (PStr s)).
Proof.
  intros [A B]. unfold parse_string. rewrite q3_prefix.
  rewrite (proj2 (ends_with_spec (q3 ++ body ++ q3) q3)) by (exists (q3 ++ body); rewrite app_assoc; auto).
  cbn [andb]. destruct body as [|c body]; [reflexivity|].
  assert (N : c <> DQ) by (intros ->; apply (A body); auto).
  rewrite trim_start_pat_once; [|discriminate|].
  - rewrite trim_end_pat_once; [reflexivity|discriminate|].
    destruct (ends_with (c :: body) q3) eqn:E; auto. apply ends_with_spec in E as (r & E).
    exfalso. apply (B (r ++ [DQ; DQ])). rewrite E, <- app_assoc. reflexivity.
  - destruct (starts_with ((c :: body) ++ q3) q3) eqn:E; auto. apply starts_with_spec in E as (r & E).
    cbn in E. injection E as E _. congruence.
Qed.

Section Indent.
Context (o : gen_options).
Let ind := indent_string (g_indent o) 1.

Lemma indent_shape : exists c n, ind = repeat c n /\ In [c] ws_chars /\ c <> LF /\ c <> CR /\ c <> DQ /\ is_cont c = false.
Proof.
  unfold ind, indent_string. destruct (g_indent o) as [n|].
  - exists " "%char, (1 * n). split; auto. repeat split; try discriminate. vm_compute; auto 10.
  - exists "009"%char, 1. split; auto. repeat split; try discriminate. vm_compute; auto.
Qed.
Lemma indent_space : all_space ind.
Proof.
  destruct indent_shape as (c & n & -> & H & _). exists (repeat [c] n). split.
  - apply Forall_forall. intros x Hx. apply repeat_spec in Hx. subst; auto.
  - clear. induction n; cbn; [|rewrite IHn]; auto.
Qed.
Lemma indent_not x : x = LF \/ x = CR \/ x = DQ -> ~ In x ind.
Proof.
  destruct indent_shape as (c & n & -> & _ & A & B & C & _). intros H X. apply repeat_spec in X. subst. tauto.
Qed.
Lemma indent_end_cr l r : ind ++ l = r ++ [CR] -> exists r', l = r' ++ [CR].
Proof.
  intros E. destruct l as [|c l].
  - exfalso. apply (indent_not CR); auto. rewrite app_nil_r in E. rewrite E. apply in_app_iff; cbn; auto.
  - destruct (@exists_last _ (c :: l)) as (u & x & X); [discriminate|]. rewrite X in E.
    rewrite app_assoc in E. apply app_inj_tail in E as [_ ->]. eauto.
Qed.

Definition body_of (ls : list str) : str := LF :: concat (map (fun l => ind ++ l ++ [LF]) ls) ++ ind.

Lemma multi_raw s : In LF s -> generate_string s o = q3 ++ body_of (lines s) ++ q3.
Proof.
  intros H. unfold generate_string. rewrite (proj2 (contains_char s LF) H). unfold body_of. fold ind.
  cbn [app]. rewrite <- !app_assoc. reflexivity.
Qed.

Lemma body_quoted ls : quoted_body (body_of ls).
Proof.
  split; [discriminate|]. intros r E. unfold body_of in E.
  destruct ind as [|c i] eqn:I.
  - rewrite app_nil_r in E. destruct ls as [|l ls] using rev_ind.
    + cbn in E. destruct r as [|x [|y r]]; discriminate.
    + rewrite map_app, concat_app in E. cbn in E. rewrite app_nil_r in E.
      rewrite app_assoc, app_comm_cons in E. apply app_inj_tail in E as [_ E]; discriminate.
  - destruct (@exists_last _ (c :: i)) as (u & x & X); [discriminate|]. rewrite X in E.
    rewrite app_assoc, app_comm_cons in E. apply app_inj_tail in E as [_ ->].
    apply (indent_not DQ); auto. rewrite I, X. apply in_app_iff; cbn; auto.
Qed.

Lemma split_body ls : Forall (fun l => ~ In LF l) ls ->
  split_char LF (body_of ls) = [] :: map (fun l => ind ++ l) ls ++ [ind].
Proof.
  intros F. unfold body_of. cbn [split_char]. change (Ascii.eqb LF LF) with true. cbn iota. f_equal.
  induction F as [|l ls Hl _ IH]; cbn.
  - apply split_char_free. apply indent_not; auto.
  - rewrite <- !app_assoc. cbn. rewrite app_assoc, split_char_app.
    + rewrite IH. reflexivity.
    + intros X. apply in_app_iff in X as [X|X]; auto. apply (indent_not LF); auto.
Qed.

Definition last_line : list str := match ind with [] => [] | _ => [ind] end.
Lemma lines_body ls : Forall (fun l => ~ In LF l) ls ->
  lines (body_of ls) = [] :: map (fun l => strip_cr (ind ++ l)) ls ++ last_line.
Proof.
  intros F. unfold lines. rewrite split_body by auto.
  rewrite app_comm_cons, finish_lines_app. cbn [map]. rewrite map_map. reflexivity.
Qed.
End Indent.

Lemma line_indent_around a r : all_space a -> ~ starts_with_space r -> line_indent (a ++ r) = length a.
Proof. intros A R. unfold line_indent. rewrite utrim_start_around, app_length by auto. lia. Qed.
Lemma line_indent_ge a r : all_space a -> length a <= line_indent (a ++ r).
Proof.
  intros A. unfold line_indent. destruct (utrim_start_spec r) as (b & B & E & N).
  rewrite E at 2. rewrite app_assoc, utrim_start_around by (auto using all_space_app).
  rewrite E at 1. rewrite !app_length. lia.
Qed.

Lemma list_min_spec l m : list_min l = Some m <-> In m l /\ forall x, In x l -> m <= x.
Proof.
  revert m; induction l as [|x l IH]; intros m; cbn.
  - split; [discriminate|tauto].
  - destruct (list_min l) as [k|] eqn:E.
    + destruct (proj1 (IH k) eq_refl) as [K1 K2]. split.
      * intros [= <-]. split.
        -- destruct (Nat.min_spec x k) as [[_ ->]|[_ ->]]; auto.
        -- intros y [<-|Hy]; [lia|]. specialize (K2 y Hy). lia.
      * intros [[<-|H] H2]; f_equal.
        -- pose proof (H2 k (or_intror K1)). lia.
        -- pose proof (K2 m H). pose proof (H2 k (or_intror K1)). pose proof (H2 x (or_introl eq_refl)). lia.
    + assert (l = []) as ->.
      { destruct l as [|y l]; auto. cbn in E. destruct (list_min l); discriminate. }
      split; [intros [= <-]; split; [auto|intros y [<-|[]]; lia]|].
      intros [[<-|[]] _]; auto.
Qed.

Lemma list_min_none l : list_min l = None <-> l = [].
Proof. destruct l as [|x l]; cbn; [tauto|]. destruct (list_min l); split; discriminate. Qed.

Lemma min_indent_is ls k : (forall l, In l ls -> ~ all_space l -> k <= line_indent l) ->
  (exists l, In l ls /\ ~ all_space l /\ line_indent l = k) -> min_indent ls = k.
Proof.
  intros A (l & L1 & L2 & L3). unfold min_indent.
  rewrite (proj2 (list_min_spec _ k)); auto. split.
  - rewrite <- L3. apply in_map, filter_In. split; auto.
    destruct (blank l) eqn:B; auto. apply blank_spec in B; tauto.
  - intros x X. apply in_map_iff in X as (y & <- & Y). apply filter_In in Y as [Y1 Y2]. apply A; auto.
    rewrite <- blank_spec. destruct (blank y); discriminate.
Qed.

Lemma join_snoc (sep : str) ws w : ws <> [] -> join sep (ws ++ [w]) = join sep ws ++ sep ++ w.
Proof.
  induction ws as [|x ws IH]; [congruence|]. intros _. destruct ws as [|y ws]; [reflexivity|].
  change ((x :: y :: ws) ++ [w]) with (x :: ((y :: ws) ++ [w])).
  rewrite join_cons by discriminate. rewrite IH by discriminate. rewrite (join_cons sep x) by discriminate.
  rewrite <- !app_assoc. reflexivity.
Qed.

Lemma join_middle q ws w x : In x ws -> exists A B, join [q] (ws ++ [w]) = A ++ x ++ q :: B.
Proof.
  intros H. apply in_split in H as (a & b & ->). rewrite <- app_assoc. cbn [app].
  assert (N : b ++ [w] <> []) by (destruct b; discriminate).
  destruct a as [|y a].
  - cbn [app]. rewrite join_cons by auto. exists [], (join [q] (b ++ [w])). reflexivity.
  - exists (join [q] (y :: a) ++ [q]), (join [q] (b ++ [w])). remember (y :: a) as a'.
    assert (a' <> []) by (subst; discriminate). clear Heqa'.
    rewrite <- app_assoc. induction a' as [|z a' IH]; [congruence|].
    destruct a' as [|z2 a'].
    + cbn [app]. rewrite join_cons by discriminate. rewrite join_cons by auto. reflexivity.
    + change ((z :: z2 :: a') ++ x :: b ++ [w]) with (z :: ((z2 :: a') ++ x :: b ++ [w])).
      rewrite join_cons by discriminate. rewrite IH by discriminate.
      rewrite (join_cons [q] z) by discriminate. rewrite <- !app_assoc. reflexivity.
Qed.

Lemma lf_ws : In [LF] ws_chars.
Proof. vm_compute; auto. Qed.
Lemma cr_ws : In [CR] ws_chars.
Proof. vm_compute; auto 10. Qed.

Lemma lines_trimmed s : In LF s -> ~ ends_with_space s -> ~ has_crlf s -> lines s = split_char LF s.
Proof.
  intros H E C. pose proof (join_split_char LF s) as J.
  destruct (split_char_two LF s H) as (p & ps & S1 & S2 & _). unfold lines.
  destruct (exists_last (split_char_not_nil LF s)) as (ws & w & X). rewrite X in *.
  assert (Nw : ws <> []) by (intros ->; cbn in S1; injection S1 as _ <-; congruence).
  rewrite finish_lines_app. f_equal.
  - rewrite <- map_id. apply map_ext_in. intros x Hx. apply strip_cr_not. intros r ->.
    apply C. destruct (join_middle LF ws w _ Hx) as (A & B & Y). rewrite <- J, Y.
    exists (A ++ r), B. rewrite <- !app_assoc. reflexivity.
  - destruct w; auto. exfalso. apply E. rewrite <- J, join_snoc by auto. exists [LF], (join [LF] ws).
    split; [apply lf_ws|]. cbn. reflexivity.
Qed.

Lemma slice_after {E} a r : match r with c :: _ => is_cont c = false | [] => True end ->
  @slice_from E (length a) (a ++ r) = Ok r.
Proof. unfold slice_from. rewrite skipn_app_len. destruct r; auto. intros ->; auto. Qed.

Lemma multi_read o s : In LF s -> utf8 s -> ~ starts_with_space s -> ~ ends_with_space s -> ~ has_crlf s ->
  trim_common_indentation (body_of o (lines s)) = Ok s.
Proof.
  intros H U S1 S2 C. rewrite lines_trimmed by auto.
  destruct (split_char_two LF s H) as (p & ps & X1 & X2 & X3).
  assert (NL : Forall (fun l => ~ In LF l) (split_char LF s)).
  { apply Forall_forall. intros l. apply split_char_in. }
  pose proof (join_split_char LF s) as J.
  assert (NC : forall l, In l (split_char LF s) -> forall r, l <> r ++ [CR]).
  { intros l Hl r ->. destruct (exists_last (split_char_not_nil LF s)) as (ws & w & X). rewrite X in *.
    assert (Nw : ws <> []) by (intros ->; cbn in X1; injection X1 as _ <-; congruence).
    apply in_app_iff in Hl as [Hl|[Hl|[]]].
    - apply C. destruct (join_middle LF ws w _ Hl) as (A & B & Y). rewrite <- J, Y.
      exists (A ++ r), B. rewrite <- !app_assoc. reflexivity.
    - subst w. apply S2. rewrite <- J, join_snoc by auto. exists [CR], (join [LF] ws ++ [LF] ++ r).
      split; [apply cr_ws|]. rewrite <- !app_assoc. reflexivity. }
  unfold trim_common_indentation. rewrite lines_body by auto.
  set (ind := indent_string (g_indent o) 1).
  assert (LS : map (fun l => strip_cr (ind ++ l)) (split_char LF s) = map (fun l => ind ++ l) (split_char LF s)).
  { apply map_ext_in. intros l Hl. apply strip_cr_not. intros r E. apply indent_end_cr in E as (r' & E).
    eapply NC; eauto. }
  rewrite LS.
  assert (P : p <> [] /\ ~ starts_with_space p).
  { split; intros X; apply S1; rewrite X3.
    - subst p. exists [LF], (join [LF] ps). split; [apply lf_ws|reflexivity].
    - destruct X as (w & r & Hw & ->). exists w, (r ++ LF :: join [LF] ps). split; auto. rewrite <- app_assoc; auto. }
  destruct P as [P1 P2]. pose proof (indent_space o) as IS. fold ind in IS.
  assert (M : min_indent ([] :: map (fun l => ind ++ l) (split_char LF s) ++ last_line o) = length ind).
  { apply min_indent_is.
    - intros l [<-|Hl] B; [exfalso; apply B, all_space_nil|].
      apply in_app_iff in Hl as [Hl|Hl].
      + apply in_map_iff in Hl as (x & <- & _). apply line_indent_ge; auto.
      + exfalso. unfold last_line in Hl. fold ind in Hl. destruct ind eqn:EI; [destruct Hl|].
        destruct Hl as [<-|[]]. apply B. auto.
    - exists (ind ++ p). repeat split.
      + right. apply in_app_iff. left. rewrite X1. left. reflexivity.
      + intros (ws & W & E). apply P1.
        apply all_space_not_started; auto.
        assert (utrim_start (ind ++ p) = []) as Z.
        { rewrite E. rewrite <- (app_nil_r (concat ws)). apply utrim_start_around; [exists ws; auto|apply nil_no_start]. }
        rewrite utrim_start_around in Z by auto. subst p. apply all_space_nil.
      + apply line_indent_around; auto. }
  cbv zeta. match goal with |- context [min_indent ?x] => replace (min_indent x) with (length ind) by (symmetry; exact M) end.
  assert (D : omap (dedent_line (length ind)) ([] :: map (fun l => ind ++ l) (split_char LF s) ++ last_line o)
              = Ok ([] :: split_char LF s ++ map (fun _ => []) (last_line o))).
  { apply omap_ok. constructor.
    - unfold dedent_line. destruct (length ind <=? _) eqn:E; auto. destruct ind; [reflexivity|discriminate].
    - apply Forall2_app.
      + assert (G : forall w, In w (split_char LF s) -> utf8 w) by (intros; eapply utf8_parts; eauto).
        induction (split_char LF s) as [|w ws IH]; constructor.
        * unfold dedent_line. rewrite (proj2 (Nat.leb_le _ _)) by (rewrite app_length; lia).
          apply slice_after. apply utf8_head, G; cbn; auto.
        * clear - G. induction ws as [|x ws IH]; constructor.
          -- unfold dedent_line. rewrite (proj2 (Nat.leb_le _ _)) by (rewrite app_length; lia).
             apply slice_after. apply utf8_head, G; cbn; auto.
          -- apply IH. intros y [<-|Hy]; apply G; cbn; auto.
      + unfold last_line. fold ind. destruct ind eqn:EI; cbn [map]; constructor; [|constructor].
        rewrite <- EI. unfold dedent_line. rewrite (proj2 (Nat.leb_le _ _)) by lia.
        rewrite <- (app_nil_r ind) at 2. apply slice_after. auto. }
  match goal with |- obind ?x _ = _ => replace x with (@Ok perr (list str) ([] :: split_char LF s ++ map (fun _ => []) (last_line o)))
    by (symmetry; exact D) end.
  cbn [obind]. f_equal.
  assert (Z : join [LF] ([] :: split_char LF s ++ map (fun _ => []) (last_line o))
              = [LF] ++ s ++ match last_line o with [] => [] | _ => [LF] end).
  { rewrite join_cons by (rewrite X1; discriminate). cbn [app]. f_equal.
    unfold last_line. destruct (indent_string (g_indent o) 1); cbn [map].
    - rewrite !app_nil_r. auto.
    - rewrite join_snoc by (rewrite X1; discriminate). rewrite J, app_nil_r. reflexivity. }
  rewrite Z. apply utrim_around; auto.
  - exists [[LF]]. split; [repeat constructor; apply lf_ws|reflexivity].
  - destruct (last_line o); [apply all_space_nil|]. exists [[LF]]. split; [repeat constructor; apply lf_ws|reflexivity].
Qed.

(** Counting carriage returns: reading back never adds one. *)
Definition crs (s : str) : nat := count_occ Ascii.ascii_dec s CR.
Lemma crs_app a b : crs (a ++ b) = crs a + crs b.
Proof. apply count_occ_app. Qed.
Lemma crs_join ws : crs (join [LF] ws) = list_sum (map crs ws).
Proof.
  induction ws as [|w ws IH]; auto. destruct ws as [|x ws]; [unfold list_sum; cbn [join map fold_right]; lia|].
  rewrite join_cons by discriminate. rewrite !crs_app, IH. reflexivity.
Qed.
Lemma crs_strip w : crs (strip_cr w) <= crs w.
Proof.
  induction w as [|c w IH]; auto. destruct w as [|d w].
  - cbn [strip_cr]. destruct (Ascii.eqb c CR); [apply Nat.le_0_l|auto].
  - change (strip_cr (c :: d :: w)) with (c :: strip_cr (d :: w)).
    change (crs (c :: strip_cr (d :: w))) with (crs ([c] ++ strip_cr (d :: w))).
    change (crs (c :: d :: w)) with (crs ([c] ++ d :: w)). rewrite !crs_app. lia.
Qed.
Lemma crs_skipn k s : crs (skipn k s) <= crs s.
Proof. rewrite <- (firstn_skipn k s) at 2. rewrite crs_app. lia. Qed.
Lemma crs_utrim s : crs (utrim s) <= crs s.
Proof. destruct (utrim_spec s) as (_ & _ & a & b & _ & _ & E). rewrite E at 2. rewrite !crs_app. lia. Qed.
Lemma crs_dedent k l d : dedent_line k l = Ok d -> crs d <= crs l.
Proof.
  unfold dedent_line, slice_from. destruct (k <=? length l); [|intros [= <-]; auto].
  intros H. assert (d = skipn k l) as ->; [|apply crs_skipn].
  destruct (skipn k l) as [|c r]; [congruence|]. destruct (is_cont c); congruence.
Qed.

Lemma lines_crs s : list_sum (map crs (lines s)) <= crs s /\ (has_crlf s -> list_sum (map crs (lines s)) < crs s).
Proof.
  pose proof (join_split_char LF s) as J. unfold lines.
  destruct (exists_last (split_char_not_nil LF s)) as (ws & w & X). rewrite X in *.
  assert (CS : crs s = list_sum (map crs (ws ++ [w]))) by (rewrite <- J; apply crs_join). rewrite CS. clear CS.
  rewrite finish_lines_app, !map_app, !list_sum_app, map_map. cbn [map list_sum fold_right].
  assert (A : list_sum (map (fun x => crs (strip_cr x)) ws) <= list_sum (map crs ws)).
  { clear. induction ws as [|x ws IH]; cbn; auto. pose proof (crs_strip x).
    unfold list_sum in *. lia. }
  assert (B : list_sum (map crs match w with [] => [] | _ => [w] end) = crs w).
  { destruct w; cbn; lia. }
  rewrite B. split; [lia|].
  intros (a & b & E).
  assert (Y : exists x, In x ws /\ exists r, x = r ++ [CR]).
  { assert (S : split_char LF s = split_char LF (a ++ [CR]) ++ split_char LF b).
    { rewrite E. clear. induction a as [|c a IH]; [reflexivity|].
      change ((c :: a) ++ CR :: LF :: b) with (c :: (a ++ CR :: LF :: b)). cbn [app split_char].
      destruct (Ascii.eqb c LF); [rewrite IH; reflexivity|]. rewrite IH.
      destruct (split_char LF (a ++ [CR])) eqn:F; [exfalso; eapply split_char_not_nil; eauto|reflexivity]. }
    destruct (exists_last (split_char_not_nil LF (a ++ [CR]))) as (us & u & F).
    exists u. split.
    - rewrite X, F in S. destruct (exists_last (split_char_not_nil LF b)) as (vs & v & G). rewrite G in S.
      rewrite app_assoc in S. apply app_inj_tail in S as [-> _]. rewrite !in_app_iff; cbn; auto.
    - clear - F. pose proof (join_split_char LF (a ++ [CR])) as J. rewrite F in J.
      pose proof (split_char_in LF (a ++ [CR]) u) as NI.
      destruct u as [|c u].
      + exfalso. destruct us as [|y us].
        * cbn in J. destruct a; discriminate.
        * rewrite join_snoc in J by discriminate. rewrite app_nil_r in J. cbn in J.
          apply app_inj_tail in J as [_ J]. discriminate.
      + destruct (@exists_last _ (c :: u)) as (t & y & T); [discriminate|]. rewrite T in *. exists t.
        destruct us as [|z us].
        * cbn in J. apply app_inj_tail in J as [_ ->]. auto.
        * rewrite join_snoc in J by discriminate. rewrite !app_assoc in J. apply app_inj_tail in J as [_ ->]. auto. }
  destruct Y as (x & Hx & r & ->). assert (L : list_sum (map (fun x => crs (strip_cr x)) ws) < list_sum (map crs ws)); [|lia].
  clear - Hx. induction ws as [|y ws IH]; [destruct Hx|]. cbn. unfold list_sum in *.
  pose proof (crs_strip y).
  assert (A : fold_right Nat.add 0 (map (fun x => crs (strip_cr x)) ws) <= fold_right Nat.add 0 (map crs ws)).
  { clear. induction ws as [|x ws IH]; cbn; auto. pose proof (crs_strip x). lia. }
  destruct Hx as [->|Hx]; [|specialize (IH Hx); lia].
  rewrite strip_cr_app, crs_app. cbn. lia.
Qed.

Lemma multi_crs o s t : trim_common_indentation (body_of o (lines s)) = Ok t ->
  crs t <= list_sum (map crs (lines s)) /\ ~ starts_with_space t /\ ~ ends_with_space t.
Proof.
  unfold trim_common_indentation. intros H. apply obind_ok in H as (ds & D & [= <-]).
  destruct (utrim_spec (join [LF] ds)) as (A & B & _). split; [|auto].
  etransitivity; [apply crs_utrim|]. rewrite crs_join. apply omap_ok in D.
  rewrite lines_body in D by (apply Forall_forall; intros l; apply lines_no_lf).
  assert (G : list_sum (map crs ds) <= list_sum (map crs
     ([] :: map (fun l => strip_cr (indent_string (g_indent o) 1 ++ l)) (lines s) ++ last_line o))).
  { clear A B. revert D. set (k := min_indent _). clearbody k. set (ls := [] :: _). clearbody ls.
    intros D. induction D as [|x y xs ys D1 _ IH]; cbn; auto. apply crs_dedent in D1. unfold list_sum in *. lia. }
  etransitivity; [exact G|]. cbn [map list_sum fold_right]. change (crs []) with 0. cbn [Nat.add].
  rewrite map_app, map_map, list_sum_app.
  assert (I0 : crs (indent_string (g_indent o) 1) = 0).
  { apply count_occ_not_In. apply indent_not; auto. }
  assert (L0 : list_sum (map crs (last_line o)) = 0).
  { unfold last_line. destruct (indent_string (g_indent o) 1) eqn:E; cbn [map list_sum fold_right]; auto. rewrite I0. auto. }
  rewrite L0, Nat.add_0_r. clear - I0. induction (lines s) as [|l ls IH]; cbn; auto.
  pose proof (crs_strip (indent_string (g_indent o) 1 ++ l)) as X. rewrite crs_app, I0 in X. unfold list_sum in *. lia.
Qed.

Lemma multi_survives o s : In LF s -> utf8 s ->
  (parse_string (generate_string s o) = Ok (PStr s) <->
   ~ starts_with_space s /\ ~ ends_with_space s /\ ~ has_crlf s).
Proof.
  intros H U. rewrite multi_raw, parse_quoted by auto using body_quoted. split.
  - intros X. apply obind_ok in X as (t & T & [= ->]). apply multi_crs in T as (T1 & T2 & T3). repeat split; auto.
    intros C. pose proof (proj2 (lines_crs s) C). lia.
  - intros (A & B & C). rewrite multi_read by auto. reflexivity.
Qed.

(** ** Common indentation *)
Lemma indentation_unique l k : indentation l k -> line_indent l = k.
Proof. intros (w & r & -> & <- & W & R). apply line_indent_around; auto. Qed.
Lemma indentation_exists l : indentation l (line_indent l).
Proof.
  destruct (utrim_start_spec l) as (a & A & E & N). exists a, (utrim_start l). repeat split; auto.
  unfold line_indent. pose proof (f_equal (@length ascii) E) as X. rewrite app_length in X. lia.
Qed.
Lemma common_min ls k : common_indentation ls k <-> min_indent ls = k.
Proof.
  split.
  - intros [A [(l & L1 & L2 & L3)|[-> B]]].
    + apply min_indent_is.
      * intros x X1 X2. destruct (A x X1 X2) as (k' & K1 & K2). rewrite (indentation_unique _ _ K1). auto.
      * exists l. repeat split; auto. apply indentation_unique; auto.
    + unfold min_indent. replace (filter (fun l => negb (blank l)) ls) with (@nil str); auto.
      symmetry. clear A. induction ls as [|x ls IH]; auto. cbn.
      rewrite (proj2 (blank_spec x)) by (apply B; cbn; auto). cbn. apply IH. intros; apply B; cbn; auto.
  - intros <-. unfold min_indent.
    destruct (list_min (map line_indent (filter (fun l => negb (blank l)) ls))) as [m|] eqn:E.
    + apply list_min_spec in E as [E1 E2]. split.
      * intros l L1 L2. exists (line_indent l). split; [apply indentation_exists|]. apply E2, in_map, filter_In.
        split; auto. destruct (blank l) eqn:B; auto. apply blank_spec in B; tauto.
      * left. apply in_map_iff in E1 as (l & <- & E1). apply filter_In in E1 as [E1 E3].
        exists l. repeat split; auto; [|apply indentation_exists].
        rewrite <- blank_spec. destruct (blank l); discriminate.
    + apply list_min_none, map_eq_nil in E. split.
      * intros l L1 L2. exfalso. assert (In l []); [|auto]. rewrite <- E. apply filter_In. split; auto.
        destruct (blank l) eqn:B; auto. apply blank_spec in B; tauto.
      * right. split; auto. intros l L1. apply blank_spec. destruct (blank l) eqn:B; auto.
        exfalso. assert (In l []); [|auto]. rewrite <- E. apply filter_In. rewrite B; auto.
Qed.

(** Cutting a run of white space at a character boundary. *)
Lemma cut_spaces ws r k : Forall (fun w => In w ws_chars) ws -> k <= length (concat ws) ->
  match skipn k (concat ws ++ r) with c :: _ => is_cont c = false | [] => True end ->
  all_space (firstn k (concat ws ++ r)).
Proof.
  intros F. revert k; induction F as [|w ws Hw F IH]; intros k Hk B.
  - cbn in Hk. replace k with 0 by lia. apply all_space_nil.
  - destruct (ws_shape w Hw) as (c & t & -> & Hc & Ht).
    cbn [concat] in *. rewrite <- app_assoc in *.
    destruct k as [|k]; [apply all_space_nil|].
    destruct (Nat.lt_ge_cases k (length t)) as [Lt|Ge].
    + exfalso. cbn [app skipn] in B. rewrite skipn_app in B.
      replace (k - length t) with 0 in B by lia. cbn [skipn] in B.
      destruct (skipn k t) as [|d u] eqn:E.
      * apply (f_equal (@length ascii)) in E. rewrite skipn_length in E. cbn in E. lia.
      * cbn in B. rewrite Forall_forall in Ht. rewrite Ht in B; [discriminate|].
        rewrite <- (firstn_skipn k t), E. apply in_app_iff; cbn; auto.
    + cbn [app firstn skipn] in *. rewrite firstn_app. rewrite skipn_app in B.
      rewrite firstn_all2 by auto. rewrite skipn_all2 in B by auto. cbn [app] in B.
      cbn [length] in Hk. rewrite app_length in Hk.
      change (c :: t ++ firstn (k - length t) (concat ws ++ r)) with ((c :: t) ++ firstn (k - length t) (concat ws ++ r)).
      apply all_space_app.
      * exists [c :: t]. split; [constructor; auto|]. cbn [concat]. rewrite app_nil_r; auto.
      * apply IH; auto. lia.
Qed.

Lemma dedent_cases k l :
  (cut_inside k l /\ dedent_line k l = Panic) \/
  (~ cut_inside k l /\ k <= length l /\ dedent_line k l = Ok (skipn k l)) \/
  (~ cut_inside k l /\ length l < k /\ dedent_line k l = Ok l).
Proof.
  unfold dedent_line, slice_from, cut_inside. destruct (Nat.leb_spec k (length l)) as [H|H].
  - destruct (skipn k l) as [|c r] eqn:E.
    + right; left. repeat split; auto. intros (_ & c & r & X & _). discriminate.
    + destruct (is_cont c) eqn:C.
      * left. split; auto. split; auto. eauto.
      * right; left. repeat split; auto. intros (_ & c' & r' & [= <- <-] & X). congruence.
  - right; right. repeat split; auto. intros (X & _). lia.
Qed.

Lemma omap_dedent k ls :
  ((exists l, In l ls /\ cut_inside k l) /\ omap (dedent_line k) ls = Panic) \/
  ((forall l, In l ls -> ~ cut_inside k l) /\ exists ds, omap (dedent_line k) ls = Ok ds /\
   Forall2 (fun l d => k <= length l /\ d = skipn k l \/ length l < k /\ d = l) ls ds).
Proof.
  induction ls as [|l ls IH].
  - right. split; [intros l []|]. exists []. split; auto.
  - rewrite omap_cons. destruct (dedent_cases k l) as [[A ->]|[(A & B & ->)|(A & B & ->)]]; cbn [obind].
    + left. split; auto. exists l; cbn; auto.
    + destruct IH as [[(x & X1 & X2) ->]|[N (ds & -> & F)]]; cbn [obind].
      * left. split; auto. exists x; cbn; auto.
      * right. split; [intros x [<-|X]; auto|]. exists (skipn k l :: ds). split; auto.
    + destruct IH as [[(x & X1 & X2) ->]|[N (ds & -> & F)]]; cbn [obind].
      * left. split; auto. exists x; cbn; auto.
      * right. split; [intros x [<-|X]; auto|]. exists (l :: ds). split; auto.
Qed.

Lemma all_space_skipn k l : all_space l -> ~ cut_inside k l -> k <= length l -> all_space (skipn k l).
Proof.
  intros (ws & F & ->). revert k; induction F as [|w ws Hw F IH]; intros k N H.
  - cbn in *. rewrite skipn_nil. apply all_space_nil.
  - destruct (ws_shape w Hw) as (c & t & -> & Hc & Ht). cbn [concat] in *.
    destruct k as [|k].
    + cbn [skipn]. exists ((c :: t) :: ws). split; [constructor; auto|reflexivity].
    + destruct (Nat.lt_ge_cases k (length t)) as [Lt|Ge].
      * exfalso. apply N. split; auto. cbn [app skipn]. rewrite skipn_app.
        replace (k - length t) with 0 by lia. destruct (skipn k t) as [|d u] eqn:E.
        -- apply (f_equal (@length ascii)) in E. rewrite skipn_length in E. cbn in E. lia.
        -- exists d, (u ++ skipn 0 (concat ws)). split; auto. rewrite Forall_forall in Ht. apply Ht.
           rewrite <- (firstn_skipn k t), E. apply in_app_iff; cbn; auto.
      * cbn [app skipn]. rewrite skipn_app, skipn_all2 by auto. cbn [app]. apply IH.
        -- intros (A & d & u & E & X). apply N. split; auto. exists d, u. split; auto.
           cbn [app skipn]. rewrite skipn_app, skipn_all2 by auto. exact E.
        -- rewrite app_length in H. cbn in H. lia.
Qed.

Lemma multi_outcome body k : quoted_body body -> common_indentation (lines body) k ->
  ((exists l, In l (lines body) /\ cut_inside k l) /\ parse_string (q3 ++ body ++ q3) = Panic) \/
  ((forall l, In l (lines body) -> ~ cut_inside k l) /\
   exists ds t, parse_string (q3 ++ body ++ q3) = Ok (PStr t) /\
     Forall2 (dedented k) (lines body) ds /\ trimmed_of (join [LF] ds) t).
Proof.
  intros Q C. rewrite parse_quoted by auto. unfold trim_common_indentation.
  pose proof (proj1 (common_min _ _) C) as M. cbv zeta. rewrite M.
  destruct (omap_dedent k (lines body)) as [[A ->]|[N (ds & -> & F)]]; cbn [obind]; [left; auto|].
  right. split; auto. exists ds, (utrim (join [LF] ds)). split; auto. split; [|apply utrim_spec].
  clear M. destruct C as [C _]. revert C N. induction F as [|l d ls ds H F IH]; intros C N; constructor.
  - assert (Nl : ~ cut_inside k l) by (apply N; cbn; auto). split.
    + intros S. destruct H as [[H ->]|[H ->]]; auto. apply all_space_skipn; auto.
    + intros S. destruct (C l (or_introl eq_refl) S) as (k' & (w & r & E & Lw & (ws & F' & W) & _) & K).
      assert (X : all_space (firstn k l)).
      { rewrite E, W. apply cut_spaces; [auto|subst w; lia|]. rewrite <- W, <- E.
        destruct (skipn k l) as [|c u] eqn:SK; auto. destruct (is_cont c) eqn:CC; auto. exfalso. apply Nl.
        split; [|eauto]. rewrite E, app_length. lia. }
      assert (k <= length l) by (rewrite E, app_length; lia).
      destruct H as [[_ ->]|[H ->]]; [|lia].
      exists (firstn k l). split; [symmetry; apply firstn_skipn|]. split; auto. apply firstn_length_le; auto.
  - apply IH; intros x Hx; [apply C|apply N]; cbn; auto.
Qed.

Lemma simple_no_cut ls k l : common_indentation ls k -> utf8 l -> In l ls -> simple_indent l -> ~ cut_inside k l.
Proof.
  intros [C _] U Hl (w & r & E & W & A & R) (K & c & u & X & Y).
  assert (B : is_cont c = true -> In c w -> False).
  { intros Z I. rewrite Forall_forall in A. specialize (A c I). unfold is_cont in Z.
    rewrite andb_true_iff, !N.leb_le in Z. lia. }
  rewrite E, skipn_app in X.
  destruct (Nat.lt_ge_cases k (length w)) as [Lt|Ge].
  - destruct (skipn k w) as [|d v] eqn:S.
    + apply (f_equal (@length ascii)) in S. rewrite skipn_length in S. cbn in S. lia.
    + cbn in X. injection X as -> X. apply B; auto. rewrite <- (firstn_skipn k w), S. apply in_app_iff; cbn; auto.
  - destruct r as [|d r].
    + rewrite skipn_all2 in X by auto. rewrite skipn_nil in X. discriminate.
    + assert (NS : ~ all_space l).
      { intros S. assert (Z : utrim_start l = []).
        { rewrite <- (app_nil_r l). apply utrim_start_around; auto using nil_no_start. }
        rewrite E, utrim_start_around in Z by auto. discriminate. }
      destruct (C l Hl NS) as (k' & I & Hk). pose proof (indentation_unique _ _ I) as IU.
      rewrite E, line_indent_around in IU by auto.
      assert (k = length w) as -> by lia. rewrite skipn_all in X. rewrite Nat.sub_diag in X. cbn in X.
      injection X as -> ->.
      assert (U2 : utf8 (c :: u)).
      { clear - U E A. subst l. induction w as [|x w IH]; auto. inversion A; subst. apply IH; auto.
        eapply utf8_tail; eauto. }
      apply utf8_head in U2. congruence.
Qed.

Lemma utf8_strip_cr w : utf8 w -> utf8 (strip_cr w).
Proof.
  intros U. destruct w as [|c w]; [auto|]. destruct (@exists_last _ (c :: w)) as (u & x & E); [discriminate|].
  rewrite E in *. destruct (Ascii.eqb_spec x CR) as [->|N].
  - rewrite strip_cr_app. apply (utf8_split CR u []) in U; [tauto|reflexivity].
  - rewrite strip_cr_not; auto. intros r X. apply app_inj_tail in X as [_ X]. congruence.
Qed.

Lemma utf8_lines s l : utf8 s -> In l (lines s) -> utf8 l.
Proof.
  intros U. unfold lines. pose proof (utf8_parts s) as P.
  destruct (exists_last (split_char_not_nil LF s)) as (ws & w & X). rewrite X in *.
  rewrite finish_lines_app. intros H. apply in_app_iff in H as [H|H].
  - apply in_map_iff in H as (x & <- & H). apply utf8_strip_cr, P; auto. apply in_app_iff; auto.
  - destruct w; [destruct H|]. destruct H as [<-|[]]. apply P; auto. apply in_app_iff; cbn; auto.
Qed.
