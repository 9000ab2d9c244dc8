(** Facts about identifier normalisation. *)
From Coq Require Import Lia ZifyBool ZifyN.
From Verif Require Import M_Str M_Ids L_Str.

Lemma code_sep c : is_sep c = true <-> (code c = 32 \/ code c = 45 \/ code c = 95)%N.
Proof.
  unfold is_sep. rewrite !orb_true_iff, !Ascii.eqb_eq. split.
  - intros [[->| ->]| ->]; auto.
  - intros [H|[H|H]]; [left;left|left;right|right]; apply code_inj; rewrite H; reflexivity.
Qed.

(** Two adjacent characters between which the lower-cased text would be split. *)
Definition mixed (c d : ascii) : bool := (is_alpha c && is_digit d) || (is_digit c && is_alpha d).

Fixpoint calm (w : str) : Prop :=
  match w with
  | [] => True
  | c :: w' => is_sep c = false /\ match w' with d :: _ => mixed c d = false | [] => True end /\ calm w'
  end.

Lemma lower_sep c : is_sep (lower_ascii c) = is_sep c.
Proof.
  destruct (is_upper c) eqn:E; [|rewrite lower_ascii_id; auto].
  pose proof (code_lower_upper c E) as H.
  destruct (is_sep c) eqn:S1; destruct (is_sep (lower_ascii c)) eqn:S2; auto;
    [apply code_sep in S1|apply code_sep in S2]; unfold is_upper in E; lia.
Qed.

Lemma lower_alpha c : is_alpha (lower_ascii c) = is_alpha c.
Proof.
  destruct (is_upper c) eqn:E; [|rewrite lower_ascii_id; auto].
  pose proof (code_lower_upper c E) as H. unfold is_alpha, is_upper, is_lower in *. lia.
Qed.

Lemma lower_digit c : is_digit (lower_ascii c) = is_digit c.
Proof.
  destruct (is_upper c) eqn:E; [|rewrite lower_ascii_id; auto].
  pose proof (code_lower_upper c E) as H. unfold is_digit, is_upper in *. lia.
Qed.

Lemma lower_mixed c d : mixed (lower_ascii c) (lower_ascii d) = mixed c d.
Proof. unfold mixed. rewrite !lower_alpha, !lower_digit. reflexivity. Qed.

Lemma calm_lower w : calm w -> calm (lower w).
Proof.
  induction w as [|c w IH]; cbn; auto. intros (H1 & H2 & H3).
  rewrite lower_sep. repeat split; auto.
  destruct w; cbn; auto. rewrite lower_mixed; auto.
Qed.

Lemma boundary_mixed c d r : boundary c (d :: r) = false -> mixed c d = false.
Proof.
  unfold boundary, mixed, is_alpha. 
  destruct (is_lower c), (is_upper c), (is_digit c), (is_lower d), (is_upper d), (is_digit d); cbn; auto;
  destruct r as [|e r]; cbn; try congruence; destruct (is_lower e); cbn; congruence.
Qed.

Lemma split_words_not_nil s : split_words s <> [].
Proof.
  destruct s as [|c s]; cbn; [congruence|].
  destruct (is_sep c); [congruence|]. destruct (boundary c s); [congruence|].
  destruct (split_words s); congruence.
Qed.

Lemma split_words_calm s :
  Forall calm (split_words s) /\
  match split_words s with
  | (d :: _) :: _ => exists s', s = d :: s'
  | _ => True
  end.
Proof.
  induction s as [|c s [IH IH2]]; cbn; [split; auto; constructor; cbn; auto|].
  destruct (is_sep c) eqn:S; [split; auto; constructor; cbn; auto|].
  destruct (boundary c s) eqn:B.
  - split; [constructor; cbn; auto|]. eauto.
  - destruct (split_words s) as [|w ws] eqn:E; [destruct (split_words_not_nil s E)|].
    split; [|eauto]. inversion IH as [|? ? C1 C2]; subst. constructor; auto. cbn. split; auto.
    split; [|auto]. destruct w as [|d w]; auto.
    destruct IH2 as (s' & ->). eapply boundary_mixed; eauto.
Qed.

Definition no_upper (w : str) : Prop := forall c, In c w -> is_upper c = false.

Lemma no_upper_lower w : no_upper (lower w).
Proof. intros c H. apply in_map_iff in H as (x & <- & _). apply lower_ascii_not_upper. Qed.

Lemma boundary_calm c d r :
  is_upper c = false -> is_upper d = false -> mixed c d = false -> boundary c (d :: r) = false.
Proof.
  unfold boundary, mixed, is_alpha. intros -> ->.
  destruct (is_lower c), (is_digit c), (is_lower d), (is_digit d); cbn; auto.
Qed.

Lemma boundary_other c d r : is_alnum d = false -> boundary c (d :: r) = false.
Proof.
  unfold is_alnum, is_alpha, boundary. intros H.
  apply orb_false_iff in H as [H ->]. apply orb_false_iff in H as [-> ->].
  rewrite !andb_false_r. reflexivity.
Qed.

Lemma boundary_other_l c r : is_alnum c = false -> boundary c r = false.
Proof.
  unfold is_alnum, is_alpha, boundary. intros H.
  apply orb_false_iff in H as [H ->]. apply orb_false_iff in H as [-> ->].
  destruct r; auto.
Qed.

(** A calm lower-case word followed by a separator is split off whole. *)
Lemma split_words_word w r :
  calm w -> no_upper w -> split_words (w ++ "_"%char :: r) = w :: split_words r.
Proof.
  induction w as [|c w IH]; intros C U; [reflexivity|].
  cbn [app]. cbn [split_words]. destruct C as (C1 & C2 & C3). rewrite C1.
  assert (B : boundary c (w ++ "_"%char :: r) = false).
  { destruct w as [|d w]; cbn [app].
    - apply boundary_other. reflexivity.
    - apply boundary_calm; auto; apply U; cbn; auto. }
  rewrite B, IH; auto. intros x Hx; apply U; right; auto.
Qed.

Lemma split_words_last w : calm w -> no_upper w -> split_words w = [w].
Proof.
  induction w as [|c w IH]; intros C U; [reflexivity|].
  cbn [split_words]. destruct C as (C1 & C2 & C3). rewrite C1.
  assert (B : boundary c w = false).
  { destruct w as [|d w]; [reflexivity|]. apply boundary_calm; auto; apply U; cbn; auto. }
  rewrite B, IH; auto. intros x Hx; apply U; right; auto.
Qed.

Lemma split_words_join ws :
  ws <> [] -> Forall calm ws -> Forall no_upper ws -> split_words (join (L "_") ws) = ws.
Proof.
  induction ws as [|w ws IH]; [congruence|]. intros _ C U.
  inversion C; inversion U; subst. destruct ws as [|w2 ws].
  - cbn. apply split_words_last; auto.
  - change (join (L "_") (w :: w2 :: ws)) with (w ++ "_"%char :: join (L "_") (w2 :: ws)).
    rewrite split_words_word, IH; auto; congruence.
Qed.

Definition normal_word (w : str) : Prop := w <> [] /\ calm w /\ no_upper w.

Definition snake_words (s : str) : list str := map lower (filter non_empty (split_words s)).

Lemma snake_words_normal s : Forall normal_word (snake_words s).
Proof.
  unfold snake_words. apply Forall_forall. intros w H.
  apply in_map_iff in H as (x & <- & H). apply filter_In in H as [H N].
  destruct (split_words_calm s) as [C _]. rewrite Forall_forall in C. specialize (C x H).
  repeat split; [destruct x; cbn in *; congruence|apply calm_lower; auto|apply no_upper_lower].
Qed.

Lemma to_snake_words s : to_snake s = join (L "_") (snake_words s).
Proof. reflexivity. Qed.

Lemma map_lower_id ws : Forall no_upper ws -> map lower ws = ws.
Proof.
  induction 1 as [|w ws H _ IH]; cbn; auto. rewrite IH. f_equal.
  unfold lower. rewrite <- map_id. apply map_ext_in. intros c Hc. apply lower_ascii_id, H, Hc.
Qed.

Lemma filter_all {A} (f : A -> bool) l : Forall (fun x => f x = true) l -> filter f l = l.
Proof. induction 1 as [|x l H _ IH]; cbn; [|rewrite H, IH]; auto. Qed.

Lemma snake_words_join ws : Forall normal_word ws -> snake_words (join (L "_") ws) = ws.
Proof.
  intros N. destruct ws as [|w ws]; [reflexivity|].
  unfold snake_words. rewrite split_words_join.
  - rewrite filter_all; [apply map_lower_id|].
    + eapply Forall_impl; [|exact N]. intros x (_ & _ & H); auto.
    + eapply Forall_impl; [|exact N]. intros x (H & _); destruct x; cbn; congruence.
  - congruence.
  - eapply Forall_impl; [|exact N]. intros x (_ & H & _); auto.
  - eapply Forall_impl; [|exact N]. intros x (_ & _ & H); auto.
Qed.

Lemma to_snake_idem s : to_snake (to_snake s) = to_snake s.
Proof.
  rewrite !to_snake_words. rewrite snake_words_join; auto using snake_words_normal.
Qed.

Lemma join_In sep ws c : In c (join sep ws) -> In c sep \/ exists w, In w ws /\ In c w.
Proof.
  induction ws as [|w ws IH]; cbn; [contradiction|].
  destruct ws as [|w2 ws].
  - intros H; right; exists w; cbn; auto.
  - rewrite !in_app_iff. intros [H|[H|H]]; auto.
    + right; exists w; cbn; auto.
    + destruct (IH H) as [|(w' & H1 & H2)]; auto. right; exists w'; cbn in *; auto.
Qed.

Lemma calm_no_sep w c : calm w -> In c w -> is_sep c = false.
Proof.
  induction w as [|d w IH]; cbn; [contradiction|].
  intros (H1 & _ & H2) [->|H]; auto.
Qed.

Lemma to_snake_chars s c : In c (to_snake s) ->
  is_upper c = false /\ c <> " "%char /\ c <> "-"%char.
Proof.
  rewrite to_snake_words. intros H. apply join_In in H as [H|(w & H1 & H2)].
  - cbn in H. destruct H as [<-|[]]. repeat split; congruence.
  - pose proof (snake_words_normal s) as N. rewrite Forall_forall in N.
    destruct (N w H1) as (_ & C & U). split; [auto|].
    pose proof (calm_no_sep w c C H2) as S.
    split; intros ->; discriminate.
Qed.

(** No leading, trailing or doubled underscore. *)
Lemma normal_word_first w : normal_word w -> exists c w', w = c :: w' /\ c <> "_"%char.
Proof.
  intros (N & C & _). destruct w as [|c w]; [congruence|]. exists c, w; split; auto.
  intros ->. destruct C as (C & _). discriminate.
Qed.

Lemma no_underscore_in w : normal_word w -> ~ In "_"%char w.
Proof. intros (_ & C & _) H. pose proof (calm_no_sep w _ C H). discriminate. Qed.

Lemma join_no_lead ws s' : Forall normal_word ws -> join (L "_") ws <> "_"%char :: s'.
Proof.
  destruct ws as [|w ws]; [discriminate|]. intros N. inversion N as [|? ? H1 _]; subst.
  destruct (normal_word_first w H1) as (c & w' & -> & Hc).
  destruct ws; cbn; congruence.
Qed.

Lemma join_no_trail ws s' : Forall normal_word ws -> join (L "_") ws <> s' ++ ["_"%char].
Proof.
  revert s'; induction ws as [|w ws IH]; intros s' N E.
  - destruct s'; discriminate.
  - inversion N as [|? ? H1 H2]; subst. destruct ws as [|w2 ws].
    + cbn in E. apply (no_underscore_in w H1). rewrite E. apply in_or_app; right; left; auto.
    + change (join (L "_") (w :: w2 :: ws)) with (w ++ "_"%char :: join (L "_") (w2 :: ws)) in E.
      assert (X : exists t, join (L "_") (w2 :: ws) = t ++ ["_"%char]).
      { clear -E H2. pose (j := join (L "_") (w2 :: ws)). fold j in E |- *.
        assert (J : j <> []).
        { inversion H2 as [|? ? (K & _) _]; subst. unfold j. destruct w2; [congruence|].
          destruct ws; cbn; congruence. }
        destruct (exists_last J) as (t & x & Ht). rewrite Ht in E |- *.
        change (w ++ "_"%char :: t ++ [x]) with (w ++ ("_"%char :: t) ++ [x]) in E.
        rewrite app_assoc in E. apply app_inj_tail in E as [_ ->]. eauto. }
      destruct X as (t & X). eapply IH; eauto.
Qed.

Lemma join_no_double ws a b : Forall normal_word ws ->
  join (L "_") ws <> a ++ "_"%char :: "_"%char :: b.
Proof.
  revert a; induction ws as [|w ws IH]; intros a N E.
  - destruct a; discriminate.
  - inversion N as [|? ? H1 H2]; subst. pose proof (no_underscore_in w H1) as U.
    destruct ws as [|w2 ws].
    + cbn in E. apply U. rewrite E. apply in_or_app; right; left; auto.
    + change (join (L "_") (w :: w2 :: ws)) with (w ++ "_"%char :: join (L "_") (w2 :: ws)) in E.
      clear H1 N. revert a E; induction w as [|c w IHw]; intros a E.
      * destruct a as [|x a]; cbn in E.
        -- injection E as E. eapply join_no_lead; eauto.
        -- injection E as <- E. eapply IH; eauto.
      * destruct a as [|x a]; cbn in E.
        -- injection E as -> E. apply U; left; auto.
        -- injection E as <- E. apply IHw with a; auto. intros H; apply U; right; auto.
Qed.

(** Splitting around a dot, which is neither a separator nor part of a boundary. *)
Lemma split_words_dot a b :
  exists x xs y ys,
    split_words (a ++ L ".") = x ++ [xs ++ L "."] /\
    split_words (L "." ++ b) = (L "." ++ y) :: ys /\
    split_words (a ++ L "." ++ b) = x ++ (xs ++ L "." ++ y) :: ys.
Proof.
  assert (D : exists y ys, split_words (L "." ++ b) = (L "." ++ y) :: ys).
  { cbn. rewrite boundary_other_l by reflexivity.
    destruct (split_words b) as [|y ys] eqn:E; [destruct (split_words_not_nil b E)|]. eauto. }
  destruct D as (y & ys & D).
  induction a as [|c a (x & xs & y' & ys' & H1 & H2 & H3)].
  - exists [], [], y, ys. cbn [app]. split; [reflexivity|]. split; auto.
  - rewrite D in H2. injection H2 as <- <-.
    cbn [app]. cbn [split_words].
    assert (B : boundary c (a ++ L "." ++ b) = boundary c (a ++ L ".")).
    { destruct a as [|d a]; cbn [app].
      - transitivity false; [|symmetry].
        + exact (boundary_other c "."%char b eq_refl).
        + exact (boundary_other c "."%char [] eq_refl).
      - unfold boundary. destruct a as [|e a]; cbn; auto. }
    rewrite B. rewrite H1, H3.
    destruct (is_sep c); [exists ([] :: x), xs, y, ys; auto|].
    destruct (boundary c (a ++ L ".")).
    + exists ([c] :: x), xs, y, ys. auto.
    + destruct x as [|x1 x].
      * exists [], (c :: xs), y, ys. auto.
      * exists ((c :: x1) :: x), xs, y, ys. auto.
Qed.

Lemma join_app_cons sep ws w vs :
  join sep (ws ++ w :: vs) =
  match ws with [] => [] | _ => join sep ws ++ sep end ++
  w ++ match vs with [] => [] | _ => sep ++ join sep vs end.
Proof.
  induction ws as [|u ws IH].
  - cbn. destruct vs; [rewrite app_nil_r|]; auto.
  - cbn [app]. destruct ws as [|u2 ws].
    + cbn [app] in *. cbn [join]. rewrite <- app_assoc. do 2 f_equal.
      destruct vs; cbn; rewrite ?app_nil_r; auto.
    + change (join sep (u :: (u2 :: ws) ++ w :: vs)) with (u ++ sep ++ join sep ((u2 :: ws) ++ w :: vs)).
      rewrite IH. change (join sep (u :: u2 :: ws)) with (u ++ sep ++ join sep (u2 :: ws)).
      rewrite <- !app_assoc. auto.
Qed.

(** The normal form of [a.b] is the normal form of [a.] followed by what
    remains of the normal form of [.b] after its dot. *)
Lemma to_snake_dot a b :
  exists p q, to_snake (a ++ L ".") = p ++ L "." /\ to_snake (L "." ++ b) = L "." ++ q /\
              to_snake (a ++ L "." ++ b) = p ++ L "." ++ q.
Proof.
  destruct (split_words_dot a b) as (x & xs & y & ys & H1 & H2 & H3).
  unfold to_snake. rewrite H1, H2, H3.
  rewrite !filter_app. cbn [filter]. 
  replace (non_empty (xs ++ L ".")) with true by (destruct xs; auto).
  replace (non_empty (xs ++ L "." ++ y)) with true by (destruct xs; auto).
  change (non_empty (L "." ++ y)) with true. cbn iota. rewrite !map_app. cbn [map].
  rewrite !lower_app. change (lower (L ".")) with (L ".").
  set (X := map lower (filter non_empty x)). set (Y := map lower (filter non_empty ys)).
  exists (match X with [] => [] | _ => join (L "_") X ++ L "_" end ++ lower xs),
         (lower y ++ match Y with [] => [] | _ => L "_" ++ join (L "_") Y end).
  rewrite !join_app_cons. repeat split.
  - rewrite app_nil_r, <- !app_assoc. auto.
  - pose proof (join_app_cons (L "_") [] (L "." ++ lower y) Y) as J. cbn [app] in J.
    rewrite J. rewrite <- !app_assoc. auto.
  - rewrite <- !app_assoc. auto.
Qed.

Lemma calm_app_other w r :
  calm w -> calm r -> match r with c :: _ => is_alnum c = false | [] => True end -> calm (w ++ r).
Proof.
  intros C R H. induction w as [|c w IH]; auto. cbn in C |- *.
  destruct C as (C1 & C2 & C3). repeat split; auto.
  destruct w as [|d w]; cbn; auto. destruct r as [|d r]; cbn; auto.
  unfold mixed, is_alnum in *. apply orb_false_iff in H as [H1 H2]. rewrite H1, H2, !andb_false_r. auto.
Qed.

Lemma normal_word_dot_r w : normal_word w -> normal_word (w ++ L ".").
Proof.
  intros (N & C & U). repeat split.
  - destruct w; [congruence|discriminate].
  - apply calm_app_other; cbn; auto.
  - intros c H. apply in_app_iff in H as [H|[<-|[]]]; auto.
Qed.

Lemma normal_word_dot_l w : normal_word w -> normal_word (L "." ++ w).
Proof.
  intros (N & C & U). split; [|split].
  - discriminate.
  - cbn. repeat split; auto. destruct w; auto.
  - intros c [<-|H]; auto.
Qed.

Lemma fixpoint_words s : to_snake s = s -> s = join (L "_") (snake_words s) /\ Forall normal_word (snake_words s).
Proof. intros H. split; [rewrite <- to_snake_words; auto|apply snake_words_normal]. Qed.

Lemma to_snake_join ws : Forall normal_word ws -> to_snake (join (L "_") ws) = join (L "_") ws.
Proof. intros H. rewrite to_snake_words, snake_words_join; auto. Qed.

Lemma fixpoint_dot_r s : to_snake s = s -> to_snake (s ++ L ".") = s ++ L ".".
Proof.
  intros H. destruct (fixpoint_words s H) as [E N]. rewrite E.
  generalize dependent (snake_words s). intros ws _ N.
  destruct ws as [|w ws] using rev_ind; [reflexivity|]. clear IHws.
  apply Forall_app in N as [N1 N2]. inversion N2 as [|? ? N3 _]; subst.
  replace (join (L "_") (ws ++ [w]) ++ L ".") with (join (L "_") (ws ++ [w ++ L "."])).
  - apply to_snake_join. apply Forall_app; split; auto. constructor; auto using normal_word_dot_r.
  - rewrite !join_app_cons. rewrite <- !app_assoc. auto.
Qed.

Lemma fixpoint_dot_l s : to_snake s = s -> to_snake (L "." ++ s) = L "." ++ s.
Proof.
  intros H. destruct (fixpoint_words s H) as [E N]. rewrite E.
  generalize dependent (snake_words s). intros ws _ N.
  destruct ws as [|w ws]; [reflexivity|]. inversion N; subst.
  replace (L "." ++ join (L "_") (w :: ws)) with (join (L "_") ((L "." ++ w) :: ws)).
  - apply to_snake_join. constructor; auto using normal_word_dot_l.
  - destruct ws; auto.
Qed.

Lemma no_upper_id s : no_upper s -> lower s = s.
Proof. intros H. unfold lower. rewrite <- (map_id s) at 2. apply map_ext_in. intros c Hc. apply lower_ascii_id, H, Hc. Qed.

Lemma fixpoint_lower s : to_snake s = s -> lower s = s.
Proof.
  intros H. apply no_upper_id. intros c Hc. rewrite <- H in Hc. apply to_snake_chars in Hc. tauto.
Qed.

Lemma compose_fixpoint t i : to_snake t = t -> to_snake i = i ->
  compose_entity_id t i = t ++ L "." ++ i.
Proof.
  intros Ht Hi. unfold compose_entity_id, new_id. rewrite (fixpoint_lower t Ht).
  destruct (to_snake_dot t i) as (p & q & H1 & H2 & H3). rewrite H3.
  rewrite (fixpoint_dot_r t Ht) in H1. apply app_inv_tail in H1.
  rewrite (fixpoint_dot_l i Hi) in H2. apply app_inv_head in H2. congruence.
Qed.

Lemma compose_decompose t i : to_snake t = t -> to_snake i = i -> ~ In "."%char t ->
  decompose_entity_id (compose_entity_id t i) = (t, i).
Proof.
  intros Ht Hi D. rewrite compose_fixpoint; auto. unfold decompose_entity_id.
  change (t ++ L "." ++ i) with (t ++ "."%char :: i). rewrite split_once_app; auto.
Qed.

(** Normalisation removes separators and inserts underscores, nothing else. *)
Definition unsep (s : str) : str := filter (fun c => negb (is_sep c)) s.

Lemma unsep_app a b : unsep (a ++ b) = unsep a ++ unsep b.
Proof. apply filter_app. Qed.

Lemma unsep_concat_words s : concat (split_words s) = unsep s.
Proof.
  induction s as [|c s IH]; cbn; auto.
  destruct (is_sep c) eqn:S; cbn; auto.
  destruct (boundary c s); cbn; [rewrite IH; auto|].
  destruct (split_words s) as [|w ws] eqn:E; [destruct (split_words_not_nil s E)|].
  cbn in *. rewrite IH. auto.
Qed.

Lemma unsep_join ws : Forall calm ws -> unsep (join (L "_") ws) = concat ws.
Proof.
  intros H. induction H as [|w ws H _ IH]; cbn [join concat]; auto.
  assert (W : unsep w = w).
  { apply filter_all. apply Forall_forall. intros c Hc. rewrite (calm_no_sep w c); auto. }
  destruct ws as [|w2 ws].
  - rewrite app_nil_r. exact W.
  - rewrite !unsep_app, W, IH. auto.
Qed.

Lemma concat_filter_ne (l : list str) : concat (filter non_empty l) = concat l.
Proof. induction l as [|[|c w] l IH]; cbn; rewrite ?IH; auto. Qed.

Lemma unsep_lower s : unsep (lower s) = lower (unsep s).
Proof.
  unfold unsep, lower in *.
  induction s as [|c s IH]; cbn; auto. rewrite lower_sep.
  destruct (is_sep c); cbn; rewrite IH; auto.
Qed.

Lemma unsep_to_snake s : unsep (to_snake s) = lower (unsep s).
Proof.
  rewrite to_snake_words, unsep_join.
  - unfold snake_words, lower. rewrite <- unsep_concat_words, <- (concat_filter_ne (split_words s)).
    symmetry. apply concat_map.
  - eapply Forall_impl; [|apply snake_words_normal]. intros w (_ & H & _); auto.
Qed.

(** Words of lower-case letters joined by underscores are left alone. *)
Lemma to_snake_plain ws :
  Forall (fun w => w <> [] /\ forall c, In c w -> is_lower c = true) ws ->
  to_snake (join (L "_") ws) = join (L "_") ws.
Proof.
  intros H. apply to_snake_join. eapply Forall_impl; [|exact H].
  intros w (N & A). repeat split; auto.
  - clear N. induction w as [|c w IH]; cbn; auto.
    assert (Hc : is_lower c = true) by (apply A; left; auto).
    repeat split.
    + destruct (is_sep c) eqn:S; auto. apply code_sep in S. unfold is_lower in Hc. lia.
    + destruct w as [|d w]; auto. assert (Hd : is_lower d = true) by (apply A; right; left; auto).
      unfold mixed, is_alpha, is_digit, is_upper, is_lower in *. lia.
    + apply IH. intros x Hx; apply A; right; auto.
  - intros c Hc. specialize (A c Hc). unfold is_lower, is_upper in *. lia.
Qed.

Lemma compose_collide t i t' i' :
  ~ In "."%char t -> ~ In "."%char t' ->
  (compose_entity_id t i = compose_entity_id t' i' <->
   new_id (lower t ++ L ".") = new_id (lower t' ++ L ".") /\
   new_id (L "." ++ i) = new_id (L "." ++ i')).
Proof.
  intros D D'. unfold compose_entity_id, new_id.
  assert (K : forall t p, ~ In "."%char t -> to_snake (lower t ++ L ".") = p ++ L "." -> ~ In "."%char p).
  { clear. intros t p D E I.
    pose proof (unsep_to_snake (lower t ++ L ".")) as U. rewrite E in U.
    rewrite !unsep_app, lower_app in U.
    change (unsep (L ".")) with (L ".") in U. change (lower (L ".")) with (L ".") in U.
    apply app_inj_tail in U as [U _].
    assert (I2 : In "."%char (unsep p)) by (apply filter_In; auto).
    rewrite U in I2. apply in_map_iff in I2 as (x & X1 & X2).
    apply filter_In in X2 as [X2 _]. apply in_map_iff in X2 as (y & Y1 & Y2).
    subst x. rewrite lower_ascii_idem in X1. assert (y = "."%char); [|congruence].
    destruct (is_upper y) eqn:Uy; [|rewrite lower_ascii_id in X1; auto].
    pose proof (code_lower_upper y Uy) as C. rewrite X1 in C. unfold is_upper in Uy.
    change (code "."%char) with 46%N in C. lia. }
  destruct (to_snake_dot (lower t) i) as (p & q & H1 & H2 & H3).
  destruct (to_snake_dot (lower t') i') as (p' & q' & H1' & H2' & H3').
  pose proof (K t p D H1) as P. pose proof (K t' p' D' H1') as P'.
  rewrite H1, H2, H3, H1', H2', H3'. split.
  - intros E.
    assert (S : split_once "." (p ++ "."%char :: q) = split_once "." (p' ++ "."%char :: q')) by (f_equal; exact E).
    rewrite !split_once_app in S; auto. injection S as -> ->. auto.
  - intros [E1 E2]. apply app_inv_tail in E1. apply app_inv_head in E2. subst. auto.
Qed.

Lemma lower_fix s : (forall c, In c s -> is_upper c = false) -> lower s = s.
Proof.
  induction s as [|c s IH]; intros H; auto. cbn [lower map]. f_equal.
  - unfold lower_ascii. rewrite (H c) by (left; auto). reflexivity.
  - apply IH. intros; apply H; right; auto.
Qed.
Lemma compose_lower t i : lower (compose_entity_id t i) = compose_entity_id t i.
Proof. apply lower_fix. intros c Hc. apply (to_snake_chars _ c Hc). Qed.

Lemma decompose_any s :
  (forall t i, s = t ++ L "." ++ i -> ~ In "."%char t -> decompose_entity_id s = (t, i)) /\
  (~ In "."%char s -> decompose_entity_id s = (L "unknown", s)).
Proof.
  unfold decompose_entity_id. split.
  - intros t i -> D. change (t ++ L "." ++ i) with (t ++ "."%char :: i). rewrite split_once_app; auto.
  - intros D. rewrite (proj2 (split_once_none _ _)); auto.
Qed.
