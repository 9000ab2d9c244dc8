(** Prompts: what is collected is what was entered, and conversely. *)
From Coq Require Import Lia.
From Verif Require Import S_Graph L_Graph.
From Verif Require Import S_Prompt L_Str L_Sort L_Schema L_DslStr L_Add L_Tools.
Close Scope Z_scope.

(** ** Taking part of the actions *)
Lemma among_app a b c d : among a b -> among c d -> among (a ++ c) (b ++ d).
Proof. intros H K. induction H; cbn [app]; try constructor; auto. Qed.
Lemma among_refl a : among a a.
Proof. induction a; constructor; auto. Qed.
Definition entry (a : act) : Prop := a <> Escapes /\ a <> Interrupts.
Lemma among_drop_all core acts : among core acts -> Forall entry core -> among [] acts.
Proof. intros H. induction H as [|a core acts H IH|a core acts N M H IH]; intros F; [constructor| |constructor; auto]. inversion F as [|? ? [N M] F']; subst. constructor; auto. Qed.
(** The rest is reached having done [core], among others. *)
Definition took (acts rest core : list act) : Prop := exists used, acts = used ++ rest /\ among core used.
Lemma took_app acts r1 r2 c1 c2 : took acts r1 c1 -> took r1 r2 c2 -> took acts r2 (c1 ++ c2).
Proof.
  intros (u1 & -> & A1) (u2 & -> & A2). exists (u1 ++ u2). split; [rewrite app_assoc; reflexivity|]. apply among_app; auto.
Qed.
Lemma took_nil acts : took acts acts [].
Proof. exists []. split; [reflexivity|constructor]. Qed.
Lemma took_skip acts r1 r2 c1 c2 : took acts r1 c1 -> Forall entry c1 -> took r1 r2 c2 -> took acts r2 c2.
Proof.
  intros (u1 & -> & A1) F (u2 & -> & A2). exists (u1 ++ u2). split; [rewrite app_assoc; reflexivity|]. apply (among_app []); [exact (among_drop_all _ _ A1 F)|auto].
Qed.

Section Ask.
  Context {A : Type} (accept : act -> option A).
  Lemma ask_got acts x r : ask accept acts = Got x r -> exists a, accept a = Some x /\ took acts r [a].
  Proof.
    induction acts as [|a acts IH]; [discriminate|]. cbn [ask]. intros H.
    assert (K : forall b, entry b -> (match accept b with Some x0 => Got x0 acts | None => ask accept acts end = Got x r) ->
      exists a0, accept a0 = Some x /\ took (b :: acts) r [a0]).
    { intros b [N M]. destruct (accept b) as [y|] eqn:E.
      - intros [= -> ->]. exists b. split; [exact E|]. exists [b]. split; [reflexivity|apply among_refl].
      - intros Q. destruct (IH Q) as (a0 & Ha & used & -> & U). exists a0. split; [exact Ha|]. exists (b :: used). split; [reflexivity|]. constructor; auto. }
    destruct a; try discriminate; (apply K; [split; discriminate|exact H]).
  Qed.
  Lemma ask_skipped acts r : ask accept acts = Skipped r -> took acts r [Escapes].
  Proof.
    induction acts as [|a acts IH]; [discriminate|]. cbn [ask]. intros H.
    assert (K : forall b, entry b -> (match accept b with Some x0 => Got x0 acts | None => ask accept acts end = Skipped r) -> took (b :: acts) r [Escapes]).
    { intros b [N M]. destruct (accept b) as [y|]; [discriminate|]. intros Q. destruct (IH Q) as (used & -> & U). exists (b :: used). split; [reflexivity|]. constructor; auto. }
    destruct a; try discriminate; try (apply K; [split; discriminate|exact H]). injection H as ->. exists [Escapes]. split; [reflexivity|apply among_refl].
  Qed.
  Lemma need_got sk acts x r : need sk (ask accept acts) = Got x r -> exists a, accept a = Some x /\ took acts r [a].
  Proof. intros H. apply ask_got. destruct (ask accept acts); cbn [need] in H; try destruct sk; congruence. Qed.
  Lemma need_skipped sk acts r : need sk (ask accept acts) = Skipped r -> sk = true /\ took acts r [Escapes].
  Proof.
    intros H. destruct (ask accept acts) eqn:E; cbn [need] in H; try discriminate. destruct sk; [|discriminate]. injection H as ->.
    split; [reflexivity|]. apply ask_skipped, E.
  Qed.
  Lemma ask_first a x r : (match a with Escapes | Interrupts => False | _ => True end) -> accept a = Some x -> ask accept (a :: r) = Got x r.
  Proof. intros N H. cbn [ask]. destruct a; try contradiction; rewrite H; reflexivity. Qed.
End Ask.
Lemma select_got {A} (opts : list A) sk acts x r : need sk (select opts acts) = Got x r -> exists n, nth_error opts n = Some x /\ took acts r [Picks n].
Proof.
  unfold select. destruct opts as [|o opts]; [discriminate|]. intros H. apply need_got in H as (a & Ha & T). destruct a; try discriminate. eauto.
Qed.
Lemma select_skipped {A} (opts : list A) sk acts r : need sk (select opts acts) = Skipped r -> sk = true /\ took acts r [Escapes].
Proof. unfold select. destruct opts as [|o opts]; [discriminate|]. apply need_skipped. Qed.
Lemma select_first {A} (opts : list A) n x r : nth_error opts n = Some x -> select opts (Picks n :: r) = Got x r.
Proof. intros H. unfold select. destruct opts; [destruct n; discriminate|]. apply ask_first; [exact I|exact H]. Qed.
Lemma line_got {A} (f : str -> option A) a x : line f a = Some x -> exists s, a = Types s /\ f s = Some x.
Proof. destruct a; try discriminate. cbn [line]. eauto. Qed.
Lemma pbind_got {A B} (p : prompted A) (f : A -> list act -> prompted B) x r : pbind p f = Got x r -> exists a r', p = Got a r' /\ f a r' = Got x r.
Proof. destruct p; try discriminate. cbn [pbind]. eauto. Qed.
Lemma pbind_skipped {A B} (p : prompted A) (f : A -> list act -> prompted B) r : pbind p f = Skipped r ->
  p = Skipped r \/ exists a r', p = Got a r' /\ f a r' = Skipped r.
Proof. destruct p as [a r'|r'|]; cbn [pbind]; [right; eauto|intros [= ->]; auto|discriminate]. Qed.

(** ** Lines *)
Lemma yes_no_says s b : yes_no s = Some b <-> says b s.
Proof.
  unfold yes_no, says. set (l := lower s). split.
  - destruct (str_eqb l (L "y")) eqn:A; [apply str_eqb_eq in A; intros [= <-]; auto|].
    destruct (str_eqb l (L "yes")) eqn:B; [apply str_eqb_eq in B; intros [= <-]; auto|]. cbn [orb].
    destruct (str_eqb l (L "n")) eqn:C; [apply str_eqb_eq in C; intros [= <-]; auto|].
    destruct (str_eqb l (L "no")) eqn:D; [apply str_eqb_eq in D; intros [= <-]; auto|]. discriminate.
  - destruct b; intros [-> | ->]; reflexivity.
Qed.
Lemma full_text_spec s x : full_text s = Some x <-> x = s /\ ~ all_space s.
Proof.
  unfold full_text. pose proof (blank_spec s) as B. unfold blank in B. destruct (utrim s).
  - split; [discriminate|]. intros [_ N]. destruct N. apply B. reflexivity.
  - split; [intros [= <-]; split; [reflexivity|]; intros S; apply B in S; discriminate|intros [-> _]; reflexivity].
Qed.
Lemma split_two q s a b : split_char q s = [a; b] <-> ~ In q a /\ ~ In q b /\ s = a ++ q :: b.
Proof.
  split.
  - intros H. apply split_char_cons in H as [Na (b' & -> & H)]. apply split_char_cons in H as [Nb H]. subst b'. auto.
  - intros (Na & Nb & ->). rewrite split_char_app by auto. rewrite split_char_free by auto. reflexivity.
Qed.
Lemma split_three q s a b c : split_char q s = [a; b; c] <-> ~ In q a /\ ~ In q b /\ ~ In q c /\ s = a ++ q :: b ++ q :: c.
Proof.
  split.
  - intros H. apply split_char_cons in H as [Na (b' & -> & H)]. apply split_char_cons in H as [Nb (c' & -> & H)].
    apply split_char_cons in H as [Nc H]. subst c'. auto.
  - intros (Na & Nb & Nc & ->). rewrite split_char_app by auto. rewrite split_char_app by auto. rewrite split_char_free by auto. reflexivity.
Qed.

Lemma known_reference_spec g s r : known_reference g s = Some r <-> names_known g s r.
Proof.
  unfold known_reference, from_str. split.
  - destruct (split_char "." s) as [|t [|i [|f [|]]]] eqn:E; try discriminate.
    + apply split_two in E as (T & I & ->). destruct (get_entity g _) as [e|] eqn:G; [|discriminate]. intros [= <-]. exists t, i, e. auto 8.
    + apply split_three in E as (T & I & F & ->). destruct (get_entity g _) as [e|] eqn:G; [|discriminate].
      destruct (get_field e f) as [v|] eqn:V; [|discriminate]. intros [= <-]. apply get_field_some in V. exists t, i, e.
      split; [exact T|]. split; [exact I|]. split; [exact G|]. right. exists f, v. auto 8.
  - intros (t & i & e & T & I & G & [[-> ->]|(f & v & F & -> & -> & V)]).
    + rewrite (proj2 (split_two "." _ t i)) by auto. rewrite G. reflexivity.
    + rewrite (proj2 (split_three "." _ t i f)) by auto. rewrite G. apply get_field_some in V. rewrite V. reflexivity.
Qed.
Lemma time_spec s secs : or_default (12 * 3600)%Z parse_hm s = Some secs <-> says_time s secs.
Proof.
  unfold or_default, says_time. destruct s.
  - split; [intros [= <-]; auto|]. intros [[_ ->]|[N _]]; [reflexivity|congruence].
  - split; [intros H; right; split; [discriminate|exact H]|]. intros [[N _]|[_ H]]; [discriminate|exact H].
Qed.
Lemma hours_spec c s h : or_default (Z.quot (local_offset (c_env c)) 3600) parse_i32 s = Some h <-> says_hours c s h.
Proof.
  unfold or_default, says_hours. destruct s.
  - split; [intros [= <-]; auto|]. intros [[_ ->]|[N _]]; [reflexivity|congruence].
  - split; [intros H; right; split; [discriminate|exact H]|]. intros [[N _]|[_ H]]; [discriminate|exact H].
Qed.

(** ** Values *)
Section Values.
  Variables (c : ctx) (pe : prompt_env) (g : graph) (target : path).
  Notation scalar := (scalar_prompt c pe g target).
  Notation ent := (enters c pe g target).
  Ltac one H := apply pbind_got in H as (?x & ?r' & ?Q & ?E); apply need_got in Q as (?a & ?Ha & ?T); apply line_got in Ha as (?s & -> & ?Ha).

  Lemma scalar_got t sk al acts v r : scalar t sk al acts = Got v r -> exists core, took acts r core /\ ent t al core v /\ core <> [].
  Proof.
    destruct t; cbn [scalar_prompt]; intros H.
    - one H. injection E as <- <-. apply yes_no_says in Ha. eexists. split; [exact T|]. split; [constructor; exact Ha|discriminate].
    - one H. injection E as <- <-. apply full_text_spec in Ha as [-> Ha]. eexists. split; [exact T|]. split; [constructor; exact Ha|discriminate].
    - one H. injection E as <- <-. eexists. split; [exact T|]. split; [constructor; exact Ha|discriminate].
    - one H. injection E as <- <-. eexists. split; [exact T|]. split; [constructor; exact Ha|discriminate].
    - unfold currency_prompt in H. one H. apply pbind_got in E as (k & r2 & Q & E). apply select_got in Q as (n & Hn & T2). injection E as <- <-.
      eexists. split; [exact (took_app _ _ _ _ _ T T2)|]. split; [constructor; auto|discriminate].
    - one H. injection E as <- <-. apply known_reference_spec in Ha. eexists. split; [exact T|]. split; [constructor; exact Ha|discriminate].
    - discriminate.
    - unfold date_prompt in H. apply pbind_got in H as (day & r1 & Q & H). apply need_got in Q as (a & Ha & T). destruct a; try discriminate. injection Ha as ->.
      one H. rename Ha into H1, T0 into T1, x into secs. apply pbind_got in E as (h & r2 & Q & E). apply need_got in Q as (a & Ha & T2). apply line_got in Ha as (s2 & -> & Ha).
      apply time_spec in H1. apply hours_spec in Ha. destruct ((-12 <=? h) && (h <=? 14))%Z eqn:R; [|discriminate]. injection E as <- <-.
      eexists. split; [exact (took_app _ _ _ _ _ T (took_app _ _ _ _ _ T1 T2))|]. split; [constructor; auto; lia|discriminate].
    - one H. injection E as <- <-. injection Ha as ->. eexists. split; [exact T|]. split; [constructor|discriminate].
    - unfold enum_prompt in H. destruct al as [vs|]; [|discriminate]. apply pbind_got in H as (k & r2 & Q & E). apply select_got in Q as (n & Hn & T2). injection E as <- <-.
      eexists. split; [exact T2|]. split; [constructor; exact Hn|discriminate].
  Qed.
  Lemma scalar_skipped t sk al acts r : scalar t sk al acts = Skipped r -> sk = true /\ t <> TEnum /\ took acts r [Escapes].
  Proof.
    assert (K : forall A (ac : act -> option A) (k : A -> value), pbind (need sk (ask ac acts)) (fun b acts0 => Got (k b) acts0) = Skipped r -> sk = true /\ took acts r [Escapes]).
    { intros A ac k H. apply pbind_skipped in H as [H|(a & r' & _ & H)]; [apply need_skipped in H; exact H|discriminate]. }
    destruct t; cbn [scalar_prompt]; intros H; try (apply K in H as [-> T]; split; [reflexivity|]; split; [discriminate|exact T]).
    - unfold currency_prompt in H. apply pbind_skipped in H as [H|(a & r' & Q & H)].
      + apply need_skipped in H as [-> T]. split; [reflexivity|]. split; [discriminate|exact T].
      + apply pbind_skipped in H as [H|(k & r2 & _ & H)]; [|discriminate]. apply select_skipped in H as [H _]. discriminate.
    - discriminate.
    - unfold date_prompt in H. apply pbind_skipped in H as [H|(day & r1 & Q & H)].
      { apply need_skipped in H as [-> T]. split; [reflexivity|]. split; [discriminate|exact T]. }
      apply need_got in Q as (a & Ha & T). assert (F : Forall entry [a]) by (destruct a; try discriminate; constructor; [split; discriminate|constructor]). apply pbind_skipped in H as [H|(secs & r2 & Q & H)].
      { apply need_skipped in H as [-> T2]. split; [reflexivity|]. split; [discriminate|]. exact (took_skip _ _ _ _ _ T F T2). }
      apply need_got in Q as (a2 & Ha2 & T2). assert (F2 : Forall entry [a2]) by (destruct a2; try discriminate; constructor; [split; discriminate|constructor]). apply pbind_skipped in H as [H|(h & r3 & Q & H)].
      { apply need_skipped in H as [-> T3]. split; [reflexivity|]. split; [discriminate|]. exact (took_skip _ _ _ _ _ T F (took_skip _ _ _ _ _ T2 F2 T3)). }
      destruct (_ && _)%bool; discriminate.
    - unfold enum_prompt in H. destruct al as [vs|]; [|discriminate]. apply pbind_skipped in H as [H|(k & r2 & _ & H)]; [|discriminate]. apply select_skipped in H as [H _]. discriminate.
  Qed.
  Lemma items_got t n : forall acts vs r, items_prompt n (scalar t true None) acts = Got vs r ->
    exists parts, took acts r (concat parts ++ [Escapes]) /\ Forall2 (ent t None) parts vs.
  Proof.
    induction n as [|n IH]; intros acts vs r; cbn [items_prompt]; [discriminate|]. destruct (scalar t true None acts) as [v r1|r1|] eqn:S; intros H; [| |discriminate].
    - apply pbind_got in H as (vs' & r2 & Q & H). injection H as <- <-. apply IH in Q as (parts & T & F). apply scalar_got in S as (core & T1 & E & _).
      exists (core :: parts). split; [|constructor; auto]. cbn [concat]. rewrite <- app_assoc. exact (took_app _ _ _ _ _ T1 T).
    - injection H as <- <-. apply scalar_skipped in S as (_ & _ & T). exists []. split; [exact T|constructor].
  Qed.
  Lemma items_never_skipped item n : forall acts r, items_prompt n item acts <> Skipped r.
  Proof.
    induction n as [|n IH]; intros acts r; cbn [items_prompt]; [discriminate|]. destruct (item acts) as [v r1|r1|]; try discriminate.
    intros H. apply pbind_skipped in H as [H|(a & r' & _ & H)]; [exact (IH _ _ H)|discriminate].
  Qed.
  Lemma field_got f acts v r : field_prompt c pe g target f acts = Got v r -> exists core, took acts r core /\ ent (fs_type f) (fs_allowed f) core v.
  Proof.
    unfold field_prompt. destruct (fs_type f) eqn:T; intros H; try (apply scalar_got in H as (core & A & B & _); exists core; auto; fail).
    apply pbind_got in H as (t & r1 & Q & H). apply select_got in Q as (n & Hn & T1). apply pbind_got in H as (vs & r2 & Q & H). injection H as <- <-.
    apply items_got in Q as (parts & T2 & F). exists (Picks n :: concat parts ++ [Escapes]). split; [exact (took_app _ _ _ _ _ T1 T2)|]. econstructor; [exact Hn|exact F].
  Qed.
  Lemma field_skipped f acts r : field_prompt c pe g target f acts = Skipped r -> fs_required f = false /\ fs_type f <> TEnum /\ took acts r [Escapes].
  Proof.
    unfold field_prompt. destruct (fs_type f) eqn:T; intros H;
      try (apply scalar_skipped in H as (A & B & C); apply Bool.negb_true_iff in A; auto; fail).
    apply pbind_skipped in H as [H|(t & r1 & _ & H)].
    - apply select_skipped in H as (A & C). apply Bool.negb_true_iff in A. split; [exact A|]. split; [discriminate|exact C].
    - apply pbind_skipped in H as [H|(vs & r2 & _ & H)]; [|discriminate]. destruct (items_never_skipped _ _ _ _ H).
  Qed.
  Lemma fields_got l : forall acts fvs r, fields_prompt c pe g target l acts = Got fvs r -> exists core, took acts r core /\ chat c pe g target l core fvs.
  Proof.
    induction l as [|[i f] l IH]; intros acts fvs r; cbn [fields_prompt].
    - intros [= <- <-]. exists []. split; [apply took_nil|constructor].
    - destruct (field_prompt c pe g target f acts) as [v r1|r1|] eqn:F; intros H; [| |discriminate].
      + apply pbind_got in H as (fvs' & r2 & Q & H). injection H as <- <-. apply IH in Q as (core & T & C). apply field_got in F as (c1 & T1 & E).
        exists (c1 ++ core). split; [exact (took_app _ _ _ _ _ T1 T)|]. constructor; auto.
      + apply IH in H as (core & T & C). apply field_skipped in F as (R & N & T1). exists (Escapes :: core). split; [exact (took_app _ _ _ _ _ T1 T)|]. constructor; auto.
  Qed.
  Lemma fields_never_skipped l : forall acts r, fields_prompt c pe g target l acts <> Skipped r.
  Proof.
    induction l as [|[i f] l IH]; intros acts r; cbn [fields_prompt]; [discriminate|]. destruct (field_prompt c pe g target f acts); [|auto|discriminate].
    intros H. apply pbind_skipped in H as [H|(a' & r' & _ & H)]; [exact (IH _ _ H)|discriminate].
  Qed.

  (** Conversely. *)
  Lemma enters_scalar t sk al core v r : ent t al core v -> t <> TList -> scalar t sk al (core ++ r) = Got v r.
  Proof.
    intros H N. destruct H; try congruence; cbn [scalar_prompt app].
    - rewrite (ask_first _ _ b) by (try exact I; apply yes_no_says; assumption). reflexivity.
    - rewrite (ask_first _ _ s) by (try exact I; apply full_text_spec; auto). reflexivity.
    - rewrite (ask_first _ _ z) by (try exact I; assumption). reflexivity.
    - rewrite (ask_first _ _ f) by (try exact I; assumption). reflexivity.
    - unfold currency_prompt. rewrite (ask_first _ _ a) by (try exact I; assumption). cbn [need pbind]. rewrite (select_first _ n k) by assumption. reflexivity.
    - rewrite (ask_first _ _ r0) by (try exact I; apply known_reference_spec; assumption). reflexivity.
    - unfold date_prompt. rewrite (ask_first _ _ day) by (try exact I; reflexivity). cbn [need pbind]. rewrite (ask_first _ _ secs) by (try exact I; apply time_spec; assumption). cbn [need pbind].
      rewrite (ask_first _ _ h) by (try exact I; apply hours_spec; assumption). cbn [need pbind]. destruct ((-12 <=? h) && (h <=? 14))%Z eqn:R; [reflexivity|lia].
    - rewrite (ask_first _ _ s) by (try exact I; reflexivity). reflexivity.
    - unfold enum_prompt. rewrite (select_first _ n x) by assumption. reflexivity.
  Qed.
  Lemma scalar_escape t al r : In t item_types -> scalar t true al (Escapes :: r) = Skipped r.
  Proof. intros H. cbn in H. decompose [or] H; subst; try reflexivity. contradiction. Qed.
  Lemma enters_items t parts vs : In t item_types -> Forall2 (ent t None) parts vs -> forall n r, length parts < n ->
    items_prompt n (scalar t true None) (concat parts ++ Escapes :: r) = Got vs r.
  Proof.
    intros I F. induction F as [|core v parts vs E F IH]; intros n r N; (destruct n as [|n]; [cbn in N; lia|]); cbn [items_prompt concat app].
    - rewrite scalar_escape by auto. reflexivity.
    - rewrite <- app_assoc, (enters_scalar t true None core v) by (auto; intros ->; cbn in I; decompose [or] I; discriminate || contradiction).
      rewrite IH by (cbn in N; lia). reflexivity.
  Qed.
  Lemma enters_some t al core v : ent t al core v -> core <> [].
  Proof. intros H. destruct H; discriminate. Qed.
  Lemma concat_length t parts vs : Forall2 (ent t None) parts vs -> length parts <= length (concat parts).
  Proof. intros F. induction F as [|core v parts vs E F IH]; cbn [concat length]; [lia|]. apply enters_some in E. rewrite app_length. destruct core; [congruence|]. cbn [length]. lia. Qed.
  Lemma enters_field f core v r : ent (fs_type f) (fs_allowed f) core v -> field_prompt c pe g target f (core ++ r) = Got v r.
  Proof.
    intros H. unfold field_prompt. destruct (fs_type f) eqn:T; try (apply enters_scalar; [exact H|discriminate]).
    inversion H as [| | | | | | | | |al n t parts vs Hn F]; subst. cbn [app]. rewrite (select_first _ n t) by assumption. cbn [need pbind]. rewrite <- app_assoc. cbn [app].
    rewrite (enters_items t parts vs); [reflexivity|eapply nth_error_In, Hn|exact F|].
    rewrite app_length. pose proof (concat_length _ _ _ F). lia.
  Qed.
  Lemma escape_field f r : fs_required f = false -> fs_type f <> TEnum -> field_prompt c pe g target f (Escapes :: r) = Skipped r.
  Proof. intros R N. unfold field_prompt. rewrite R. destruct (fs_type f); try reflexivity. congruence. Qed.
  Lemma chat_fields l core fvs : chat c pe g target l core fvs -> forall r, fields_prompt c pe g target l (core ++ r) = Got fvs r.
  Proof.
    intros H. induction H as [|i f l part v acts fvs E C IH|i f l acts fvs R N C IH]; intros r; cbn [fields_prompt].
    - reflexivity.
    - rewrite <- app_assoc, (enters_field f part v) by auto. rewrite IH. reflexivity.
    - cbn [app]. rewrite escape_field by auto. apply IH.
  Qed.
End Values.

(** ** The orders in which fields and schemas are shown *)
Lemma strict_unique {A} (R : A -> A -> Prop) : (forall a, ~ R a a) -> (forall a b, R a b -> ~ R b a) -> forall l m, StronglySorted R l -> StronglySorted R m ->
  (forall x, In x l <-> In x m) -> l = m.
Proof.
  intros IR AS. induction l as [|a l IH]; intros m S1 S2 E.
  - destruct m as [|b m]; [reflexivity|]. destruct (proj2 (E b) (or_introl eq_refl)).
  - destruct m as [|b m]; [destruct (proj1 (E a) (or_introl eq_refl))|]. inversion S1 as [|? ? S1' F1]; inversion S2 as [|? ? S2' F2]; subst. rewrite Forall_forall in F1, F2.
    assert (a = b).
    { destruct (proj1 (E a) (or_introl eq_refl)) as [->|Ha]; [reflexivity|]. destruct (proj2 (E b) (or_introl eq_refl)) as [->|Hb]; [reflexivity|].
      destruct (AS _ _ (F1 b Hb) (F2 a Ha)). }
    subst b. f_equal. apply IH; auto. intros x. split; intros H.
    + destruct (proj1 (E x) (or_intror H)) as [<-|K]; [destruct (IR a (F1 a H))|exact K].
    + destruct (proj2 (E x) (or_intror H)) as [<-|K]; [destruct (IR a (F2 a H))|exact K].
Qed.
Section Keyed.
  Context {A : Type} (key : A -> str).
  Notation lt := (fun a b => str_cmp (key a) (key b) = Lt).
  Notation cmp := (fun a b => str_cmp (key a) (key b)).
  Lemma keyed_pre : total_preorder_on cmp (fun _ : A => True).
  Proof.
    destruct tpo_strings as [A1 A2]. split; [intros a b _ _; apply A1; exact I|intros a b d _ _ _; apply A2; exact I].
  Qed.
  Lemma keyed_sort l : NoDup (map key l) -> StronglySorted lt (sort_by cmp l).
  Proof.
    intros N. pose proof (sort_sorted cmp _ keyed_pre l (proj2 (Forall_forall _ _) (fun x _ => I))) as S.
    assert (N' : NoDup (map key (sort_by cmp l))) by (eapply Permutation_NoDup; [apply Permutation_map, sort_perm|exact N]).
    induction S as [|a m S IH F]; constructor.
    - apply IH. inversion N'; auto.
    - cbn [map] in N'. inversion N' as [|? ? Na _]; subst. rewrite Forall_forall in *. intros b Hb. specialize (F b Hb).
      destruct (str_cmp (key a) (key b)) eqn:C; [|reflexivity|congruence]. apply str_cmp_eq in C. destruct Na. rewrite C. apply in_map, Hb.
  Qed.
  Lemma keyed_unique l m : StronglySorted lt l -> StronglySorted lt m -> (forall x, In x l <-> In x m) -> l = m.
  Proof.
    apply strict_unique.
    - intros a H. rewrite str_cmp_refl in H. discriminate.
    - intros a b H K. rewrite str_cmp_antisym, H in K. discriminate.
  Qed.
End Keyed.
Lemma asked_for_fields c b s : shuffles (c_fields c) -> well_formed s -> asked_for b s (fields_of c b s).
Proof.
  intros SH W. unfold fields_of. split.
  - intros p. pose proof (sort_perm by_field_id (filter (fun p => Bool.eqb (fs_required (snd p)) b) (c_fields c (s_fields s)))) as P.
    split.
    + intros H. apply (Permutation_in p (Permutation_sym P)) in H. apply filter_In in H as [H E]. apply Bool.eqb_prop in E. split; [apply (Permutation_in p (SH _)), H|exact E].
    + intros [H E]. apply (Permutation_in p P). apply filter_In. split; [apply (Permutation_in p (Permutation_sym (SH _))), H|]. rewrite E. apply Bool.eqb_reflx.
  - apply (keyed_sort fst). assert (N : NoDup (map fst (c_fields c (s_fields s)))) by (eapply Permutation_NoDup; [apply Permutation_map, Permutation_sym, SH|exact W]).
    revert N. generalize (c_fields c (s_fields s)). intros l. induction l as [|p l IH]; intros N; cbn [filter map]; [constructor|]. cbn [map] in N. inversion N as [|? ? N1 N2]; subst.
    destruct (Bool.eqb _ _); [|auto]. cbn [map]. constructor; [|auto]. intros H. apply N1. apply in_map_iff in H as (q & E & H). apply filter_In in H as [H _]. exact (eq_ind _ (fun z => In z (map fst l)) (in_map fst l q H) _ E).
Qed.
Lemma asked_for_unique c b s l : shuffles (c_fields c) -> well_formed s -> asked_for b s l -> l = fields_of c b s.
Proof.
  intros SH W [I S]. destruct (asked_for_fields c b s SH W) as [I' S']. apply (keyed_unique fst); auto. intros x. rewrite I, I'. reflexivity.
Qed.
Lemma offered_sort schemas : NoDup (map s_type schemas) -> offered schemas (sort_by (fun a b => str_cmp (s_type a) (s_type b)) schemas).
Proof. intros N. split; [apply Permutation_sym, sort_perm|apply (keyed_sort s_type), N]. Qed.
Lemma offered_unique schemas l : NoDup (map s_type schemas) -> offered schemas l -> l = sort_by (fun a b => str_cmp (s_type a) (s_type b)) schemas.
Proof.
  intros N [P S]. destruct (offered_sort schemas N) as [P' S']. apply (keyed_unique s_type); auto. intros x.
  split; intros H; [exact (Permutation_in x (Permutation_sym P') (Permutation_in x P H))|exact (Permutation_in x (Permutation_sym P) (Permutation_in x P' H))].
Qed.
Lemma offered_in schemas l n s : offered schemas l -> nth_error l n = Some s -> In s schemas.
Proof. intros [P _] H. apply (Permutation_in s P). eapply nth_error_In, H. Qed.

(** ** The dialogue *)
Lemma entity_got c pe g schemas file acts p e r : shuffles (c_fields c) -> NoDup (map s_type schemas) -> (forall s, In s schemas -> well_formed s) ->
  entity_prompt c pe g schemas file acts = Got (p, e) r ->
  p = dsl_path c (e_type e) file /\ exists core, took acts r core /\ dialogue c pe g schemas file core e.
Proof.
  intros SH N W H. unfold entity_prompt in H. apply pbind_got in H as (s & r1 & Q & H). apply select_got in Q as (n & Hn & T1).
  pose proof (offered_sort schemas N) as O. pose proof (W s (offered_in _ _ _ _ O Hn)) as Ws.
  apply pbind_got in H as (name & r2 & Q & H). apply need_got in Q as (a & Ha & T2). apply line_got in Ha as (? & -> & [= ->]).
  apply pbind_got in H as (fr & r3 & Q & H). apply fields_got in Q as (ar & T3 & C3).
  apply pbind_got in H as (more & r4 & Q & H). apply need_got in Q as (a & Ha & T4). apply line_got in Ha as (answer & -> & Ha).
  apply pbind_got in H as (fo & r5 & Q & H). injection H as <- <- <-. cbn [e_type]. split; [reflexivity|].
  assert (M : exists ao, took r4 r5 ao /\ ((says true answer /\ asked_for false s (fields_of c false s) /\ chat c pe g (dsl_path c (s_type s) file) (fields_of c false s) ao fo) \/
                         ((says false answer \/ answer = []) /\ ao = [] /\ fo = []))).
  { destruct more.
    - apply fields_got in Q as (ao & T5 & C5). exists ao. split; [exact T5|]. left. unfold or_default in Ha. destruct answer; [discriminate|]. apply yes_no_says in Ha.
      split; [exact Ha|]. split; [apply asked_for_fields; auto|exact C5].
    - injection Q as <- <-. exists []. split; [apply took_nil|]. right. split; [|auto]. unfold or_default in Ha. destruct answer; [auto|]. apply yes_no_says in Ha. auto. }
  destruct M as (ao & T5 & M). exists (Picks n :: Types name :: ar ++ Types answer :: ao). split.
  { exact (took_app _ _ _ [Picks n] _ T1 (took_app _ _ _ [Types name] _ T2 (took_app _ _ _ ar _ T3 (took_app _ _ _ [Types answer] _ T4 T5)))). }
  exists (sort_by (fun a b => str_cmp (s_type a) (s_type b)) schemas), n, s, name, (fields_of c true s), ar, fr, answer, (fields_of c false s), ao, fo. cbv zeta.
  split; [exact O|]. split; [exact Hn|]. split; [apply asked_for_fields; auto|]. split; [exact C3|]. split; [exact M|]. cbn [e_id e_fields]. auto.
Qed.
Lemma dialogue_entity c pe g schemas file core e r : shuffles (c_fields c) -> NoDup (map s_type schemas) -> (forall s, In s schemas -> well_formed s) ->
  dialogue c pe g schemas file core e -> entity_prompt c pe g schemas file (core ++ r) = Got (dsl_path c (e_type e) file, e) r.
Proof.
  intros SH N W (l & n & s & name & lr & ar & fr & answer & lo & ao & fo & O & Hn & Ar & Cr & M & -> & I & T & F). cbv zeta in *.
  pose proof (W s (offered_in _ _ _ _ O Hn)) as Ws. apply (offered_unique _ _ N) in O. subst l. apply (asked_for_unique c _ _ _ SH Ws) in Ar. subst lr.
  unfold entity_prompt. cbn [app]. rewrite (select_first _ n s) by exact Hn. cbn [need pbind]. rewrite (ask_first _ _ name) by (try exact Logic.I; reflexivity). cbn [need pbind].
  rewrite <- app_assoc. cbn [app]. rewrite (chat_fields _ _ _ _ _ _ _ Cr). cbn [pbind].
  assert (E : {| e_id := compute_unique_entity_id g (s_type s) name; e_type := s_type s; e_fields := fr ++ fo |} = e) by (clear - I T F; destruct e as [i0 t0 f0]; cbn [e_id e_type e_fields] in I, T, F; subst; reflexivity).
  destruct M as [(Y & Ao & Co)|(Y & -> & ->)].
  - rewrite (ask_first _ _ true).
    + cbn [need pbind]. apply (asked_for_unique c _ _ _ SH Ws) in Ao. subst lo. rewrite (chat_fields _ _ _ _ _ _ _ Co). cbn [pbind]. rewrite E, T. reflexivity.
    + exact Logic.I.
    + apply yes_no_says in Y. cbn [line]. unfold or_default. destruct answer; [discriminate|exact Y].
  - rewrite (ask_first _ _ false).
    + cbn [need pbind app]. rewrite E, T. reflexivity.
    + exact Logic.I.
    + cbn [line]. unfold or_default. destruct answer; [reflexivity|]. destruct Y as [Y|Y]; [apply yes_no_says in Y; exact Y|discriminate].
Qed.
