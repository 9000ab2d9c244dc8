(** Proofs about filter conditions. *)
From Coq Require Import Lia.
From Verif Require Import S_Query L_Str.

Lemma collect_ok {A B} (f : A -> qres B) l bs :
  collect f l = Ok bs <-> Forall2 (fun a b => f a = Ok b) l bs.
Proof.
  revert bs; induction l as [|a l IH]; intros bs; cbn.
  - split; [intros [= <-]; constructor|inversion 1; auto].
  - destruct (f a) as [b|e] eqn:E.
    + destruct (collect f l) as [bs'|e].
      * split.
        -- intros [= <-]. constructor; auto. apply IH; auto.
        -- inversion 1 as [|? b' ? bs2 H1 H2]; subst. apply IH in H2. congruence.
      * split; [discriminate|]. inversion 1 as [|? b' ? bs2 H1 H2]; subst. apply IH in H2. discriminate.
    + split; [discriminate|]. inversion 1; subst. congruence.
Qed.

Lemma collect_err {A B} (f : A -> qres B) l e :
  collect f l = Err e <->
  exists l1 a l2, l = l1 ++ a :: l2 /\ (forall c, In c l1 -> exists b, f c = Ok b) /\ f a = Err e.
Proof.
  induction l as [|a l IH]; cbn.
  - split; [discriminate|]. intros ([|] & ? & ? & H & _); discriminate.
  - destruct (f a) as [b|e'] eqn:E.
    + destruct (collect f l) as [bs|e'].
      * split; [discriminate|]. intros (l1 & c & l2 & H1 & H2 & H3).
        destruct l1 as [|d l1]; injection H1 as -> ->; [congruence|].
        assert (X : Ok bs = Err e); [|discriminate]. apply IH. exists l1, c, l2. repeat split; auto.
        intros; apply H2; right; auto.
      * split.
        -- intros [= ->]. destruct IH as [IH _]. destruct (IH eq_refl) as (l1 & c & l2 & -> & H2 & H3).
           exists (a :: l1), c, l2. repeat split; auto. intros d [<-|]; eauto.
        -- intros (l1 & c & l2 & H1 & H2 & H3).
           destruct l1 as [|d l1]; injection H1 as -> ->; [congruence|].
           apply IH. exists l1, c, l2. repeat split; auto. intros; apply H2; right; auto.
    + split.
      * intros [= ->]. exists [], a, l. repeat split; auto. intros ? [].
      * intros (l1 & c & l2 & H1 & H2 & H3). destruct l1 as [|d l1]; injection H1 as -> ->; [congruence|].
        destruct (H2 d (or_introl eq_refl)). congruence.
Qed.

Lemma forall2_in {A B} (R : A -> B -> Prop) l l' a : Forall2 R l l' -> In a l -> exists b, In b l' /\ R a b.
Proof.
  induction 1; intros []; subst; [eexists; split; [left|]; eauto|].
  destruct IHForall2 as (b & ? & ?); auto. exists b; split; [right|]; auto.
Qed.
Lemma forall2_in_r {A B} (R : A -> B -> Prop) l l' b : Forall2 R l l' -> In b l' -> exists a, In a l /\ R a b.
Proof.
  induction 1; intros []; subst; [eexists; split; [left|]; eauto|].
  destruct IHForall2 as (a & ? & ?); auto. exists a; split; [right|]; auto.
Qed.

Lemma matches_all_ok x cc e b : matches_all x cc e = Ok b ->
  evaluates x cc e /\ (b = true <-> satisfies x cc e).
Proof.
  unfold matches_all. destruct (collect _ (cc_conds cc)) as [bs|er] eqn:C; [|discriminate].
  intros [= <-]. apply collect_ok in C. split.
  - intros c Hc. destruct (forall2_in _ _ _ _ C Hc) as (b & _ & H). eauto.
  - unfold satisfies. destruct (cc_comb cc).
    + rewrite forallb_forall. split.
      * intros H c Hc. destruct (forall2_in _ _ _ _ C Hc) as (b & I & E). rewrite E. f_equal. apply H; auto.
      * intros H b Hb. destruct (forall2_in_r _ _ _ _ C Hb) as (c & I & E). rewrite H in E; congruence.
    + rewrite existsb_exists. split.
      * intros (b & Hb & ->). destruct (forall2_in_r _ _ _ _ C Hb) as (c & I & E). eauto.
      * intros (c & Hc & E). destruct (forall2_in _ _ _ _ C Hc) as (b & I & E2). exists b. split; congruence.
Qed.

Lemma evaluates_ok x cc e : evaluates x cc e -> exists b, matches_all x cc e = Ok b.
Proof.
  intros H. unfold matches_all. destruct (collect _ (cc_conds cc)) as [bs|er] eqn:C; eauto.
  apply collect_err in C as (l1 & c & l2 & E & _ & F).
  destruct (H c); [rewrite E; apply in_elt|congruence].
Qed.

Lemma satisfies_dec x cc e : evaluates x cc e -> satisfies x cc e \/ ~ satisfies x cc e.
Proof.
  intros H. destruct (evaluates_ok x cc e H) as (b & Hb). apply matches_all_ok in Hb as [_ Hb].
  destruct b; [left; apply Hb; auto|right; intros S; apply Hb in S; discriminate].
Qed.

Lemma keeps_fun {A} (P : A -> Prop) l r r' : keeps P l r -> keeps P l r' -> r = r'.
Proof.
  intros H; revert r'; induction H; intros r' H'; inversion H'; subst; auto; try contradiction.
  f_equal; auto.
Qed.

Lemma where_ok x cc es r : where_step x cc es = Ok r <->
  Forall (evaluates x cc) es /\ keeps (satisfies x cc) es r.
Proof.
  revert r; induction es as [|e es IH]; intros r; cbn.
  - split; [intros [= <-]; repeat constructor|]. intros [_ K]; inversion K; auto.
  - destruct (matches_all x cc e) as [b|er] eqn:M.
    + apply matches_all_ok in M as [Ev Sat].
      destruct (where_step x cc es) as [r'|er] eqn:W.
      * destruct (proj1 (IH r') eq_refl) as [F K]. split.
        -- intros [= <-]. split; [constructor; auto|]. destruct b.
           ++ apply keeps_yes; auto. apply Sat; auto.
           ++ apply keeps_no; auto. intros S. apply Sat in S. discriminate.
        -- intros [F' K']. f_equal. inversion K' as [|? ? r2 S K2|? ? r2 S K2]; subst.
           ++ destruct b; [|exfalso; apply Sat in S; discriminate]. f_equal. eapply keeps_fun; eauto.
           ++ destruct b; [exfalso; apply S, Sat; auto|]. eapply keeps_fun; eauto.
      * split; [discriminate|]. intros [F' K']. inversion F' as [|? ? ? F2]; subst.
        assert (exists r2, keeps (satisfies x cc) es r2) as (r2 & K2) by (inversion K'; eauto).
        destruct (IH r2) as [_ IH2]. discriminate IH2; auto.
    + split; [discriminate|]. intros [F' _]. inversion F' as [|? ? F1 _]; subst.
      destruct (evaluates_ok _ _ _ F1). congruence.
Qed.

Lemma where_err x cc es er : where_step x cc es = Err er <->
  exists es1 e es2 cs1 c cs2,
    es = es1 ++ e :: es2 /\ Forall (evaluates x cc) es1 /\
    cc_conds cc = cs1 ++ c :: cs2 /\ (forall c', In c' cs1 -> exists b, matches x c' e = Ok b) /\
    matches x c e = Err er.
Proof.
  induction es as [|e es IH]; cbn.
  - split; [discriminate|]. intros ([|] & ? & ? & ? & ? & ? & H & _); discriminate.
  - destruct (matches_all x cc e) as [b|er'] eqn:M.
    + pose proof (matches_all_ok _ _ _ _ M) as [Ev _].
      destruct (where_step x cc es) as [r|er'].
      * split; [discriminate|]. intros (es1 & e' & es2 & cs1 & c & cs2 & H1 & H2 & H3).
        destruct es1 as [|d es1]; injection H1 as -> ->.
        -- exfalso. destruct H3 as (H3 & H4 & H5). destruct (Ev c) as (b' & Hb); [rewrite H3; apply in_elt|congruence].
        -- assert (X : Ok r = Err er); [|discriminate]. apply IH. inversion H2; subst.
           exists es1, e', es2, cs1, c, cs2. auto.
      * split.
        -- intros [= ->]. destruct (proj1 IH eq_refl) as (es1 & e' & es2 & cs1 & c & cs2 & -> & H2 & H3).
           exists (e :: es1), e', es2, cs1, c, cs2. split; auto.
        -- intros (es1 & e' & es2 & cs1 & c & cs2 & H1 & H2 & H3).
           destruct es1 as [|d es1]; injection H1 as -> ->.
           ++ exfalso. destruct H3 as (H3 & H4 & H5). destruct (Ev c) as (b' & Hb); [rewrite H3; apply in_elt|congruence].
           ++ apply IH. inversion H2; subst. exists es1, e', es2, cs1, c, cs2. auto.
    + assert (M' : collect (fun c => matches x c e) (cc_conds cc) = Err er').
      { unfold matches_all in M. destruct (collect _ _); [discriminate|]. congruence. }
      apply collect_err in M' as (l1 & c & l2 & H1 & H2 & H3). split.
      * intros [= ->]. exists [], e, es, l1, c, l2. auto.
      * intros (es1 & e' & es2 & cs1 & c' & cs2 & E1 & E2 & E3 & E4 & E5).
        destruct es1 as [|d es1]; injection E1 as -> ->.
        -- f_equal. assert (X : matches_all x cc e' = Err er).
           { unfold matches_all. replace (collect _ (cc_conds cc)) with (@Err (list bool) query_error er); auto.
             symmetry. apply collect_err. exists cs1, c', cs2. auto. }
           congruence.
        -- exfalso. inversion E2 as [|? ? Ev _]; subst. destruct (Ev c); [rewrite H1; apply in_elt|congruence].
Qed.

Lemma keeps_and x a b es r1 r :
  keeps (fun e => satisfies x {| cc_conds := a; cc_comb := CAnd |} e) es r1 ->
  keeps (fun e => satisfies x {| cc_conds := b; cc_comb := CAnd |} e) r1 r ->
  keeps (fun e => satisfies x {| cc_conds := a ++ b; cc_comb := CAnd |} e) es r.
Proof.
  intros K; revert r; induction K as [|e l r1 S K IH|e l r1 S K IH]; intros r K2.
  - inversion K2; constructor.
  - inversion K2 as [|? ? r2 S2 K3|? ? r2 S2 K3]; subst.
    + constructor; auto. intros c Hc. cbn in *. apply in_app_iff in Hc as [|]; auto.
    + apply keeps_no; auto. intros H. apply S2. intros c Hc. apply H. cbn. apply in_app_iff; auto.
  - apply keeps_no; auto. intros H. apply S. intros c Hc. apply H. cbn. apply in_app_iff; auto.
Qed.

Lemma keeps_in {A} (P : A -> Prop) l r a : keeps P l r -> (In a r <-> In a l /\ P a).
Proof.
  induction 1 as [|b l r S K IH|b l r S K IH]; cbn; [tauto| |].
  - rewrite IH. split; [intros [->|[]]|intros [[->|] ?]]; auto.
  - rewrite IH. split; [intros []; auto|]. intros [[->|] ?]; [contradiction|auto].
Qed.

Lemma keeps_exists x cc es : Forall (evaluates x cc) es -> exists r, keeps (satisfies x cc) es r.
Proof.
  induction 1 as [|e es Ev _ (r & K)]; [eexists; constructor|].
  destruct (satisfies_dec _ _ _ Ev); eexists; [eapply keeps_yes|eapply keeps_no]; eauto.
Qed.

Lemma where_and_split x a b es r :
  where_step x {| cc_conds := a ++ b; cc_comb := CAnd |} es = Ok r ->
  exists r1, where_step x {| cc_conds := a; cc_comb := CAnd |} es = Ok r1 /\
             where_step x {| cc_conds := b; cc_comb := CAnd |} r1 = Ok r.
Proof.
  intros H. apply where_ok in H as [F K].
  assert (Fa : Forall (evaluates x {| cc_conds := a; cc_comb := CAnd |}) es).
  { eapply Forall_impl; [|exact F]. intros e Ev c Hc. apply Ev. cbn in *. apply in_app_iff; auto. }
  destruct (keeps_exists _ _ _ Fa) as (r1 & K1). exists r1. split; [apply where_ok; auto|].
  assert (Fb : Forall (evaluates x {| cc_conds := b; cc_comb := CAnd |}) r1).
  { rewrite Forall_forall in *. intros e He c Hc. apply (keeps_in _ _ _ _ K1) in He as [He _].
    apply (F e He). cbn in *. apply in_app_iff; auto. }
  destruct (keeps_exists _ _ _ Fb) as (r2 & K2). apply where_ok. split; auto.
  replace r with r2; auto. eapply keeps_fun; [|exact K]. eapply keeps_and; eauto.
Qed.

Lemma where_and_combine x a b es r1 r :
  where_step x {| cc_conds := a; cc_comb := CAnd |} es = Ok r1 ->
  where_step x {| cc_conds := b; cc_comb := CAnd |} r1 = Ok r ->
  Forall (evaluates x {| cc_conds := a ++ b; cc_comb := CAnd |}) es ->
  where_step x {| cc_conds := a ++ b; cc_comb := CAnd |} es = Ok r.
Proof.
  intros H1 H2 F. apply where_ok in H1 as [_ K1]. apply where_ok in H2 as [_ K2].
  apply where_ok. split; auto. eapply keeps_and; eauto.
Qed.

Lemma keeps_Permutation {A} (P : A -> Prop) l l' r r' :
  (forall a, In a l -> P a \/ ~ P a) ->
  Permutation l l' -> keeps P l r -> keeps P l' r' -> Permutation r r'.
Proof.
  intros D Pm; revert r r' D; induction Pm; intros r r' D K K'.
  - inversion K; inversion K'; auto.
  - inversion K; inversion K'; subst; try contradiction; [constructor|]; apply IHPm; auto;
      intros; apply D; right; auto.
  - inversion K as [|? ? ? S1 K1|? ? ? S1 K1]; subst; inversion K1; subst;
    inversion K' as [|? ? ? S2 K2|? ? ? S2 K2]; subst; inversion K2; subst; try contradiction;
    repeat match goal with H1 : keeps P ?l ?a, H2 : keeps P ?l ?b |- _ =>
             assert (a = b) by (eapply keeps_fun; eauto); subst; clear H1 end; auto. constructor.
  - assert (exists r2, keeps P l' r2) as (r2 & K2).
    { assert (D' : forall a, In a l' -> P a \/ ~ P a).
      { intros a Ha. apply D. eapply Permutation_in; [symmetry; exact Pm1|auto]. }
      clear - D'. induction l' as [|a l IH]; [eexists; constructor|].
      destruct IH as (r & K); [intros; apply D'; right; auto|].
      destruct (D' a (or_introl eq_refl)); eexists; [eapply keeps_yes|eapply keeps_no]; eauto. }
    eapply perm_trans; [eapply IHPm1; eauto|eapply IHPm2; eauto].
    intros a Ha. apply D. eapply Permutation_in; [symmetry; exact Pm1|auto].
Qed.

(** Operators. *)
Lemma ordered_int x z z' : ordered_by x (VInt z) (FInt z') (Z.compare z z').
Proof. unfold ordered_by; cbn. destruct (Z.compare z z'); cbn; auto 10. Qed.

Lemma ordered_int_float x z f c : f_cmp (f_of_Z z) f = Some c -> ordered_by x (VInt z) (FFloat f) c.
Proof.
  intros E. unfold ordered_by; cbn. unfold f_eq, f_ne, f_gt, f_lt, f_ge, f_le, f_eq. rewrite E.
  destruct c; cbn; auto 10.
Qed.

Lemma ordered_currency x a c f d : dec_of_f64 x f = Some d -> ordered_by x (VCur a c) (FCur f c) (dec_cmp a d).
Proof.
  intros E. unfold ordered_by; cbn. rewrite str_eqb_refl, E. cbn. destruct (dec_cmp a d); cbn; auto 10.
Qed.

Lemma ordered_date x d s day : parse_rfc3339 s = None -> parse_naive_date s = Some day ->
  ordered_by x (VDate d) (FDate s) (Z.compare (dt_date d) day).
Proof.
  intros E1 E2. unfold ordered_by; cbn. rewrite E1, E2. destruct (Z.compare (dt_date d) day); cbn; auto 10.
Qed.
Lemma ordered_datetime x d s d' : parse_rfc3339 s = Some d' ->
  ordered_by x (VDate d) (FDate s) (dt_cmp d d').
Proof.
  intros E1. unfold ordered_by; cbn. rewrite E1. destruct (dt_cmp d d'); cbn; auto 10.
Qed.

Lemma documented_iff x v o w : get_type v <> TList ->
  (forall c f c', v = VCur f c -> w = FCur c' c -> dec_of_f64 x c' <> None) ->
  (forall a c f c', v = VCur a c -> w = FCur f c' -> c = c') ->
  (forall s, w = FDate s -> parse_rfc3339 s <> None \/ parse_naive_date s <> None) ->
  ((exists b, compare_value x v o w = Ok b) <-> documented v o w = true).
Proof.
  intros NL ND NC NT. destruct v as [b|s|z|f|a c|r|vs|d|p|s]; try (exfalso; apply NL; reflexivity).
  all: destruct w as [s'|z'|f'|b'|a' c'|s'|s'|s'|s'|ws];
    try (destruct o; (split; [intros (b0 & H); discriminate H|intros H; discriminate H]); fail).
  all: try (destruct o; (split; [intros _; reflexivity|intros _; cbn; eauto]) || (split; [intros (b0 & H); discriminate H|intros H; discriminate H]); fail).
  all: try (destruct r; destruct o; cbn; (split; [intros _; reflexivity|intros _; eauto]) || (split; [intros (b0 & H); discriminate H|intros H; discriminate H]); fail).
  - destruct o; cbn; destruct (Z.compare z z'); cbn; (split; [intros _; reflexivity|intros _; eauto]) || (split; [intros (b0 & H); discriminate H|intros H; discriminate H]).
  - (* currency *)
    specialize (NC a c a' c' eq_refl eq_refl). subst c'. specialize (ND c a a' eq_refl eq_refl).
    cbn. rewrite str_eqb_refl. cbn. destruct (dec_of_f64 x a') as [d|]; [|congruence].
    destruct o; destruct (dec_cmp a d); cbn; (split; [intros _; reflexivity|intros _; eauto]) || (split; [intros (b0 & H); discriminate H|intros H; discriminate H]).
  - specialize (NT s' eq_refl). cbn. destruct (parse_rfc3339 s') as [d'|].
    + destruct o; destruct (dt_cmp d d'); cbn;
      (split; [intros _; reflexivity|intros _; eauto]) || (split; [intros (b0 & H); discriminate H|intros H; discriminate H]).
    + destruct (parse_naive_date s') as [day|]; [|destruct NT; congruence].
      destruct o; destruct (Z.compare (dt_date d) day); cbn;
      (split; [intros _; reflexivity|intros _; eauto]) || (split; [intros (b0 & H); discriminate H|intros H; discriminate H]).
Qed.

Lemma in_never_matches x v w : compare_value x v OpIn w <> Ok true.
Proof.
  destruct v as [b|s|z|f|a c|r|vs|d|p|s]; destruct w as [s'|z'|f'|b'|a' c'|s'|s'|s'|s'|ws]; cbn; try discriminate.
  all: try (destruct r; discriminate).
  - destruct (str_eqb c c'); cbn; [|discriminate]. destruct (dec_of_f64 x a') as [d|]; [|discriminate].
    destruct (dec_cmp a d); discriminate.
  - destruct (parse_rfc3339 s') as [d'|]; [destruct (dt_cmp d d'); discriminate|].
    destruct (parse_naive_date s') as [day|]; [destruct (Z.compare (dt_date d) day); discriminate|discriminate].
Qed.

(** ** Lists *)
Lemma item_compare x i o w : get_type i <> TList -> compare_list_item x i o w = compare_value x i o w.
Proof. destruct i; cbn; congruence. Qed.
Lemma list_contains_spec x items w :
  Forall (fun i => get_type i <> TList /\ exists b, compare_value x i OpEq w = Ok b) items ->
  exists p, compare_value x (VList items) OpContains w = Ok p /\
  (p = true <-> exists i, In i items /\
     match i, w with
     | VStr _, FStr _ => compare_value x i OpContains w = Ok true
     | _, _ => compare_value x i OpEq w = Ok true
     end).
Proof.
  change (compare_value x (VList items) OpContains w) with (list_contains x items w).
  induction items as [|i items IH]; intros F.
  - exists false. split; [reflexivity|]. split; [discriminate|intros (i & [] & _)].
  - inversion F as [|? ? [NL (b & E)] F']; subst. destruct (IH F') as (p & P1 & P2).
    assert (M : exists m, match i, w with
               | VStr _, FStr _ => compare_string i OpContains w
               | _, _ => compare_list_item x i OpEq w
               end = Ok m /\ (m = true <-> match i, w with
                 | VStr _, FStr _ => compare_value x i OpContains w = Ok true
                 | _, _ => compare_value x i OpEq w = Ok true
                 end)).
    { assert (G : exists m, compare_list_item x i OpEq w = Ok m /\ (m = true <-> compare_value x i OpEq w = Ok true)).
      { exists b. rewrite (item_compare x i OpEq w NL), E. split; auto. split; [intros ->|intros [= ->]]; auto. }
      destruct i as [|s| | | | | | | |]; try exact G. destruct w; try exact G.
      cbn [compare_value]. unfold compare_string, or_unsupported, text_op.
      eexists. split; [reflexivity|]. split; [intros ->|intros [= ->]]; auto. }
    destruct M as (m & M1 & M2). cbn [list_contains]. rewrite M1. destruct m.
    + exists true. split; auto. split; auto. intros _. exists i. split; [left; auto|]. apply M2. auto.
    + exists p. split; auto. rewrite P2. split; intros (j & J1 & J2).
      * exists j. split; [right|]; auto.
      * destruct J1 as [->|J1]; [apply M2 in J2; discriminate|]. exists j. auto.
Qed.
Lemma list_equality_spec x items ws :
  (forall i w, In i items -> In w ws -> get_type i <> TList /\ exists b, compare_value x i OpEq w = Ok b) ->
  exists p, compare_value x (VList items) OpEq (FList ws) = Ok p /\
  (p = true <-> Forall2 (fun i w => compare_value x i OpEq w = Ok true) items ws).
Proof.
  change (compare_value x (VList items) OpEq (FList ws)) with
    (if Nat.eqb (length items) (length ws) then list_equal x items ws else Ok false).
  intros H. destruct (Nat.eqb_spec (length items) (length ws)) as [E|E].
  - revert ws E H. induction items as [|i items IH]; intros [|w ws] E H; try discriminate; cbn [list_equal].
    + exists true. split; auto. split; auto.
    + destruct (H i w) as [NL (b & C)]; [left; auto|left; auto|].
      rewrite (item_compare x i OpEq w NL), C. destruct b.
      * destruct (IH ws) as (p & P1 & P2); [injection E; auto|intros; apply H; right; auto|].
        exists p. split; auto. rewrite P2. split; [intros; constructor; auto|intros F; inversion F; auto].
      * exists false. split; auto. split; [discriminate|]. intros F. inversion F; subst. congruence.
  - exists false. split; auto. split; [discriminate|]. intros F. exfalso. apply E. clear -F. induction F; cbn; auto.
Qed.
