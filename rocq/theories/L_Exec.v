(** Whole queries: invariants of every step and independence of hash order. *)
From Coq Require Import Lia.
From Verif Require Import S_Query S_Graph L_Str L_Graph L_Sort L_Filter L_Order L_Related.

Lemma nodup_of_ids {A B} (f : A -> B) l : NoDup (map f l) -> NoDup l.
Proof. apply NoDup_map_inv. Qed.

Lemma keeps_ids {A} (key : A -> str) (P : A -> Prop) l r : keeps P l r -> NoDup (map key l) -> NoDup (map key r).
Proof.
  induction 1 as [|a l r S K IH|a l r S K IH]; cbn; auto; intros N; inversion N as [|? ? N1 N2]; subst; auto.
  constructor; auto. intros I. apply N1. apply in_map_iff in I as (b & E & I).
  rewrite <- E. apply in_map. apply (keeps_in _ _ _ _ K) in I. tauto.
Qed.

Lemma firstn_incl {A} n (l : list A) : incl (firstn n l) l.
Proof. intros a H. rewrite <- (firstn_skipn n l). apply in_or_app; auto. Qed.

Lemma firstn_ids {A B} (key : A -> B) n l : NoDup (map key l) -> NoDup (map key (firstn n l)).
Proof.
  intros N. rewrite <- firstn_map. rewrite <- (firstn_skipn n (map key l)) in N.
  revert N. generalize (firstn n (map key l)) (skipn n (map key l)). induction l0 as [|a l0 IH]; cbn; [constructor|].
  intros l1 N. inversion N as [|? ? N1 N2]; subst. constructor; eauto. intros I; apply N1, in_or_app; auto.
Qed.

Section Exec.
  Variables (x : ext) (g : graph) (es : list entity).
  Hypothesis B : built g es.

  Definition good (l : list entity) : Prop := incl l es /\ NoDup (map e_id l).

  Lemma select_good ho s l : orders ho -> select_from g ho s = Ok l -> good l.
  Proof.
    intros O. destruct (type_keys_spec g es (proj1 B)) as [N K]. pose proof (inv_nodup _ _ (proj1 B)) as NI.
    destruct s as [t|]; cbn.
    - destruct (str_in t (type_keys g)); [|discriminate]. intros [= <-].
      rewrite (list_by_type_filter g es t (proj1 B)). split.
      + intros e He. apply filter_In in He. tauto.
      + apply filter_ids; auto.
    - intros [= <-].
      rewrite (flat_map_ext _ (fun t => filter (fun e => str_eqb (e_type e) t) es)
             (fun t => list_by_type_filter g es t (proj1 B))).
      assert (Pm : Permutation (flat_map (fun t => filter (fun e => str_eqb (e_type e) t) es) (ho [0] (type_keys g))) es).
      { apply (flat_map_filter_perm e_type).
        - exact (Permutation_NoDup (Permutation_sym (O _ _)) N).
        - intros e He. apply (Permutation_in _ (Permutation_sym (O _ _))), K. exists e; auto. }
      split.
      + intros e He. eapply Permutation_in; eauto.
      + eapply Permutation_NoDup; [apply Permutation_map, Permutation_sym, Pm|auto].
  Qed.

  Lemma select_all ho l : orders ho -> select_from g ho SAll = Ok l -> Permutation l es.
  Proof.
    intros O. cbn. intros [= <-]. destruct (type_keys_spec g es (proj1 B)) as [N K].
    rewrite (flat_map_ext _ (fun t => filter (fun e => str_eqb (e_type e) t) es)
             (fun t => list_by_type_filter g es t (proj1 B))).
    apply (flat_map_filter_perm e_type).
    - exact (Permutation_NoDup (Permutation_sym (O _ _)) N).
    - intros e He. apply (Permutation_in _ (Permutation_sym (O _ _))), K. exists e; auto.
  Qed.

  Lemma select_type ho t : select_from g ho (SType t) =
    if existsb (fun e => str_eqb (e_type e) t) es then Ok (filter (fun e => str_eqb (e_type e) t) es)
    else Err (UnknownEntityType t (ho [0] (type_keys g))).
  Proof.
    destruct (type_keys_spec g es (proj1 B)) as [_ K]. specialize (K t). cbn.
    rewrite (list_by_type_filter g es t (proj1 B)).
    destruct (existsb _ es) eqn:E.
    - apply existsb_exists in E as (e & He & Et). apply str_eqb_eq in Et.
      assert (I : In t (type_keys g)) by (apply K; exists e; auto). apply str_in_In in I. rewrite I. auto.
    - destruct (str_in t (type_keys g)) eqn:I; auto. apply str_in_In in I. apply K in I as (e & He & Et).
      assert (X : existsb (fun e => str_eqb (e_type e) t) es = true); [|congruence].
      apply existsb_exists. exists e. split; auto. apply str_eqb_eq; auto.
  Qed.

  Lemma exec_op_good ho n o l r : orders ho -> good l -> exec_op x g ho n o l = Ok r -> good r.
  Proof.
    intros O [I N]. destruct o as [cc|d t|f d|k]; cbn.
    - intros H. apply where_ok in H as [_ K]. split.
      + intros e He. apply I. apply (keeps_in _ _ _ _ K) in He. tauto.
      + eapply keeps_ids; eauto.
    - intros [= <-]. destruct d as [|d].
      + cbn. split; auto.
      + split.
        * intros e He. apply (related_in g es B) in He; auto; [tauto|lia].
        * apply (related_nodup g es B ho); auto. lia.
    - intros [= <-]. unfold order_step. split.
      + intros e He. apply I. eapply Permutation_in; [symmetry; apply sort_perm|exact He].
      + eapply Permutation_NoDup; [apply Permutation_map, sort_perm|auto].
    - intros [= <-]. split.
      + intros e He. apply I. eapply firstn_incl; eauto.
      + apply firstn_ids; auto.
  Qed.

  Lemma exec_ops_good ho ops : orders ho -> forall n l r, good l -> exec_ops x g ho n ops l = Ok r -> good r.
  Proof.
    intros O. induction ops as [|o ops IH]; intros n l r G; cbn.
    - intros [= <-]; auto.
    - destruct (exec_op x g ho n o l) as [l'|] eqn:E; cbn; [|discriminate].
      apply IH. eapply exec_op_good; eauto.
  Qed.

  Definition agree (a b : qres (list entity)) : Prop :=
    match a, b with Ok l, Ok l' => Permutation l l' | Err _, Err _ => True | _, _ => False end.

  Lemma where_agree cc l1 l2 : Permutation l1 l2 -> agree (where_step x cc l1) (where_step x cc l2).
  Proof.
    intros P. destruct (where_step x cc l1) as [r1|e1] eqn:E1, (where_step x cc l2) as [r2|e2] eqn:E2; cbn; auto.
    - apply where_ok in E1 as [F1 K1]. apply where_ok in E2 as [F2 K2].
      eapply keeps_Permutation; eauto. intros a Ha. apply satisfies_dec. rewrite Forall_forall in F1; auto.
    - apply where_ok in E1 as [F1 K1]. assert (F2 : Forall (evaluates x cc) l2) by (eapply Permutation_Forall; eauto).
      destruct (keeps_exists x cc l2 F2) as (r & K). assert (X : where_step x cc l2 = Ok r) by (apply where_ok; auto). congruence.
    - apply where_ok in E2 as [F2 K2]. assert (F1 : Forall (evaluates x cc) l1)
        by (eapply Permutation_Forall; [symmetry; exact P|auto]).
      destruct (keeps_exists x cc l1 F1) as (r & K). assert (X : where_step x cc l1 = Ok r) by (apply where_ok; auto). congruence.
  Qed.

  Lemma related_agree ho1 ho2 s1 s2 d t l1 l2 : orders ho1 -> orders ho2 -> good l1 -> good l2 -> Permutation l1 l2 ->
    Permutation (related_step g ho1 s1 d t l1) (related_step g ho2 s2 d t l2).
  Proof.
    intros O1 O2 [I1 _] [I2 _] P. destruct d as [|d]; [exact P|].
    apply NoDup_Permutation.
    - eapply nodup_of_ids, (related_nodup g es B); auto; lia.
    - eapply nodup_of_ids, (related_nodup g es B); auto; lia.
    - intros e. rewrite !(related_in g es B) by (auto; lia).
      split; intros (H1 & H2 & a & Ha & W); repeat split; auto; exists a; split; auto;
        [|apply Permutation_sym in P]; eapply Permutation_in; eauto.
  Qed.

  Lemma exec_op_agree ho1 ho2 n1 n2 o l1 l2 : orders ho1 -> orders ho2 -> good l1 -> good l2 -> Permutation l1 l2 ->
    (forall k, o <> QLimit k) -> agree (exec_op x g ho1 n1 o l1) (exec_op x g ho2 n2 o l2).
  Proof.
    intros O1 O2 G1 G2 P NL. destruct o as [cc|d t|f d|k]; cbn [exec_op].
    - apply where_agree; auto.
    - cbn [agree]. apply related_agree; auto.
    - cbn [agree]. unfold order_step.
      eapply perm_trans; [symmetry; apply sort_perm|]. eapply perm_trans; [exact P|apply sort_perm].
    - exfalso. eapply NL; reflexivity.
  Qed.

  Lemma exec_ops_agree ho1 ho2 ops : orders ho1 -> orders ho2 -> no_limit ops ->
    forall n1 n2 l1 l2, good l1 -> good l2 -> Permutation l1 l2 ->
    agree (exec_ops x g ho1 n1 ops l1) (exec_ops x g ho2 n2 ops l2).
  Proof.
    intros O1 O2. induction ops as [|o ops IH]; intros NL n1 n2 l1 l2 G1 G2 P; cbn [exec_ops]; auto.
    pose proof (exec_op_agree ho1 ho2 n1 n2 o l1 l2 O1 O2 G1 G2 P) as A.
    assert (NLo : forall k, o <> QLimit k) by (intros k ->; apply (NL k); left; auto).
    specialize (A NLo).
    destruct (exec_op x g ho1 n1 o l1) as [r1|] eqn:E1, (exec_op x g ho2 n2 o l2) as [r2|] eqn:E2; cbn in A |- *; auto; try contradiction.
    apply IH; auto.
    - intros k H. apply (NL k); right; auto.
    - eapply exec_op_good; [| |exact E1]; eauto.
    - eapply exec_op_good; [| |exact E2]; eauto.
  Qed.

  Lemma select_agree ho1 ho2 s : orders ho1 -> orders ho2 -> agree (select_from g ho1 s) (select_from g ho2 s).
  Proof.
    intros O1 O2. destruct s as [t|]; cbn.
    - destruct (str_in t (type_keys g)); cbn; auto.
    - eapply perm_trans; [apply (select_all ho1); auto|]. symmetry. apply (select_all ho2); auto.
  Qed.

  Lemma exec_ops_no_related ho1 ho2 ops : no_related ops -> forall n1 n2 l,
    exec_ops x g ho1 n1 ops l = exec_ops x g ho2 n2 ops l.
  Proof.
    induction ops as [|o ops IH]; intros NR n1 n2 l; cbn [exec_ops]; auto.
    assert (E : exec_op x g ho1 n1 o l = exec_op x g ho2 n2 o l).
    { destruct o; auto. exfalso. eapply NR; left; reflexivity. }
    rewrite E. destruct (exec_op x g ho2 n2 o l); cbn; auto. apply IH.
    intros d t H. eapply NR; right; eauto.
  Qed.

  Lemma exec_ops_app ho ops1 ops2 : forall n l,
    exec_ops x g ho n (ops1 ++ ops2) l =
    bind (exec_ops x g ho n ops1 l) (exec_ops x g ho (n + length ops1) ops2).
  Proof.
    induction ops1 as [|o ops1 IH]; intros n l; cbn [exec_ops app length].
    - cbn. rewrite Nat.add_0_r. auto.
    - destruct (exec_op x g ho n o l); cbn; auto. rewrite IH, Nat.add_succ_r. auto.
  Qed.

  Lemma order_ids_eq d l1 l2 : (forall e, In e l1 -> lower (e_id e) = e_id e) ->
    Permutation l1 l2 -> NoDup (map e_id l1) ->
    order_step (FMeta MId) d l1 = order_step (FMeta MId) d l2.
  Proof.
    intros Lo P N. unfold order_step. eapply sort_perm_eq.
    - apply order_meta_preorder.
    - apply Forall_forall; auto.
    - auto.
    - intros a b Ha Hb E. assert (C : str_cmp (lower (e_id a)) (lower (e_id b)) = Eq).
      { destruct d; cbn in E; auto. destruct (str_cmp _ _); auto; discriminate. }
      rewrite !Lo in C by auto. apply str_cmp_eq in C.
      clear - N Ha Hb C. induction l1 as [|c l IH]; [contradiction|].
      inversion N as [|? ? N1 N2]; subst. destruct Ha as [<-|Ha], Hb as [<-|Hb]; auto.
      + exfalso; apply N1. rewrite C. apply in_map; auto.
      + exfalso; apply N1. rewrite <- C. apply in_map; auto.
    - eapply nodup_of_ids; eauto.
  Qed.

  Lemma execute_agree ho1 ho2 s ops : orders ho1 -> orders ho2 -> no_limit ops ->
    same_entities (execute x g ho1 {| q_from := s; q_ops := ops; q_agg := None |})
                  (execute x g ho2 {| q_from := s; q_ops := ops; q_agg := None |}).
  Proof.
    intros O1 O2 NL. unfold execute; cbn [q_from q_ops q_agg].
    pose proof (select_agree ho1 ho2 s O1 O2) as A.
    destruct (select_from g ho1 s) as [l1|] eqn:E1, (select_from g ho2 s) as [l2|] eqn:E2; cbn in A |- *; try contradiction; auto.
    apply select_good in E1; auto. apply select_good in E2; auto.
    pose proof (exec_ops_agree ho1 ho2 ops O1 O2 NL 0 0 l1 l2 E1 E2 A) as A2.
    destruct (exec_ops x g ho1 0 ops l1), (exec_ops x g ho2 0 ops l2); cbn in A2 |- *; try contradiction; auto.
  Qed.

  Lemma execute_same ho1 ho2 s pre d post : orders ho1 -> orders ho2 -> no_limit pre -> no_related post ->
    (forall e, In e es -> lower (e_id e) = e_id e) ->
    let q := {| q_from := s; q_ops := pre ++ QOrder (FMeta MId) d :: post; q_agg := None |} in
    same_list (execute x g ho1 q) (execute x g ho2 q).
  Proof.
    intros O1 O2 NL NR Lo q. unfold execute, q; cbn [q_from q_ops q_agg].
    pose proof (select_agree ho1 ho2 s O1 O2) as A.
    destruct (select_from g ho1 s) as [l1|] eqn:E1, (select_from g ho2 s) as [l2|] eqn:E2; cbn in A |- *; try contradiction; auto.
    apply select_good in E1; auto. apply select_good in E2; auto.
    pose proof (exec_ops_agree ho1 ho2 pre O1 O2 NL 0 0 l1 l2 E1 E2 A) as A2.
    rewrite !exec_ops_app.
    destruct (exec_ops x g ho1 0 pre l1) as [r1|] eqn:F1, (exec_ops x g ho2 0 pre l2) as [r2|] eqn:F2; cbn in A2 |- *; try contradiction; auto.
    apply exec_ops_good in F1; auto.
    rewrite (order_ids_eq d r1 r2); auto; [|intros; apply Lo; apply F1; auto|apply F1].
    rewrite (exec_ops_no_related ho1 ho2 post NR _ (S (length pre))).
    destruct (exec_ops x g ho2 _ post _); cbn; auto.
  Qed.

  Lemma execute_good ho s ops r : orders ho ->
    execute x g ho {| q_from := s; q_ops := ops; q_agg := None |} = Ok (QEntities r) -> good r.
  Proof.
    intros O. unfold execute; cbn [q_from q_ops q_agg].
    destruct (select_from g ho s) as [l|] eqn:E; cbn; [|discriminate].
    destruct (exec_ops x g ho 0 ops l) as [l'|] eqn:F; cbn; [|discriminate].
    intros [= <-]. eapply exec_ops_good; [| |exact F]; auto. eapply select_good; eauto.
  Qed.
End Exec.

Lemma exec_ops_incl x g ho ops : no_related ops -> forall n es r,
  exec_ops x g ho n ops es = Ok r -> incl r es.
Proof.
  induction ops as [|o ops IH]; intros NR n es r; cbn.
  - intros [= <-]. apply incl_refl.
  - destruct (exec_op x g ho n o es) as [l|] eqn:E; cbn; [|discriminate]. intros H.
    eapply incl_tran; [eapply IH; [|exact H]; intros d t I; eapply NR; right; eauto|].
    destruct o as [cc|d t|f d|k]; cbn in E.
    + apply where_ok in E as [_ K]. intros e He. apply (keeps_in _ _ _ _ K) in He. tauto.
    + exfalso. eapply NR; left; reflexivity.
    + injection E as <-. intros e He. eapply Permutation_in; [symmetry; apply sort_perm|exact He].
    + injection E as <-. apply firstn_incl.
Qed.
