(** Insertion sort is the stable sort, and there is only one. *)
From Coq Require Import Lia.
From Verif Require Import M_Graph S_Sort.

Section Sort.
  Context {A : Type} (cmp : A -> A -> comparison).

  Lemma insert_perm x l : Permutation (x :: l) (insert_by cmp x l).
  Proof.
    induction l as [|y l IH]; cbn; auto.
    destruct (cmp x y); auto. eapply perm_trans; [apply perm_swap|]. constructor; auto.
  Qed.
  Lemma sort_perm l : Permutation l (sort_by cmp l).
  Proof.
    induction l as [|x l IH]; cbn; auto.
    eapply perm_trans; [|apply insert_perm]. constructor; auto.
  Qed.

  Variable P : A -> Prop.
  Hypothesis pre : total_preorder_on cmp P.

  Lemma cmp_refl a : P a -> cmp a a = Eq.
  Proof. intros H. destruct pre as [F _]. specialize (F a a H H). destruct (cmp a a); cbn in F; congruence. Qed.
  Lemma cmp_flip a b : P a -> P b -> cmp a b = Gt -> cmp b a = Lt.
  Proof. intros Ha Hb E. destruct pre as [F _]. rewrite F, E by auto. auto. Qed.
  Lemma cmp_eq_sym a b : P a -> P b -> cmp a b = Eq -> cmp b a = Eq.
  Proof. intros Ha Hb E. destruct pre as [F _]. rewrite F, E by auto. auto. Qed.
  Lemma cmp_le_trans a b c : P a -> P b -> P c -> cmp a b <> Gt -> cmp b c <> Gt -> cmp a c <> Gt.
  Proof. destruct pre as [_ T]. apply T. Qed.
  (** If a ~ x and x > y then a > y. *)
  Lemma cmp_eq_gt a x y : P a -> P x -> P y -> cmp a x = Eq -> cmp x y = Gt -> cmp a y = Gt.
  Proof.
    intros Ha Hx Hy E G. destruct (cmp a y) eqn:C; auto; exfalso;
    (assert (N : cmp x y <> Gt); [|congruence]);
    apply (cmp_le_trans x a y); auto; try congruence; rewrite (cmp_eq_sym a x); congruence.
  Qed.

  Lemma insert_Forall x l : P x -> Forall P l -> Forall P (insert_by cmp x l).
  Proof.
    intros Hx Hl. eapply Permutation_Forall; [apply insert_perm|]. constructor; auto.
  Qed.

  Lemma insert_sorted x l : P x -> Forall P l ->
    StronglySorted (fun a b => cmp a b <> Gt) l ->
    StronglySorted (fun a b => cmp a b <> Gt) (insert_by cmp x l).
  Proof.
    intros Hx. induction l as [|y l IH]; intros Hl S; cbn; [repeat constructor|].
    inversion Hl as [|? ? Hy Hl']; subst. inversion S as [|? ? S1 S2]; subst.
    destruct (cmp x y) eqn:E.
    3: { constructor; auto. eapply Permutation_Forall; [apply insert_perm|].
         constructor; auto. rewrite (cmp_flip x y); auto; congruence. }
    all: constructor; auto; constructor; [congruence|];
      rewrite Forall_forall in *; intros z Hz; apply (cmp_le_trans x y z); auto; congruence.
  Qed.

  Lemma insert_filter a x l : P a -> P x -> Forall P l ->
    filter (fun b => is_eq (cmp a b)) (insert_by cmp x l)
    = filter (fun b => is_eq (cmp a b)) (x :: l).
  Proof.
    intros Ha Hx. induction l as [|y l IH]; intros Hl; cbn; auto.
    inversion Hl as [|? ? Hy Hl']; subst.
    destruct (cmp x y) eqn:E; auto. cbn. rewrite IH by auto. cbn.
    destruct (cmp a x) eqn:F; cbn; auto.
    rewrite (cmp_eq_gt a x y); auto.
  Qed.

  Lemma sort_Forall l : Forall P l -> Forall P (sort_by cmp l).
  Proof. intros H. eapply Permutation_Forall; [apply sort_perm|]; auto. Qed.

  Lemma sort_sorted l : Forall P l -> StronglySorted (fun a b => cmp a b <> Gt) (sort_by cmp l).
  Proof.
    induction 1 as [|x l Hx Hl IH]; cbn; [constructor|]. apply insert_sorted; auto. apply sort_Forall; auto.
  Qed.

  Lemma sort_filter a l : P a -> Forall P l ->
    filter (fun b => is_eq (cmp a b)) (sort_by cmp l) = filter (fun b => is_eq (cmp a b)) l.
  Proof.
    intros Ha. induction 1 as [|x l Hx Hl IH]; auto.
    change (sort_by cmp (x :: l)) with (insert_by cmp x (sort_by cmp l)).
    rewrite insert_filter; auto; [|apply sort_Forall; auto]. cbn. rewrite IH. auto.
  Qed.

  Lemma sort_stable l : Forall P l -> stable_sort_of cmp l (sort_by cmp l).
  Proof.
    intros H. split; [apply sort_perm|]. split; [apply sort_sorted; auto|].
    intros a Ha. apply sort_filter; auto. rewrite Forall_forall in H; auto.
  Qed.

  Lemma sorted_unique l1 : forall l2, Forall P l1 ->
    Permutation l1 l2 ->
    StronglySorted (fun a b => cmp a b <> Gt) l1 -> StronglySorted (fun a b => cmp a b <> Gt) l2 ->
    (forall a, In a l1 -> filter (fun b => is_eq (cmp a b)) l1 = filter (fun b => is_eq (cmp a b)) l2) ->
    l1 = l2.
  Proof.
    induction l1 as [|x l1 IH]; intros l2 H Pm S1 S2 F.
    - apply Permutation_nil in Pm. auto.
    - destruct l2 as [|y l2]; [apply Permutation_sym, Permutation_nil in Pm; discriminate|].
      assert (H2 : Forall P (y :: l2)) by (eapply Permutation_Forall; eauto).
      inversion H as [|? ? Hx Hl1]; subst. inversion H2 as [|? ? Hy Hl2]; subst.
      inversion S1 as [|? ? S1' G1]; subst. inversion S2 as [|? ? S2' G2]; subst.
      rewrite Forall_forall in G1, G2.
      assert (XY : cmp x y <> Gt).
      { assert (I : In y (x :: l1)) by (eapply Permutation_in; [symmetry; eauto|left; auto]).
        destruct I as [<-|I]; [rewrite cmp_refl; congruence|auto]. }
      assert (YX : cmp y x <> Gt).
      { assert (I : In x (y :: l2)) by (eapply Permutation_in; [eauto|left; auto]).
        destruct I as [<-|I]; [rewrite cmp_refl; congruence|auto]. }
      assert (E : cmp x y = Eq).
      { destruct pre as [Fl _]. specialize (Fl x y Hx Hy). destruct (cmp x y); auto; cbn in Fl; congruence. }
      assert (x = y).
      { specialize (F x (or_introl eq_refl)). cbn in F. rewrite cmp_refl, E in F by auto. cbn in F. congruence. }
      subst y. f_equal. apply IH; auto.
      + eapply Permutation_cons_inv; eauto.
      + intros a Ha. specialize (F a (or_intror Ha)). cbn in F. destruct (is_eq (cmp a x)); congruence.
  Qed.

  Lemma stable_sort_unique l l1 l2 : Forall P l ->
    stable_sort_of cmp l l1 -> stable_sort_of cmp l l2 -> l1 = l2.
  Proof.
    intros H (P1 & S1 & F1) (P2 & S2 & F2). apply sorted_unique; auto.
    - eapply Permutation_Forall; [exact P1|auto].
    - eapply perm_trans; [symmetry; exact P1|auto].
    - intros a Ha. assert (In a l) by (eapply Permutation_in; [symmetry; exact P1|auto]).
      rewrite F1, F2; auto.
  Qed.

  (** Sorting permutations of a list whose elements are pairwise distinguished
      by [cmp] gives the same list. *)
  Lemma sort_perm_eq l1 l2 : Forall P l1 -> Permutation l1 l2 ->
    (forall a b, In a l1 -> In b l1 -> cmp a b = Eq -> a = b) -> NoDup l1 ->
    sort_by cmp l1 = sort_by cmp l2.
  Proof.
    intros H Pm Inj N.
    assert (H2 : Forall P l2) by (eapply Permutation_Forall; eauto).
    apply sorted_unique.
    - apply sort_Forall; auto.
    - eapply perm_trans; [symmetry; apply sort_perm|]. eapply perm_trans; [exact Pm|apply sort_perm].
    - apply sort_sorted; auto.
    - apply sort_sorted; auto.
    - intros a Ha. assert (Ia : In a l1) by (eapply Permutation_in; [symmetry; apply sort_perm|auto]).
      assert (Pa : P a) by (rewrite Forall_forall in H; auto).
      rewrite !sort_filter by auto.
      (* both filters are [a] *)
      assert (X : forall l, Permutation l1 l -> NoDup l -> filter (fun b => is_eq (cmp a b)) l = [a]).
      { intros l Pl Nl. assert (Il : In a l) by (eapply Permutation_in; eauto).
        assert (Cl : forall b, In b l -> cmp a b = Eq -> a = b).
        { intros b Hb. apply Inj; auto. eapply Permutation_in; [symmetry; exact Pl|auto]. }
        clear Pl. induction Nl as [|b l Nb Nl IHl]; [contradiction|].
        cbn. destruct Il as [->|Il].
        - rewrite cmp_refl by auto. cbn. f_equal.
          assert (Z : forall l', (forall b, In b l' -> In b l) -> filter (fun b => is_eq (cmp a b)) l' = []).
          { induction l' as [|c l' IHl']; intros Sub; auto. cbn.
            destruct (cmp a c) eqn:C; cbn; [|apply IHl'; intros; apply Sub; right; auto ..].
            exfalso. apply Nb. rewrite (Cl c) by (auto; right; apply Sub; left; auto).
            apply Sub; left; auto. }
          apply Z; auto.
        - destruct (cmp a b) eqn:C; cbn; [|apply IHl; auto; intros; apply Cl; auto; right; auto ..].
          exfalso. apply Nb. rewrite <- (Cl b); auto. left; auto. }
      rewrite (X l1), (X l2); auto. eapply Permutation_NoDup; eauto.
  Qed.
End Sort.
