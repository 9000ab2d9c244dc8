(** Bounded reachability behind [related]. *)
From Coq Require Import Lia.
From Verif Require Import S_Query S_Graph L_Str L_Graph.

Lemma set_add_in k s j : In j (set_add k s) <-> j = k \/ In j s.
Proof.
  unfold set_add. destruct (str_in k s) eqn:E.
  - apply str_in_In in E. split; auto. intros [->|]; auto.
  - rewrite in_app_iff. cbn. intuition.
Qed.
Lemma set_add_nodup k s : NoDup s -> NoDup (set_add k s).
Proof.
  unfold set_add. intros N. destruct (str_in k s) eqn:E; auto.
  apply nodup_snoc; auto. apply str_in_not; auto.
Qed.
Lemma fold_set_in l s j : In j (fold_left (fun s k => set_add k s) l s) <-> In j l \/ In j s.
Proof.
  revert s; induction l as [|k l IH]; intros s; cbn; [tauto|].
  rewrite IH, set_add_in. intuition.
Qed.
Lemma fold_set_nodup l s : NoDup s -> NoDup (fold_left (fun s k => set_add k s) l s).
Proof. revert s; induction l as [|k l IH]; intros s N; cbn; auto. apply IH, set_add_nodup; auto. Qed.
Lemma set_of_in l j : In j (set_of l) <-> In j l.
Proof. unfold set_of. rewrite fold_set_in. cbn. tauto. Qed.
Lemma set_of_nodup l : NoDup (set_of l).
Proof. apply fold_set_nodup. constructor. Qed.

Section Bfs.
  Variables (g : graph) (es : list entity).
  Hypothesis B : built g es.

  Definition adj (a b : entity) : Prop := In b es /\ neighbour None a b.

  Lemma related_ids_in id b : In b (related_ids g id) <->
    exists x y, In x es /\ e_id x = id /\ adj x y /\ e_id y = b.
  Proof.
    pose proof (inv_nodup _ _ (proj1 B)) as N.
    unfold related_ids. pose proof (get_related_spec g es id None B) as S.
    destruct (get_related g id None) as [l|].
    - destruct S as (a & Ha & _ & S). apply lookup_some in Ha as [Ia Ea]. rewrite in_map_iff. split.
      + intros (y & <- & Hy). apply S in Hy. exists a, y. auto.
      + intros (x & y & Ix & Ex & Ay & <-). exists y. split; auto. apply S.
        assert (x = a); [|subst; exact Ay].
        pose proof (lookup_in es x N Ix). pose proof (lookup_in es a N Ia). congruence.
    - split; [contradiction|]. intros (x & y & Ix & Ex & _). apply lookup_none in S. exfalso; apply S. exists x; auto.
  Qed.

  Lemma uniq x y : In x es -> In y es -> e_id x = e_id y -> x = y.
  Proof.
    intros Hx Hy E. pose proof (inv_nodup _ _ (proj1 B)) as N.
    pose proof (lookup_in es x N Hx). pose proof (lookup_in es y N Hy). congruence.
  Qed.

  (** Every id in the list names an entity of the graph. *)
  Definition present (l : list str) : Prop := forall k, In k l -> exists x, In x es /\ e_id x = k.

  Variable ho : hash_order.
  Hypothesis O : orders ho.

  Lemma bfs_in n : forall site all current, present current ->
    forall k, In k (bfs g ho site n all current) <->
      In k all \/ exists m x y z, n = S m /\ In x es /\ In (e_id x) current /\ adj x y /\ within adj m y z /\ e_id z = k.
  Proof.
    induction n as [|n IH]; intros site all current P k; cbn [bfs].
    - split; auto. intros [|(m & x & y & z & H & _)]; auto. discriminate.
    - set (found := flat_map (related_ids g) (ho (S n :: site) current)).
      assert (F : forall j, In j found <-> exists x y, In x es /\ In (e_id x) current /\ adj x y /\ e_id y = j).
      { intros j. unfold found. rewrite in_flat_map. split.
        - intros (c & Hc & Hj). apply (Permutation_in _ (O _ _)) in Hc.
          apply related_ids_in in Hj as (x & y & H1 & H2 & H3 & H4). subst c. exists x, y. auto.
        - intros (x & y & H1 & H2 & H3 & H4). exists (e_id x). split.
          + apply (Permutation_in _ (Permutation_sym (O _ _))). auto.
          + apply related_ids_in. exists x, y. auto. }
      assert (Pn : present (set_of found)).
      { intros j Hj. rewrite set_of_in, F in Hj. destruct Hj as (x & y & _ & _ & [Iy _] & E). exists y; auto. }
      assert (A : forall j, In j (fold_left (fun s k => set_add k s) found all) <-> In j all \/ In j found).
      { intros j. rewrite fold_set_in. tauto. }
      assert (Z : set_of found <> [] \/ found = []).
      { destruct found as [|j l] eqn:E; auto. left. intros E2.
        assert (In j (set_of (j :: l))) by (apply set_of_in; left; auto). rewrite E2 in H. contradiction. }
      destruct (set_of found) as [|j0 next] eqn:SN.
      + destruct Z as [Z|Z]; [congruence|]. rewrite A, Z. cbn. split; [tauto|].
        intros [|(m & x & y & z & _ & H1 & H2 & H3 & _)]; auto.
        exfalso. assert (X : In (e_id y) found) by (apply F; exists x, y; auto). rewrite Z in X. contradiction.
      + assert (SI : forall j, In j (j0 :: next) <-> In j found) by (intros j; rewrite <- SN; apply set_of_in).
        rewrite IH by auto. rewrite A. split.
        * intros [[H|H]|(m & x & y & z & -> & H1 & H2 & H3 & H4 & H5)]; auto.
          -- right. apply F in H as (x & y & H1 & H2 & H3 & H4). exists n, x, y, y. repeat split; auto; try apply H3. constructor.
          -- right. apply SI, F in H2 as (x0 & y0 & G1 & G2 & G3 & G4).
             exists (S m), x0, y0, z. repeat split; auto; try apply G3.
             assert (y0 = x) by (apply uniq; auto; apply G3). subst. eapply within_step; eauto.
        * intros [H|(m & x & y & z & [= <-] & H1 & H2 & H3 & H4 & H5)]; auto.
          inversion H4 as [|m a b c Hab Hbc]; subst.
          -- left. right. apply F. exists x, z. auto.
          -- right. exists m, y, b, z. repeat split; auto; try apply Hab; try apply H3.
             apply SI, F. exists x, y. auto.
  Qed.

  Lemma bfs_nodup n : forall site all current, NoDup all -> NoDup (bfs g ho site n all current).
  Proof.
    induction n as [|n IH]; intros site all current N; cbn [bfs]; auto.
    set (found := flat_map _ _). destruct (set_of found); [|apply IH]; apply fold_set_nodup; auto.
  Qed.

  Lemma get_entity_in id e : get_entity g id = Some e <-> In e es /\ e_id e = id.
  Proof.
    rewrite (get_entity_lookup g es id (proj1 B)). split; [apply lookup_some|].
    intros [I <-]. apply lookup_in; auto. apply (inv_nodup _ _ (proj1 B)).
  Qed.

  Lemma filter_opt_ids l : NoDup l -> NoDup (map e_id (filter_opt (get_entity g) l)).
  Proof.
    induction 1 as [|k l Nk Nl IH]; cbn; [constructor|].
    destruct (get_entity g k) as [e|] eqn:E; auto. cbn. constructor; auto.
    intros I. apply in_map_iff in I as (e' & Ee & I). apply filter_opt_In in I as (k' & Ik & E').
    apply get_entity_in in E as [_ E]. apply get_entity_in in E' as [_ E']. congruence.
  Qed.

  Lemma filter_ids {A} (key : A -> str) (p : A -> bool) l : NoDup (map key l) -> NoDup (map key (filter p l)).
  Proof.
    induction l as [|a l IH]; cbn; auto. intros N. inversion N as [|? ? N1 N2]; subst.
    destruct (p a); cbn; auto. constructor; auto. intros I. apply N1.
    apply in_map_iff in I as (b & E & I). apply filter_In in I as [I _]. rewrite <- E. apply in_map; auto.
  Qed.

  Lemma related_in site d t start b : 1 <= d -> incl start es ->
    In b (related_step g ho site d t start) <->
      (match t with Some ty => e_type b = ty | None => True end) /\ In b es /\
      exists a, In a start /\ within adj (Nat.min d 5) a b.
  Proof.
    intros D I. unfold related_step, max_degrees.
    destruct (Nat.min d 5) as [|k] eqn:M; [lia|].
    set (ids := set_of (map e_id start)).
    assert (ID : forall j, In j ids <-> exists x, e_id x = j /\ In x start)
      by (intros j; unfold ids; rewrite set_of_in; apply in_map_iff).
    assert (P : present ids).
    { intros j Hj. apply ID in Hj as (x & E & Hx). exists x; auto. }
    assert (R : forall b, In b (filter_opt (get_entity g) (ho (0 :: site) (bfs g ho site (S k) ids ids))) <->
                In b es /\ exists a, In a start /\ within adj (S k) a b).
    { intros c. rewrite filter_opt_In. split.
      - intros (j & Hj & G). apply get_entity_in in G as [Ic <-].
        apply (Permutation_in _ (O _ _)) in Hj. apply bfs_in in Hj; auto. split; auto.
        destruct Hj as [Hj|(m & x & y & z & [= <-] & H1 & H2 & H3 & H4 & H5)].
        + apply ID in Hj as (x & E & Hx). exists c. split; [|constructor].
          rewrite (uniq c x); auto.
        + apply ID in H2 as (x' & E & Hx').
          exists x. split; [rewrite (uniq x x'); auto|].
          assert (z = c); [|subst; eapply within_step; eauto].
          apply uniq; auto. clear - H3 H4 I. destruct H3 as [Iy _]. revert Iy.
          induction H4; auto. intros _. apply IHwithin. apply H.
      - intros (Ic & a & Ha & W). exists (e_id c). split; [|apply get_entity_in; auto].
        apply (Permutation_in _ (Permutation_sym (O _ _))). apply bfs_in; auto.
        inversion W as [|m x y z Hab Hbc]; subst.
        + left. apply ID. exists c; auto.
        + right. exists k, a, y, c. repeat split; auto; try apply Hab. apply ID. exists a; auto. }
    destruct t as [ty|].
    - rewrite filter_In, R, str_eqb_eq. tauto.
    - rewrite R. tauto.
  Qed.

  Lemma related_nodup site d t start : 1 <= d -> NoDup (map e_id (related_step g ho site d t start)).
  Proof.
    intros D. unfold related_step, max_degrees. destruct (Nat.min d 5) as [|k] eqn:M; [lia|].
    assert (X : NoDup (map e_id (filter_opt (get_entity g)
              (ho (0 :: site) (bfs g ho site (S k) (set_of (map e_id start)) (set_of (map e_id start))))))).
    { apply filter_opt_ids. eapply Permutation_NoDup; [apply Permutation_sym, O|].
      apply bfs_nodup, set_of_nodup. }
    destruct t; auto. apply filter_ids; auto.
  Qed.

  Lemma within_mono nb n m a b : n <= m -> within nb n a b -> within nb m a b.
  Proof.
    intros Le W; revert m Le; induction W; intros m Le; [constructor|].
    destruct m; [lia|]. eapply within_step; eauto. apply IHW. lia.
  Qed.

  Lemma within_in n a b : In a es -> within adj n a b -> In b es.
  Proof. intros H W; revert H; induction W; auto. intros _. apply IHW, H. Qed.
End Bfs.
