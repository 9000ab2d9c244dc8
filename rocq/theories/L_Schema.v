(** Lemmas: schemas and validation. *)
From Coq Require Import Lia Sorted.
From Verif Require Import M_Schema S_Schema L_Str L_Ids L_Graph L_Sort L_Text L_DslStr L_DslVal.
Close Scope Z_scope.

(** ** Normal texts *)
Lemma normal_iff x w : normal_of x w <-> w = normal_text x.
Proof.
  unfold normal_of, normal_text. split.
  - intros (t & (A & B & a & b & Ha & Hb & E) & ->). rewrite E, utrim_around; auto.
  - intros ->. exists (utrim x). split; [apply utrim_spec|reflexivity].
Qed.
Lemma normal_list vs ws : Forall2 normal_of vs ws <-> ws = map normal_text vs.
Proof.
  split.
  - induction 1 as [|v w vs ws H _ IH]; [reflexivity|]. apply normal_iff in H as ->. cbn. rewrite IH. reflexivity.
  - intros ->. induction vs; cbn; constructor; auto. apply normal_iff; reflexivity.
Qed.

(** ** Fields of entities *)
Lemma get_field_some e id v : get_field e id = Some v <-> first_value e id v.
Proof.
  unfold get_field, first_value. generalize (e_fields e). intros l. induction l as [|[i w] l IH]; cbn [find fst].
  - split; [discriminate|]. intros ([|] & b & E & _); discriminate.
  - destruct (str_eqb_spec i id) as [->|N].
    + split.
      * intros [= ->]. exists [], l. split; [reflexivity|intros []].
      * intros ([|[i' w'] a] & b & E & F); [injection E as -> ->; reflexivity|].
        injection E as -> -> ->. exfalso; apply F; left; reflexivity.
    + rewrite IH. split.
      * intros (a & b & -> & F). exists ((i, w) :: a), b. split; [reflexivity|]. intros [X|X]; [exact (N X)|exact (F X)].
      * intros ([|[i' w'] a] & b & E & F); [injection E as -> _ _; congruence|].
        injection E as -> -> ->. exists a, b. split; [reflexivity|]. intros X. apply F. right; exact X.
Qed.
Lemma get_field_none e id : get_field e id = None <-> forall v, ~ In (id, v) (e_fields e).
Proof.
  unfold get_field. generalize (e_fields e). intros l. split.
  - intros H v I. destruct (find (fun p : str * value => str_eqb (fst p) id) l) as [[? ?]|] eqn:F; [discriminate|]. eapply find_none in F; [|exact I].
    cbn in F. rewrite str_eqb_refl in F. discriminate.
  - intros H. destruct (find (fun p : str * value => str_eqb (fst p) id) l) as [[i v]|] eqn:F; auto. apply find_some in F as [I E]. cbn in E.
    apply str_eqb_eq in E as ->. exfalso; exact (H v I).
Qed.

Lemma has_type_get v t : has_type v t <-> get_type v = t.
Proof.
  split; [intros []; try reflexivity; destruct r; reflexivity|].
  intros <-. destruct v as [ | | | | |r| | | |]; try constructor. destruct r; constructor.
Qed.
Lemma field_type_eqb_eq a b : field_type_eqb a b = true <-> a = b.
Proof. destruct a, b; cbn; split; congruence. Qed.
Lemma is_type_spec v t : is_type v t = true <-> has_type v t.
Proof. unfold is_type. rewrite field_type_eqb_eq, has_type_get. reflexivity. Qed.

(** ** Validation *)
Lemma validate_field_spec e id f x : In x (validate_field e (id, f)) <->
  (x = MissingRequiredField id /\ fs_required f = true /\ (forall v, ~ In (id, v) (e_fields e))) \/
  (exists v t, x = MismatchedFieldType id (fs_type f) t /\ first_value e id v /\ has_type v t /\ t <> fs_type f) \/
  (exists w, first_value e id (VEnum w) /\ fs_type f = TEnum /\
     ((exists allowed, x = InvalidEnumValue id w allowed /\ fs_allowed f = Some allowed /\
                       forall u, In u allowed -> ~ normal_of w u) \/
      (x = InvalidEnumValue id w [] /\ fs_allowed f = None))).
Proof.
  unfold validate_field. destruct (get_field e id) as [v|] eqn:G.
  - pose proof (proj1 (get_field_some e id v) G) as FV.
    assert (U : forall v', first_value e id v' -> v' = v).
    { intros v' H. apply get_field_some in H. congruence. }
    assert (NM : ~ forall v', ~ In (id, v') (e_fields e)).
    { intros H. destruct FV as (a & b & E & _). apply (H v). rewrite E. apply in_app_iff. right; left; reflexivity. }
    destruct (is_type v (fs_type f)) eqn:T; cbn [negb].
    + pose proof (proj1 (is_type_spec _ _) T) as HT. apply has_type_get in HT.
      assert (NT : ~ exists v t, x = MismatchedFieldType id (fs_type f) t /\ first_value e id v /\ has_type v t /\ t <> fs_type f).
      { intros (v' & t & _ & H1 & H2 & H3). apply U in H1 as ->. apply has_type_get in H2. congruence. }
      destruct v as [ | | | | | | | | |w].
      all: try (split; [intros []|]; intros [(_ & _ & H)|[H|(w & H & _)]];
        [exact (NM H)|exact (NT H)|apply U in H; discriminate]).
      cbn in HT. destruct (fs_allowed f) as [allowed|] eqn:A.
      * destruct (str_in (normal_text w) allowed) eqn:S.
        -- split; [intros []|]. intros [(_ & _ & H)|[H|(w' & H1 & H2 & [(al & H3 & H4 & H5)|[_ H]])]];
             [exact (NM H)|exact (NT H)| |discriminate].
           injection H4 as <-. apply U in H1 as [= ->]. apply str_in_In in S. apply (H5 _ S), normal_iff. reflexivity.
        -- apply str_in_not in S. cbn [In]. split.
           ++ intros [<-|[]]. right; right. exists w. split; [exact FV|]. split; [congruence|]. left. exists allowed.
              repeat split; auto. intros u Hu Hn. apply normal_iff in Hn as ->. exact (S Hu).
           ++ intros [(_ & _ & H)|[H|(w' & H1 & H2 & [(al & H3 & H4 & H5)|[_ H]])]];
                [exfalso; exact (NM H)|exfalso; exact (NT H)| |discriminate].
              injection H4 as <-. apply U in H1 as [= ->]. left. congruence.
      * cbn [In]. split.
        -- intros [<-|[]]. right; right. exists w. split; [exact FV|]. split; [congruence|]. right; auto.
        -- intros [(_ & _ & H)|[H|(w' & H1 & H2 & [(al & _ & H4 & _)|[H _]])]];
             [exfalso; exact (NM H)|exfalso; exact (NT H)|discriminate|].
           apply U in H1 as [= ->]. left. congruence.
    + assert (HT : get_type v <> fs_type f).
      { intros H. apply has_type_get, is_type_spec in H. congruence. }
      cbn [In]. split.
      * intros [<-|[]]. right; left. exists v, (get_type v). repeat split; auto. apply has_type_get; reflexivity.
      * intros [(_ & _ & H)|[(v' & t & -> & H1 & H2 & H3)|(w & H1 & H2 & _)]]; [exfalso; exact (NM H)| |].
        -- apply U in H1 as ->. apply has_type_get in H2 as ->. left; reflexivity.
        -- apply U in H1 as <-. cbn in HT. congruence.
  - pose proof (proj1 (get_field_none e id) G) as NF.
    assert (NV : forall v, ~ first_value e id v).
    { intros v H. apply get_field_some in H. congruence. }
    destruct (fs_required f); cbn [In]; split.
    + intros [<-|[]]. left; auto.
    + intros [(-> & _)|[(v & t & _ & H & _)|(w & H & _)]]; [left; reflexivity|exfalso; exact (NV _ H)|exfalso; exact (NV _ H)].
    + intros [].
    + intros [(_ & H & _)|[(v & t & _ & H & _)|(w & H & _)]]; [discriminate|exact (NV _ H)|exact (NV _ H)].
Qed.

Lemma validate_field_one e p : length (validate_field e p) <= 1.
Proof.
  destruct p as [id f]. unfold validate_field. destruct (get_field e id) as [v|].
  - destruct (is_type v (fs_type f)); cbn [negb length]; [|lia]. destruct v; cbn [length]; try lia.
    destruct (fs_allowed f) as [a|]; [destruct (str_in _ a)|]; cbn; lia.
  - destruct (fs_required f); cbn; lia.
Qed.

Definition verror_field (x : verror) : option field_id :=
  match x with
  | MismatchedEntityType _ _ => None
  | MissingRequiredField f | MismatchedFieldType f _ _ | InvalidEnumValue f _ _ => Some f
  end.
Lemma validate_field_name e p x : In x (validate_field e p) -> verror_field x = Some (fst p).
Proof.
  destruct p as [id f]. intros H. apply validate_field_spec in H.
  destruct H as [(-> & _)|[(v & t & -> & _)|(w & _ & _ & [(al & -> & _)|(-> & _)])]]; reflexivity.
Qed.

Lemma nodup_flat e l : NoDup (map fst l) -> NoDup (flat_map (validate_field e) l).
Proof.
  induction l as [|p l IH]; intros N; cbn [flat_map]; [constructor|].
  cbn [map] in N. inversion N as [|? ? N1 N2]; subst. specialize (IH N2).
  pose proof (validate_field_one e p) as H1. pose proof (validate_field_name e p) as H2.
  destruct (validate_field e p) as [|x [|]]; cbn [length app] in *; [exact IH| |lia].
  constructor; [|exact IH]. intros H. apply in_flat_map in H as (q & Hq & Hx).
  apply validate_field_name in Hx. rewrite (H2 x) in Hx by (left; reflexivity). injection Hx as E.
  apply N1. rewrite E. apply in_map. exact Hq.
Qed.

Lemma validate_in ho s e x : shuffles ho -> (In x (validate ho s e) <-> violation s e x).
Proof.
  intros O. unfold validate. rewrite in_app_iff, in_flat_map.
  assert (P : forall p, In p (ho (s_fields s)) <-> In p (s_fields s)).
  { intros p. split; apply Permutation_in; [|symmetry]; apply O. }
  split.
  - intros [H|([id f] & H1 & H2)].
    + destruct (str_eqb_spec (e_type e) (s_type s)) as [|N]; [contradiction|]. destruct H as [<-|[]]. constructor; auto.
    + apply P in H1. apply validate_field_spec in H2.
      destruct H2 as [(-> & R & M)|[(v & t & -> & F & T & N)|(w & F & T & [(al & -> & A & N)|(-> & A)])]];
        [eapply viol_missing|eapply viol_field_type|eapply viol_enum|eapply viol_enum_open]; eauto.
  - intros [N|id f I R M|id f v t I F T N|id f w al I F T A N|id f w I F T A].
    + left. destruct (str_eqb_spec (e_type e) (s_type s)); [contradiction|left; reflexivity].
    + right. exists (id, f). rewrite P. split; auto. apply validate_field_spec. left; auto.
    + right. exists (id, f). rewrite P. split; auto. apply validate_field_spec. right; left. exists v, t; auto.
    + right. exists (id, f). rewrite P. split; auto. apply validate_field_spec. right; right. exists w.
      split; [auto|split; [auto|]]. left. exists al; auto.
    + right. exists (id, f). rewrite P. split; auto. apply validate_field_spec. right; right. exists w.
      split; [auto|split; [auto|]]. right; auto.
Qed.

Lemma validate_nodup ho s e : shuffles ho -> well_formed s -> NoDup (validate ho s e).
Proof.
  intros O W. unfold validate. assert (N : NoDup (flat_map (validate_field e) (ho (s_fields s)))).
  { apply nodup_flat. eapply Permutation_NoDup; [apply Permutation_map; symmetry; apply O|exact W]. }
  destruct (str_eqb (e_type e) (s_type s)); cbn [app]; [exact N|]. constructor; [|exact N].
  intros H. apply in_flat_map in H as (p & _ & H). apply validate_field_name in H. discriminate.
Qed.

Lemma validate_conforms ho s e : shuffles ho -> (validate ho s e = [] <-> conforms s e).
Proof.
  intros O. assert (V : validate ho s e = [] <-> forall x, ~ violation s e x).
  { split.
    - intros H x V. apply (validate_in ho s e x O) in V. rewrite H in V. destruct V.
    - intros H. destruct (validate ho s e) as [|x l] eqn:E; auto. exfalso. apply (H x).
      apply (validate_in ho s e x O). rewrite E. left; reflexivity. }
  rewrite V. split.
  - intros H. split.
    + destruct (str_eq_dec (e_type e) (s_type s)) as [|N]; auto. exfalso. exact (H _ (viol_entity_type s e N)).
    + intros id f I. split; [|split].
      * intros R. destruct (get_field e id) as [v|] eqn:G.
        -- exists v. apply get_field_some in G as (a & b & E & _). rewrite E. apply in_app_iff. right; left; reflexivity.
        -- exfalso. apply (H (MissingRequiredField id)). econstructor; eauto. apply get_field_none; auto.
      * intros v F. destruct (is_type v (fs_type f)) eqn:T; [apply is_type_spec; auto|].
        exfalso. apply (H (MismatchedFieldType id (fs_type f) (get_type v))). econstructor; eauto.
        -- apply has_type_get; reflexivity.
        -- intros X. apply has_type_get, is_type_spec in X. congruence.
      * intros w F. destruct (field_type_eqb TEnum (fs_type f)) eqn:T.
        -- apply field_type_eqb_eq in T. destruct (fs_allowed f) as [al|] eqn:A.
           ++ destruct (str_in (normal_text w) al) eqn:S.
              ** exists al, (normal_text w). apply str_in_In in S. repeat split; auto. apply normal_iff; reflexivity.
              ** exfalso. apply (H (InvalidEnumValue id w al)). eapply viol_enum; eauto.
                 intros u Hu Hn. apply normal_iff in Hn as ->. apply str_in_not in S. exact (S Hu).
           ++ exfalso. apply (H (InvalidEnumValue id w [])). eapply viol_enum_open; eauto.
        -- exfalso. apply (H (MismatchedFieldType id (fs_type f) TEnum)). econstructor; eauto; [constructor|].
           intros X. rewrite X in T. destruct (fs_type f); discriminate.
  - intros (T & C) x V'. destruct V' as [N|id f I R M|id f v t I F HT N|id f w al I F HT A N|id f w I F HT A].
    + exact (N T).
    + destruct (C id f I) as (R' & _). destruct (R' R) as (v & Hv). exact (M v Hv).
    + destruct (C id f I) as (_ & T' & _). specialize (T' v F). apply has_type_get in T', HT. congruence.
    + destruct (C id f I) as (_ & _ & E'). destruct (E' w F) as (al' & u & A' & Hu & Hn).
      rewrite A in A'. injection A' as <-. exact (N u Hu Hn).
    + destruct (C id f I) as (_ & _ & E'). destruct (E' w F) as (al' & u & A' & _). congruence.
Qed.
