(** The comparison behind [order]. *)
From Coq Require Import Lia.
From Verif Require Import S_Query S_Sort L_Str L_Sort L_Graph.

(** Composition of two comparison results. *)
Definition trans3 {A} (cmp : A -> A -> comparison) (a b c : A) : Prop :=
  match cmp a b, cmp b c with
  | Eq, o => cmp a c = o
  | o, Eq => cmp a c = o
  | Lt, Lt => cmp a c = Lt
  | Gt, Gt => cmp a c = Gt
  | _, _ => True
  end.
Definition anti {A} (cmp : A -> A -> comparison) (a b : A) : Prop := cmp b a = CompOpp (cmp a b).
Definition tpo {A} (cmp : A -> A -> comparison) : Prop :=
  (forall a b, anti cmp a b) /\ (forall a b c, trans3 cmp a b c).

Lemma tpo_on {A} (cmp : A -> A -> comparison) (P : A -> Prop) :
  (forall a b, P a -> P b -> anti cmp a b) ->
  (forall a b c, P a -> P b -> P c -> trans3 cmp a b c) -> total_preorder_on cmp P.
Proof.
  intros H1 H2. split; auto. intros a b c Ha Hb Hc N1 N2. specialize (H2 a b c Ha Hb Hc).
  unfold trans3 in H2. destruct (cmp a b), (cmp b c); congruence.
Qed.

Lemma tpo_map {A B} (f : A -> B) cmp : tpo cmp -> tpo (fun a b => cmp (f a) (f b)).
Proof. intros [H1 H2]. split; intros; [apply H1|apply H2]. Qed.

Lemma tpo_Z : tpo Z.compare.
Proof.
  split.
  - intros a b. apply Z.compare_antisym.
  - intros a b c. unfold trans3.
    destruct (Z.compare_spec a b), (Z.compare_spec b c), (Z.compare_spec a c); auto; lia.
Qed.
Lemma tpo_N : tpo N.compare.
Proof.
  split.
  - intros a b. apply N.compare_antisym.
  - intros a b c. unfold trans3.
    destruct (N.compare_spec a b), (N.compare_spec b c), (N.compare_spec a c); auto; lia.
Qed.
Lemma tpo_nat : tpo Nat.compare.
Proof.
  split.
  - intros a b. apply Nat.compare_antisym.
  - intros a b c. unfold trans3.
    destruct (Nat.compare_spec a b), (Nat.compare_spec b c), (Nat.compare_spec a c); auto; lia.
Qed.
Lemma tpo_bool : tpo bool_cmp.
Proof. split; [intros [] []; reflexivity|intros [] [] []; exact I || reflexivity]. Qed.

(** Lexicographic lists. *)
Lemma list_cmp_anti {A} (cmp : A -> A -> comparison) l :
  Forall (fun a => forall b, anti cmp a b) l -> forall l', anti (list_cmp cmp) l l'.
Proof.
  unfold anti. induction 1 as [|a l Ha Hl IH]; intros [|b l']; cbn; auto.
  rewrite Ha. destruct (cmp a b); cbn; auto.
Qed.
Lemma list_cmp_trans {A} (cmp : A -> A -> comparison) l :
  Forall (fun a => forall b c, trans3 cmp a b c) l -> forall l' l'', trans3 (list_cmp cmp) l l' l''.
Proof.
  unfold trans3. induction 1 as [|a l Ha Hl IH]; intros [|b l'] [|c l'']; cbn; auto.
  - destruct (cmp b c); auto. destruct (list_cmp cmp l' l''); auto.
  - destruct (cmp a b); auto. destruct (list_cmp cmp l l'); auto.
  - specialize (Ha b c). specialize (IH l' l'').
    destruct (cmp a b), (cmp b c); try rewrite Ha; auto;
    destruct (list_cmp cmp l l'); auto; destruct (list_cmp cmp l' l''); auto.
Qed.
Lemma tpo_list {A} (cmp : A -> A -> comparison) : tpo cmp -> tpo (list_cmp cmp).
Proof.
  intros [H1 H2]. split; intros.
  - apply list_cmp_anti. apply Forall_forall; auto.
  - apply list_cmp_trans. apply Forall_forall; auto.
Qed.

Lemma str_cmp_list a b : str_cmp a b = list_cmp ascii_cmp a b.
Proof.
  revert b; induction a as [|x a IH]; intros [|y b]; cbn; auto. rewrite IH. auto.
Qed.
Lemma tpo_str : tpo str_cmp.
Proof.
  assert (H : tpo (list_cmp ascii_cmp)) by (apply tpo_list, (tpo_map code), tpo_N).
  destruct H as [H1 H2]. split; intros.
  - unfold anti. rewrite !str_cmp_list. apply H1.
  - unfold trans3. rewrite !str_cmp_list. apply H2.
Qed.

(** Lexicographic pairs. *)
Definition lex {A B} (ca : A -> A -> comparison) (cb : B -> B -> comparison) (p q : A * B) : comparison :=
  match ca (fst p) (fst q) with Eq => cb (snd p) (snd q) | o => o end.
Lemma tpo_lex {A B} (ca : A -> A -> comparison) (cb : B -> B -> comparison) :
  tpo ca -> tpo cb -> tpo (lex ca cb).
Proof.
  intros [A1 A2] [B1 B2]. split.
  - intros [a b] [a' b']. unfold anti, lex; cbn. rewrite A1. destruct (ca a a'); cbn; auto. apply B1.
  - intros [a b] [a' b'] [a'' b'']. unfold trans3, lex; cbn.
    specialize (A2 a a' a''). specialize (B2 b b' b''). unfold trans3 in *.
    destruct (ca a a'), (ca a' a''); try rewrite A2; auto;
    destruct (cb b b'); auto; destruct (cb b' b''); auto.
Qed.

Lemma tpo_ext {A} (c1 c2 : A -> A -> comparison) : (forall a b, c1 a b = c2 a b) -> tpo c2 -> tpo c1.
Proof.
  intros E [H1 H2]. split; intros; [unfold anti|unfold trans3]; rewrite !E; [apply H1|apply H2].
Qed.

(** Floats with NaN last are ordered by a key. *)
Definition fkey (f : f64) : Z * (Z * Z) :=
  match f with
  | S754_infinity true => (-2, (0, 0))
  | S754_finite true m e => (-1, (- e, - Zpos m))
  | S754_zero _ => (0, (0, 0))
  | S754_finite false m e => (1, (e, Zpos m))
  | S754_infinity false => (2, (0, 0))
  | S754_nan => (3, (0, 0))
  end%Z.
Definition key_cmp : Z * (Z * Z) -> Z * (Z * Z) -> comparison := lex Z.compare (lex Z.compare Z.compare).

Lemma opp_cmp a b : Z.compare (- a) (- b) = CompOpp (Z.compare a b).
Proof. destruct (Z.compare_spec a b), (Z.compare_spec (- a) (- b)); auto; lia. Qed.
Lemma neg_cmp a b : Z.compare (Zneg a) (Zneg b) = CompOpp (Pos.compare a b).
Proof. reflexivity. Qed.

Lemma f_cmp_key a b : f_is_nan a = false -> f_is_nan b = false ->
  f_cmp a b = Some (key_cmp (fkey a) (fkey b)).
Proof.
  unfold f_cmp. intros Ha Hb.
  destruct a as [s|s| |s m e], b as [s'|s'| |s' m' e']; try discriminate;
    try (destruct s); try (destruct s'); try reflexivity; unfold key_cmp, lex; cbn [fkey fst snd SFcompare].
  - rewrite Z.compare_refl.
    rewrite !opp_cmp. destruct (Z.compare e e') eqn:E; cbn; auto.
Qed.

Lemma tpo_key : tpo key_cmp.
Proof. apply tpo_lex; [apply tpo_Z|apply tpo_lex; apply tpo_Z]. Qed.

Lemma float_cmp_key a b : float_cmp_nan_last a b = key_cmp (fkey a) (fkey b).
Proof.
  unfold float_cmp_nan_last. destruct (f_is_nan a) eqn:Ha, (f_is_nan b) eqn:Hb; cbn.
  - destruct a, b; try discriminate. reflexivity.
  - destruct a; try discriminate. destruct b as [|[]| |[]]; try discriminate; reflexivity.
  - destruct b; try discriminate. destruct a as [|[]| |[]]; try discriminate; reflexivity.
  - rewrite f_cmp_key; auto.
Qed.
Lemma tpo_float : tpo float_cmp_nan_last.
Proof. eapply tpo_ext; [apply float_cmp_key|]. apply (tpo_map fkey), tpo_key. Qed.

(** Keys identify floats up to the sign of zero. *)
Lemma key_eq a b : key_cmp (fkey a) (fkey b) = Eq ->
  a = b \/ (exists s s', a = S754_zero s /\ b = S754_zero s').
Proof.
  destruct a as [[]|[]| |[] m e], b as [[]|[]| |[] m' e']; cbn; try discriminate; eauto 6; unfold key_cmp, lex; cbn.
  - rewrite !opp_cmp. destruct (Z.compare_spec e e'); try discriminate. cbn.
    intros H2. destruct (Pos.compare_spec m m'); try discriminate. subst. auto.
  - destruct (Z.compare_spec e e'); try discriminate. intros H2. apply Pos.compare_eq in H2. subst. auto.
Qed.

(** Decimals. *)
Lemma pow10_pos n : (0 < pow10 n)%Z.
Proof. unfold pow10. apply Z.pow_pos_nonneg; lia. Qed.
Lemma tpo_dec : tpo dec_cmp.
Proof.
  split.
  - intros a b. unfold anti, dec_cmp. apply Z.compare_antisym.
  - intros [m s] [m' s'] [m'' s'']. unfold trans3, dec_cmp. cbn.
    pose proof (pow10_pos s). pose proof (pow10_pos s'). pose proof (pow10_pos s'').
    set (p := pow10 s) in *. set (p' := pow10 s') in *. set (p'' := pow10 s'') in *.
    destruct (Z.compare_spec (m * p') (m' * p)), (Z.compare_spec (m' * p'') (m'' * p')),
             (Z.compare_spec (m * p'') (m'' * p)); auto; exfalso; nia.
Qed.

Lemma tpo_dt : tpo dt_cmp.
Proof.
  eapply tpo_ext; [|apply (tpo_map (fun d => (dt_instant d, dt_nanos d))), (tpo_lex Z.compare Z.compare); apply tpo_Z].
  intros a b. unfold dt_cmp, lex. cbn. auto.
Qed.

Definition cur_cmp (a b : str * dec) : comparison := lex str_cmp dec_cmp a b.
Lemma cur_cmp_eq x c y c' :
  (if str_eqb c c' then dec_cmp x y else str_cmp c c') = cur_cmp (c, x) (c', y).
Proof.
  unfold cur_cmp, lex. cbn. destruct (str_eqb_spec c c') as [->|N].
  - rewrite str_cmp_refl. auto.
  - destruct (str_cmp c c') eqn:E; auto. apply str_cmp_eq in E. contradiction.
Qed.
Lemma tpo_cur : tpo cur_cmp.
Proof. apply tpo_lex; [apply tpo_str|apply tpo_dec]. Qed.

Lemma component_cmp_lex a b : component_cmp a b =
  lex Nat.compare str_cmp (component_rank a, match a with PNormal s => s | _ => [] end)
                          (component_rank b, match b with PNormal s => s | _ => [] end).
Proof. destruct a, b; reflexivity. Qed.
Lemma tpo_path : tpo path_cmp.
Proof.
  unfold path_cmp. apply (tpo_map path_components), tpo_list.
  eapply tpo_ext; [apply component_cmp_lex|].
  apply (tpo_map (fun a => (component_rank a, match a with PNormal s => s | _ => [] end)) (lex Nat.compare str_cmp)).
  apply tpo_lex; [apply tpo_nat|apply tpo_str].
Qed.

(** Lists of values. *)
Lemma cmp_values_list xs ys : cmp_values (VList xs) (VList ys) = list_cmp cmp_values xs ys.
Proof.
  cbn [cmp_values].
  assert (G : forall k l r, length xs = k + length l -> length ys = k + length r ->
    (fix go (l r : list value) {struct l} : comparison :=
       match l, r with
       | u :: l', w :: r' => match cmp_values u w with Eq => go l' r' | o => o end
       | _, _ => Nat.compare (length xs) (length ys)
       end) l r = list_cmp cmp_values l r).
  { intros k l. revert k. induction l as [|u l IH]; intros k r E1 E2.
    - destruct r as [|w r]; cbn in *.
      + apply Nat.compare_eq_iff. lia.
      + apply Nat.compare_lt_iff. lia.
    - destruct r as [|w r]; [cbn in *; apply Nat.compare_gt_iff; lia|].
      cbn [list_cmp]. destruct (cmp_values u w); auto.
      apply (IH (S k)); cbn in *; lia. }
  apply (G 0); auto.
Qed.

Definition same_ctor (a b : value) : bool :=
  match a, b with
  | VBool _, VBool _ | VStr _, VStr _ | VInt _, VInt _ | VFloat _, VFloat _ | VCur _ _, VCur _ _
  | VRef _, VRef _ | VList _, VList _ | VDate _, VDate _ | VPath _, VPath _ | VEnum _, VEnum _ => true
  | _, _ => false
  end.

Lemma conforms_rank m a b : conforms m a = true -> conforms m b = true ->
  type_order a = type_order b -> same_ctor a b = true.
Proof.
  destruct m as [t n]. destruct a, b; cbn; try discriminate; auto; destruct t; destruct n; discriminate.
Qed.
Lemma cmp_diff a b : type_order a <> type_order b -> cmp_values a b = Nat.compare (type_order a) (type_order b).
Proof. destruct a, b; cbn; auto; congruence. Qed.

Lemma cmp_anti m a : conforms m a = true -> forall b, conforms m b = true -> anti cmp_values a b.
Proof.
  revert a. apply (value_ind' (fun a => conforms m a = true -> forall b, conforms m b = true -> anti cmp_values a b)).
  7: { intros vs IH Hc b Hb. destruct (Nat.eq_dec 6 (type_order b)) as [E|E].
       - pose proof (conforms_rank m (VList vs) b Hc Hb E) as S. destruct b as [| | | | | |ws| | |]; try discriminate.
         unfold anti. rewrite !cmp_values_list. cbn in Hc, Hb.
         clear E S. revert ws Hb Hc. induction IH as [|v vs Hv IH IHvs]; intros [|w ws] Hb Hc; cbn; auto.
         cbn in Hb, Hc. apply andb_true_iff in Hb as [Hb1 Hb2]. apply andb_true_iff in Hc as [Hc1 Hc2].
         rewrite (Hv Hc1 w Hb1). destruct (cmp_values v w); cbn; auto.
       - unfold anti. rewrite (cmp_diff (VList vs) b), (cmp_diff b (VList vs)) by (cbn; congruence).
         apply Nat.compare_antisym. }
  all: match goal with
       | |- forall z, _ -> forall b, _ -> anti _ (?K z) b => idtac
       | |- forall a c, _ -> forall b, _ -> anti _ (?K a c) b => idtac end.
  all: intros.
  all: match goal with |- anti _ ?a ?b =>
       destruct (Nat.eq_dec (type_order a) (type_order b)) as [E|E];
       [assert (S : same_ctor a b = true) by (eapply conforms_rank; eauto); destruct b; try discriminate;
        unfold anti; cbn [cmp_values]
       |unfold anti; rewrite (cmp_diff a b), (cmp_diff b a) by congruence; apply Nat.compare_antisym]
       end.
  - apply tpo_bool. 
  - apply tpo_str.
  - apply tpo_Z.
  - apply tpo_float.
  - rewrite !cur_cmp_eq. apply tpo_cur.
  - apply tpo_str.
  - apply tpo_dt.
  - apply tpo_path.
  - apply tpo_str.
Qed.

Lemma cmp_rank_le a b : type_order a < type_order b -> cmp_values a b = Lt.
Proof. intros H. rewrite cmp_diff by lia. apply Nat.compare_lt_iff; auto. Qed.
Lemma cmp_rank_gt a b : type_order b < type_order a -> cmp_values a b = Gt.
Proof. intros H. rewrite cmp_diff by lia. apply Nat.compare_gt_iff; auto. Qed.

(** It is enough to look at three values of the same constructor. *)
Lemma trans3_ranks a b c :
  (type_order a = type_order b -> type_order b = type_order c -> trans3 cmp_values a b c) ->
  trans3 cmp_values a b c.
Proof.
  intros H. unfold trans3 in *.
  destruct (lt_eq_lt_dec (type_order a) (type_order b)) as [[L1|E1]|G1].
  - rewrite (cmp_rank_le a b L1). destruct (lt_eq_lt_dec (type_order b) (type_order c)) as [[L2|E2]|G2].
    + rewrite (cmp_rank_le b c L2). apply cmp_rank_le; lia.
    + destruct (cmp_values b c); auto; apply cmp_rank_le; lia.
    + rewrite (cmp_rank_gt b c G2). auto.
  - destruct (lt_eq_lt_dec (type_order b) (type_order c)) as [[L2|E2]|G2]; [|exact (H E1 E2)|].
    + rewrite (cmp_rank_le b c L2). rewrite (cmp_rank_le a c) by lia. destruct (cmp_values a b); auto.
    + rewrite (cmp_rank_gt b c G2). rewrite (cmp_rank_gt a c) by lia. destruct (cmp_values a b); auto.
  - rewrite (cmp_rank_gt a b G1). destruct (lt_eq_lt_dec (type_order b) (type_order c)) as [[L2|E2]|G2].
    + rewrite (cmp_rank_le b c L2). auto.
    + destruct (cmp_values b c); auto; apply cmp_rank_gt; lia.
    + rewrite (cmp_rank_gt b c G2). apply cmp_rank_gt; lia.
Qed.

Lemma cmp_trans m a : conforms m a = true -> forall b c,
  conforms m b = true -> conforms m c = true -> trans3 cmp_values a b c.
Proof.
  revert a. apply (value_ind' (fun a => conforms m a = true -> forall b c,
    conforms m b = true -> conforms m c = true -> trans3 cmp_values a b c)).
  7: { intros vs IH Ha b c Hb Hc. apply trans3_ranks. intros E1 E2.
       assert (S1 : same_ctor (VList vs) b = true) by (eapply conforms_rank; eauto).
       destruct b as [| | | | | |ws| | |]; try discriminate.
       assert (S2 : same_ctor (VList ws) c = true) by (eapply conforms_rank; eauto).
       destruct c as [| | | | | |us| | |]; try discriminate.
       unfold trans3. rewrite !cmp_values_list. cbn in Ha, Hb, Hc. clear E1 E2 S1 S2.
       revert ws us Ha Hb Hc.
       induction IH as [|v vs Hv IH IHvs]; intros [|w ws] [|u us] Ha Hb Hc; cbn; auto.
       - destruct (cmp_values w u); auto. destruct (list_cmp cmp_values ws us); auto.
       - destruct (cmp_values v w); auto. destruct (list_cmp cmp_values vs ws); auto.
       - cbn in Ha, Hb, Hc. apply andb_true_iff in Ha as [Ha1 Ha2]. apply andb_true_iff in Hb as [Hb1 Hb2].
         apply andb_true_iff in Hc as [Hc1 Hc2].
         specialize (Hv Ha1 w u Hb1 Hc1). specialize (IHvs ws us Ha2 Hb2 Hc2). unfold trans3 in *.
         destruct (cmp_values v w), (cmp_values w u); try rewrite Hv; auto;
         destruct (list_cmp cmp_values vs ws); auto; destruct (list_cmp cmp_values ws us); auto. }
  all: intros; apply trans3_ranks; intros E1 E2;
    match goal with |- trans3 _ ?a ?b ?c =>
       assert (S1 : same_ctor a b = true) by (eapply conforms_rank; eauto); destruct b; try discriminate S1;
       match goal with |- trans3 _ ?a ?b ?c =>
       assert (S2 : same_ctor b c = true) by (eapply conforms_rank; eauto); destruct c; try discriminate S2 end
    end; unfold trans3; cbn [cmp_values].
  - apply tpo_bool.
  - apply (tpo_map lower), tpo_str.
  - apply tpo_Z.
  - apply tpo_float.
  - rewrite !cur_cmp_eq. apply tpo_cur.
  - apply (tpo_map (fun r => lower (ref_display r))), tpo_str.
  - apply tpo_dt.
  - apply tpo_path.
  - apply (tpo_map lower), tpo_str.
Qed.

(** Entities by field. *)
Lemma tpo_opp {A} (cmp : A -> A -> comparison) (P : A -> Prop) : total_preorder_on cmp P -> total_preorder_on (fun a b => CompOpp (cmp a b)) P.
Proof.
  intros [H1 H2]. split.
  - intros a b Ha Hb. rewrite (H1 a b); auto.
  - intros a b c Ha Hb Hc N1 N2 E.
    assert (X : cmp c a <> Gt).
    { apply (H2 c b a); auto.
      - rewrite (H1 b c); auto.
      - rewrite (H1 a b); auto. }
    rewrite (H1 a c) in X; auto.
Qed.

Lemma order_preorder m f d : total_preorder_on (compare_entities (FReg f) d) (conforming m f).
Proof.
  assert (X : total_preorder_on (cmp_by_field (FReg f)) (conforming m f)).
  { apply tpo_on.
    - intros a b Ha Hb. unfold anti, conforming in *. cbn.
      destruct (get_field a f), (get_field b f); auto. apply (cmp_anti m); auto.
    - intros a b c Ha Hb Hc. unfold trans3, conforming in *. cbn.
      destruct (get_field a f), (get_field b f), (get_field c f); auto.
      + apply (cmp_trans m); auto.
      + destruct (cmp_values v v0); auto.
      + destruct (cmp_values v v0); auto. }
  destruct d; [exact X|]. apply (tpo_opp _ _ X).
Qed.

Lemma order_meta_preorder mf d : total_preorder_on (compare_entities (FMeta mf) d) (fun _ => True).
Proof.
  assert (X : total_preorder_on (cmp_by_field (FMeta mf)) (fun _ => True)).
  { apply tpo_on; intros; destruct mf; cbn; unfold anti, trans3; cbn.
    - apply tpo_str.
    - apply tpo_str.
    - apply (tpo_map (fun e => lower (e_type e))), tpo_str.
    - apply (tpo_map (fun e => lower (e_id e))), tpo_str. }
  destruct d; [exact X|]. apply (tpo_opp _ _ X).
Qed.
