(** The comparator means the documented order. *)
From Coq Require Import Lia.
From Verif Require Import S_Query L_Str L_Sort L_Order.

Lemma lex_le_spec a b : str_cmp a b <> Gt <-> lex_le a b.
Proof.
  revert b; induction a as [|c a IH]; intros [|d b]; cbn.
  - split; [auto|discriminate].
  - split; [auto|discriminate].
  - split; [congruence|contradiction].
  - unfold ascii_cmp. destruct (N.compare_spec (code c) (code d)) as [E|E|E].
    + assert (c = d). { unfold code in E. rewrite <- (ascii_N_embedding c), <- (ascii_N_embedding d), E. auto. }
      subst. rewrite IH. split; [auto|]. intros [H|[_ H]]; auto. lia.
    + split; [auto|discriminate].
    + split; [congruence|]. intros [H|[-> _]]; lia.
Qed.

Lemma field_type_dec_list v : (exists l, v = VList l) \/ get_type v <> TList.
Proof. destruct v; try (right; discriminate); [right; destruct r; discriminate|left; eauto]. Qed.
(** Paths. *)
Definition step_component (s : str) : component :=
  if str_eqb s (L "/") then PRoot else if str_eqb s (L ".") then PCur else if str_eqb s (L "..") then PParent else PNormal s.
Lemma step_component_rank s : component_rank (step_component s) = step_rank s.
Proof. unfold step_component, step_rank. destruct (str_eqb s (L "/")), (str_eqb s (L ".")), (str_eqb s (L "..")); reflexivity. Qed.
Lemma part_component p s : In s (filter (fun s => negb (str_eqb s []) && negb (str_eqb s (L "."))) (split_char "/" p)) -> to_component s = step_component s.
Proof.
  intros H. apply filter_In in H as [I F]. apply andb_true_iff in F as [_ F]. unfold to_component, step_component.
  destruct (str_eqb s (L ".")); [discriminate|]. destruct (str_eqb_spec s (L "/")) as [->|_]; [|reflexivity]. exfalso.
  assert (G : forall p, ~ In (L "/") (split_char "/" p)).
  { clear. induction p as [|c p IH]; cbn [split_char]; [intros [X|[]]; discriminate|]. destruct (Ascii.eqb_spec c "/") as [->|N]; [intros [X|X]; [discriminate|exact (IH X)]|].
    destruct (split_char "/" p) as [|w ws]; [intros [X|[]]|intros [X|X]]; [injection X as X; congruence|injection X as X _; congruence|]. apply IH. right. exact X. }
  exact (G p I).
Qed.
Lemma components_steps p : path_components p = map step_component (path_steps p).
Proof.
  assert (T : forall l, (forall s, In s l -> In s (split_char "/" p)) ->
    map to_component (filter (fun s => negb (str_eqb s []) && negb (str_eqb s (L "."))) l) = map step_component (filter (fun s => negb (str_eqb s []) && negb (str_eqb s (L "."))) l)).
  { intros l S. apply map_ext_in. intros s I. apply (part_component p). apply filter_In in I as [I F]. apply filter_In. split; [apply S, I|exact F]. }
  unfold path_components. cbv zeta. destruct p as [|c p]; [reflexivity|]. unfold path_steps. rewrite map_app. pose proof (T (split_char "/" (c :: p)) (fun s H => H)) as T0.
  cbn [split_char] in *. destruct (Ascii.eqb_spec c "/") as [->|N].
  - rewrite (T (split_char "/" p)) by (intros s H; right; exact H). cbn [filter str_eqb negb andb]. destruct (split_char "/" p) eqn:E; [|reflexivity].
    exfalso. revert E. clear. destruct p as [|c p]; cbn [split_char]; [discriminate|]. destruct (Ascii.eqb c "/"); [discriminate|]. destruct (split_char "/" p); discriminate.
  - assert (P1 : forall x y, match c :: p with "/"%char :: _ => x | "."%char :: [] | "."%char :: "/"%char :: _ => y | _ => [] end = if Ascii.eqb c "." then match p with [] | "/"%char :: _ => y | _ => @nil str end else []).
    { intros x y. destruct (Ascii.eqb_spec c ".") as [->|N2]; [destruct p as [|[[] [] [] [] [] [] [] []] p]; reflexivity|].
      destruct c as [[] [] [] [] [] [] [] []]; try reflexivity; exfalso; (apply N; reflexivity) || (apply N2; reflexivity). }
    rewrite P1. destruct p as [|c2 p].
    + cbn [split_char]. change (str_eqb [c] []) with false. destruct (Ascii.eqb_spec c ".") as [->|N2]; [reflexivity|]. destruct (str_eqb_spec [c] (L ".")) as [X|_]; [injection X as X; contradiction|].
      cbn [split_char] in T0. rewrite T0. reflexivity.
    + cbn [split_char] in *. destruct (Ascii.eqb_spec c2 "/") as [->|N3].
      * change (str_eqb [c] []) with false. destruct (Ascii.eqb_spec c ".") as [->|N2].
        -- rewrite (T (split_char "/" p)); [reflexivity|]. intros s H. right. exact H.
        -- destruct (str_eqb_spec [c] (L ".")) as [X|_]; [injection X as X; contradiction|]. rewrite T0. reflexivity.
      * assert (K : (if (c =? ".")%char then match c2 :: p with [] | "/"%char :: _ => [L "."] | _ => [] end else []) = @nil str).
        { destruct (Ascii.eqb c "."); [|reflexivity]. destruct c2 as [[] [] [] [] [] [] [] []]; try reflexivity. exfalso. apply N3. reflexivity. }
        etransitivity; [|apply (f_equal (fun q => map step_component q ++ _) (eq_sym K))]. cbv beta. destruct (split_char "/" p) as [|w ws].
        -- change (str_eqb [c; c2] []) with false. destruct (str_eqb_spec [c; c2] (L ".")) as [X|_]; [discriminate|]. exact T0.
        -- change (str_eqb (c :: c2 :: w) []) with false. destruct (str_eqb_spec (c :: c2 :: w) (L ".")) as [X|_]; [discriminate|]. exact T0.
Qed.
Lemma component_lt s t : component_cmp (step_component s) (step_component t) = Lt <-> step_lt s t.
Proof.
  unfold step_lt. rewrite <- !step_component_rank. assert (R : forall s, component_rank (step_component s) = 3 -> step_component s = PNormal s).
  { intros u. unfold step_component. destruct (str_eqb u (L "/")), (str_eqb u (L ".")), (str_eqb u (L "..")); intros H; try discriminate; reflexivity. }
  destruct (Nat.eq_dec (component_rank (step_component s)) 3) as [Es|Es], (Nat.eq_dec (component_rank (step_component t)) 3) as [Et|Et].
  - rewrite (R s Es), (R t Et). cbn [component_cmp component_rank]. rewrite <- lex_le_spec. destruct (str_cmp s t) eqn:C.
    + split; [discriminate|]. apply str_cmp_eq in C. intros [H|(_ & _ & _ & H)]; [lia|contradiction].
    + split; [intros _; right|reflexivity]. split; [reflexivity|]. split; [reflexivity|]. split; [congruence|]. intros ->. rewrite str_cmp_refl in C. discriminate.
    + split; [discriminate|]. intros [H|(_ & _ & H & _)]; [lia|congruence].
  - assert (X : component_cmp (step_component s) (step_component t) = Nat.compare (component_rank (step_component s)) (component_rank (step_component t))) by (destruct (step_component s), (step_component t); cbn in *; congruence).
    rewrite X, Nat.compare_lt_iff. split; [auto|]. intros [H|(_ & H & _)]; [exact H|congruence].
  - assert (X : component_cmp (step_component s) (step_component t) = Nat.compare (component_rank (step_component s)) (component_rank (step_component t))) by (destruct (step_component s), (step_component t); cbn in *; congruence).
    rewrite X, Nat.compare_lt_iff. split; [auto|]. intros [H|(H & _)]; [exact H|congruence].
  - assert (X : component_cmp (step_component s) (step_component t) = Nat.compare (component_rank (step_component s)) (component_rank (step_component t))) by (destruct (step_component s), (step_component t); cbn in *; congruence).
    rewrite X, Nat.compare_lt_iff. split; [auto|]. intros [H|(H & _)]; [exact H|congruence].
Qed.
Lemma component_eq s t : component_cmp (step_component s) (step_component t) = Eq <-> s = t.
Proof.
  split.
  - unfold step_component. destruct (str_eqb_spec s (L "/")), (str_eqb_spec s (L ".")), (str_eqb_spec s (L "..")),
      (str_eqb_spec t (L "/")), (str_eqb_spec t (L ".")), (str_eqb_spec t (L "..")); subst; try congruence; cbn; try discriminate. apply str_cmp_eq.
  - intros ->. unfold step_component. destruct (str_eqb t (L "/")), (str_eqb t (L ".")), (str_eqb t (L "..")); cbn; try reflexivity. apply str_cmp_refl.
Qed.
Lemma steps_le_spec a b : list_cmp component_cmp (map step_component a) (map step_component b) <> Gt <-> steps_le a b.
Proof.
  revert b. induction a as [|s a IH]; intros [|t b]; cbn [map list_cmp steps_le]; try (split; [auto|discriminate]); [split; [congruence|contradiction]|].
  pose proof (component_lt s t) as LT. pose proof (component_eq s t) as EQ. destruct (component_cmp (step_component s) (step_component t)).
  - rewrite IH. assert (ST : s = t) by (apply EQ; reflexivity). split; [auto|]. intros [H|[_ H]]; [|exact H]. apply LT in H. discriminate.
  - split; [|discriminate]. intros _. left. apply LT. reflexivity.
  - split; [congruence|]. intros [H|[H _]]; [apply LT in H|apply EQ in H]; discriminate.
Qed.

Lemma item_le_spec v w : get_type v = get_type w -> get_type v <> TList -> cmp_values v w <> Gt <-> item_le v w.
Proof.
  intros T F. destruct v as [b|s|z|f|a c|r|vs|d|p|s], w as [b'|s'|z'|f'|a' c'|r'|vs'|d'|p'|s']; cbn in T; try discriminate;
    try (destruct r; discriminate); try (destruct r'; discriminate); cbn [cmp_values item_le].
  - destruct b, b'; cbn; split; intros X; try reflexivity; try discriminate; exfalso; solve [apply X; reflexivity|specialize (X eq_refl); discriminate].
  - apply lex_le_spec.
  - destruct (Z.compare_spec z z'); split; intros; try lia; try discriminate. congruence.
  - unfold float_cmp_nan_last, f_le in *. destruct (f_is_nan f) eqn:N1, (f_is_nan f') eqn:N2; cbn; try (split; [auto|discriminate]).
    + split; [congruence|]. intros [H|H]; [discriminate|]. destruct f; discriminate.
    + destruct (f_cmp f f') as [[]|] eqn:E; try (split; [auto|discriminate]).
      * split; [congruence|]. intros [H|H]; discriminate.
      * destruct f as [| [] | |[]], f' as [| [] | |[]]; discriminate.
  - destruct (str_eqb c c'); [|apply lex_le_spec]. unfold dec_cmp.
    destruct (Z.compare_spec (d_mant a * pow10 (d_scale a')) (d_mant a' * pow10 (d_scale a))); split; intros; try lia; try discriminate. congruence.
  - apply lex_le_spec.
  - cbn in F. congruence.
  - unfold dt_cmp. destruct (Z.compare_spec (dt_instant d) (dt_instant d')).
    + destruct (Z.compare_spec (dt_nanos d) (dt_nanos d')); split; intros; try lia; try discriminate. congruence.
    + split; intros; [lia|discriminate].
    + split; intros; [congruence|lia].
  - unfold path_cmp. rewrite !components_steps. apply steps_le_spec.
  - apply lex_le_spec.
Qed.
Lemma flat_anti v w : get_type v = get_type w -> get_type v <> TList -> cmp_values w v = CompOpp (cmp_values v w).
Proof.
  intros T F. apply (cmp_anti {| ct_text := get_type v; ct_num := get_type v |}); destruct v, w; cbn in T; try discriminate; try (destruct r; discriminate); try (destruct r0; discriminate); try reflexivity; cbn in F; congruence.
Qed.
Lemma items_le_spec l : forall r, list_cmp cmp_values l r <> Gt -> items_le l r.
Proof.
  induction l as [|v l IH]; intros [|w r]; cbn [list_cmp items_le]; intros H; [exact I|exact I|exfalso; apply H; reflexivity|]. intros (T & F).
  split; [apply (item_le_spec v w T F); destruct (cmp_values v w); congruence|]. intros X.
  apply (item_le_spec w v (eq_sym T)) in X; [|congruence]. rewrite (flat_anti v w T F) in X.
  apply IH. destruct (cmp_values v w); [exact H|exfalso; apply X; reflexivity|congruence].
Qed.
Lemma value_le_spec v w : get_type v = get_type w -> cmp_values v w <> Gt -> value_le v w.
Proof.
  intros T H. destruct (field_type_dec_list v) as [(l & ->)|F].
  - destruct w; try discriminate T; [destruct r; discriminate T|]. cbn [value_le]. apply items_le_spec. rewrite <- cmp_values_list. exact H.
  - assert (X : item_le v w) by (apply item_le_spec; assumption). destruct v; try exact X. destruct F. reflexivity.
Qed.

Lemma ascending_spec f a b : cmp_by_field (FReg f) a b <> Gt -> ascending f a b.
Proof.
  cbn. unfold ascending. destruct (get_field a f), (get_field b f); auto; try congruence.
  intros. apply value_le_spec; auto.
Qed.
Lemma opp_gt c : CompOpp c <> Gt -> c <> Lt.
Proof. destruct c; cbn; congruence. Qed.

Lemma direction_spec f d m a b : conforming m f a -> conforming m f b ->
  compare_entities (FReg f) d a b <> Gt -> in_direction d (ascending f) a b.
Proof.
  intros Ca Cb. destruct d; cbn [in_direction].
  - apply ascending_spec.
  - intros H. apply ascending_spec. intros E.
    destruct (order_preorder m f Ascending) as [An _]. specialize (An b a Cb Ca).
    cbn [compare_entities] in *. rewrite An, E in H. cbn in H. congruence.
Qed.
Lemma meta_direction_spec mf d a b :
  compare_entities (FMeta mf) d a b <> Gt -> in_direction d (meta_ascending mf) a b.
Proof.
  destruct (order_meta_preorder mf Ascending) as [An _]. specialize (An b a I I).
  destruct d; cbn [in_direction compare_entities] in *; intros H.
  - destruct mf; cbn in *; apply lex_le_spec; auto.
  - rewrite An in H. assert (X : cmp_by_field (FMeta mf) b a <> Gt) by (destruct (cmp_by_field (FMeta mf) b a); cbn in H; congruence).
    destruct mf; cbn in *; apply lex_le_spec; auto.
Qed.

Lemma sorted_weaken {A} (R S : A -> A -> Prop) (P : A -> Prop) l : Forall P l ->
  (forall a b, P a -> P b -> R a b -> S a b) -> StronglySorted R l -> StronglySorted S l.
Proof.
  intros F H St. induction St as [|a l St IH G]; constructor; inversion F as [|? ? Pa Fl]; subst; auto.
  rewrite Forall_forall in *. auto.
Qed.

(** ** Integers and floats in one column *)
From Verif Require Import L_FloatInt.
Definition as_float (v : value) : f64 := match v with VInt z => f_of_Z z | VFloat f => f | _ => S754_nan end.
Lemma as_float_not_nan z : small z -> f_is_nan (f_of_Z z) = false.
Proof.
  intros S. destruct (Z.eq_dec z 0) as [->|N]; [reflexivity|]. destruct (f_of_Z_canon z N S) as (k & E & -> & _). reflexivity.
Qed.
Lemma small_spec z : (Z.abs z <? 2 ^ 53)%Z = true -> small z.
Proof. intros H. apply Z.ltb_lt in H. exact H. Qed.
Lemma numbers_as_floats v w : small_number v = true -> small_number w = true ->
  cmp_values v w = float_cmp_nan_last (as_float v) (as_float w).
Proof.
  intros V W. destruct v as [| |i|i| | | | | | ], w as [| |j|j| | | | | | ]; try discriminate; cbn [small_number] in *;
    cbn [cmp_values as_float]; repeat match goal with H : (Z.abs _ <? _)%Z = true |- _ => apply small_spec in H end;
    unfold float_cmp_nan_last; rewrite ?as_float_not_nan by auto; auto.
  - rewrite cmp_exact by auto. reflexivity.
  - destruct (f_is_nan i); reflexivity.
Qed.
Lemma numbers_preorder f d : total_preorder_on (compare_entities (FReg f) d) (all_small_numbers f).
Proof.
  assert (X : total_preorder_on (cmp_by_field (FReg f)) (all_small_numbers f)).
  { apply tpo_on.
    - intros a b Ha Hb. unfold anti, all_small_numbers in *. cbn.
      destruct (get_field a f), (get_field b f); auto. rewrite !numbers_as_floats by auto. apply tpo_float.
    - intros a b c Ha Hb Hc. unfold trans3, all_small_numbers in *. cbn.
      destruct (get_field a f) as [v|], (get_field b f) as [w|], (get_field c f) as [u|]; auto.
      + rewrite !numbers_as_floats by auto. apply tpo_float.
      + destruct (cmp_values v w); auto.
      + destruct (cmp_values w u); auto. }
  destruct d; [exact X|]. apply (tpo_opp _ _ X).
Qed.
Lemma numbers_ascending f a b : all_small_numbers f a -> all_small_numbers f b ->
  cmp_by_field (FReg f) a b <> Gt -> ascending_numbers f a b.
Proof.
  unfold all_small_numbers, ascending_numbers. cbn. destruct (get_field a f) as [v|], (get_field b f) as [w|]; auto.
  intros V W. rewrite numbers_as_floats by auto. unfold float_cmp_nan_last.
  destruct v as [| |x|x| | | | | | ], w as [| |y|y| | | | | | ]; try discriminate; cbn [small_number] in *;
    cbn [number_le as_float]; repeat match goal with H : (Z.abs _ <? _)%Z = true |- _ => apply small_spec in H end;
    rewrite ?as_float_not_nan by auto; auto.
  - rewrite cmp_exact by auto. unfold Z.le. auto.
  - destruct (f_is_nan y) eqn:E; auto. intros H. right. unfold f_le. revert H.
    destruct (f_cmp (f_of_Z x) y) as [[]|] eqn:C; auto; try congruence.
    pose proof (as_float_not_nan x V). destruct (f_of_Z x), y; discriminate.
  - destruct (f_is_nan x) eqn:E; cbn [andb]; [congruence|]. unfold f_le.
    destruct (f_cmp x (f_of_Z y)) as [[]|] eqn:C; auto; try congruence.
    pose proof (as_float_not_nan y W). destruct (f_of_Z y), x; discriminate.
  - destruct (f_is_nan x) eqn:E, (f_is_nan y) eqn:E2; cbn [andb]; auto; try congruence. intros H. right. unfold f_le.
    destruct (f_cmp x y) as [[]|] eqn:C; auto; try congruence. destruct x, y; discriminate.
Qed.
Lemma numbers_direction f d a b : all_small_numbers f a -> all_small_numbers f b ->
  compare_entities (FReg f) d a b <> Gt -> in_direction d (ascending_numbers f) a b.
Proof.
  intros A B H. destruct d; cbn [in_direction compare_entities] in *.
  - apply numbers_ascending; auto.
  - apply numbers_ascending; auto. destruct (numbers_preorder f Ascending) as [X _].
    cbn [compare_entities] in X. rewrite (X a b A B). destruct (cmp_by_field (FReg f) a b); cbn in *; congruence.
Qed.
