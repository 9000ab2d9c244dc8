(** Lemmas: the order of schema fields, reading and writing schemas. *)
From Coq Require Import Lia Sorted.
From Verif Require Import M_Schema S_Schema L_Str L_Ids L_Graph L_Sort L_Text L_DslStr L_DslVal L_Schema.
Close Scope Z_scope.

(** ** Sorting by declaration order *)
Definition olt (a b : field_id * fschema) : Prop := fs_order (snd a) < fs_order (snd b).

Lemma by_order_pre : total_preorder_on by_order (fun _ => True).
Proof.
  unfold by_order. split.
  - intros a b _ _. apply Nat.compare_antisym.
  - intros a b c _ _ _ H1 H2. rewrite Nat.compare_gt_iff in *. lia.
Qed.
Lemma olt_sorted l : StronglySorted olt l -> StronglySorted (fun a b => by_order a b <> Gt) l.
Proof.
  induction 1 as [|a l _ IH F]; constructor; auto. eapply Forall_impl; [|exact F].
  unfold olt, by_order. intros b H. rewrite Nat.compare_gt_iff. lia.
Qed.
Lemma olt_distinct l a b : StronglySorted olt l -> In a l -> In b l -> by_order a b = Eq -> a = b.
Proof.
  unfold by_order. intros S Ha Hb E. apply Nat.compare_eq in E. induction S as [|x l S IH F]; [destruct Ha|].
  rewrite Forall_forall in F. unfold olt in F. destruct Ha as [<-|Ha], Hb as [<-|Hb]; auto.
  - specialize (F b Hb). lia.
  - specialize (F a Ha). lia.
Qed.
Lemma olt_nodup l : StronglySorted olt l -> NoDup l.
Proof.
  induction 1 as [|x l S IH F]; constructor; auto. intros H. rewrite Forall_forall in F. specialize (F x H).
  unfold olt in F. lia.
Qed.
(** Sorting any rearrangement of a strictly ordered list gives that list. *)
Lemma sort_olt l l' : StronglySorted olt l -> Permutation l' l -> sort_by by_order l' = l.
Proof.
  intros S P. rewrite (sort_perm_eq by_order (fun _ => True) by_order_pre l' l).
  - apply (sorted_unique by_order (fun _ => True) by_order_pre).
    + apply Forall_forall; auto.
    + symmetry. apply sort_perm.
    + apply (sort_sorted by_order (fun _ => True) by_order_pre). apply Forall_forall; auto.
    + apply olt_sorted; auto.
    + intros a Ha. destruct (sort_stable by_order (fun _ => True) by_order_pre l) as (P1 & _ & F1); [apply Forall_forall; auto|].
      apply F1. eapply Permutation_in; [symmetry; exact P1|exact Ha].
  - apply Forall_forall; auto.
  - exact P.
  - intros a b Ha Hb. apply (olt_distinct l); auto; eapply Permutation_in; eauto.
  - eapply Permutation_NoDup; [symmetry; exact P|]. apply olt_nodup; auto.
Qed.

Definition others (id : field_id) (l : list (field_id * fschema)) : list (field_id * fschema) :=
  filter (fun p => negb (str_eqb (fst p) id)) l.
Lemma others_fresh id l : ~ In id (map fst l) -> others id l = l.
Proof.
  induction l as [|[i f] l IH]; [reflexivity|]. intros H. unfold others in *. cbn [filter map fst In] in *.
  destruct (str_eqb_spec i id) as [->|N]; [tauto|].
  cbn [negb]. rewrite IH by tauto. reflexivity.
Qed.
Lemma assoc_set_perm id f l : NoDup (map fst l) -> Permutation (assoc_set id f l) (others id l ++ [(id, f)]).
Proof.
  induction l as [|[i g] l IH]; cbn [assoc_set map fst]; intros N; [reflexivity|]. inversion N as [|? ? N1 N2]; subst.
  unfold others in *. cbn [filter fst]. destruct (str_eqb_spec i id) as [->|D]; cbn [negb].
  - fold (others id l). rewrite others_fresh by auto. apply Permutation_cons_append.
  - constructor. apply IH; auto.
Qed.
Lemma others_perm id l l' : Permutation l l' -> Permutation (others id l) (others id l').
Proof.
  unfold others. induction 1 as [|x l l' P IH|x y l|l l' l'' P1 IH1 P2 IH2]; cbn; auto.
  - destruct (negb _); auto.
  - repeat match goal with |- context [if ?b then _ else _] => destruct b end; auto. apply perm_swap.
  - eapply perm_trans; eauto.
Qed.
Lemma filter_sorted {A} (R : A -> A -> Prop) p l : StronglySorted R l -> StronglySorted R (filter p l).
Proof.
  induction 1 as [|x l S IH F]; cbn; [constructor|]. destruct (p x); auto. constructor; auto.
  rewrite Forall_forall in *. intros y Hy. apply filter_In in Hy as [Hy _]. auto.
Qed.
Lemma snoc_sorted l x : StronglySorted olt l -> Forall (fun y => olt y x) l -> StronglySorted olt (l ++ [x]).
Proof.
  induction 1 as [|y l S IH F]; cbn; intros G; [repeat constructor|]. inversion G as [|? ? G1 G2]; subst.
  constructor; auto. apply Forall_app. split; auto.
Qed.
(** The fields of [s] in order: [l]; all before position [k]. *)
Record laid (s : schema) (k : nat) (l : list (field_id * fschema)) : Prop := {
  laid_perm : Permutation (s_fields s) l;
  laid_keys : NoDup (map fst (s_fields s));
  laid_sorted : StronglySorted olt l;
  laid_before : Forall (fun p => fs_order (snd p) < k) l
}.
Lemma laid_new t k : laid (schema_new t) k [].
Proof. constructor; cbn; constructor. Qed.
Lemma laid_add s k l id f : laid s k l -> k <= fs_order f ->
  laid (add_field_schema s id f) (S (fs_order f)) (others id l ++ [(id, f)]).
Proof.
  intros [P N S B] K. constructor; cbn.
  - eapply perm_trans; [apply assoc_set_perm; auto|]. apply Permutation_app_tail. apply others_perm; auto.
  - rewrite assoc_set_keys. destruct (str_in _ _) eqn:E; [rewrite app_nil_r; auto|].
    apply nodup_snoc; auto. apply str_in_not; auto.
  - apply snoc_sorted; [apply filter_sorted; auto|]. rewrite Forall_forall in *. intros y Hy.
    apply filter_In in Hy as [Hy _]. specialize (B y Hy). unfold olt. cbn. lia.
  - apply Forall_app. split; [|constructor; auto]. rewrite Forall_forall in *. intros y Hy.
    apply filter_In in Hy as [Hy _]. specialize (B y Hy). cbn. lia.
Qed.
Lemma laid_listing ho s k l : shuffles ho -> laid s k l -> listing ho s = map decl_of l.
Proof.
  intros O [P N S B]. unfold listing, ordered_fields. rewrite (sort_olt l); auto.
  eapply perm_trans; [apply O|exact P].
Qed.

(** ** Reading *)
Lemma entry_find b name f : entry b name f <-> find_field_by_name b name = Some f.
Proof.
  unfold entry, find_field_by_name. destruct (nb_body b) as [fs|]; [|split; [intros (? & ? & [=] & _)|discriminate]].
  induction fs as [|g fs IH]; cbn [find].
  - split; [intros ([|] & ? & [=] & _)|discriminate].
  - destruct (fn_id g) as [i|] eqn:G; [destruct (str_eqb_spec i name) as [->|N]|].
    + split.
      * intros ([|g' pre] & post & E & F & M); [injection E as -> ->; reflexivity|].
        injection E as -> _. exfalso. apply (M g'); [left; reflexivity|exact G].
      * intros [= ->]. exists [], fs. repeat split; auto. 
    + rewrite <- IH. split.
      * intros ([|g' pre] & post & E & F & M); [injection E as -> _; congruence|].
        injection E as -> ->. exists pre, post. repeat split; auto. intros h Hh. apply M. right; auto.
      * intros (pre & post & E & F & M). injection E as ->. exists (g :: pre), post. repeat split; auto.
        intros h [<-|Hh]; [congruence|auto].
    + rewrite <- IH. split.
      * intros ([|g' pre] & post & E & F & M); [injection E as -> _; congruence|].
        injection E as -> ->. exists pre, post. repeat split; auto. intros h Hh. apply M. right; auto.
      * intros (pre & post & E & F & M). injection E as ->. exists (g :: pre), post. repeat split; auto.
        intros h [<-|Hh]; [congruence|auto].
Qed.
Lemma entry_value_find env path b name v : entry_value env path b name v <->
  exists f, find_field_by_name b name = Some f /\ field_value env path f = Ok v.
Proof.
  unfold entry_value, field_value. split.
  - intros (f & n & E & F & R). apply entry_find in E. exists f. rewrite F. auto.
  - intros (f & E & R). apply entry_find in E. destruct (fn_value f) as [n|] eqn:F; [|discriminate]. exists f, n. auto.
Qed.
Lemma text_of_ok env path b name s : text_of env path b name = Ok s <-> entry_value env path b name (PStr s).
Proof.
  rewrite entry_value_find. unfold text_of. split.
  - intros H. apply obind_ok in H as (f & E & H). apply obind_ok in H as (v & F & H).
    destruct (find_field_by_name b name) as [g|]; cbn in E; [|discriminate]. injection E as ->.
    destruct v; try discriminate. injection H as ->. eauto.
  - intros (f & E & F). rewrite E. cbn [of_option obind]. rewrite F. reflexivity.
Qed.
Lemma required_ok env path b r : required_of env path b = Ok r ->
  (r = true <-> entry_value env path b (L "required") (PBool true)).
Proof.
  rewrite entry_value_find. unfold required_of. destruct (find_field_by_name b (L "required")) as [f|].
  - destruct (field_value env path f) as [v| |] eqn:F.
    + destruct v; intros [= <-]; split; try discriminate; try (intros (g & [= <-] & X); rewrite F in X; congruence).
      intros ->. eauto.
    + intros [= <-]. split; [discriminate|]. intros (g & [= <-] & X). congruence.
    + discriminate.
  - intros [= <-]. split; [discriminate|]. intros (g & [=] & _).
Qed.
Lemma all_strings_some l vs : all_strings l = Some vs <-> l = map PStr vs.
Proof.
  revert vs; induction l as [|p l IH]; intros vs; cbn.
  - split; [intros [= <-]; reflexivity|]. destruct vs; [reflexivity|discriminate].
  - split.
    + intros H. destruct p; try discriminate. destruct (all_strings l) as [ws|]; [|discriminate].
      injection H as <-. cbn. f_equal. apply IH. reflexivity.
    + intros H. destruct vs as [|v vs]; [discriminate|]. injection H as -> ->.
      rewrite (proj2 (IH vs) eq_refl). reflexivity.
Qed.
Lemma allowed_ok env path b r vs : allowed_of env path b = Ok r ->
  (r = Some vs <-> entry_value env path b (L "allowed_values") (PList (map PStr vs))).
Proof.
  rewrite entry_value_find. unfold allowed_of. destruct (find_field_by_name b (L "allowed_values")) as [f|].
  - destruct (field_value env path f) as [v| |] eqn:F.
    + destruct v; intros [= <-]; try (split; [discriminate|]; intros (g & [= <-] & X); rewrite F in X; congruence).
      split.
      * intros H. apply all_strings_some in H. subst. eauto.
      * intros (g & [= <-] & X). rewrite F in X. injection X as ->. apply all_strings_some. reflexivity.
    + intros [= <-]. split; [discriminate|]. intros (g & [= <-] & X). congruence.
    + discriminate.
  - intros [= <-]. split; [discriminate|]. intros (g & [=] & _).
Qed.
Lemma convert_type_ok s t : convert_field_type s = Ok t <-> s = type_word t.
Proof.
  unfold convert_field_type. split.
  - repeat (match goal with |- context [str_eqb s ?x] => destruct (str_eqb_spec s x) as [->|?] end;
            [intros [= <-]; reflexivity|]). discriminate.
  - intros ->. destruct t; reflexivity.
Qed.

Lemma omap_err_ok {E F A} (f : E -> F) (o : outcome E A) a : omap_err f o = Ok a <-> o = Ok a.
Proof. destruct o; cbn; split; congruence. Qed.

Lemma convert_field_ok env path k b id f : convert_schema_field env path k b = Ok (id, f) ->
  declares env path b (decl_of (id, f)) /\ fs_order f = k.
Proof.
  unfold convert_schema_field. intros H.
  apply obind_ok in H as (name & H1 & H). apply omap_err_ok in H1.
  apply obind_ok in H as (ts & H2 & H). apply omap_err_ok in H2.
  apply obind_ok in H as (t & H3 & H). apply obind_ok in H as (req & H4 & H). apply omap_err_ok in H4.
  apply text_of_ok in H1, H2. apply convert_type_ok in H3. subst ts. pose proof (required_ok _ _ _ _ H4) as R.
  destruct (field_type_eqb t TEnum) eqn:T.
  - apply field_type_eqb_eq in T. subst t. apply obind_ok in H as (al & H5 & H). apply omap_err_ok in H5.
    pose proof (fun vs => allowed_ok _ _ _ _ vs H5) as A. destruct al as [vs|]; injection H as <- <-.
    + split; [|reflexivity]. repeat split; cbn; auto; try apply R.
      * injection H as <-. exists vs. split; [apply A; reflexivity|]. apply normal_list; reflexivity.
      * intros (_ & us & Hu & N). apply A in Hu. injection Hu as <-. apply normal_list in N. congruence.
    + split; [|reflexivity]. repeat split; cbn; auto; try apply R; try discriminate.
      intros (_ & us & Hu & N). apply A in Hu. discriminate.
  - injection H as <- <-. split; [|reflexivity]. repeat split; cbn; auto; try apply R; try discriminate.
    intros (E & _). subst t. discriminate.
Qed.

(** [declares] determines the declaration. *)
Lemma declares_det env path b d d' : declares env path b d -> declares env path b d' -> d = d'.
Proof.
  intros (N & T & R & A) (N' & T' & R' & A').
  apply entry_value_find in N as (f & F & V), N' as (f' & F' & V').
  rewrite F in F'. injection F' as <-. rewrite V in V'. injection V' as EN.
  apply entry_value_find in T as (g & G & W), T' as (g' & G' & W').
  rewrite G in G'. injection G' as <-. rewrite W in W'. injection W' as ET.
  assert (ET' : d_type d = d_type d') by (destruct (d_type d), (d_type d'); cbn in ET; congruence).
  assert (ER : d_required d = d_required d').
  { destruct (d_required d), (d_required d'); auto; [symmetry; apply R', R|apply R, R']; reflexivity. }
  assert (EA : d_allowed d = d_allowed d').
  { destruct (d_allowed d) as [ws|] eqn:E.
    - symmetry. apply A'. rewrite <- ET'. apply A. reflexivity.
    - destruct (d_allowed d') as [ws|] eqn:E'; auto. apply A. rewrite ET'. apply A'. reflexivity. }
  destruct d, d'; cbn in *; congruence.
Qed.

Fixpoint add_decls (l : list decl) (ds : list decl) : list decl :=
  match ds with
  | [] => l
  | d :: ds' => add_decls (filter (fun e => negb (str_eqb (d_name e) (d_name d))) l ++ [d]) ds'
  end.
Lemma add_decls_last l ds : add_decls l ds = filter (fun e => negb (str_in (d_name e) (map d_name ds))) l ++ last_wins ds.
Proof.
  revert l; induction ds as [|d ds IH]; intros l; cbn [add_decls last_wins map].
  - rewrite app_nil_r. symmetry. clear. induction l as [|x l IHl]; cbn; [reflexivity|f_equal; exact IHl].
  - rewrite IH, filter_app. cbn [filter].
    assert (E : filter (fun e => negb (str_in (d_name e) (map d_name ds)))
                  (filter (fun e => negb (str_eqb (d_name e) (d_name d))) l)
                = filter (fun e => negb (str_in (d_name e) (d_name d :: map d_name ds))) l).
    { clear IH. induction l as [|x l IHl]; cbn [filter]; auto. unfold str_in in *. cbn [existsb].
      destruct (str_eqb (d_name x) (d_name d)); cbn [negb orb filter]; rewrite IHl; reflexivity. }
    rewrite E, <- app_assoc. f_equal. destruct (str_in (d_name d) (map d_name ds)); reflexivity.
Qed.

Lemma map_decl_others id l : map decl_of (others id l) = filter (fun e => negb (str_eqb (d_name e) id)) (map decl_of l).
Proof.
  unfold others. induction l as [|p l IH]; [reflexivity|]. cbn [map filter decl_of d_name].
  unfold field_id in *. destruct (negb (str_eqb (fst p) id)); cbn [map]; [f_equal|]; exact IH.
Qed.

Lemma convert_fields_ok env path bs : forall k s l s', laid s k l ->
  convert_schema_fields env path k bs s = Ok s' ->
  exists ds l', Forall2 (declares env path) bs ds /\ laid s' (k + length bs) l' /\
    map decl_of l' = add_decls (map decl_of l) ds /\ s_type s' = s_type s.
Proof.
  induction bs as [|b bs IH]; intros k s l s' La H; cbn [convert_schema_fields] in H.
  - injection H as <-. exists [], l. rewrite Nat.add_0_r. auto.
  - apply obind_ok in H as ([id f] & H1 & H). apply convert_field_ok in H1 as [D O]. subst k.
    apply (IH (S (fs_order f)) _ (others id l ++ [(id, f)])) in H as (ds & l' & F & La' & E & T).
    + exists (decl_of (id, f) :: ds), l'. split; [constructor; auto|]. cbn [length].
      replace (fs_order f + S (length bs)) with (S (fs_order f) + length bs) by lia. split; [exact La'|]. split; [|exact T].
      cbn [add_decls]. rewrite E, map_app, map_decl_others. reflexivity.
    + apply (laid_add s (fs_order f)); auto.
Qed.

Lemma to_schema_ok env path n s : to_schema env path n = Ok s ->
  exists name ds k l, sn_name n = Some name /\ s_type s = new_id name /\
    Forall2 (declares env path) (schema_fields n) ds /\ laid s k l /\ map decl_of l = last_wins ds.
Proof.
  unfold to_schema. intros H. apply obind_ok in H as (name & H1 & H).
  destruct (sn_name n) as [name'|]; cbn in H1; [|discriminate]. injection H1 as ->.
  apply (convert_fields_ok env path _ 0 _ []) in H as (ds & l' & F & La & E & T); [|apply laid_new].
  exists name, ds, (0 + length (schema_fields n)), l'. rewrite E. cbn [map]. rewrite add_decls_last. cbn. auto.
Qed.

(** Nothing in the block crashes the reader. *)
Definition no_panic_in (env : dsl_env) (path : str) (b : nblock) : Prop :=
  forall f, (exists fs, nb_body b = Some fs /\ In f fs) -> field_value env path f <> Panic.
Lemma find_by_name_in b name f : find_field_by_name b name = Some f -> exists fs, nb_body b = Some fs /\ In f fs.
Proof. unfold find_field_by_name. destruct (nb_body b) as [fs|]; [|discriminate]. intros H. apply find_some in H as [H _]. eauto. Qed.
Lemma declares_convert env path k b d : declares env path b d -> no_panic_in env path b ->
  exists f, convert_schema_field env path k b = Ok (d_name d, f) /\ fs_order f = k.
Proof.
  intros (N & T & R & A) NP. unfold convert_schema_field.
  apply text_of_ok in N, T. rewrite N, T. cbn [omap_err obind].
  rewrite (proj2 (convert_type_ok _ _) eq_refl). cbn [obind].
  assert (RQ : exists r, required_of env path b = Ok r).
  { unfold required_of. destruct (find_field_by_name b (L "required")) as [f|] eqn:F; [|eauto].
    specialize (NP f (find_by_name_in _ _ _ F)). destruct (field_value env path f) as [v| |]; [destruct v; eauto|eauto|congruence]. }
  destruct RQ as (r & RQ). rewrite RQ. cbn [omap_err obind].
  destruct (field_type_eqb (d_type d) TEnum); [|eexists; split; reflexivity].
  assert (AQ : exists r, allowed_of env path b = Ok r).
  { unfold allowed_of. destruct (find_field_by_name b (L "allowed_values")) as [f|] eqn:F; [|eauto].
    specialize (NP f (find_by_name_in _ _ _ F)). destruct (field_value env path f) as [v| |]; [destruct v; eauto|eauto|congruence]. }
  destruct AQ as (al & AQ). rewrite AQ. cbn [omap_err obind]. destruct al; eexists; split; reflexivity.
Qed.
Lemma declares_to_schema env path n name ds : sn_name n = Some name ->
  Forall2 (declares env path) (schema_fields n) ds -> Forall (no_panic_in env path) (schema_fields n) ->
  exists s, to_schema env path n = Ok s.
Proof.
  intros N F P. unfold to_schema. rewrite N. cbn [of_option obind]. generalize (schema_new (new_id name)) as s. generalize 0 as k.
  induction F as [|b d bs ds D F IH]; intros k s; cbn [convert_schema_fields]; [eauto|].
  inversion P as [|? ? P1 P2]; subst. destruct (declares_convert env path k b d D P1) as (f & E & _). rewrite E. cbn [obind].
  apply IH. exact P2.
Qed.

(** ** Writing and reading back *)
Lemma trim_quoted s : ~ In DQ s -> trim_matches_char DQ (quoted s) = s.
Proof.
  intros H. unfold quoted. change ([DQ] ++ s ++ [DQ]) with (DQ :: (s ++ [DQ])).
  assert (E : trim_matches_char DQ (DQ :: (s ++ [DQ])) = trim_matches_char DQ (s ++ [DQ])).
  { unfold trim_matches_char. f_equal. }
  rewrite E. apply trim_final_quote; intros r X; apply H; rewrite X; [left; reflexivity|apply in_app_iff; right; left; reflexivity].
Qed.
Lemma parse_plain s : plain_text s -> parse_string (quoted s) = Ok (PStr s).
Proof.
  intros [H _]. unfold parse_string.
  assert (N : starts_with (quoted s) q3 = false).
  { unfold quoted, q3. destruct s as [|c s]; [reflexivity|]. cbn [app starts_with]. rewrite Ascii.eqb_refl. cbn [andb].
    destruct (Ascii.eqb_spec DQ c) as [<-|]; [exfalso; apply H; left; reflexivity|]. cbn [andb]. reflexivity. }
  rewrite N. cbn [andb]. rewrite trim_quoted; auto.
Qed.
Lemma type_word_string t : field_type_to_string t = type_word t.
Proof. destruct t; reflexivity. Qed.
Lemma type_word_plain t : plain_text (type_word t).
Proof. destruct t; split; intros H; cbn in H; decompose [or] H; try discriminate; contradiction. Qed.

Lemma omap_text env path vs : Forall plain_text vs -> omap (from_node env path) (map text_node vs) = Ok (map PStr vs).
Proof.
  intros H. apply omap_ok. induction H as [|v vs Hv H IH]; cbn; constructor; auto. unfold text_node. cbn [from_node].
  apply parse_plain; auto.
Qed.
Lemma check_strings vs : forall k, check_items (Some (L "String")) k (map PStr vs) = None.
Proof. induction vs as [|v vs IH]; intros k; cbn [map check_items type_name]; auto. rewrite str_eqb_refl. apply IH. Qed.
Lemma text_list env path raw vs : Forall plain_text vs ->
  from_node env path (VNode (Some KList) raw (map text_node vs)) = Ok (PList (map PStr vs)).
Proof.
  intros H. rewrite from_node_list, omap_text by auto. cbn [obind]. unfold parse_list_from_vec.
  destruct vs as [|v vs]; [reflexivity|]. cbn [map check_items type_name]. rewrite check_strings. reflexivity.
Qed.

Definition back (k : nat) (p : field_id * fschema) : field_id * fschema :=
  (fst p, {| fs_type := fs_type (snd p); fs_required := fs_required (snd p); fs_order := k;
             fs_allowed := if field_type_eqb (fs_type (snd p)) TEnum then option_map (map normal_text) (fs_allowed (snd p)) else None |}).
Lemma read_block env path k p : plain_field p -> convert_schema_field env path k (written_block p) = Ok (back k p).
Proof.
  destruct p as [id f]. intros [N A]. cbn [fst snd] in *. unfold convert_schema_field.
  assert (V : forall s, plain_text s -> field_value env path (field_node (L "name") (text_node s)) = Ok (PStr s)).
  { intros s Hs. cbn. apply parse_plain; auto. }
  assert (E1 : text_of env path (written_block (id, f)) (L "name") = Ok id).
  { unfold text_of, find_field_by_name, written_block. cbn [nb_body find field_node fn_id fst].
    rewrite str_eqb_refl. cbn [of_option obind]. unfold field_value, field_node, text_node. cbn [fn_value from_node].
    rewrite parse_plain by auto. reflexivity. }
  assert (E2 : text_of env path (written_block (id, f)) (L "type") = Ok (type_word (fs_type f))).
  { unfold text_of, find_field_by_name, written_block. cbn [nb_body find field_node fn_id fst snd].
    replace (str_eqb (L "name") (L "type")) with false by reflexivity.
    rewrite str_eqb_refl. cbn [of_option obind]. unfold field_value, field_node, text_node. cbn [fn_value from_node].
    rewrite parse_plain by apply type_word_plain. reflexivity. }
  assert (E3 : required_of env path (written_block (id, f)) = Ok (fs_required f)).
  { unfold required_of, find_field_by_name, written_block. cbn [nb_body find field_node fn_id fst snd].
    replace (str_eqb (L "name") (L "required")) with false by reflexivity.
    replace (str_eqb (L "type") (L "required")) with false by reflexivity.
    destruct (fs_allowed f); cbn [app find field_node fn_id].
    - replace (str_eqb (L "allowed_values") (L "required")) with false by reflexivity. rewrite str_eqb_refl.
      unfold field_value, field_node. cbn [fn_value from_node]. destruct (fs_required f); reflexivity.
    - rewrite str_eqb_refl. unfold field_value, field_node. cbn [fn_value from_node]. destruct (fs_required f); reflexivity. }
  assert (E4 : allowed_of env path (written_block (id, f)) = Ok (fs_allowed f)).
  { unfold allowed_of, find_field_by_name, written_block. cbn [nb_body find field_node fn_id fst snd].
    replace (str_eqb (L "name") (L "allowed_values")) with false by reflexivity.
    replace (str_eqb (L "type") (L "allowed_values")) with false by reflexivity.
    destruct (fs_allowed f) as [vs|] eqn:F; cbn [app find field_node fn_id].
    - rewrite str_eqb_refl. unfold field_value, field_node. cbn [fn_value]. rewrite text_list by (apply A; reflexivity).
      f_equal. apply all_strings_some. reflexivity.
    - replace (str_eqb (L "required") (L "allowed_values")) with false by reflexivity. reflexivity. }
  rewrite E1, E2. cbn [omap_err obind]. rewrite (proj2 (convert_type_ok _ _) eq_refl), E3. cbn [omap_err obind].
  unfold back. cbn [fst snd]. destruct (field_type_eqb (fs_type f) TEnum) eqn:T; [|reflexivity].
  rewrite E4. cbn [omap_err obind]. apply field_type_eqb_eq in T. rewrite T.
  destruct (fs_allowed f); reflexivity.
Qed.

Lemma schema_fields_written ho s : schema_fields (written_schema ho s) = map written_block (ordered_fields ho s).
Proof.
  unfold schema_fields, written_schema. cbn [sn_blocks]. generalize (ordered_fields ho s). intros l.
  induction l as [|p l IH]; cbn [map filter]; auto. cbn [nb_type written_block]. rewrite str_eqb_refl, IH. reflexivity.
Qed.

Lemma back_decl k p : decl_of (back k p) = decl_of p <-> storable_field p.
Proof.
  destruct p as [id f]. unfold storable_field, decl_of, back. cbn [fst snd fs_type fs_required fs_allowed].
  split.
  - intros H. apply (f_equal d_allowed) in H. cbn in H. intros vs A. rewrite A in H.
    destruct (field_type_eqb (fs_type f) TEnum) eqn:T; [|discriminate].
    apply field_type_eqb_eq in T. split; auto. cbn in H. injection H as H.
    clear A T. induction vs as [|v vs IH]; cbn in H; constructor; [|apply IH]; injection H as H1 H2; auto.
    apply normal_iff. auto.
  - intros H. f_equal. destruct (fs_allowed f) as [vs|]; [|destruct (field_type_eqb _ _); reflexivity].
    destruct (H vs eq_refl) as [T N]. rewrite T. cbn. f_equal. clear H T.
    induction N as [|v vs Hv N IH]; cbn; auto. apply normal_iff in Hv. congruence.
Qed.

Lemma read_back_fields env path l : Forall plain_field l -> forall k s l0, laid s k l0 -> NoDup (map fst l0 ++ map fst l) ->
  exists s' l', convert_schema_fields env path k (map written_block l) s = Ok s' /\ s_type s' = s_type s /\
    laid s' (k + length l) (l0 ++ l') /\
    map decl_of l' = map (fun p => decl_of (back 0 p)) l.
Proof.
  induction 1 as [|p l Hp H IH]; intros k s l0 La ND; cbn [map convert_schema_fields].
  - exists s, []. rewrite app_nil_r, Nat.add_0_r. auto.
  - rewrite read_block by auto. cbn [obind]. unfold back at 1.
    assert (FR : ~ In (fst p) (map fst l0)).
    { intros X. cbn [map] in ND. apply NoDup_remove_2 in ND. apply ND, in_app_iff. left; auto. }
    set (f := snd (back k p)).
    pose proof (laid_add s k l0 (fst p) f La (le_n k)) as La1. rewrite others_fresh in La1 by auto. cbn [fs_order f back snd] in La1.
    destruct (IH (S k) _ _ La1) as (s' & l' & E & T & La2 & D).
    { rewrite map_app. cbn [map fst]. rewrite <- app_assoc. exact ND. }
    exists s', ((fst p, f) :: l'). split; [exact E|]. split; [exact T|]. cbn [length].
    replace (k + S (length l)) with (S k + length l) by lia. split.
    + rewrite <- app_assoc in La2. exact La2.
    + cbn [map]. rewrite D. reflexivity.
Qed.

Lemma ordered_perm ho s : shuffles ho -> Permutation (ordered_fields ho s) (s_fields s).
Proof. intros O. unfold ordered_fields. eapply perm_trans; [apply sort_by_perm|apply O]. Qed.

Lemma schema_read_back env ho path s : shuffles ho -> well_formed s -> Forall plain_field (s_fields s) ->
  exists s' k l, to_schema env path (written_schema ho s) = Ok s' /\ s_type s' = new_id (s_type s) /\ laid s' k l /\
    map decl_of l = map (fun p => decl_of (back 0 p)) (ordered_fields ho s).
Proof.
  intros O W P. pose proof (ordered_perm ho s O) as Pm.
  destruct (read_back_fields env path (ordered_fields ho s)) with (k := 0) (s := schema_new (new_id (s_type s))) (l0 := @nil (field_id * fschema))
    as (s' & l' & E & T & La & D).
  - eapply Permutation_Forall; [symmetry; exact Pm|exact P].
  - apply laid_new.
  - cbn [map app]. eapply Permutation_NoDup; [apply Permutation_map; symmetry; exact Pm|exact W].
  - exists s', (0 + length (ordered_fields ho s)), l'. unfold to_schema. rewrite schema_fields_written.
    unfold written_schema at 1. cbn [sn_name of_option obind]. auto.
Qed.

(** ** The text *)
Lemma allowed_rendered vs : allowed_text vs = L "[" ++ join (L ", ") (map quoted vs) ++ L "]".
Proof. reflexivity. Qed.
Lemma block_text o p : generate_schema_field o p = render_block o (written_block p).
Proof.
  destruct p as [id f]. unfold generate_schema_field, render_block, written_block, lines_at.
  cbn [nb_type nb_body]. rewrite type_word_string.
  set (i1 := indent_string (g_indent o) 1). set (i2 := indent_string (g_indent o) 2).
  change (L "field {") with (L "field" ++ L " {"). change (L "name = ") with (L "name" ++ L " = ").
  change (L "type = ") with (L "type" ++ L " = "). change (L "required = ") with (L "required" ++ L " = ").
  change (L "allowed_values = ") with (L "allowed_values" ++ L " = ").
  destruct (fs_allowed f) as [vs|] eqn:A; cbn [map fst snd app concat]; rewrite ?A; unfold render_field; cbn [map fst snd app concat field_node fn_id fn_value];
    unfold render_value, text_node, bool_text, allowed_text; rewrite ?app_nil_r, <- ?app_assoc; reflexivity.
Qed.
Lemma schema_text ho o s : generate_schema ho o s = render_schema o (written_schema ho s).
Proof.
  unfold generate_schema, render_schema, written_schema. cbn [sn_name sn_blocks]. rewrite map_map.
  do 4 f_equal. f_equal. f_equal. apply map_ext. intros p. apply block_text.
Qed.

(** ** Normal forms *)
Lemma ws_lower w : In w ws_chars -> forall t, lower t = w -> t = w.
Proof.
  intros H. assert (Q : forallb (fun c => negb (is_lower c)) w = true).
  { revert w H. apply Forall_forall. unfold ws_chars, bytes. cbn [map]. repeat constructor. }
  clear H. intros t. revert w Q. induction t as [|c t IH]; intros w Q E; [exact E|].
  destruct w as [|d w]; [discriminate|]. injection E as E1 E2. cbn in Q. apply andb_prop in Q as [Q1 Q2].
  f_equal; [|apply IH; auto]. destruct (is_upper c) eqn:U; [|rewrite <- E1; symmetry; apply lower_ascii_id; auto].
  exfalso. assert (L : is_lower (lower_ascii c) = true).
  { unfold is_lower. rewrite code_lower_upper by auto. unfold is_upper in U. apply andb_prop in U as [A B].
    apply N.leb_le in A, B. apply andb_true_intro. split; apply N.leb_le; lia. }
  rewrite E1 in L. rewrite L in Q1. discriminate.
Qed.
Lemma lower_space_start t : starts_with_space (lower t) -> starts_with_space t.
Proof.
  intros (w & r & Hw & E). exists w, (skipn (length w) t). split; auto.
  assert (F : firstn (length w) t = w).
  { apply (ws_lower w Hw). unfold lower. rewrite <- firstn_map. fold (lower t). rewrite E, firstn_app, Nat.sub_diag, firstn_all. cbn. apply app_nil_r. }
  rewrite <- F at 1. rewrite firstn_skipn. reflexivity.
Qed.
Lemma lower_space_end t : ends_with_space (lower t) -> ends_with_space t.
Proof.
  intros (w & r & Hw & E). exists w, (firstn (length r) t). split; auto.
  assert (F : skipn (length r) t = w).
  { apply (ws_lower w Hw). unfold lower. rewrite <- skipn_map. fold (lower t). rewrite E. apply skipn_app_len. }
  rewrite <- F. rewrite firstn_skipn. reflexivity.
Qed.
Lemma normal_idem x : normal_text (normal_text x) = normal_text x.
Proof.
  unfold normal_text. destruct (utrim_spec x) as (A & B & _).
  rewrite (proj2 (utrim_fixed (lower (utrim x)))).
  - apply lower_idem.
  - split; intros H; [apply A, lower_space_start|apply B, lower_space_end]; exact H.
Qed.
Lemma normal_fixed x : normal_of (normal_text x) (normal_text x).
Proof. apply normal_iff. symmetry. apply normal_idem. Qed.

Lemma declares_storable env path b p : declares env path b (decl_of p) -> storable_field p.
Proof.
  intros (_ & _ & _ & A) vs E. apply A in E as (T & us & _ & N). cbn in T. split; [exact T|].
  apply normal_list in N. subst. apply Forall_map, Forall_forall. intros u _. apply normal_fixed.
Qed.
Lemma last_wins_in d ds : In d (last_wins ds) -> In d ds.
Proof. induction ds as [|x ds IH]; cbn; [tauto|]. destruct (str_in _ _); cbn; intuition. Qed.
Lemma last_wins_distinct ds : NoDup (map d_name ds) -> last_wins ds = ds.
Proof.
  induction ds as [|x ds IH]; cbn; intros N; auto. inversion N as [|? ? N1 N2]; subst.
  rewrite (proj2 (str_in_not _ _) N1). rewrite IH; auto.
Qed.
Lemma read_schema_storable env path n s : to_schema env path n = Ok s -> Forall storable_field (s_fields s) /\ well_formed s.
Proof.
  intros H. apply to_schema_ok in H as (name & ds & k & l & _ & _ & F & La & E). split; [|exact (laid_keys _ _ _ La)].
  eapply Permutation_Forall; [symmetry; exact (laid_perm _ _ _ La)|]. apply Forall_forall. intros p Hp.
  assert (I : In (decl_of p) ds) by (apply last_wins_in; rewrite <- E; apply in_map; auto).
  assert (X : exists b, declares env path b (decl_of p)).
  { revert I. clear - F. induction F as [|b d bs ds D F IH]; [intros []|]. intros [->|I]; eauto. }
  destruct X as (b & D). eapply declares_storable; eauto.
Qed.

(** ** Rendered entities *)
Lemma written_rendered env o v : well_rendered (written env o v).
Proof.
  revert v. apply (value_ind' (fun v => well_rendered (written env o v))); try (intros; exact I).
  intros vs H. rewrite written_list. cbn [well_rendered]. split.
  - cbn [generate_value]. rewrite map_map. destruct vs as [|v vs]; [reflexivity|].
    do 2 f_equal. f_equal. apply map_ext. intros u. destruct u; reflexivity.
  - induction H as [|v vs Hv H IH]; cbn [map]; auto.
Qed.
Lemma entity_text env o e : generate_entity env o e = render_entity o (written_entity env o e).
Proof.
  unfold generate_entity, render_entity, written_entity. cbn [en_type en_id en_fields].
  destruct (decompose_entity_id (e_id e)) as [t i]. cbn [snd]. unfold lines_at. rewrite !map_map.
  do 5 f_equal. f_equal. f_equal. apply map_ext. intros [f v]. unfold render_field, generate_field. cbn [fn_id fn_value fst snd].
  replace (render_value (written env o v)) with (generate_value env o v) by (destruct v; reflexivity). reflexivity.
Qed.
Lemma entities_text env o es : generate_dsl env o es = render_entities o (map (written_entity env o) es).
Proof.
  induction es as [|e es IH]; [reflexivity|]. cbn [generate_dsl map render_entities]. rewrite entity_text, IH.
  destruct es; reflexivity.
Qed.
