(** Lemmas for C82. *)
From Coq Require Import Lia Permutation.
From Verif Require Import S_Graph S_Query L_Graph L_Sort L_Filter L_Order L_Related L_Exec.
From Verif Require Import S_Spread L_Str L_DslStr L_DslVal L_Fs L_Load L_Workspace L_History L_Life L_Crash.
From Verif Require P_Graph L_Laws.
From Verif Require Import M_Fs M_Dsl.
Close Scope Z_scope.

(** ** Reading does not depend on the file *)
Section reading.
  Context (env : dsl_env) (p p' : str).
  Lemma value_elsewhere n : pathless n -> from_node env p n = from_node env p' n.
  Proof.
    induction n as [k raw items IH] using vnode_ind'. intros P. inversion P as [k' raw' items' NK F]; subst. cbn [from_node].
    destruct k as [k|]; [|reflexivity]. destruct k; try reflexivity.
    - f_equal. clear -IH F. induction IH as [|v l H IH IHl]; [reflexivity|]. inversion F; subst. cbn [omap]. rewrite (H H2), (IHl H3). reflexivity.
    - congruence.
  Qed.
  Lemma value_in_directory n : path_parent p = path_parent p' -> from_node env p n = from_node env p' n.
  Proof.
    intros E. induction n as [k raw items IH] using vnode_ind'. cbn [from_node]. destruct k as [k|]; [|reflexivity]. destruct k; try reflexivity.
    - f_equal. clear -IH. induction IH as [|v l H IH IHl]; [reflexivity|]. cbn [omap]. rewrite H, IHl. reflexivity.
    - unfold parse_path. rewrite E. reflexivity.
  Qed.
  Definition field_alike (f : fnode) : Prop := field_value env p f = field_value env p' f.
  Lemma field_elsewhere f : pathless_field f \/ path_parent p = path_parent p' -> field_alike f.
  Proof.
    intros H. unfold field_alike, field_value. destruct (fn_value f) as [v|] eqn:V; [|reflexivity].
    destruct H as [H|H]; [apply value_elsewhere, H, V|apply value_in_directory, H].
  Qed.
  Lemma entity_alike n : Forall field_alike (en_fields n) -> to_entity env p n = to_entity env p' n.
  Proof.
    intros H. unfold to_entity. destruct (of_option _ (en_type n)); try reflexivity. cbn [obind]. destruct (of_option _ (en_id n)); try reflexivity. cbn [obind].
    f_equal. induction H as [|f fs H F IH]; [reflexivity|]. cbn [omap]. rewrite IH. unfold convert_field at 1 3. rewrite H. reflexivity.
  Qed.
  Lemma find_name b name f : find_field_by_name b name = Some f -> exists fs, nb_body b = Some fs /\ In f fs.
  Proof.
    unfold find_field_by_name. destruct (nb_body b) as [fs|]; [|discriminate]. intros H. apply find_some in H as [H _]. eauto.
  Qed.
  Lemma schema_alike n : (forall nb fs, In nb (sn_blocks n) -> nb_body nb = Some fs -> Forall field_alike fs) -> to_schema env p n = to_schema env p' n.
  Proof.
    intros H. unfold to_schema. destruct (of_option _ (sn_name n)) as [name| |]; try reflexivity. cbn [obind]. unfold schema_fields.
    assert (G : forall nb fs, In nb (filter (fun b => match nb_type b with Some t => str_eqb t (L "field") | None => false end) (sn_blocks n)) -> nb_body nb = Some fs -> Forall field_alike fs).
    { intros nb fs I. apply filter_In in I as [I _]. exact (H nb fs I). }
    clear H. revert G. generalize 0 (schema_new (new_id name)). generalize (filter (fun b => match nb_type b with Some t => str_eqb t (L "field") | None => false end) (sn_blocks n)).
    induction l as [|b l IH]; intros k s G; [reflexivity|]. cbn [convert_schema_fields].
    assert (A : forall nm f, find_field_by_name b nm = Some f -> field_value env p f = field_value env p' f).
    { intros nm f E. apply find_name in E as (fs & B & I). pose proof (G b fs (or_introl eq_refl) B) as F. rewrite Forall_forall in F. exact (F f I). }
    assert (T : forall nm, text_of env p b nm = text_of env p' b nm).
    { intros nm. unfold text_of. destruct (find_field_by_name b nm) as [f|] eqn:E; [|reflexivity]. cbn [of_option obind]. rewrite (A nm f E). reflexivity. }
    assert (C : convert_schema_field env p k b = convert_schema_field env p' k b).
    { unfold convert_schema_field. rewrite !T.
      assert (R : required_of env p b = required_of env p' b) by (unfold required_of; destruct (find_field_by_name b _) eqn:E; [rewrite (A _ _ E)|]; reflexivity).
      assert (W : allowed_of env p b = allowed_of env p' b) by (unfold allowed_of; destruct (find_field_by_name b _) eqn:E; [rewrite (A _ _ E)|]; reflexivity).
      rewrite R, W. reflexivity. }
    rewrite C. destruct (convert_schema_field env p' k b) as [[id f]| |]; try reflexivity. cbn [obind]. apply IH. intros nb fs I. apply G. now right.
  Qed.
End reading.

(** ** Places of source files *)
Lemma sound_names d p r : sound d -> node_at d (p ++ r) <> None -> Forall proper_name r.
Proof.
  intros S. induction r as [|x r IH] using rev_ind; intros N; [constructor|]. rewrite app_assoc in N. destruct (S _ _ N) as [D P].
  apply Forall_app. split; [apply IH; congruence|]. repeat constructor; apply P.
Qed.
Lemma proper_noslash r : Forall proper_name r -> Forall (fun x => ~ In "/"%char x) r.
Proof. apply Forall_impl. intros x (_ & _ & _ & H). exact H. Qed.
Lemma parent_of r n : Forall proper_name (r ++ [n]) -> path_parent (path_text (r ++ [n])) = Some (join (L "/") r).
Proof. intros F. apply Forall_app in F as [F1 F2]. inversion F2; subst. exact (parent_file r n F1 H1). Qed.
Lemma text_inj r r' : r <> [] -> r' <> [] -> Forall proper_name r -> Forall proper_name r' -> path_text r = path_text r' -> r = r'.
Proof.
  intros N N' F F' E. apply (f_equal (split_char "/")) in E. unfold path_text in E.
  pose proof (split_char_join "/" r N (proper_noslash r F)) as X. pose proof (split_char_join "/" r' N' (proper_noslash r' F')) as X'.
  exact (eq_trans (eq_sym X) (eq_trans E X')).
Qed.
Lemma source_names d w r s : sound d -> source_of w d r s -> r <> [] /\ Forall proper_name r.
Proof.
  intros S (N & r' & n & -> & _). split; [destruct r'; discriminate|]. apply (sound_names d w); [exact S|congruence].
Qed.

(** ** The blocks of a workspace *)
Definition schema_at (a : path * block) : list (str * snode) := match snd a with SchemaBlock n => [(path_text (fst a), n)] | _ => [] end.
Definition entity_at (a : path * block) : list (str * enode) := match snd a with EntityBlock n => [(path_text (fst a), n)] | _ => [] end.
Definition listed (f : path * list block) : list (path * block) := map (pair (fst f)) (snd f).
Lemma schemas_at f : map (fun n => (path_text (fst f), n)) (schemas_in (snd f)) = flat_map schema_at (listed f).
Proof. destruct f as [r bs]. unfold listed. cbn [fst snd]. induction bs as [|[n|n] bs IH]; [reflexivity| |]; cbn; unfold schemas_in in IH; rewrite <- IH; reflexivity. Qed.
Lemma entities_at f : map (fun n => (path_text (fst f), n)) (entities_in (snd f)) = flat_map entity_at (listed f).
Proof. destruct f as [r bs]. unfold listed. cbn [fst snd]. induction bs as [|[n|n] bs IH]; [reflexivity| |]; cbn; unfold entities_in in IH; rewrite <- IH; reflexivity. Qed.
Lemma flat_map_flat {A B C} (f : A -> list B) (g : B -> list C) l : flat_map g (flat_map f l) = flat_map (fun a => flat_map g (f a)) l.
Proof. induction l as [|a l IH]; [reflexivity|]. cbn. rewrite flat_map_app, IH. reflexivity. Qed.
Lemma flat_map_map {A B C} (f : A -> B) (g : B -> list C) l : flat_map g (map f l) = flat_map (fun a => g (f a)) l.
Proof. induction l as [|a l IH]; [reflexivity|]. cbn. rewrite IH. reflexivity. Qed.

Section blocks.
  Context (c : ctx) (w : place) (d : fs) (R : readable c w d) (l : list (path * block)) (W : written_in w d l).
  Lemma readable_loads : exists fs, load_directory c d = M_Text.Ok fs /\
    Permutation (schema_blocks (c_files c fs)) (flat_map schema_at l) /\ Permutation (entity_blocks (c_files c fs)) (flat_map entity_at l).
  Proof.
    destruct R as [RI NL TD TX FS SH PS PC], W as (files & ND & I & J & P).
    destruct (load_directory_success c d w RI NL) as (fs & LD).
    { intros r s S. split; [exact (TX r s S)|]. destruct (J r s S) as (bs & K). destruct (I r bs K) as (s' & S' & F).
      assert (s' = s) by (destruct S, S'; congruence). subst s'. rewrite (FS bs s F). discriminate. }
    exists fs. split; [exact LD|]. destruct (load_directory_spec c d w fs RI NL TD LD) as (N & L & _). pose proof RI as (SD & _).
    assert (Q : Permutation fs (map (fun f => S_Server.loaded c (fst f) (tree_of (snd f))) files)).
    { apply NoDup_Permutation; [exact (NoDup_map_inv _ _ N)| |].
      - clear -ND I SD. induction files as [|[r bs] files IH]; [constructor|]. inversion ND as [|? ? N1 N2]; subst. cbn [map fst snd]. constructor.
        + intros H. apply in_map_iff in H as ([r' bs'] & E & H). cbn [fst snd] in E. unfold S_Server.loaded in E. injection E as _ E _ _.
          destruct (I r bs (or_introl eq_refl)) as (s & S & _), (I r' bs' (or_intror H)) as (s' & S' & _).
          destruct (source_names d w r s SD S), (source_names d w r' s' SD S'). apply text_inj in E; auto. subst r'. apply N1. apply (in_map fst) in H. exact H.
        + apply IH; [exact N2|]. intros r' bs' H. apply (I r' bs'). now right.
      - intros e. rewrite L, in_map_iff. split.
        + intros (r & s & ps & S & Q & ->). destruct (J r s S) as (bs & K). destruct (I r bs K) as (s' & S' & F).
          assert (s' = s) by (destruct S, S'; congruence). subst s'. rewrite (FS bs s F) in Q. injection Q as <-. exists (r, bs). auto.
        + intros ([r bs] & <- & K). destruct (I r bs K) as (s & S & F). exists r, s, (tree_of bs). auto. }
    assert (Q' : Permutation (c_files c fs) (map (fun f => S_Server.loaded c (fst f) (tree_of (snd f))) files)) by (rewrite (PC fs); exact Q).
    split.
    - etransitivity; [apply (perm_flat_map _ _ _ Q')|]. etransitivity; [|symmetry; apply (perm_flat_map schema_at _ _ P)].
      rewrite flat_map_map, flat_map_flat. rewrite (flat_map_ext _ (fun f => flat_map schema_at (map (pair (fst f)) (snd f)))); [reflexivity|]. intros f. apply schemas_at.
    - etransitivity; [apply (perm_flat_map _ _ _ Q')|]. etransitivity; [|symmetry; apply (perm_flat_map entity_at _ _ P)].
      rewrite flat_map_map, flat_map_flat. rewrite (flat_map_ext _ (fun f => flat_map entity_at (map (pair (fst f)) (snd f)))); [reflexivity|]. intros f. apply entities_at.
  Qed.
  Lemma block_source a : In a l -> exists s, source_of w d (fst a) s.
  Proof.
    destruct W as (files & ND & I & J & P). intros H. apply (Permutation_in _ P) in H. apply in_flat_map in H as ([r bs] & K & H).
    apply in_map_iff in H as (b & <- & _). destruct (I r bs K) as (s & S & _). eauto.
  Qed.
End blocks.

(** ** The same blocks *)
Lemma moved_reads env a b : Forall proper_name (fst a) -> Forall proper_name (fst b) -> fst a <> [] -> fst b <> [] -> moved a b ->
  map (fun x => to_schema env (fst x) (snd x)) (schema_at a) = map (fun x => to_schema env (fst x) (snd x)) (schema_at b) /\
  map (fun x => to_entity env (fst x) (snd x)) (entity_at a) = map (fun x => to_entity env (fst x) (snd x)) (entity_at b).
Proof.
  destruct a as [r k], b as [r' k']. intros F F' N N' [E D]. cbn [fst snd] in *. subst k'. rename k into b.
  assert (D' : pathless_block b \/ path_parent (path_text r) = path_parent (path_text r')).
  { destruct D as [D|D]; [now left|right]. destruct (exists_last N) as (q & n & ->), (exists_last N') as (q' & n' & ->).
    rewrite !removelast_last in D. subst q'. rewrite !parent_of by assumption. reflexivity. }
  clear D. unfold schema_at, entity_at. cbn [fst snd]. destruct b as [n|n]; cbn [map fst snd]; (split; [|try reflexivity]); try reflexivity; f_equal.
  - apply schema_alike. intros nb fs I B. apply Forall_forall. intros f K. apply field_elsewhere. destruct D' as [D|D]; [left|now right].
    cbn [pathless_block] in D. specialize (D nb fs I B). rewrite Forall_forall in D. auto.
  - apply entity_alike. apply Forall_forall. intros f K. apply field_elsewhere. destruct D' as [D|D]; [left|now right].
    cbn [pathless_block] in D. rewrite Forall_forall in D. auto.
Qed.
Lemma reads_map {A B E} (f : A -> outcome E B) l r : Forall2 (fun a b => f a = M_Text.Ok b) l r <-> map f l = map M_Text.Ok r.
Proof.
  split.
  - induction 1 as [|a b l r H F IH]; [reflexivity|]. cbn. now rewrite H, IH.
  - revert r; induction l as [|a l IH]; intros [|b r] H; try discriminate; constructor; cbn in H; injection H as H H'; auto.
Qed.
Lemma consistent_same env fs fs' ss es :
  Permutation (map (fun x => to_schema env (fst x) (snd x)) (schema_blocks fs)) (map (fun x => to_schema env (fst x) (snd x)) (schema_blocks fs')) ->
  Permutation (map (fun x => to_entity env (fst x) (snd x)) (entity_blocks fs)) (map (fun x => to_entity env (fst x) (snd x)) (entity_blocks fs')) ->
  consistent env fs ss es -> exists ss' es', consistent env fs' ss' es' /\ Permutation ss ss' /\ Permutation es es'.
Proof.
  intros P1 P2 (F1 & F2 & N & C). apply (reads_map (fun x => to_schema env (fst x) (snd x))) in F1. apply (reads_map (fun x => to_entity env (fst x) (snd x))) in F2.
  rewrite F1 in P1. rewrite F2 in P2. symmetry in P1, P2. apply Permutation_map_inv in P1 as (ss' & E1 & P1), P2 as (es' & E2 & P2).
  exists ss', es'. split; [|auto]. split; [apply (reads_map (fun x => to_schema env (fst x) (snd x))), E1|]. split; [apply (reads_map (fun x => to_entity env (fst x) (snd x))), E2|].
  split; [exact (Permutation_NoDup (Permutation_map _ P1) N)|]. intros e He. destruct (C e) as (s & I & H); [eapply Permutation_in; [symmetry; exact P2|exact He]|].
  exists s. split; auto. eapply Permutation_in; eauto.
Qed.
Lemma moved_all {A B} (f : path * block -> list A) (g : A -> B) l l' : Forall2 (fun a b => map g (f a) = map g (f b)) l l' ->
  map g (flat_map f l) = map g (flat_map f l').
Proof. induction 1 as [|a b l l' H F IH]; [reflexivity|]. cbn [flat_map]. now rewrite !map_app, H, IH. Qed.

Lemma rebuilt_alike c w d c' w' d' st : readable c w d -> readable c' w' d' -> c_env c' = c_env c -> same_blocks w d w' d' -> rebuild c d = M_Text.Ok st ->
  exists st', rebuild c' d' = M_Text.Ok st' /\ Permutation (b_entities (st_build st)) (b_entities (st_build st')) /\
    Permutation (b_schemas (st_build st)) (b_schemas (st_build st')).
Proof.
  intros R R' En (l & l' & W & W' & F) RB. destruct (readable_loads c w d R l W) as (fs & LD & S1 & E1), (readable_loads c' w' d' R' l' W') as (fs' & LD' & S2 & E2).
  assert (M : Forall2 (fun a b => map (fun x => to_schema (c_env c) (fst x) (snd x)) (schema_at a) = map (fun x => to_schema (c_env c) (fst x) (snd x)) (schema_at b) /\
      map (fun x => to_entity (c_env c) (fst x) (snd x)) (entity_at a) = map (fun x => to_entity (c_env c) (fst x) (snd x)) (entity_at b)) l l').
  { assert (A : forall a, In a l -> fst a <> [] /\ Forall proper_name (fst a)).
    { intros a I. destruct (block_source w d l W a I) as (s & S). apply (source_names d w _ s); [apply (rd_place _ _ _ R)|exact S]. }
    assert (A' : forall a, In a l' -> fst a <> [] /\ Forall proper_name (fst a)).
    { intros a I. destruct (block_source w' d' l' W' a I) as (s & S). apply (source_names d' w' _ s); [apply (rd_place _ _ _ R')|exact S]. }
    clear -F A A'. induction F as [|a b l l' H F IH]; constructor.
    - destruct (A a (or_introl eq_refl)), (A' b (or_introl eq_refl)). apply moved_reads; auto.
    - apply IH; intros x I; [apply A|apply A']; now right. }
  assert (M1 := moved_all schema_at (fun x => to_schema (c_env c) (fst x) (snd x)) l l').
  assert (M2 := moved_all entity_at (fun x => to_entity (c_env c) (fst x) (snd x)) l l').
  assert (M1' := M1 ltac:(clear -M; induction M as [|? ? ? ? [? ?]]; constructor; auto)).
  assert (M2' := M2 ltac:(clear -M; induction M as [|? ? ? ? [? ?]]; constructor; auto)). clear M1 M2.
  unfold rebuild in RB. rewrite LD in RB. cbn [omap_err obind] in RB.
  destruct (load_graph (c_env c) (c_fields c) (c_schemas c) (c_files c fs)) as [[b g]|e|] eqn:LG; try discriminate. cbn [obind fst snd] in RB. injection RB as <-. cbn [st_build st_graph].
  apply load_ok in LG as (BW & ND & Eg). apply (build_ok _ _ _ _ _ (rd_fields _ _ _ R)) in BW as (ss & C & Es).
  destruct (consistent_same (c_env c) (c_files c fs) (c_files c' fs') ss (b_entities b)) as (ss' & es' & C' & P1 & P2); [| |exact C|].
  { rewrite S1, S2, M1'. reflexivity. }
  { rewrite E1, E2, M2'. reflexivity. }
  assert (BW' : build_workspace (c_env c') (c_fields c') (c_schemas c') (c_files c' fs') = M_Text.Ok {| b_entities := es'; b_schemas := c_schemas c' ss' |}).
  { apply (build_ok _ _ _ _ _ (rd_fields _ _ _ R')). exists ss'. rewrite En. auto. }
  assert (LG' := proj2 (load_ok (c_env c') (c_fields c') (c_schemas c') (c_files c' fs') _ _) (conj BW' (conj (Permutation_NoDup (Permutation_map e_id P2) ND) eq_refl))).
  cbn [b_entities] in LG'. eexists. unfold rebuild. rewrite LD'. cbn [omap_err obind]. rewrite LG'. cbn [obind fst snd]. split; [reflexivity|]. cbn [st_build b_entities b_schemas].
  split; [exact P2|]. rewrite Es, (rd_schemas _ _ _ R ss), (rd_schemas _ _ _ R' ss'). exact P1.
Qed.
Lemma moved_sym l l' : Forall2 moved l l' -> Forall2 moved l' l.
Proof.
  induction 1 as [|[r b] [r' b'] l l' [E D] F IH]; constructor; [|exact IH]. cbn [fst snd] in *. subst b'. split; [reflexivity|]. cbn [fst snd]. destruct D; auto.
Qed.
Lemma same_blocks_sym w d w' d' : same_blocks w d w' d' -> same_blocks w' d' w d.
Proof. intros (l & l' & W & W' & F). exists l', l. split; [exact W'|]. split; [exact W|]. apply moved_sym, F. Qed.
Lemma lookup_perm es es' id : NoDup (map e_id es) -> Permutation es es' -> lookup es id = lookup es' id.
Proof.
  intros N P. destruct (lookup es id) as [e|] eqn:E.
  - apply lookup_some in E as [I <-]. symmetry. apply lookup_in; [exact (Permutation_NoDup (Permutation_map _ P) N)|eapply Permutation_in; eauto].
  - destruct (lookup es' id) as [e|] eqn:E'; [|reflexivity]. apply lookup_some in E' as [I <-]. apply (Permutation_in _ (Permutation_sym P)) in I.
    rewrite (lookup_in es e N I) in E. discriminate.
Qed.

(** ** Queries over the same entities in another order *)
Section two.
  Context (x : ext) (g g' : graph) (es es' : list entity).
  Context (B : L_Graph.built g es) (B' : L_Graph.built g' es') (P : Permutation es es') (ho ho' : hash_order) (O : orders ho) (O' : orders ho').
  Lemma select_two s : agree (select_from g ho s) (select_from g' ho' s).
  Proof.
    destruct s as [t|].
    - rewrite (select_type g es B ho t), (select_type g' es' B' ho' t).
      assert (E : existsb (fun e => str_eqb (e_type e) t) es = existsb (fun e => str_eqb (e_type e) t) es').
      { apply Bool.eq_true_iff_eq. rewrite !existsb_exists. split; intros (e & I & H); exists e; (split; [|exact H]); [exact (Permutation_in _ P I)|exact (Permutation_in _ (Permutation_sym P) I)]. }
      rewrite E. destruct (existsb _ es'); cbn [agree]; [apply L_Laws.filter_permutation, P|exact Logic.I].
    - pose proof (select_all g es B ho _ O eq_refl) as H. pose proof (select_all g' es' B' ho' _ O' eq_refl) as H'. cbn [select_from agree] in *.
      rewrite H, H'. exact P.
  Qed.
  Lemma within_two n a b : S_Query.within (fun a b => In b es /\ neighbour None a b) n a b -> S_Query.within (fun a b => In b es' /\ neighbour None a b) n a b.
  Proof. induction 1 as [|n a b c [H1 H2] W IH]; [constructor|]. econstructor; [|exact IH]. split; [eapply Permutation_in; eauto|exact H2]. Qed.
End two.
Section both.
  Context (x : ext) (g g' : graph) (es es' : list entity).
  Context (B : L_Graph.built g es) (B' : L_Graph.built g' es') (P : Permutation es es') (ho ho' : hash_order) (O : orders ho) (O' : orders ho').
  Lemma related_two n n' d t l l' : good es l -> good es' l' -> Permutation l l' -> Permutation (related_step g ho n d t l) (related_step g' ho' n' d t l').
  Proof.
    intros [I N] [I' N'] Q. destruct d as [|d]; [exact Q|].
    apply NoDup_Permutation.
    - exact (nodup_of_ids e_id _ (related_nodup g es B ho O n (S d) t l ltac:(lia))).
    - exact (nodup_of_ids e_id _ (related_nodup g' es' B' ho' O' n' (S d) t l' ltac:(lia))).
    - intros e. rewrite (related_in g es B ho O), (related_in g' es' B' ho' O') by (auto; lia).
      split; intros (H1 & H2 & a & Ha & W).
      + split; [exact H1|]. split; [eapply Permutation_in; eauto|]. exists a. split; [eapply Permutation_in; eauto|exact (within_two es es' P _ _ _ W)].
      + split; [exact H1|]. split; [eapply Permutation_in; [symmetry; exact P|exact H2]|]. exists a.
        split; [eapply Permutation_in; [symmetry; exact Q|exact Ha]|exact (within_two es' es (Permutation_sym P) _ _ _ W)].
  Qed.
  Lemma ops_two ops : no_limit ops -> forall n n' l l', good es l -> good es' l' -> Permutation l l' ->
    agree (exec_ops x g ho n ops l) (exec_ops x g' ho' n' ops l').
  Proof.
    induction ops as [|o ops IH]; intros NL n n' l l' G G' Q; cbn [exec_ops]; [exact Q|].
    assert (A : agree (exec_op x g ho n o l) (exec_op x g' ho' n' o l')).
    { destruct o as [cc|dd t|f dd|k]; cbn [exec_op].
      - apply where_agree, Q.
      - cbn [agree]. apply related_two; auto.
      - cbn [agree]. unfold order_step. eapply perm_trans; [symmetry; apply sort_perm|]. eapply perm_trans; [exact Q|apply sort_perm].
      - exfalso. apply (NL k). now left. }
    destruct (exec_op x g ho n o l) as [r1|] eqn:E1, (exec_op x g' ho' n' o l') as [r2|] eqn:E2; cbn [agree bind] in A |- *; auto; try contradiction.
    apply IH; auto.
    - intros k H. apply (NL k). now right.
    - eapply exec_op_good; [exact B|exact O|exact G|exact E1].
    - eapply exec_op_good; [exact B'|exact O'|exact G'|exact E2].
  Qed.
  Lemma execute_two s ops : no_limit ops ->
    same_entities (execute x g ho {| q_from := s; q_ops := ops; q_agg := None |}) (execute x g' ho' {| q_from := s; q_ops := ops; q_agg := None |}).
  Proof.
    intros NL. unfold execute; cbn [q_from q_ops q_agg]. pose proof (select_two g g' es es' B B' P ho ho' O O' s) as A.
    destruct (select_from g ho s) as [l1|] eqn:E1, (select_from g' ho' s) as [l2|] eqn:E2; cbn in A |- *; try contradiction; auto.
    apply (select_good g es B) in E1; auto. apply (select_good g' es' B') in E2; auto.
    pose proof (ops_two ops NL 0 0 l1 l2 E1 E2 A) as A2.
    destruct (exec_ops x g ho 0 ops l1), (exec_ops x g' ho' 0 ops l2); cbn in A2 |- *; try contradiction; auto.
  Qed.
  Lemma ops_unrelated ops : no_related ops -> forall n n' l, exec_ops x g ho n ops l = exec_ops x g' ho' n' ops l.
  Proof.
    induction ops as [|o ops IH]; intros NR n n' l; cbn [exec_ops]; auto.
    assert (E : exec_op x g ho n o l = exec_op x g' ho' n' o l) by (destruct o; auto; exfalso; eapply NR; left; reflexivity).
    rewrite E. destruct (exec_op x g' ho' n' o l); cbn; auto. apply IH. intros d t H. eapply NR; right; eauto.
  Qed.
  Lemma execute_two_ordered s pre dd post : no_limit pre -> no_related post -> (forall e, In e es -> lower (e_id e) = e_id e) ->
    let q := {| q_from := s; q_ops := pre ++ QOrder (FMeta MId) dd :: post; q_agg := None |} in
    same_list (execute x g ho q) (execute x g' ho' q).
  Proof.
    intros NL NR Lo q. unfold execute, q; cbn [q_from q_ops q_agg]. pose proof (select_two g g' es es' B B' P ho ho' O O' s) as A.
    destruct (select_from g ho s) as [l1|] eqn:E1, (select_from g' ho' s) as [l2|] eqn:E2; cbn in A |- *; try contradiction; auto.
    apply (select_good g es B) in E1; auto. apply (select_good g' es' B') in E2; auto.
    pose proof (ops_two pre NL 0 0 l1 l2 E1 E2 A) as A2. rewrite (exec_ops_app x g ho), (exec_ops_app x g' ho').
    destruct (exec_ops x g ho 0 pre l1) as [r1|] eqn:F1, (exec_ops x g' ho' 0 pre l2) as [r2|] eqn:F2; cbn in A2 |- *; try contradiction; auto.
    apply (exec_ops_good x g es B) in F1; auto.
    rewrite (order_ids_eq dd r1 r2); auto; [|intros; apply Lo; apply F1; auto|apply F1].
    rewrite (ops_unrelated post NR _ (S (length pre)) (order_step (FMeta MId) dd r2)). 
    destruct (exec_ops x g' ho' (S (length pre)) post (order_step (FMeta MId) dd r2)); cbn; auto.
  Qed.
End both.
