(** Adding an entity. *)
From Coq Require Import Lia.
From Verif Require Import M_Graph S_Graph L_Graph.
From Verif Require Import S_Add S_Schema L_Str L_Text L_Words L_Fs L_Server L_Load L_History L_Schema L_Schema2 L_Workspace L_DslStr L_DslVal.
Close Scope Z_scope.

Lemma all_some_spec {A B} (f : A -> option B) l r : all_some f l = Some r <-> Forall2 (fun x y => f x = Some y) l r.
Proof.
  revert r. induction l as [|x l IH]; intros r; cbn [all_some].
  - split; [intros [= <-]; constructor|intros H; inversion H; reflexivity].
  - split.
    + destruct (f x) as [y|] eqn:E; [|discriminate]. destruct (all_some f l) as [ys|] eqn:F; [|discriminate]. intros [= <-]. constructor; [exact E|apply IH; reflexivity].
    + intros H. inversion H as [|? ? ? ? H1 H2]; subst. apply IH in H2. rewrite H1, H2. reflexivity.
Qed.

Lemma split_char_one q a : ~ In q a -> split_char q a = [a].
Proof.
  induction a as [|x a IH]; intros N; cbn [split_char]; [reflexivity|].
  destruct (Ascii.eqb_spec x q) as [->|_]; [destruct N; left; reflexivity|]. rewrite IH by (intros H; apply N; right; exact H). reflexivity.
Qed.
Lemma split_char_cons q s w ws : split_char q s = w :: ws -> ~ In q w /\ match ws with [] => s = w | _ => exists b, s = w ++ q :: b /\ split_char q b = ws end.
Proof.
  revert w ws. induction s as [|x s IH]; intros w ws; cbn [split_char].
  - intros [= <- <-]. split; [intros []|reflexivity].
  - destruct (Ascii.eqb_spec x q) as [->|N].
    + intros [= <- <-]. split; [intros []|]. destruct (split_char q s) as [|y l] eqn:E; [exfalso; exact (split_char_not_nil q s E)|]. exists s. auto.
    + destruct (split_char q s) as [|y l] eqn:E; [exfalso; exact (split_char_not_nil q s E)|]. intros [= <- <-]. destruct (IH y l eq_refl) as [A B]. split.
      * intros [H|H]; [congruence|auto].
      * destruct l as [|z l]; [subst; reflexivity|]. destruct B as (b & -> & Eb). exists b. auto.
Qed.
Lemma reference_spec c ae p s r : means c ae p TRef (JStr s) (VRef r) <-> r = reference_field s.
Proof.
  unfold reference_field. split.
  - intros H. inversion H as [| | | | | |s' O|t i f rest T I F R| | |]; subst.
    + destruct (split_char "." s) as [|t [|i [|f l]]] eqn:E; try reflexivity. exfalso.
      destruct (split_char_cons _ _ _ _ E) as [_ (b & -> & Eb)]. destruct (split_char_cons _ _ _ _ Eb) as [_ (b' & -> & Eb')]. exact (O t i b' eq_refl).
    + rewrite split_char_app, split_char_app by assumption. destruct R as [-> | (r' & ->)].
      * rewrite app_nil_r, split_char_one by assumption. reflexivity.
      * rewrite split_char_app by assumption. reflexivity.
  - intros ->. destruct (split_char "." s) as [|t [|i [|f l]]] eqn:E.
    + exfalso. exact (split_char_not_nil "." s E).
    + constructor. intros a b d ->. apply split_char_cons in E as [N E]. cbn in E. apply N. rewrite <- E. apply in_or_app. right. left. reflexivity.
    + constructor. intros a b d ->. destruct (split_char_cons _ _ _ _ E) as [N (x & Ex & E')]. destruct (split_char_cons _ _ _ _ E') as [N' E'']. cbn in E''. subst x.
      assert (G : forall (l m : str) a b c, ~ In "."%char l -> ~ In "."%char m -> l ++ "."%char :: m = a ++ "."%char :: b ++ "."%char :: c -> False).
      { clear. induction l as [|h l IH]; intros m a b c Nl Nm E; cbn [app] in E.
        - destruct a as [|h a]; cbn [app] in E.
          + injection E as E2. apply Nm. rewrite E2. apply in_or_app. right. left. reflexivity.
          + injection E as E1 E2. apply Nm. rewrite E2. apply in_or_app. right. left. reflexivity.
        - destruct a as [|h' a]; cbn [app] in E; injection E as E1 E2; [apply Nl; left; auto|]. eapply (IH m a); eauto. intros H. apply Nl. right. exact H. }
      exact (G t i a b d N N' (eq_sym Ex)).
    + destruct (split_char_cons _ _ _ _ E) as [Nt (b & -> & Eb)]. destruct (split_char_cons _ _ _ _ Eb) as [Ni (b' & -> & Eb')].
      destruct (split_char_cons _ _ _ _ Eb') as [Nf B]. destruct l as [|z l].
      * subst b'. rewrite <- (app_nil_r f) at 1. apply means_field; auto.
      * destruct B as (b'' & -> & _). apply means_field; eauto.
Qed.
Lemma assoc_in {A} k (a : A) l : assoc k l = Some a -> In (k, a) l.
Proof. induction l as [|[k' b] l IH]; cbn [assoc]; [discriminate|]. destruct (str_eqb_spec k' k) as [->|_]; [intros [= ->]; left; reflexivity|intros H; right; auto]. Qed.
Lemma assoc_of_in {A} k (a : A) l : NoDup (map fst l) -> In (k, a) l -> assoc k l = Some a.
Proof.
  induction l as [|[k' b] l IH]; cbn [assoc map fst]; intros N I; [destruct I|]. inversion N as [|? ? N1 N2]; subst. destruct I as [E|I].
  - injection E as -> ->. rewrite str_eqb_refl. reflexivity.
  - destruct (str_eqb_spec k' k) as [->|_]; [|auto]. exfalso. apply N1. exact (in_map fst _ _ I).
Qed.
Lemma scalar_spec c ae p t j v : scalar_field c ae p t j = Some v <-> means c ae p t j v.
Proof.
  split.
  - intros H. destruct t, j as [|b|[z|f]|s|l|]; cbn [scalar_field] in H; try discriminate; try (injection H as <-; constructor).
    + destruct (Z.leb_spec z i64_max) as [Q|Q]; [|discriminate]. injection H as <-. constructor. unfold i64_max in Q. lia.
    + unfold currency_field in H. destruct (split_whitespace s) as [|a [|k [|]]] eqn:E; try discriminate.
      destruct (decimal ae a) as [m|] eqn:D; [|discriminate]. destruct (known_currency (c_env c) k) eqn:K; [|discriminate]. injection H as <-. apply two_words_spec in E. econstructor; eauto.
    + injection H as <-. apply reference_spec. reflexivity.
    + destruct (rfc3339 ae s) as [d|] eqn:E; [|discriminate]. injection H as <-. constructor. exact E.
  - intros H. inversion H as [|z B| | | | |s O|t' i f rest T I F R|s a k m W D K|s d D|]; subst; cbn [scalar_field]; try reflexivity.
    + destruct (Z.leb_spec z i64_max) as [Q|Q]; [reflexivity|]. unfold i64_max in Q. lia.
    + apply reference_spec in H as <-. reflexivity.
    + apply reference_spec in H as <-. reflexivity.
    + apply two_words_spec in W. unfold currency_field. rewrite W, D, K. reflexivity.
    + rewrite D. reflexivity.
Qed.
Lemma item_type_spec s t : item_type s = Some t <-> In (lower s, t) type_names.
Proof.
  assert (G : forall l : list (str * field_type), NoDup (map fst l) -> forall x, fold_right (fun kt r => if str_eqb x (fst kt) then Some (snd kt) else r) None l = Some t <-> In (x, t) l).
  { clear. induction l as [|[k u] l IH]; cbn [fold_right map fst snd In]; intros N x; [split; [discriminate|intros []]|]. inversion N as [|? ? N1 N2]; subst.
    destruct (str_eqb_spec x k) as [->|D].
    - split; [intros [= ->]; auto|]. intros [[= ->]|I]; [reflexivity|]. exfalso. apply N1. exact (in_map fst _ _ I).
    - rewrite IH by exact N2. split; [auto|]. intros [[= -> _]|I]; [congruence|exact I]. }
  apply (G type_names). cbv. repeat constructor; cbn [In]; intuition discriminate.
Qed.
Lemma json_spec c ae p items name t j v : json_to_field c ae p items name t j = Some v <-> means_in c ae p items name t j v.
Proof.
  split.
  - intros H. destruct t; cbn [json_to_field] in H; try (apply scalar_spec in H; constructor; exact H).
    destruct j as [| | | |l|]; try (apply scalar_spec in H; constructor; exact H). destruct l as [|x l]; [injection H as <-; apply means_empty|].
    destruct (assoc name items) as [ts|] eqn:A; [|discriminate]. destruct (item_type ts) as [t'|] eqn:I; [|discriminate].
    destruct (all_some _ _) as [vs|] eqn:S1; [|discriminate]. injection H as <-. apply item_type_spec in I. apply all_some_spec in S1.
    apply means_list with ts t'; auto; [discriminate|]. eapply forall2_impl; [|exact S1]. intros a b. apply scalar_spec.
  - intros H. inversion H as [t' j' v' M| |ts t' l vs N A I F]; subst.
    + apply scalar_spec in M. destruct t; cbn [json_to_field]; try exact M. destruct j; try exact M. discriminate.
    + reflexivity.
    + cbn [json_to_field]. destruct l as [|x l]; [congruence|]. rewrite A. apply item_type_spec in I. rewrite I.
      assert (E : all_some (scalar_field c ae p t') (x :: l) = Some vs) by (apply all_some_spec; eapply forall2_impl; [|exact F]; intros a b; apply scalar_spec).
      rewrite E. reflexivity.
Qed.
Lemma to_add_asked c ae st a e : shuffles (c_fields c) -> entity_to_add c ae st a = Some e -> asked c ae st a e.
Proof.
  intros SH H. unfold entity_to_add in H. destruct (find _ (b_schemas (st_build st))) as [s|] eqn:F; [|discriminate].
  apply find_some in F as [I T]. apply str_eqb_eq in T. destruct (get_entity (st_graph st) _) eqn:G; [discriminate|].
  destruct (all_some _ (a_fields a)) as [fs|] eqn:A; [|discriminate]. destruct (validate _ _ _) eqn:V; [|discriminate]. injection H as <-.
  exists s. cbn [e_id e_type e_fields]. split; [exact I|]. split; [exact T|]. split; [reflexivity|]. split; [reflexivity|]. split; [exact G|]. split.
  - apply all_some_spec in A. eapply forall2_impl; [|exact A]. intros [n j] [f v] E. cbn [fst snd] in *.
    destruct (assoc (new_id n) (s_fields s)) as [g|] eqn:Q; [|discriminate]. destruct (json_to_field _ _ _ _ _ _ _) as [v'|] eqn:J; [|discriminate].
    injection E as <- <-. split; [reflexivity|]. exists g. split; [|apply json_spec; exact J].
    apply assoc_in. exact Q.
  - apply validate_conforms in V; [exact V|exact SH].
Qed.
Lemma asked_to_add c ae st a e : shuffles (c_fields c) -> NoDup (map s_type (b_schemas (st_build st))) ->
  (forall s, In s (b_schemas (st_build st)) -> well_formed s) -> asked c ae st a e -> entity_to_add c ae st a = Some e.
Proof.
  intros SH ND WF (s & I & T & Ei & Et & G & F & Co). unfold entity_to_add.
  assert (Fs : find (fun s => str_eqb (s_type s) (a_type a)) (b_schemas (st_build st)) = Some s).
  { clear - I T ND. induction (b_schemas (st_build st)) as [|x l IH]; [destruct I|]. cbn [find]. cbn [map] in ND. inversion ND as [|? ? N1 N2]; subst.
    destruct I as [<-|I]; [rewrite T, str_eqb_refl; reflexivity|]. destruct (str_eqb_spec (s_type x) (a_type a)) as [E|_]; [|auto].
    exfalso. apply N1. rewrite E, <- T. apply in_map. exact I. }
  rewrite Fs. rewrite <- Ei, G.
  assert (A : all_some (fun nj => match assoc (new_id (fst nj)) (s_fields s) with
                  | None => None
                  | Some fs => option_map (pair (new_id (fst nj))) (json_to_field c ae (target_of c a) (a_items a) (fst nj) (fs_type fs) (snd nj))
                  end) (a_fields a) = Some (e_fields e)).
  { apply all_some_spec. eapply forall2_impl; [|exact F]. intros [n j] [f v] (E & g & Ig & M). cbn [fst snd] in *. subst f.
    assert (Q : assoc (new_id n) (s_fields s) = Some g) by (apply assoc_of_in; [exact (WF s I)|exact Ig]). rewrite Q.
    apply json_spec in M. rewrite M. reflexivity. }
  rewrite A. rewrite <- Et. destruct e as [id t fs]. cbn [e_id e_type e_fields] in *. apply (validate_conforms (c_fields c) s _ SH) in Co. rewrite Co. reflexivity.
Qed.

(** ** The file *)
Lemma ended_prefix (s dsl : str) : ended s ++ dsl = s ++ (if ends_with s [LF] then [] else match s with [] => [] | _ => [LF] end) ++ dsl.
Proof. unfold ended. destruct (ends_with s [LF]); [reflexivity|]. destruct s; [reflexivity|]. rewrite <- app_assoc. reflexivity. Qed.
Lemma append_spec c d p dsl d' ok : sound d -> slashless p -> append_block c d p dsl = (d', ok) ->
  if ok then exists d1 q old, only_dirs_added d d1 /\ sound d1 /\ (tidy d -> tidy d1) /\
    (match parent p with Some x => create_dir_all (S (length x)) (c_links c) d x = (d1, true) | None => d1 = d end) /\
    ((resolve (c_links c) d1 p = At q /\ node_at d1 q = Some (File old) /\ is_text old = true) \/
     (resolve (c_links c) d1 p = Vacant q /\ node_at d1 q = None /\ old = [])) /\
    d' = set_node d1 q (File (ended old ++ dsl))
  else only_dirs_added d d' /\ sound d'.
Proof.
  intros SD SL H. unfold append_block in H.
  destruct (match parent p with Some x => create_dir_all (S (length x)) (c_links c) d x | None => (d, true) end) as [d1 b] eqn:CR.
  assert (X : only_dirs_added d d1 /\ sound d1 /\ (tidy d -> tidy d1)).
  { destruct (parent p) as [x|] eqn:P; [|injection CR as <- <-; auto using dirs_refl].
    assert (SX : slashless x) by (apply (slashless_sub p x SL); intros y Hy; eapply parent_in; eauto).
    destruct (create_dirs _ _ _ _ _ _ SD SX CR) as [A B]. split; [exact A|]. split; [exact B|]. intros T. eapply tidy_create; eauto. }
  destruct X as (X1 & X2 & X3). destruct b; [|injection H as <- <-; auto].
  assert (CR' : match parent p with Some x => create_dir_all (S (length x)) (c_links c) d x = (d1, true) | None => d1 = d end).
  { destruct (parent p); [exact CR|congruence]. }
  unfold path_exists, append_to, read_text, stat in H. destruct (resolve (c_links c) d1 p) as [q|q| |] eqn:R; try (injection H as <- <-; auto; fail).
  - destruct (node_at d1 q) as [[s| |]|] eqn:N; try (injection H as <- <-; auto; fail). destruct (is_text s) eqn:T; [|injection H as <- <-; auto].
    injection H as <- <-. exists d1, q, s. repeat (split; [assumption|]). split; [left; auto|]. rewrite ended_prefix. reflexivity.
  - injection H as <- <-. exists d1, q, []. repeat (split; [assumption|]). split; [right|reflexivity]. split; [exact R|].
    apply vacant_none in R as [R _]. auto.
Qed.
Lemma appended_at c d p dsl d' : sound d -> slashless p -> append_block c d p dsl = (d', true) ->
  exists q old, resolve (c_links c) d' p = At q /\ (node_at d q = Some (File old) \/ (node_at d q = None /\ old = [])) /\
    node_at d' q = Some (File (ended old ++ dsl)) /\ only_changed q d d'.
Proof.
  intros SD SL H. destruct (append_spec c d p dsl d' true SD SL H) as (d1 & q & old & X & S1 & _ & _ & K & ->). exists q, old.
  assert (NE : q <> []).
  { destruct K as [(_ & F & _)|(R & _)]; [eapply file_not_root; eauto|]. apply vacant_none in R. tauto. }
  split; [|split; [|split]].
  - destruct K as [(R & F & _)|(R & _)].
    + unfold resolve in *. rewrite <- R. apply walk_contents. apply set_contents with old; auto.
    + unfold resolve in *. apply walk_fill. exact R.
  - destruct K as [(R & F & _)|(R & N & ->)].
    + left. destruct (X q) as [E|[_ E]]; congruence.
    + right. destruct (X q) as [E|[_ E]]; [|congruence]. split; [congruence|reflexivity].
  - apply node_set_same. exact NE.
  - intros x Nx. rewrite node_set_other by auto. apply X.
Qed.
Lemma append_served c d w p dsl d' : runs_in c d w -> slashless p -> append_block c d p dsl = (d', true) ->
  runs_in c d' w /\ (no_links_in w d -> no_links_in w d') /\ (tidy d -> tidy d').
Proof.
  intros RI SL H. pose proof RI as (SD & _). destruct (append_spec c d p dsl d' true SD SL H) as (d1 & q & old & X & S1 & T & _ & K & ->).
  pose proof (runs_dirs c d d1 w RI X S1) as R1.
  assert (NE : q <> []).
  { destruct K as [(_ & F & _)|(R & _)]; [eapply file_not_root; eauto|]. apply vacant_none in R. tauto. }
  split; [|split].
  - destruct K as [(R & F & _)|(R & N & ->)].
    + apply runs_set; [exact R1|eauto|eapply sound_file; eauto].
    + apply runs_set; [exact R1|auto|eapply sound_fill; eauto].
  - intros NL. apply links_set; [eapply links_dirs; eauto|exact NE].
  - intros TD. apply tidy_set. auto.
Qed.
Lemma append_confined c d w p rp dsl d' ok : runs_in c d w -> no_links_in w d -> slashless p -> Forall (fun x => climbs x = false) rp -> p = c_ws c ++ rp ->
  append_block c d p dsl = (d', ok) -> confined w d d'.
Proof.
  intros RI NL SL F E H. pose proof RI as (SD & _). pose proof H as H'. unfold append_block in H'.
  destruct (match parent p with Some x => create_dir_all (S (length x)) (c_links c) d x | None => (d, true) end) as [d1 b] eqn:CR.
  assert (X : confined w d d1 /\ only_dirs_added d d1 /\ sound d1).
  { destruct (parent p) as [x|] eqn:P; [|injection CR as <- <-; auto using dirs_refl, confined_refl].
    assert (SX : slashless x) by (apply (slashless_sub p x SL); intros y Hy; eapply parent_in; eauto).
    assert (PX : exists rest, p = x ++ rest).
    { unfold parent in P. destruct (drop_stays_split (rev p)) as (ss & E1 & _). destruct (drop_stays (rev p)) as [|n r] eqn:D; [discriminate|].
      destruct (drop_stays_split r) as (ss' & E2 & _). injection P as <-. exists (rev ss' ++ [n] ++ rev ss).
      rewrite <- (rev_involutive p), E1. rewrite E2 at 1. rewrite !rev_app_distr. cbn [rev]. rewrite rev_app_distr. rewrite <- !app_assoc. reflexivity. }
    destruct PX as (rest & PX). split; [|eapply create_dirs; eauto].
    eapply create_confined; [exact RI|exact NL|exact F|exact SX|rewrite <- E; exact PX|exact CR]. }
  destruct X as (X1 & X2 & X3). destruct b; [|injection H' as <- _; exact X1]. destruct ok.
  - destruct (append_spec c d p dsl d' true SD SL H) as (d2 & q & old & Y & S1 & _ & P & K & ->).
    assert (d2 = d1). { destruct (parent p); [rewrite CR in P; congruence|congruence]. } subst d2.
    assert (NE : q <> []).
    { destruct K as [(_ & G & _)|(R & _)]; [eapply file_not_root; eauto|]. apply vacant_none in R. tauto. }
    eapply confined_trans; [exact X1|]. apply confined_set; [|exact NE].
    eapply (below_inside c d1 w rp q); [eapply runs_dirs; eauto|eapply links_dirs; eauto|exact F|]. rewrite <- E. destruct K as [(R & _)|(R & _)]; auto.
  - assert (d' = d1); [|subst; exact X1].
    destruct (if path_exists (c_links c) d1 p then _ else _); [|congruence]. destruct (append_to _ _ _ _); congruence.
Qed.
Lemma add_effect c ae d st a d' st' x : shuffles (c_fields c) -> sound d -> slashless (target_of c a) -> add_tool c ae d st a = (d', st', x) ->
  (x = Refused /\ st' = st /\ only_dirs_added d d' /\ sound d') \/
  exists e, asked c ae st a e /\ append_block c d (target_of c a) (generate_dsl (c_env c) default_options [e]) = (d', true) /\
    match x with
    | Accepted => rebuild c d' = Ok st'
    | Forced => st' = st /\ exists err, rebuild c d' = Err err
    | Crashed => st' = st /\ rebuild c d' = Panic
    | _ => False
    end.
Proof.
  intros SH SD SL H. unfold add_tool in H. destruct (entity_to_add c ae st a) as [e|] eqn:E; [|injection H as <- <- <-; left; auto using dirs_refl].
  destruct (append_block c d (target_of c a) _) as [d1 ok] eqn:A. destruct ok.
  - right. exists e. split; [apply to_add_asked; auto|]. destruct (rebuild c d1) eqn:B; injection H as <- <- <-; (split; [exact A|]); eauto.
  - pose proof (append_spec _ _ _ _ _ _ SD SL A) as X. injection H as <- <- <-. left. cbn in X. tauto.
Qed.
Lemma target_slashless c a : slashless (c_ws c) -> slashless (target_of c a).
Proof.
  intros SW. assert (PS : forall s, slashless (path_of s)) by (intros; apply path_of_slashless).
  assert (WF : forall p, slashless p -> slashless (with_firm p)).
  { intros p SP. unfold with_firm. destruct (drop_stays_split (rev p)) as (ss & E & _). destruct (drop_stays (rev p)) as [|n r] eqn:D; [exact SP|].
    destruct (climbs n); [exact SP|].
    assert (Sr : slashless (rev r) /\ ~ In "/"%char n).
    { assert (Sp : slashless (rev p)) by (apply Forall_rev; exact SP). rewrite E in Sp. apply Forall_app in Sp as [_ Sp]. inversion Sp; subst. split; [apply Forall_rev|]; assumption. }
    destruct Sr as [Sr Sn]. apply Forall_app. split; [exact Sr|]. constructor; [|constructor]. intros I. apply in_app_or in I as [I|I]; [|cbn in I; intuition discriminate].
    destruct (split_once "." (rev n)) as [[u v]|] eqn:SO; [|contradiction]. destruct v as [|y v]; [contradiction|].
    apply Sn. apply in_rev. apply in_rev in I. apply split_once_spec in SO as [SO _]. rewrite SO. apply in_or_app. right. right. exact I. }
  unfold target_of. destruct (a_file a) as [s|]; [apply named_slashless; exact SW|]. destruct (a_type a) as [|ch t].
  - apply Forall_app. split; [exact SW|]. apply WF. constructor; [cbn; intuition discriminate|apply PS].
  - destruct (Ascii.ascii_dec ch "/") as [->|N]; [apply WF, PS|].
    assert (G : slashless (c_ws c ++ with_firm (L "generated" :: path_of (ch :: t)))).
    { apply Forall_app. split; [exact SW|]. apply WF. constructor; [cbn; intuition discriminate|apply PS]. }
    destruct ch as [[] [] [] [] [] [] [] []]; try exact G. congruence.
Qed.

(** ** Paths in fields *)
Lemma diff_split a b : Forall (fun c => climbs c = false) b ->
  exists p a' b', a = p ++ a' /\ b = p ++ b' /\ diff_go a b = Some (map (fun _ => L "..") b' ++ a').
Proof.
  revert b. induction a as [|x a IH]; intros b F.
  - exists [], [], b. cbn [diff_go app]. rewrite app_nil_r. auto.
  - destruct b as [|y b]; [exists [], (x :: a), []; auto|]. inversion F as [|? ? F1 F2]; subst. cbn [diff_go].
    destruct (str_eqb_spec x y) as [->|_].
    + destruct (IH b F2) as (p & a' & b' & -> & -> & E). exists (y :: p), a', b'. auto.
    + rewrite F1. exists [], (x :: a), (y :: b). auto.
Qed.
Lemma diff_prefix w a b : diff_go (w ++ a) (w ++ b) = diff_go a b.
Proof. induction w as [|x w IH]; [reflexivity|]. cbn [app diff_go]. rewrite str_eqb_refl. exact IH. Qed.
Lemma parts_app a b : parts (a ++ b) = parts a ++ parts b.
Proof. apply filter_app. Qed.
Lemma parts_stays ss : Forall (fun c => stays c = true) ss -> parts ss = [].
Proof. induction 1 as [|c ss H _ IH]; [reflexivity|]. cbn. rewrite H. exact IH. Qed.
Lemma parts_plain ds : Forall plain_component ds -> parts ds = ds.
Proof. induction 1 as [|c ds (A & B & _) _ IH]; [reflexivity|]. cbn. replace (stays c) with false; [cbn; f_equal; exact IH|].
  symmetry. unfold stays. apply Bool.orb_false_iff. split; apply str_eqb_neq; assumption. Qed.
Lemma parent_parts p n : stays n = false -> exists q, parent (p ++ [n]) = Some q /\ parts q = parts p.
Proof. intros N. destruct (parent_name p n N) as (q & ss & E & -> & F). exists q. split; [exact E|]. rewrite parts_app, (parts_stays ss F), app_nil_r. reflexivity. Qed.
Lemma plain_stays c : plain_component c -> stays c = false /\ climbs c = false.
Proof. intros (A & B & C & _). unfold stays, climbs. rewrite Bool.orb_false_iff, !str_eqb_neq. auto. Qed.
Lemma walk_parts p cs r : S_Dsl.walk false p cs r -> S_Dsl.walk false p (parts cs) r.
Proof.
  induction 1 as [p|p c cs r C W IH|n d c cs r C W IH|n d c cs r W IH|n cs r A W IH|n cs r A W IH]; cbn [parts filter].
  - constructor.
  - destruct C as [-> | ->]; exact IH.
  - rewrite (proj1 (plain_stays c C)). cbn [negb]. apply S_Dsl.walk_down; auto.
  - apply S_Dsl.walk_up. exact IH.
  - apply walk_above; auto.
  - discriminate.
Qed.
Lemma walk_plain_inv n d p a r : Forall plain_component p -> S_Dsl.walk false (n, d) (p ++ a) r -> S_Dsl.walk false (n, d ++ p) a r.
Proof.
  revert d. induction p as [|c p IH]; intros d F W; [rewrite app_nil_r; exact W|]. inversion F as [|? ? F1 F2]; subst. cbn [app] in W.
  replace (d ++ c :: p) with ((d ++ [c]) ++ p) by (rewrite <- app_assoc; reflexivity). apply IH; [exact F2|].
  inversion W; subst; auto; exfalso; destruct F1 as (A & B & C & _); intuition congruence.
Qed.
Lemma walk_ups n p b a r : S_Dsl.walk false (n, p) a r -> S_Dsl.walk false (n, p ++ b) (map (fun _ => L "..") b ++ a) r.
Proof.
  intros W. induction b as [|x b IH] using rev_ind; [rewrite app_nil_r; exact W|].
  replace (map (fun _ => L "..") (b ++ [x])) with (L ".." :: map (fun _ => L "..") b) by (rewrite map_app; cbn [map]; clear; induction b as [|y b IH]; [reflexivity|cbn [map app]; rewrite <- IH; reflexivity]).
  cbn [app]. rewrite app_assoc. apply S_Dsl.walk_up. exact IH.
Qed.
Lemma path_field_spec c ds name s : Forall plain_component ds -> plain_component name -> is_absolute s = false ->
  exists p a b, parts (path_of s) = p ++ a /\ ds = p ++ b /\ path_field c (c_ws c ++ ds ++ [name]) s = path_text (map (fun _ => L "..") b ++ a).
Proof.
  intros F N A. destruct (parent_parts (c_ws c ++ ds) name (proj1 (plain_stays name N))) as (q & P & Q).
  destruct (diff_split (parts (path_of s)) ds) as (p & a & b & E1 & E2 & E3).
  { eapply Forall_impl; [|exact F]. intros x H. apply plain_stays. exact H. }
  exists p, a, b. split; [exact E1|]. split; [exact E2|]. unfold path_field. rewrite app_assoc, P, Q.
  assert (J : join_path (c_ws c) s = c_ws c ++ path_of s).
  { apply (named_relative c s). unfold is_absolute in A. destruct s as [|ch s]; [reflexivity|]. exact A. }
  rewrite J, !parts_app, diff_prefix, (parts_plain ds F), E3. reflexivity.
Qed.
Lemma parts_pieces s x : In x (parts (path_of s)) -> x <> [] /\ ~ In "/"%char x /\ In x (path_of s).
Proof.
  unfold parts. intros H. apply filter_In in H as [H1 H2]. split; [|split; [|exact H1]].
  - intros ->. discriminate.
  - pose proof (path_of_slashless s) as F. unfold slashless in F. rewrite Forall_forall in F. auto.
Qed.
(** The text is that of a relative path with the pieces of [s]. *)
Lemma field_text_split b a s p : parts (path_of s) = p ++ a -> map (fun _ : str => L "..") b ++ a <> [] ->
  split_char "/" (path_text (map (fun _ => L "..") b ++ a)) = map (fun _ => L "..") b ++ a.
Proof.
  intros E N. apply split_char_join; [exact N|]. apply Forall_app. split.
  - apply Forall_forall. intros x H. apply in_map_iff in H as (y & <- & _). cbn. intuition discriminate.
  - apply Forall_forall. intros x H. apply (parts_pieces s). rewrite E. apply in_or_app. auto.
Qed.
Lemma field_relative b a s p : parts (path_of s) = p ++ a -> is_absolute (path_text (map (fun _ : str => L "..") b ++ a)) = false.
Proof.
  intros E. unfold is_absolute, path_text. destruct b as [|y b]; cbn [map app].
  - destruct a as [|x a]; [reflexivity|]. destruct (parts_pieces s x) as (A & B & _); [rewrite E; apply in_or_app; right; left; reflexivity|].
    assert (J : exists rest, join (L "/") (x :: a) = x ++ rest) by (destruct a; [exists []; rewrite app_nil_r; reflexivity|eexists; apply join_cons; discriminate]).
    destruct J as (rest & ->). destruct x as [|h x]; [congruence|]. cbn [app L list_ascii_of_string starts_with]. destruct (Ascii.eqb_spec "/" h) as [<-|]; [destruct B; left; reflexivity|]. reflexivity.
  - assert (J : exists rest, join (L "/") (L ".." :: map (fun _ : str => L "..") b ++ a) = L ".." ++ rest).
    { destruct (map (fun _ : str => L "..") b ++ a); [exists []; reflexivity|eexists; apply join_cons; discriminate]. }
    destruct J as (rest & ->). reflexivity.
Qed.
Lemma join_in_iff (sep : str) ws ch : In ch (join sep ws) -> In ch sep \/ exists w, In w ws /\ In ch w.
Proof.
  induction ws as [|w ws IH]; [intros []|]. destruct ws as [|v ws]; [cbn [join]; intros H; right; exists w; split; [left; reflexivity|exact H]|].
  rewrite join_cons by discriminate. intros H. apply in_app_or in H as [H|H]; [right; exists w; split; [left; reflexivity|exact H]|].
  apply in_app_or in H as [H|H]; [auto|]. destruct (IH H) as [G|(u & G1 & G2)]; [auto|]. right. exists u. split; [right; exact G1|exact G2].
Qed.
Lemma piece_in q s (x : str) ch : In x (split_char q s) -> In ch x -> In ch s.
Proof.
  intros H I. rewrite <- (join_split_char q s). destruct (join_in [q] _ _ H) as (a & b & ->). apply in_or_app. right. apply in_or_app. left. exact I.
Qed.
Lemma slash_tail (v x u t : str) : ~ In "/"%char t -> v ++ "/"%char :: x = u ++ t -> exists r, x = r ++ t.
Proof.
  intros N E. revert u E. induction v as [|h v IH]; intros u E; cbn [app] in E.
  - destruct u as [|h u]; [cbn [app] in E; rewrite <- E in N; destruct N; left; reflexivity|]. injection E as _ E. eauto.
  - destruct u as [|h' u]; [|injection E as _ E; eauto]. exfalso. apply N. cbn [app] in E. rewrite <- E. right. apply in_or_app. right. left. reflexivity.
Qed.
Lemma field_taggable b a s p : parts (path_of s) = p ++ a -> path_argument s -> taggable (L "path") (path_text (map (fun _ : str => L "..") b ++ a)).
Proof.
  intros E [Q T]. set (v := path_text (map (fun _ : str => L "..") b ++ a)).
  assert (ND : ~ In DQ v).
  { intros H. apply join_in_iff in H as [H|(w & H1 & H2)]; [cbn in H; intuition discriminate|]. apply in_app_or in H1 as [H1|H1].
    - apply in_map_iff in H1 as (y & <- & _). cbn in H2. intuition discriminate.
    - apply Q. apply (piece_in "/" s w); [|exact H2]. apply (parts_pieces s). rewrite E. apply in_or_app. auto. }
  split; [|split].
  - intros r F. apply ND. rewrite F. left. reflexivity.
  - intros r F. apply ND. rewrite F. apply in_or_app. right. left. reflexivity.
  - intros u r F.
    assert (G : r = [] /\ v = u ++ L "path").
    { destruct r as [|z r] using rev_ind; [split; [reflexivity|]; change (u ++ L "path" ++ [DQ] ++ []) with (u ++ L "path" ++ [DQ]) in F; rewrite app_assoc in F; apply app_inj_tail in F as [F _]; exact F|].
      exfalso. apply ND. clear IHr. assert (F' : v ++ [DQ] = (u ++ L "path" ++ [DQ] ++ r) ++ [z]) by (rewrite F, <- !app_assoc; reflexivity).
      apply app_inj_tail in F' as [-> _]. apply in_or_app. right. apply in_or_app. right. left. reflexivity. }
    destruct G as [_ G]. destruct (exists_last (l := map (fun _ : str => L "..") b ++ a)) as (l & x & X).
    { intros X. unfold v in G. rewrite X in G. destruct u; discriminate. }
    assert (V : exists v', v = v' ++ x /\ (v' = [] \/ exists v'', v' = v'' ++ L "/")).
    { unfold v. rewrite X. unfold path_text. destruct l as [|y l]; [exists []; auto|]. pose proof (join_snoc (L "/") (y :: l) x ltac:(discriminate)) as J. 
      exists (join (L "/") (y :: l) ++ L "/"). split; [rewrite <- app_assoc; exact J|]. right. eexists. reflexivity. }
    destruct V as (v' & V1 & V2).
    assert (K : exists r', x = r' ++ L "path").
    { rewrite V1 in G. destruct V2 as [-> | (v'' & ->)]; [exists u; exact G|]. apply (slash_tail v'' x u (L "path")); [cbn; intuition discriminate|].
      rewrite <- G, <- app_assoc. reflexivity. }
    destruct K as (r' & K). assert (I : In x (map (fun _ : str => L "..") b ++ a)) by (rewrite X; apply in_or_app; right; left; reflexivity).
    apply in_app_or in I as [I|I].
    + apply in_map_iff in I as (y & <- & _). apply (f_equal (@length ascii)) in K. rewrite app_length in K. cbn in K. lia.
    + apply (T x r'); [|exact K]. apply (parts_pieces s). rewrite E. apply in_or_app. auto.
Qed.
Lemma path_field_read c o ds name s r : Forall plain_component ds -> plain_component name -> is_absolute s = false -> path_argument s ->
  S_Dsl.walk false (0, []) (split_char "/" s) r ->
  read_back (c_env c) o (file_path ds name) (VPath (path_field c (c_ws c ++ ds ++ [name]) s)) = Ok (VPath (place_text false r)).
Proof.
  intros F N A P W. destruct (path_field_spec c ds name s F N A) as (p & a & b & E1 & E2 & ->). 
  destruct (resolved_place ds (path_text (map (fun _ => L "..") b ++ a)) F) as (r' & W' & E').
  unfold read_back. cbn [written kind_of from_node generate_value]. rewrite (path_read _ ds name _ eq_refl F N (field_taggable b a s p E1 P)).
  cbn [obind to_value]. fold (resolved (join (L "/") ds) (path_text (map (fun _ => L "..") b ++ a))). rewrite E', (field_relative b a s p E1). rewrite (field_relative b a s p E1) in W'.
  assert (r = r'); [|subst; reflexivity].
  apply walk_parts in W. fold (path_of s) in W. rewrite E1 in W. assert (Fp : Forall plain_component p) by (rewrite E2 in F; apply Forall_app in F; tauto).
  apply walk_plain_inv in W; [|exact Fp]. cbn [app] in W. apply (walk_ups 0 p b) in W. rewrite <- E2 in W.
  destruct (list_eq_dec (list_eq_dec Ascii.ascii_dec) (map (fun _ : str => L "..") b ++ a) []) as [Z|Z].
  - rewrite Z in W, W'. cbn in W'. eapply walk_unique; [exact W|]. apply walk_parts in W'. exact W'.
  - rewrite (field_text_split b a s p E1 Z) in W'. eapply walk_unique; eauto.
Qed.

Lemma ended_spec s : on_new_line s (ended s).
Proof.
  unfold ended. destruct (ends_with s [LF]) eqn:E.
  - apply ends_with_spec in E as (r & ->). constructor.
  - destruct s as [|h s]; [constructor|]. constructor; [discriminate|]. intros r F.
    assert (X : ends_with (h :: s) [LF] = true) by (apply ends_with_spec; eauto). congruence.
Qed.
Lemma means_type c ae p t j v : means c ae p t j v -> has_type v t.
Proof. intros H. inversion H; subst; constructor. Qed.
Lemma means_in_type c ae p items name t j v : means_in c ae p items name t j v -> has_type v t.
Proof. intros H. inversion H; subst; try constructor. eapply means_type; eauto. Qed.
(** What is served was read from schemas that are well formed. *)
Lemma served_schemas c d st : shuffles (c_fields c) -> (forall l, Permutation (c_schemas c l) l) -> rebuild c d = Ok st ->
  NoDup (map s_type (b_schemas (st_build st))) /\ forall s, In s (b_schemas (st_build st)) -> well_formed s.
Proof.
  intros SH PS B. destruct (rebuild_files c d st B) as (fs & _ & _ & G). apply load_ok in G as (B' & _ & _).
  apply (build_ok _ _ _ _ _ SH) in B' as (ss & (F & _ & N & _) & E). rewrite E. split.
  - eapply Permutation_NoDup; [|exact N]. apply Permutation_map, Permutation_sym, PS.
  - intros s I. apply (Permutation_in s (PS ss)) in I. destruct (Forall2_in_r _ _ _ F s I) as (b & _ & R). eapply read_schema_storable. exact R.
Qed.
Lemma append_existing c d w p n q old dsl : runs_in c d w -> slashless (p ++ [n]) -> stays n = false -> climbs n = false ->
  resolve (c_links c) d (p ++ [n]) = At q -> node_at d q = Some (File old) -> is_text old = true ->
  append_block c d (p ++ [n]) dsl = (set_node d q (File (ended old ++ dsl)), true).
Proof.
  intros (SD & _) SL S1 C1 R F T. destruct (parent_name p n S1) as (x & ss & P & E & St).
  unfold append_block. rewrite P.
  destruct (walk_snoc_at (c_links c) d [] p n q ltac:(discriminate) R S1 C1 SD) as (r & W & D & _).
  assert (ID : is_dir (c_links c) d x = true).
  { unfold is_dir, stat, resolve. rewrite E in W. apply walk_stays in W; [|exact St]. rewrite W, D. reflexivity. }
  rewrite (create_existing _ _ _ _ SD ID). unfold path_exists, append_to, read_text, stat. rewrite R, F, T, ended_prefix. reflexivity.
Qed.
Lemma added_is_source c d w p rp n dsl d' : runs_in c d w -> no_links_in w d -> slashless p -> p = c_ws c ++ rp ++ [n] -> Forall (fun x => climbs x = false) rp ->
  firm_file_name n -> append_block c d p dsl = (d', true) ->
  exists r old, (node_at d (w ++ r) = Some (File old) \/ (node_at d (w ++ r) = None /\ old = [])) /\ source_of w d' r (ended old ++ dsl) /\ only_changed (w ++ r) d d'.
Proof.
  intros RI NL SL E F FN H. pose proof RI as (SD & _). destruct (appended_at c d p dsl d' SD SL H) as (q & old & R & O & N & OC).
  destruct (append_served c d w p dsl d' RI SL H) as (RI' & NL' & _). specialize (NL' NL).
  assert (Nn : stays n = false /\ climbs n = false) by (apply firm_name; destruct FN as (a & _ & ->); apply ends_with_spec; eauto).
  assert (F' : Forall (fun x => climbs x = false) (rp ++ [n])) by (apply Forall_app; split; [exact F|constructor; [tauto|constructor]]).
  assert (I : inside w q) by (apply (below_inside c d' w (rp ++ [n]) q); auto; left; rewrite <- E; exact R).
  destruct I as (r & ->). exists r, old. split; [exact O|]. split; [|exact OC]. split; [exact N|].
  pose proof RI' as (S' & _ & W & Dw). 
  destruct (walk_then d' (c_links c) [] (c_ws c) w S' ltac:(discriminate) W) as (k & K).
  unfold resolve in R. rewrite E, (K d' _ (extends_refl d')) in R.
  destruct (walk_last w d' k w rp n (w ++ r) NL' (inside_refl w) F' (proj1 Nn) R) as (r' & E').
  destruct (exists_last (l := r)) as (r'' & m & ->).
  { intros ->. rewrite app_nil_r in N. congruence. }
  exists r'', m. split; [reflexivity|]. rewrite app_assoc in E'. apply app_inj_tail in E' as [_ ->]. exact FN.
Qed.
