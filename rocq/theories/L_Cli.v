(** Lemmas about the command line. *)
From Coq Require Import Lia.
From Verif Require Import S_Graph L_Graph.
From Verif Require Import S_Cli L_Str L_Text L_Schema L_Schema2 L_Ids L_Num L_DslStr L_DslVal L_Fs L_Server L_Load L_History L_Add L_Save.
Close Scope Z_scope.

(** ** Candidates *)
Lemma unique_from_spec taken base left : forall n,
  n <= left + n -> exists k, n <= k <= n + left /\
    unique_from taken base (candidate base n) (S n) left = candidate base k /\
    (forall m, n <= m < k -> taken (candidate base m) = true) /\
    (taken (candidate base k) = false \/ k = n + left).
Proof.
  induction left as [|left IH]; intros n _; cbn [unique_from].
  - exists n. split; [lia|]. split; [reflexivity|]. split; [intros; lia|right; lia].
  - destruct (taken (candidate base n)) eqn:T.
    + destruct (IH (S n) ltac:(lia)) as (k & K & E & B & F). exists k. split; [lia|]. split; [exact E|]. split.
      * intros m M. destruct (Nat.eq_dec m n) as [->|]; [exact T|apply B; lia].
      * destruct F; [left; assumption|right; lia].
    + exists n. split; [lia|]. split; [reflexivity|]. split; [intros; lia|left; exact T].
Qed.

Lemma digits_word s : s <> [] -> forallb is_digit s = true -> normal_word s.
Proof.
  intros N D. rewrite forallb_forall in D. split; [exact N|]. split.
  - clear N. induction s as [|c s IH]; cbn; [exact I|].
    assert (C : is_digit c = true) by (apply D; left; reflexivity). split; [|split].
    + destruct (is_sep c) eqn:E; [|reflexivity]. apply code_sep in E. unfold is_digit in C. lia.
    + destruct s as [|d s]; [exact I|]. assert (X : is_digit d = true) by (apply D; right; left; reflexivity).
      unfold mixed, is_alpha, is_upper, is_lower, is_digit in *. lia.
    + apply IH. intros x H. apply D. right. exact H.
  - intros c H. specialize (D c H). unfold is_digit, is_upper in *. lia.
Qed.
Lemma candidate_normal base n : to_snake base = base -> base <> [] -> to_snake (candidate base n) = candidate base n.
Proof.
  intros F NE. destruct n as [|n]; cbn [candidate]; [exact F|].
  assert (D : normal_word (show_N (N.of_nat (S n)))) by (apply digits_word; [apply show_N_nonnil|apply show_N_digits]).
  destruct (fixpoint_words base F) as [E W]. destruct (snake_words base) as [|w ws] eqn:S; [destruct NE; exact E|].
  assert (J : join (L "_") ((w :: ws) ++ [show_N (N.of_nat (Datatypes.S n))]) = join (L "_") (w :: ws) ++ L "_" ++ show_N (N.of_nat (Datatypes.S n))).
  { rewrite join_app_cons. cbn iota. rewrite app_nil_r, <- app_assoc. reflexivity. }
  rewrite E, <- J. apply to_snake_join. apply Forall_app. split; [exact W|constructor; [exact D|constructor]].
Qed.
Lemma dotted_candidate base n : to_snake base = base -> to_snake (L "." ++ candidate base n) = L "." ++ candidate base n.
Proof.
  intros F. destruct base as [|ch base]; [|apply fixpoint_dot_l, candidate_normal; [exact F|discriminate]]. destruct n as [|n]; cbn [candidate]; [apply fixpoint_dot_l, F|].
  change (L "." ++ [] ++ L "_" ++ show_N (N.of_nat (S n))) with (join (L "_") [L "."; show_N (N.of_nat (S n))]).
  apply to_snake_join. constructor; [|constructor; [apply digits_word; [apply show_N_nonnil|apply show_N_digits]|constructor]]. split; [discriminate|]. split; [cbn; auto|].
  intros c [<-|[]]. reflexivity.
Qed.
Lemma candidate_inj base n m : candidate base n = candidate base m -> n = m.
Proof.
  assert (Z : forall k, base = base ++ L "_" ++ show_N (N.of_nat (S k)) -> False).
  { intros k E. apply (f_equal (@length ascii)) in E. rewrite !app_length in E. cbn [length list_ascii_of_string] in E. lia. }
  destruct n as [|n], m as [|m]; cbn [candidate]; intros E; [reflexivity|destruct (Z _ E)|symmetry in E; destruct (Z _ E)|].
  apply app_inv_head, app_inv_head in E. apply (f_equal parse_N) in E. rewrite !parse_show_N in E. injection E as E. lia.
Qed.
Lemma compose_inj_id t i j : compose_entity_id t i = compose_entity_id t j -> to_snake (L "." ++ i) = to_snake (L "." ++ j).
Proof.
  unfold compose_entity_id, new_id. intros E.
  destruct (to_snake_dot (lower t) i) as (p & q & A & B & C). destruct (to_snake_dot (lower t) j) as (p' & q' & A' & B' & C').
  rewrite A in A'. apply app_inv_tail in A'. subst p'. rewrite C, C' in E. apply app_inv_head in E. rewrite B, B', E. reflexivity.
Qed.
Lemma candidate_ids t base n m : to_snake base = base ->
  compose_entity_id t (candidate base n) = compose_entity_id t (candidate base m) -> n = m.
Proof.
  intros F E. apply compose_inj_id in E. rewrite !dotted_candidate in E by exact F. apply app_inv_head in E. exact (candidate_inj _ _ _ E).
Qed.
Lemma sanitized_normal s : to_snake (sanitize_entity_id s) = sanitize_entity_id s.
Proof. apply to_snake_idem. Qed.

(** ** The file *)
Lemma write_spec c d p dsl d' ok : sound d -> slashless p -> write_dsl c d p dsl = (d', ok) ->
  if ok then exists d1 q old, only_dirs_added d d1 /\ sound d1 /\ (tidy d -> tidy d1) /\
    (match parent p with Some x => create_dir_all (S (length x)) (c_links c) d x = (d1, true) | None => d1 = d end) /\
    ((resolve (c_links c) d1 p = At q /\ node_at d1 q = Some (File old)) \/
     (resolve (c_links c) d1 p = Vacant q /\ node_at d1 q = None /\ old = [])) /\
    d' = set_node d1 q (File (old ++ dsl))
  else only_dirs_added d d' /\ sound d'.
Proof.
  intros SD SL H. unfold write_dsl in H.
  destruct (match parent p with Some x => create_dir_all (S (length x)) (c_links c) d x | None => (d, true) end) as [d1 b] eqn:CR.
  assert (X : only_dirs_added d d1 /\ sound d1 /\ (tidy d -> tidy d1)).
  { destruct (parent p) as [x|] eqn:P; [|injection CR as <- <-; auto using dirs_refl].
    assert (SX : slashless x) by (apply (slashless_sub p x SL); intros y Hy; eapply parent_in; eauto).
    destruct (create_dirs _ _ _ _ _ _ SD SX CR) as [A B]. split; [exact A|]. split; [exact B|]. intros T. eapply tidy_create; eauto. }
  destruct X as (X1 & X2 & X3). destruct b; [|injection H as <- <-; auto].
  assert (CR' : match parent p with Some x => create_dir_all (S (length x)) (c_links c) d x = (d1, true) | None => d1 = d end).
  { destruct (parent p); [exact CR|congruence]. }
  unfold append_to in H. destruct (resolve (c_links c) d1 p) as [q|q| |] eqn:R; try (injection H as <- <-; auto; fail).
  - destruct (node_at d1 q) as [[s| |]|] eqn:N; try (injection H as <- <-; auto; fail).
    injection H as <- <-. exists d1, q, s. repeat (split; [assumption|]). split; [left; auto|reflexivity].
  - injection H as <- <-. exists d1, q, []. repeat (split; [assumption|]). split; [right|reflexivity]. split; [exact R|].
    apply vacant_none in R as [R _]. auto.
Qed.
Lemma written_at c d p dsl d' : sound d -> slashless p -> write_dsl c d p dsl = (d', true) ->
  exists q old, resolve (c_links c) d' p = At q /\ (node_at d q = Some (File old) \/ (node_at d q = None /\ old = [])) /\
    node_at d' q = Some (File (old ++ dsl)) /\ only_changed q d d'.
Proof.
  intros SD SL H. destruct (write_spec c d p dsl d' true SD SL H) as (d1 & q & old & X & S1 & _ & _ & K & ->). exists q, old.
  assert (NE : q <> []).
  { destruct K as [(_ & F)|(R & _)]; [eapply file_not_root; eauto|]. apply vacant_none in R. tauto. }
  split; [|split; [|split]].
  - destruct K as [(R & F)|(R & _)].
    + unfold resolve in *. rewrite <- R. apply walk_contents. apply set_contents with old; auto.
    + unfold resolve in *. apply walk_fill. exact R.
  - destruct K as [(R & F)|(R & N & ->)].
    + left. destruct (X q) as [E|[_ E]]; congruence.
    + right. destruct (X q) as [E|[_ E]]; [|congruence]. split; [congruence|reflexivity].
  - apply node_set_same. exact NE.
  - intros x Nx. rewrite node_set_other by auto. apply X.
Qed.
Lemma written_served c d w p dsl d' : runs_in c d w -> slashless p -> write_dsl c d p dsl = (d', true) ->
  runs_in c d' w /\ (no_links_in w d -> no_links_in w d') /\ (tidy d -> tidy d').
Proof.
  intros RI SL H. pose proof RI as (SD & _). destruct (write_spec c d p dsl d' true SD SL H) as (d1 & q & old & X & S1 & T & _ & K & ->).
  pose proof (runs_dirs c d d1 w RI X S1) as R1.
  assert (NE : q <> []).
  { destruct K as [(_ & F)|(R & _)]; [eapply file_not_root; eauto|]. apply vacant_none in R. tauto. }
  split; [|split].
  - destruct K as [(R & F)|(R & N & ->)].
    + apply runs_set; [exact R1|eauto|eapply sound_file; eauto].
    + apply runs_set; [exact R1|auto|eapply sound_fill; eauto].
  - intros NL. apply links_set; [eapply links_dirs; eauto|exact NE].
  - intros TD. apply tidy_set. auto.
Qed.
Lemma written_is_source c d w p rp n dsl d' : runs_in c d w -> no_links_in w d -> slashless p -> p = c_ws c ++ rp ++ [n] -> Forall (fun x => climbs x = false) rp ->
  firm_file_name n -> write_dsl c d p dsl = (d', true) ->
  exists r old, (node_at d (w ++ r) = Some (File old) \/ (node_at d (w ++ r) = None /\ old = [])) /\ source_of w d' r (old ++ dsl) /\ only_changed (w ++ r) d d'.
Proof.
  intros RI NL SL E F FN H. pose proof RI as (SD & _). destruct (written_at c d p dsl d' SD SL H) as (q & old & R & O & N & OC).
  destruct (written_served c d w p dsl d' RI SL H) as (RI' & NL' & _). specialize (NL' NL).
  assert (Nn : stays n = false /\ climbs n = false) by (apply firm_name; destruct FN as (a & _ & ->); apply ends_with_spec; eauto).
  assert (F' : Forall (fun x => climbs x = false) (rp ++ [n])) by (apply Forall_app; split; [exact F|constructor; [tauto|constructor]]).
  assert (I : inside w q) by (apply (below_inside c d' w (rp ++ [n]) q); auto; left; rewrite <- E; exact R).
  destruct I as (r & ->). exists r, old. split; [exact O|]. split; [|exact OC]. split; [exact N|].
  pose proof RI' as (S' & _ & W & Dw).
  destruct (walk_then d' (c_links c) [] (c_ws c) w S' ltac:(discriminate) W) as (k & K).
  unfold resolve in R. rewrite E, (K d' _ (extends_refl d')) in R.
  destruct (walk_last w d' k w rp n (w ++ r) NL' (inside_refl w) F' (proj1 Nn) R) as (r' & E').
  destruct (exists_last (l := r)) as (r'' & m & ->).
  { intros ->. rewrite app_nil_r in N. congruence. }
  exists r'', m. split; [reflexivity|]. rewrite app_assoc in E'. apply app_inj_tail in E' as [_ ->]. exact FN.
Qed.
Lemma with_firm_slashless p : slashless p -> slashless (with_firm p).
Proof.
  intros SP. unfold with_firm. destruct (drop_stays_split (rev p)) as (ss & E & _). destruct (drop_stays (rev p)) as [|n r] eqn:D; [exact SP|].
  destruct (climbs n); [exact SP|].
  assert (Sr : slashless (rev r) /\ ~ In "/"%char n).
  { assert (Sp : slashless (rev p)) by (apply Forall_rev; exact SP). rewrite E in Sp. apply Forall_app in Sp as [_ Sp]. inversion Sp; subst. split; [apply Forall_rev|]; assumption. }
  destruct Sr as [Sr Sn]. apply Forall_app. split; [exact Sr|]. constructor; [|constructor]. intros I. apply in_app_or in I as [I|I]; [|cbn in I; intuition discriminate].
  destruct (split_once "." (rev n)) as [[u v]|] eqn:SO; [|contradiction]. destruct v as [|y v]; [contradiction|].
  apply Sn. apply in_rev. apply in_rev in I. apply split_once_spec in SO as [SO _]. rewrite SO. apply in_or_app. right. right. exact I.
Qed.
(** The default path is the one the tool server uses. *)
Lemma dsl_default c t : dsl_path c t None = target_of c {| a_type := t; a_id := []; a_fields := []; a_file := None; a_items := [] |}.
Proof. reflexivity. Qed.
Lemma dsl_slashless c t f : slashless (c_ws c) -> slashless (dsl_path c t f).
Proof.
  intros SW. destruct f as [p|]; [|rewrite dsl_default; apply target_slashless, SW].
  cbn [dsl_path]. apply with_firm_slashless, named_slashless, SW.
Qed.
Lemma drop_stays_head r n l : drop_stays r = n :: l -> n = [] -> False.
Proof.
  induction r as [|a r IH]; cbn [drop_stays]; [discriminate|]. destruct (stays a) eqn:S; [exact IH|]. intros [= -> _] ->. discriminate.
Qed.
(** What [with_firm] yields is a name of a source file, if it is a name at all. *)
Lemma with_firm_name p : with_firm p = p /\ (forall n r, drop_stays (rev p) = n :: r -> climbs n = true) \/
  exists r n, with_firm p = r ++ [n] /\ firm_file_name n /\ (forall x, In x r -> In x p).
Proof.
  unfold with_firm. destruct (drop_stays_split (rev p)) as (ss & E & N). destruct (drop_stays (rev p)) as [|n r] eqn:D; [left; split; [reflexivity|discriminate]|].
  destruct (climbs n) eqn:C; [left; split; [reflexivity|congruence]|]. right. exists (rev r). eexists. split; [reflexivity|]. split.
  - eexists. split; [|reflexivity]. destruct (split_once "." (rev n)) as [[u v]|] eqn:SO.
    + destruct v as [|y v]; [|intros X; apply (f_equal (@rev ascii)) in X; rewrite rev_involutive in X; discriminate].
      intros ->. discriminate.
    + intros ->. exact (drop_stays_head _ _ _ D eq_refl).
  - intros x I. apply in_rev. rewrite E. apply in_or_app. right. right. apply in_rev in I. exact I.
Qed.

(** ** Values *)
Lemma cli_value_spec c x d target t s v :
  (exists p, cli_value c x d target t s = Ok p /\ v = to_value p) <-> given c x d target t s v.
Proof.
  split.
  - intros (p & E & ->). destruct t; cbn [cli_value] in E; try (eapply (given_read c x d target _ _ s p []); [constructor|exact E]).
    + discriminate.
    + destruct (parse_datetime (c_env c) s) as [r|e|] eqn:DT; try discriminate.
      * injection E as ->. apply (given_time c x d target s p []). exact DT.
      * apply (given_date c x d target s p [] e); [exact DT|exact E].
    + injection E as <-. constructor.
  - intros G. destruct G as [t k s p path K E|s p path E|s p path er N E|s]; cbn [from_node] in *.
    + exists p. split; [|reflexivity]. destruct K; exact E.
    + exists p. split; [|reflexivity]. cbn [cli_value]. rewrite E. reflexivity.
    + exists p. split; [|reflexivity]. cbn [cli_value]. rewrite N. exact E.
    + eexists. split; reflexivity.
Qed.

(** ** Lists *)
Lemma last_for_snoc l n t m u : last_for (l ++ [(m, u)]) n t <-> (n = m /\ t = u) \/ (n <> m /\ last_for l n t).
Proof.
  split.
  - intros (a & b & E & N). destruct b as [|y b] using rev_ind.
    + apply app_inj_tail in E as [_ [= -> ->]]. auto.
    + clear IHb. rewrite app_comm_cons, app_assoc in E. apply app_inj_tail in E as [-> <-]. right. rewrite map_app, in_app_iff in N. cbn in N. split; [intuition|].
      exists a, b. split; [reflexivity|tauto].
  - intros [[-> ->]|[D (a & b & -> & N)]].
    + exists l, []. split; [reflexivity|intros []].
    + exists a, (b ++ [(m, u)]). rewrite <- app_assoc. split; [reflexivity|]. rewrite map_app, in_app_iff. cbn. intuition.
Qed.
Lemma assoc_set_in {A} k (v : A) m n t : NoDup (map fst m) -> (In (n, t) (assoc_set k v m) <-> (n = k /\ t = v) \/ (n <> k /\ In (n, t) m)).
Proof.
  induction m as [|[k' v'] m IH]; cbn [assoc_set map fst]; intros N.
  - cbn. split; [intros [[= <- <-]|[]]; auto|intros [[-> ->]|[_ []]]; auto].
  - inversion N as [|? ? N1 N2]; subst. destruct (str_eqb_spec k' k) as [->|D]; cbn [In].
    + split; [intros [[= <- <-]|I]; [auto|right]|intros [[-> ->]|[D [[= <- _]|I]]]; [auto|congruence|auto]].
      split; [|auto]. intros ->. apply N1. exact (in_map fst _ _ I).
    + rewrite (IH N2). split; [intros [[= <- <-]|[?|?]]; [right; split; auto|auto|tauto]|intros [?|[? [?|?]]]; tauto].
Qed.
Lemma lists_spec l : let m := fold_left (fun m nt => assoc_set (fst nt) (snd nt) m) l [] in
  NoDup (map fst m) /\ forall n t, In (n, t) m <-> last_for l n t.
Proof.
  induction l as [|[k v] l IH] using rev_ind; cbn zeta.
  - split; [constructor|]. intros n t. split; [intros []|]. intros (a & b & E & _). destruct a; discriminate.
  - rewrite fold_left_app. cbn [fold_left fst snd]. destruct IH as [N I]. set (m := fold_left _ l []) in *. split.
    + rewrite assoc_set_keys. destruct (str_in k (map fst m)) eqn:S; [rewrite app_nil_r; exact N|].
      apply nodup_app; [exact N|repeat constructor; intros []|]. intros y Hy [<-|[]]. apply str_in_not in S. contradiction.
    + intros n t. rewrite last_for_snoc, <- I. apply assoc_set_in, N.
Qed.

(** ** The entity *)
Lemma assoc_in {A} k (a : A) l : assoc k l = Some a -> In (k, a) l.
Proof.
  induction l as [|[k' b] l IH]; cbn [assoc]; [discriminate|]. destruct (str_eqb_spec k' k) as [->|_]; [intros [= ->]; left; reflexivity|right; auto].
Qed.
Lemma cli_field_given c x d target s nv fv : cli_field c x d target s nv = Ok fv -> given_field c x d target s nv fv.
Proof.
  unfold cli_field. destruct (assoc (new_id (fst nv)) (s_fields s)) as [f|] eqn:A; [|discriminate].
  destruct (cli_value c x d target (fs_type f) (snd nv)) as [p|e|] eqn:V; try discriminate. cbn [omap_err obind]. intros [= <-].
  split; [reflexivity|]. exists f. split; [apply assoc_in, A|]. apply cli_value_spec. eauto.
Qed.
Lemma given_cli_field c x d target s nv fv : NoDup (map fst (s_fields s)) -> given_field c x d target s nv fv -> cli_field c x d target s nv = Ok fv.
Proof.
  intros N (E & f & I & G). apply cli_value_spec in G as (p & V & E'). unfold cli_field. rewrite <- E, (assoc_of_in _ _ _ N I), V.
  destruct fv as [a b]. cbn [fst snd omap_err obind] in *. subst b. reflexivity.
Qed.
Lemma cli_list_given c x d target s values nt fv : cli_list c x d target s values nt = Ok fv -> given_list c x d target s values nt fv.
Proof.
  unfold cli_list. destruct (assoc (new_id (fst nt)) (s_fields s)) as [f|] eqn:A; [|discriminate].
  destruct (field_type_eqb (fs_type f) TList) eqn:T; cbn [negb]; [|discriminate].
  destruct (item_type (snd nt)) as [t|] eqn:IT; [|discriminate].
  destruct (filter (fun nv => str_eqb (fst nv) (fst nt)) values) as [|v vs] eqn:VS; [discriminate|]. rewrite <- VS.
  destruct (omap (fun nv : str * str => cli_value c x d target t (snd nv)) (filter (fun nv => str_eqb (fst nv) (fst nt)) values)) as [items|e|] eqn:O; try discriminate.
  cbn [omap_err obind]. destruct (list_cases items) as [[-> HO]|(p0 & a1 & p1 & b1 & _ & _ & _ & ->)]; [|discriminate]. cbn [omap_err obind]. intros [= <-].
  split; [reflexivity|]. split; [exists f; split; [apply assoc_in, A|apply field_type_eqb_eq, T]|]. unfold values_for. split; [rewrite VS; discriminate|].
  exists t, (map to_value items). split; [apply item_type_spec, IT|]. split; [reflexivity|]. split; [exact HO|].
  apply omap_ok in O. clear VS HO. induction O as [|y p l ps E O IH]; cbn [map]; constructor; [apply cli_value_spec; eauto|exact IH].
Qed.
Lemma cli_entity_asked c x d g schemas a e : shuffles (c_fields c) -> (forall l, Permutation (cl_order x l) l) ->
  cli_entity c x d g schemas a = Ok e -> asked_flags c x d schemas a e /\ get_entity g (e_id e) = None.
Proof.
  intros SH PO H. unfold cli_entity in H. destruct (find (fun s => str_eqb (s_type s) (x_type a)) schemas) as [s|] eqn:F; [|discriminate].
  apply find_some in F as [I T]. apply str_eqb_eq in T.
  destruct (get_entity g (compose_entity_id (x_type a) (sanitize_entity_id (x_id a)))) eqn:G; [discriminate|].
  set (target := dsl_path c (x_type a) (x_file a)) in *. destruct (lists_spec (x_lists a)) as [N L]. cbn zeta in *.
  set (m := fold_left _ (x_lists a) []) in *.
  destruct (omap (cli_field c x d target s) (x_fields a)) as [fs|er|] eqn:OF; try discriminate. cbn [obind] in H.
  destruct (omap (cli_list c x d target s (x_values a)) (cl_order x m)) as [ls|er|] eqn:OL; try discriminate. cbn [obind] in H.
  destruct (validate _ _ _) as [|y l] eqn:V; [|discriminate]. injection H as <-. split; [|exact G].
  apply (validate_conforms (c_fields c) s _ SH) in V. exists s, fs, ls, (cl_order x m). cbn [e_id e_type e_fields].
  split; [exact I|]. split; [exact T|]. split; [reflexivity|]. split; [exact T|]. split; [exact V|]. split; [reflexivity|]. split.
  { apply omap_ok in OF. eapply forall2_impl; [|exact OF]. intros ? ?. apply cli_field_given. }
  split; [eapply Permutation_NoDup; [apply Permutation_map, Permutation_sym, PO|exact N]|]. split.
  { intros n t. rewrite <- L. split; intros X; eapply Permutation_in; try exact X; [apply PO|apply Permutation_sym, PO]. }
  apply omap_ok in OL. eapply forall2_impl; [|exact OL]. intros ? ?. apply cli_list_given.
Qed.
(** ** Before a command *)
Lemma aside_tidy w d : tidy d -> tidy (aside w d).
Proof. intros T. unfold aside. destruct (node_at d (cp w)); [apply tidy_set, tidy_unset, T|exact T]. Qed.
Lemma save_tidy j c w d g s : workable c w d -> tidy d -> tidy (fst (save_graph j c d g s)).
Proof.
  intros W T. rewrite (save_spec j c w d g s W). destruct s; try destruct (to_json j g); cbn [fst]; auto using aside_tidy, tidy_set.
Qed.
Lemma rest_kept w d d' : rest_of w d' = rest_of w d -> forall p, p <> cp w -> p <> bp w -> node_at d' p = node_at d p.
Proof.
  intros E p A B. apply (node_rest w); [exact E|]. unfold kept_key. apply Bool.negb_true_iff, Bool.orb_false_iff. split; apply place_eqb_neq; assumption.
Qed.
Lemma prepare_spec c x d w cached d1 r : workable c w d -> prepare c x d cached = (d1, r) ->
  workable c w d1 /\ rest_of w d1 = rest_of w d /\ (tidy d -> tidy d1).
Proof.
  intros W H. unfold prepare in H. destruct cached; [injection H as <- _; auto|].
  assert (K : d1 = d \/ exists g, d1 = fst (save_graph (cl_json x) c d g Finished)).
  { unfold build_and_save in H. destruct (rebuild c d) as [st|e|]; [|injection H as <- _; auto|injection H as <- _; auto].
    right. exists (st_graph st). destruct (save_graph (cl_json x) c d (st_graph st) Finished) as [d2 []]; injection H as <- _; reflexivity. }
  destruct K as [->|(g & ->)]; [auto|]. split; [apply save_workable, W|]. split; [apply save_rest, W|apply save_tidy with (1 := W)].
Qed.
Lemma prepare_fresh c x d w d1 r : workable c w d -> (forall st, rebuild c d = Ok st -> savable (cl_json x) (st_graph st)) ->
  prepare c x d false = (d1, r) ->
  match r with
  | Succeeded _ => exists st, rebuild c d = Ok st /\ rebuild c d1 = Ok st /\ load_current_graph (cl_json x) c d1 = Some (st_graph st)
  | Failed => d1 = d /\ exists e, rebuild c d = Err e
  | Died => d1 = d /\ rebuild c d = Panic
  end.
Proof.
  intros W SV H. pose proof (prepare_spec c x d w false d1 r W H) as (W1 & R1 & _). unfold prepare, build_and_save in H.
  destruct (rebuild c d) as [st|e|] eqn:B.
  - destruct (SV st eq_refl) as (t & J & T & O). rewrite (save_spec _ c w d _ _ W), J in H. injection H as <- <-. exists st. split; [reflexivity|]. split.
    + rewrite <- B. apply (rebuild_rest c w); auto.
    + apply (load_holds _ c w _ _ W1). apply set_holds; auto using cp_root.
  - injection H as <- <-. eauto.
  - injection H as <- <-. auto.
Qed.
Lemma workspace_rest c w d d' : workable c w d -> workable c w d' -> rest_of w d = rest_of w d' -> workspace_build c d = workspace_build c d'.
Proof. intros W W' R. unfold workspace_build. rewrite (load_rest c w d d' W W' R). reflexivity. Qed.
Lemma workspace_of_rebuild c d st : rebuild c d = Ok st -> workspace_build c d = Ok (st_files st, st_build st).
Proof.
  intros B. destruct (rebuild_files c d st B) as (fs & LD & Ef & G). unfold workspace_build. rewrite LD. cbn [obind]. rewrite <- Ef.
  unfold load_graph in G. destruct (build_workspace _ _ _ _) as [b|e|]; try discriminate. cbn [omap_err obind] in *.
  destruct (add_entities graph_new (b_entities b)) as [g []]; [|discriminate]. injection G as -> _. reflexivity.
Qed.
(** ** Paths in fields *)
Lemma path_text_of cs : slashless cs -> path_of (path_text cs) = cs \/ (cs = [] /\ path_of (path_text cs) = [[]]).
Proof.
  intros SL. destruct cs as [|x cs]; [right; split; reflexivity|left]. unfold path_of, path_text.
  revert x SL. induction cs as [|y cs IH]; intros x SL; inversion SL as [|? ? S1 S2]; subst.
  - cbn [join]. apply split_char_free. exact S1.
  - change (join (L "/") (x :: y :: cs)) with (x ++ "/"%char :: join (L "/") (y :: cs)). rewrite split_char_app by exact S1. rewrite (IH y S2). reflexivity.
Qed.
Lemma sound_proper d q : sound d -> node_at d q <> None -> Forall proper_name q.
Proof.
  intros S. induction q as [|c q IH] using rev_ind; intros N; [constructor|]. destruct (S q c N) as [D P].
  apply Forall_app. split; [apply IH; congruence|constructor; [exact P|constructor]].
Qed.
Lemma proper_parts q : Forall proper_name q -> parts q = q.
Proof.
  intros F. unfold parts. apply filter_all. eapply Forall_impl; [|exact F]. intros c (A & B & _). unfold stays.
  apply Bool.negb_true_iff, Bool.orb_false_iff. split; apply str_eqb_neq; assumption.
Qed.
Lemma walk_ups_dirs k d p b rest : sound d -> node_at d (p ++ b) = Some Dir -> M_Fs.walk k d (p ++ b) (map (fun _ => L "..") b ++ rest) = M_Fs.walk k d p rest.
Proof.
  intros S. induction b as [|x b IH] using rev_ind; intros N; [rewrite app_nil_r; reflexivity|].
  rewrite map_app, <- app_assoc. cbn [map app].
  assert (E : forall m (r : list str), map (fun _ : str => L "..") m ++ L ".." :: r = L ".." :: map (fun _ => L "..") m ++ r).
  { clear. induction m as [|y m IH]; intros r; [reflexivity|]. cbn [map app]. rewrite IH. reflexivity. }
  rewrite E, walk_cons, N. change (stays (L "..")) with false. change (climbs (L "..")) with true. cbn iota.
  rewrite app_assoc, removelast_last. apply IH. rewrite app_assoc in N. apply (S (p ++ b) x). congruence.
Qed.
Lemma cli_path_leads c x d target s q b : sound d -> canonicalize (c_links c) d (join_path (cl_cwd x) s) = Some q ->
  parent target <> None -> (forall dir, parent target = Some dir -> canonicalize (c_links c) d dir = Some b) -> node_at d b = Some Dir ->
  resolve (c_links c) d (b ++ path_of (cli_path c x d target s)) = At q.
Proof.
  intros SD CQ PT CB Db. destruct (parent target) as [dir|] eqn:P; [|congruence]. specialize (CB dir eq_refl).
  unfold cli_path. rewrite CQ, P, CB. unfold place_path.
  assert (RQ : resolve (c_links c) d (join_path (cl_cwd x) s) = At q).
  { unfold canonicalize in CQ. destruct (resolve _ _ _); try discriminate. congruence. }
  destruct (resolve_at _ _ _ _ SD RQ) as [Nq Lq].
  assert (Nb : node_at d b <> None) by congruence. assert (Lb : forall t, node_at d b <> Some (Link t)) by congruence.
  pose proof (sound_proper d q SD Nq) as Pq. pose proof (sound_proper d b SD Nb) as Pb.
  rewrite (proper_parts q Pq), (proper_parts b Pb).
  assert (Fb : Forall (fun y => climbs y = false) b) by (eapply Forall_impl; [|exact Pb]; intros y (_ & _ & N & _); apply str_eqb_neq; exact N).
  destruct (diff_split q b Fb) as (p & q' & b' & Eq & Eb & D). rewrite D.
  assert (SL : slashless (map (fun _ : str => L "..") b' ++ q')).
  { apply Forall_app. split; [apply Forall_map, Forall_forall; intros y _; cbn; intuition discriminate|].
    rewrite Eq in Pq. apply Forall_app in Pq as [_ Pq]. eapply Forall_impl; [|exact Pq]. intros y (_ & _ & _ & N). exact N. }
  assert (W : resolve (c_links c) d (b ++ map (fun _ : str => L "..") b' ++ q') = At q).
  { pose proof (walk_then d (c_links c) [] b b SD ltac:(discriminate) (resolve_place d (c_links c) b SD Nb Lb)) as (k & K).
    unfold resolve. rewrite (K d _ (extends_refl d)). rewrite Eb at 1. rewrite walk_ups_dirs by (auto; congruence).
    rewrite Eq. rewrite Eq in Nq, Lq. apply walk_place; [exact SD| |exact Nq]. intros t r u E.
    destruct u as [|y u]; [rewrite app_nil_r in E; subst r; apply Lq|]. intros LK.
    assert (node_at d r = Some Dir); [|congruence]. clear - SD Nq E. rewrite E in Nq. clear E. revert Nq. induction u as [|z u IH] using rev_ind; intros Nq.
    - apply (SD r y). exact Nq.
    - apply IH. rewrite app_comm_cons, app_assoc in Nq. destruct (SD _ _ Nq) as [G _]. congruence. }
  destruct (path_text_of _ SL) as [E|[E E']]; [rewrite E; exact W|]. rewrite E'. rewrite E, app_nil_r in W.
  pose proof (walk_then d (c_links c) [] b b SD ltac:(discriminate) (resolve_place d (c_links c) b SD Nb Lb)) as (k & K).
  unfold resolve in *. rewrite (K d _ (extends_refl d)), walk_cons, Db. cbn iota. change (stays []) with true. cbn iota. rewrite walk_nil.
  rewrite <- (app_nil_r b), (K d _ (extends_refl d)), walk_nil in W. exact W.
Qed.
(** ** The name of the file *)
Lemma walk_snoc_dir k d cur p c q : sound d -> node_at d cur <> None -> stays c || climbs c = true ->
  M_Fs.walk k d cur (p ++ [c]) = At q -> node_at d q = Some Dir.
Proof.
  intros S N SC W. revert N W. revert k cur p.
  apply (lex_ind (fun k cur p => node_at d cur <> None -> M_Fs.walk k d cur (p ++ [c]) = At q -> node_at d q = Some Dir)).
  intros k cur p IHk IHp N W. destruct p as [|a p]; cbn [app] in W; rewrite walk_cons in W; destruct (node_at d cur) as [[]|] eqn:E; try discriminate.
  - destruct (stays c); [rewrite walk_nil in W; congruence|]. cbn [orb] in SC. rewrite SC, walk_nil in W. injection W as <-.
    destruct cur as [|x cur] using rev_ind; [exact E|]. rewrite removelast_last. apply (S cur x). congruence.
  - destruct (stays a); [refine (IHp cur p _ _ W); [cbn [length]; auto|congruence]|].
    destruct (climbs a); [refine (IHp (removelast cur) p _ _ W); [cbn [length]; auto|apply sound_up; auto; congruence]|].
    destruct (node_at d (cur ++ [a])) as [[]|] eqn:F.
    1,2: refine (IHp (cur ++ [a]) p _ _ W); [cbn [length]; auto|congruence].
    + destruct k as [|k]; [discriminate|]. rewrite app_assoc in W. eapply IHk; [| |exact W]; auto.
      destruct target as [|[[] [] [] [] [] [] [] []] target]; cbn [node_at]; congruence.
    + destruct p; discriminate.
Qed.
Lemma file_target_name k d p q old : sound d -> resolve k d (with_firm p) = At q -> node_at d q = Some (File old) ->
  exists r n, with_firm p = r ++ [n] /\ firm_file_name n.
Proof.
  intros S R N. destruct (with_firm_name p) as [[E C]|(r & n & E & F & _)]; [|eauto]. exfalso. rewrite E in R.
  destruct (drop_stays_split (rev p)) as (ss & Er & St). assert (Ep : p = rev (drop_stays (rev p)) ++ rev ss) by (rewrite <- rev_app_distr, <- Er, rev_involutive; reflexivity).
  assert (X : p = [] \/ exists r y, p = r ++ [y] /\ stays y || climbs y = true).
  { destruct ss as [|y sr].
    - destruct (drop_stays (rev p)) as [|n r] eqn:D; [left; exact Ep|right]. exists (rev r), n. split; [rewrite Ep; cbn [rev]; rewrite app_nil_r; reflexivity|].
      rewrite (C n r eq_refl). apply Bool.orb_true_r.
    - right. exists (rev (drop_stays (rev p)) ++ rev sr), y. split; [rewrite Ep at 1; cbn [rev]; rewrite app_assoc; reflexivity|].
      inversion St as [|? ? Sy _]; subst. rewrite Sy. reflexivity. }
  destruct X as [-> | (r & y & -> & SC)].
  - unfold resolve in R. rewrite walk_nil in R. injection R as <-. discriminate.
  - pose proof (walk_snoc_dir k d [] r y q S ltac:(discriminate) SC R). congruence.
Qed.
(** ** What is asked for is made *)
Lemma given_cli_list c x d target s values nt fv : NoDup (map fst (s_fields s)) -> given_list c x d target s values nt fv -> cli_list c x d target s values nt = Ok fv.
Proof.
  intros N (E & (f & I & T) & NE & t & vs & IT & EV & HO & F). unfold cli_list. rewrite <- E, (assoc_of_in _ _ _ N I), T. cbn [field_type_eqb negb].
  apply item_type_spec in IT. rewrite IT. unfold values_for in *.
  set (l := filter (fun nv => str_eqb (fst nv) (fst nt)) values) in *. clearbody l.
  assert (O : exists items, omap (fun nv : str * str => cli_value c x d target t (snd nv)) l = Ok items /\ map to_value items = vs).
  { clear - F. revert vs F. induction l as [|y l IH]; cbn [map]; intros vs F; inversion F as [|? v ? vs' G F']; subst; [exists []; split; reflexivity|].
    apply cli_value_spec in G as (p & V & ->). destruct (IH _ F') as (items & O & <-). exists (p :: items).
    cbn [omap]. rewrite V. cbn [obind]. rewrite O. split; reflexivity. }
  destruct O as (items & O & <-). destruct l as [|y l]; [destruct NE; reflexivity|]. rewrite O. cbn [omap_err obind].
  destruct (list_cases items) as [[-> _]|(p0 & a1 & p1 & b1 & -> & _ & X & _)].
  - cbn [omap_err obind to_value]. destruct fv as [u v]. cbn [fst snd] in *. subst v. reflexivity.
  - exfalso. apply X. rewrite !type_name_kind. apply HO; apply in_map; [right; apply in_or_app; right|]; left; reflexivity.
Qed.
Lemma given_list_value c x d target s values l ls : Forall2 (given_list c x d target s values) l ls ->
  forall id v, In (id, v) ls -> (exists f, In (id, f) (s_fields s) /\ fs_type f = TList) /\ exists vs, v = VList vs.
Proof.
  induction 1 as [|nt fv l ls (E & F & _ & t & vs & _ & EV & _) FF IH]; intros id v X; [destruct X|]. destruct X as [X|X]; [|auto]. subst fv. cbn [fst snd] in *. eauto.
Qed.
(** The entities differ in the order of their lists only. *)
Lemma asked_cli_entity c x d g schemas a e : shuffles (c_fields c) -> (forall l, Permutation (cl_order x l) l) -> NoDup (map s_type schemas) ->
  (forall s, In s schemas -> well_formed s) -> asked_flags c x d schemas a e -> get_entity g (e_id e) = None ->
  exists e', cli_entity c x d g schemas a = Ok e' /\ lists_shuffled a e e'.
Proof.
  intros SH CO ND WF (s & fs & ls & lists & I & T & Ei & Et & Co & Ef & F & NL & LL & FL) G. unfold cli_entity.
  assert (Fs : find (fun s => str_eqb (s_type s) (x_type a)) schemas = Some s).
  { clear - I T ND. induction schemas as [|y l IH]; [destruct I|]. cbn [find]. cbn [map] in ND. inversion ND as [|? ? N1 N2]; subst.
    destruct I as [<-|I]; [rewrite T, str_eqb_refl; reflexivity|]. destruct (str_eqb_spec (s_type y) (x_type a)) as [E|_]; [|auto].
    exfalso. apply N1. rewrite E, <- T. apply in_map. exact I. }
  rewrite Fs, <- Ei, G. destruct (lists_spec (x_lists a)) as [NM LM]. cbn zeta in *. set (m := fold_left _ (x_lists a) []) in *.
  assert (A : omap (cli_field c x d (dsl_path c (x_type a) (x_file a)) s) (x_fields a) = Ok fs).
  { apply omap_ok. eapply forall2_impl; [|exact F]. intros nv fv. apply given_cli_field. exact (WF s I). }
  assert (PM : Permutation lists (cl_order x m)).
  { eapply Permutation_trans; [|apply Permutation_sym, CO]. apply NoDup_Permutation; [exact (NoDup_map_inv _ _ NL)|exact (NoDup_map_inv _ _ NM)|].
    intros [n t]. rewrite LM. apply LL. }
  destruct (Permutation_Forall2 PM FL) as (ls' & PL & FL').
  assert (B : omap (cli_list c x d (dsl_path c (x_type a) (x_file a)) s (x_values a)) (cl_order x m) = Ok ls').
  { apply omap_ok. eapply forall2_impl; [|exact FL']. intros nv fv. apply given_cli_list. exact (WF s I). }
  rewrite A. cbn [obind]. rewrite B. cbn [obind].
  set (e' := {| e_id := e_id e; e_type := s_type s; e_fields := fs ++ ls' |}).
  assert (Co' : conforms s e').
  { destruct Co as [C1 C2]. split; [reflexivity|]. intros id f If. destruct (C2 id f If) as (R1 & R2 & R3).
    assert (K : forall v, first_value e' id v -> first_value e id v \/ (fs_type f = TList /\ exists vs, v = VList vs)).
    { intros v (a0 & b0 & E0 & N0). cbn [e_fields e'] in E0.
      assert (KL : In (id, v) ls' -> fs_type f = TList /\ exists vs, v = VList vs).
      { intros Iv. destruct (given_list_value _ _ _ _ _ _ _ _ FL' id v Iv) as ((f' & If' & T') & V). split; [|exact V].
        pose proof (assoc_of_in _ _ _ (WF s I) If) as A1. pose proof (assoc_of_in _ _ _ (WF s I) If') as A2. congruence. }
      destruct (app_eq_app _ _ _ _ E0) as (l & [[E1 E2]|[E1 E2]]).
      - destruct l as [|y l]; [right; apply KL; cbn in E2; rewrite <- E2; left; reflexivity|]. left. injection E2 as <- E2.
        exists a0, (l ++ ls). rewrite Ef, E1, <- app_assoc. split; [reflexivity|exact N0].
      - right. apply KL. rewrite E2. apply in_or_app. right. left. reflexivity. }
    split; [|split].
    - intros R. destruct (R1 R) as (v & Iv). exists v. cbn [e_fields e']. rewrite Ef in Iv. apply in_app_iff in Iv. apply in_app_iff.
      destruct Iv as [Iv|Iv]; [auto|right]. exact (Permutation_in _ PL Iv).
    - intros v Fv. destruct (K v Fv) as [X|(-> & vs & ->)]; [auto|constructor].
    - intros y Fv. destruct (K _ Fv) as [X|(_ & vs & X)]; [auto|discriminate]. }
  apply (validate_conforms (c_fields c) s e' SH) in Co'. rewrite Co'. exists e'. split; [reflexivity|].
  split; [reflexivity|]. split; [cbn; congruence|]. exists fs, ls, ls'. split; [exact Ef|]. split; [reflexivity|]. split; [|exact PL].
  clear - F. induction F; cbn [length]; congruence.
Qed.
Lemma shuffled_none c x d schemas a e e' : x_lists a = [] -> asked_flags c x d schemas a e -> lists_shuffled a e e' -> e' = e.
Proof.
  intros XL (s & fs & ls & lists & _ & _ & _ & _ & _ & Ef & F & _ & LL & FL) (Ei & Et & fs' & ls1 & ls2 & E1 & E2 & LN & PL).
  assert (B : ls = []).
  { destruct lists as [|[n t] l]; [inversion FL; reflexivity|]. exfalso. destruct (proj1 (LL n t) (or_introl eq_refl)) as (u & v & E & _).
    rewrite XL in E. destruct u; discriminate. }
  assert (LF : length fs = length (x_fields a)) by (clear - F; induction F; cbn [length]; congruence).
  subst ls. rewrite app_nil_r in Ef. rewrite E1 in Ef. assert (LE : length (fs' ++ ls1) = length fs) by congruence. rewrite app_length in LE.
  destruct ls1; [|cbn [length] in LE; lia]. apply Permutation_nil in PL. subst ls2. rewrite app_nil_r in *.
  destruct e, e'. cbn in *. congruence.
Qed.
Lemma write_existing c d p n q old dsl : sound d -> stays n = false -> climbs n = false ->
  resolve (c_links c) d (p ++ [n]) = At q -> node_at d q = Some (File old) ->
  write_dsl c d (p ++ [n]) dsl = (set_node d q (File (old ++ dsl)), true).
Proof.
  intros SD S1 C1 R F. destruct (parent_name p n S1) as (y & ss & P & E & St).
  unfold write_dsl. rewrite P.
  destruct (walk_snoc_at (c_links c) d [] p n q ltac:(discriminate) R S1 C1 SD) as (r & W & D & _).
  assert (ID : is_dir (c_links c) d y = true).
  { unfold is_dir, stat, resolve. rewrite E in W. apply walk_stays in W; [|exact St]. rewrite W, D. reflexivity. }
  rewrite (create_existing _ _ _ _ SD ID). unfold append_to. rewrite R, F. reflexivity.
Qed.
Lemma trim_none q s : (forall r, s <> q :: r) -> (forall r, s <> r ++ [q]) -> trim_matches_char q s = s.
Proof.
  intros A B. pose proof (trim_final_quote q s A B) as H. unfold trim_matches_char, trim_end_char in *. destruct s as [|ch s]; [reflexivity|].
  assert (N : Ascii.eqb ch q = false) by (apply Ascii.eqb_neq; intros ->; exact (A s eq_refl)).
  cbn [app trim_start_char] in *. rewrite N in *. rewrite app_comm_cons, rev_unit in H. cbn [trim_start_char] in H. rewrite Ascii.eqb_refl in H. exact H.
Qed.
