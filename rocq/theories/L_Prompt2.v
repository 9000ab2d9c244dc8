(** Lemmas about what is entered in prompts. *)
From Coq Require Import Lia.
From Verif Require Import S_Graph L_Graph.
From Verif Require Import S_Prompt S_Grow L_Str L_Text L_Schema L_Schema2 L_Ids L_Num L_DslStr L_DslVal L_Fs L_Server L_Load L_Workspace L_History L_Add L_Save L_Cli L_Prompt L_Grow.
From Verif Require P_Dsl P_Cli.
Close Scope Z_scope.

(** ** Dots in ids *)
Definition dots (s : str) : str := filter (fun c => Ascii.eqb c ".") s.
Lemma dots_app a b : dots (a ++ b) = dots a ++ dots b.
Proof. apply filter_app. Qed.
Lemma dots_free s : dots s = [] <-> ~ In "."%char s.
Proof.
  unfold dots. induction s as [|c s IH]; cbn [filter]; [split; auto|]. destruct (Ascii.eqb_spec c ".") as [->|N].
  - split; [discriminate|]. intros H. destruct H. left. reflexivity.
  - rewrite IH. cbn. intuition congruence.
Qed.
Lemma dots_lower s : dots (lower s) = dots s.
Proof.
  unfold dots, lower. induction s as [|c s IH]; cbn [map filter]; [reflexivity|]. rewrite IH.
  assert (E : Ascii.eqb (lower_ascii c) "." = Ascii.eqb c ".").
  { destruct (is_upper c) eqn:U; [|rewrite lower_ascii_id by exact U; reflexivity]. pose proof (lower_alpha c) as A. unfold is_alpha in A. rewrite U in A.
    destruct (Ascii.eqb_spec (lower_ascii c) ".") as [E|]; [rewrite E in A; cbn in A; rewrite ?Bool.orb_true_r, ?Bool.orb_true_l in A; discriminate|].
    destruct (Ascii.eqb_spec c ".") as [->|]; [discriminate|reflexivity]. }
  rewrite E. destruct (Ascii.eqb_spec c ".") as [->|N]; [|reflexivity]. reflexivity.
Qed.
Lemma dots_concat ws : dots (concat ws) = concat (map dots ws).
Proof. induction ws as [|w ws IH]; [reflexivity|]. cbn [concat map]. rewrite dots_app, IH. reflexivity. Qed.
Lemma dots_join ws : dots (join (L "_") ws) = concat (map dots ws).
Proof.
  induction ws as [|w ws IH]; [reflexivity|]. destruct ws as [|w2 ws]; [cbn [join map concat]; rewrite app_nil_r; reflexivity|].
  change (join (L "_") (w :: w2 :: ws)) with (w ++ L "_" ++ join (L "_") (w2 :: ws)). rewrite !dots_app, IH. reflexivity.
Qed.
Lemma dots_unsep s : dots (unsep s) = dots s.
Proof.
  unfold dots, unsep. induction s as [|c s IH]; cbn [filter]; [reflexivity|]. destruct (is_sep c) eqn:S; cbn [negb filter]; [|rewrite IH; reflexivity].
  destruct (Ascii.eqb_spec c ".") as [->|]; [discriminate|exact IH].
Qed.
Lemma dots_snake s : dots (to_snake s) = dots s.
Proof.
  unfold to_snake. rewrite dots_join, <- dots_unsep, <- unsep_concat_words, dots_concat, map_map. induction (split_words s) as [|w ws IH]; [reflexivity|].
  cbn [filter map concat]. destruct w as [|ch w]; cbn [non_empty]; [exact IH|]. cbn [map concat]. rewrite IH, dots_lower. reflexivity.
Qed.
Lemma compose_is_plain t i : ~ In "."%char t -> ~ In "."%char i -> plain_entity_id (compose_entity_id t i).
Proof.
  intros T I. unfold compose_entity_id. split; [apply to_snake_idem|]. unfold new_id. destruct (to_snake_dot (lower t) i) as (p & q & A & B & ->).
  exists p, q. split; [reflexivity|]. apply (f_equal dots) in A, B. rewrite dots_snake, !dots_app in A, B. rewrite dots_lower in A.
  split; apply dots_free.
  - apply dots_free in T. rewrite T in A. cbn [app] in A. destruct (dots p); [reflexivity|]. apply (f_equal (@length ascii)) in A. rewrite app_length in A. cbn in A. lia.
  - apply dots_free in I. rewrite I in B. cbn in B. injection B as B. auto.
Qed.
Lemma plain_id_undotted i : ~ In "."%char i -> decompose_entity_id i = (L "unknown", i).
Proof.
  intros H. unfold decompose_entity_id. apply split_once_none in H. rewrite H. reflexivity.
Qed.
Lemma sanitized_undotted s : ~ In "."%char (sanitize_entity_id s).
Proof.
  unfold sanitize_entity_id. apply dots_free. rewrite dots_snake. apply dots_free. intros H. apply filter_In in H as [_ H]. discriminate.
Qed.
Lemma unique_undotted g t s : ~ In "."%char (compute_unique_entity_id g t s).
Proof.
  destruct (P_Cli.C43_first_unused_candidate g t s) as (k & _ & -> & _). pose proof (sanitized_undotted s) as H. destruct k as [|k]; [exact H|]. cbn [candidate].
  rewrite !in_app_iff. intros [A|[A|A]]; [exact (H A)|cbn in A; intuition discriminate|]. exact (show_N_not "."%char _ eq_refl A).
Qed.

(** ** Values that were entered *)
Section Entered.
  Variables (c : ctx) (pe : prompt_env) (g : graph) (target : path).
  Notation ent := (enters c pe g target).
  Lemma enters_type t al acts v : ent t al acts v -> has_type v t.
  Proof. intros H. destruct H; constructor. Qed.
  Lemma enters_allowed t al acts x : ent t al acts (VEnum x) -> exists vs, al = Some vs /\ In x vs.
  Proof. intros H. inversion H as [| | | | | | | |vs n y E|]; subst. exists vs. split; [reflexivity|]. eapply nth_error_In, E. Qed.
  Lemma time_minutes s secs : says_time s secs -> (secs mod 60 = 0 /\ 0 <= secs < 86400)%Z.
  Proof.
    intros [[_ ->]|[_ H]]; [split; [reflexivity|lia]|]. unfold parse_hm in H. destruct (take_two s) as [[h s1]|]; [|discriminate]. destruct (expect ":" s1) as [s2|]; [|discriminate].
    destruct (take_two s2) as [[m [|]]|]; try discriminate. destruct ((h <? 24) && (m <? 60))%N eqn:R; [|discriminate]. injection H as <-. split; [|lia].
    replace (Z.of_N h * 3600 + Z.of_N m * 60)%Z with ((Z.of_N h * 60 + Z.of_N m) * 60)%Z by lia. apply Z_mod_mult.
  Qed.
  Lemma i64_bounds s z : parse_i64 s = Some z -> in_i64 z = true.
  Proof.
    unfold parse_i64. match goal with |- (match ?r with Some _ => _ | None => _ end) = _ -> _ => destruct r as [z'|] end; [|discriminate].
    destruct (in_i64 z') eqn:E; [|discriminate]. intros [= <-]. exact E.
  Qed.
  Lemma reference_survives o path s r : names_known g s r -> survives (c_env c) o path (VRef r).
  Proof.
    intros (t & i & e & T & I & G & [[-> ->]|(f & v & F & -> & -> & V)]).
    - apply P_Dsl.C24_entity_references, compose_is_plain; assumption.
    - apply P_Dsl.C24_field_references. split; [apply compose_is_plain; assumption|exact F].
  Qed.
  Lemma scalar_survives o path t al acts v : faithful c pe -> ent t al acts v -> t <> TPath -> t <> TList -> writable c v -> survives (c_env c) o path v.
  Proof.
    intros [FD FC] H NP NL W. destruct H; try congruence; inversion W; subst.
    - apply P_Dsl.C24_booleans.
    - apply P_Dsl.C25_strings_survive_exactly; [assumption|]. left. auto.
    - apply P_Dsl.C24_integers. eapply i64_bounds. eassumption.
    - apply P_Dsl.C24_floats. assumption.
    - apply P_Dsl.C27_currencies; [eapply FD; eassumption|apply FC; eapply nth_error_In; eassumption|apply FC; eapply nth_error_In; eassumption].
    - eapply reference_survives. eassumption.
    - match goal with H : says_time _ _ |- _ => apply time_minutes in H as [M B] end. apply P_Dsl.C26_survives_exactly.
      + unfold printable_datetime. match goal with |- context [civil_of_days ?x] => destruct (civil_of_days x) as [[y m] dd] end. cbn [dt_off dt_nanos]. lia.
      + cbn [dt_local dt_nanos dt_off]. split; [|split; [reflexivity|rewrite Z.rem_mul; [reflexivity|lia]]].
        replace (day * 86400 + secs)%Z with (secs + (day * 1440) * 60)%Z by lia. rewrite Z_mod_plus_full. exact M.
    - apply P_Dsl.C28_enums_survive_exactly. assumption.
  Qed.
  Lemma kind_of_item t al acts v : In t item_types -> ent t al acts v -> kind_name v =
    match t with TStr => L "String" | TInt => L "Integer" | TFloat => L "Float" | TBool => L "Boolean" | TDate => L "DateTime" | _ => L "Currency" end.
  Proof. intros I H. cbn in I. decompose [or] I; subst; try contradiction; inversion H; subst; reflexivity. Qed.
  Lemma entered_read o path t al acts v : faithful c pe -> ent t al acts v -> writable c v ->
    exists v', read_back (c_env c) o path v = Ok v' /\ read_as v v'.
  Proof.
    intros FA H W. assert (K : survives (c_env c) o path v -> exists v', read_back (c_env c) o path v = Ok v' /\ read_as v v') by (intros S; exists v; split; [exact S|left; reflexivity]).
    destruct t; try (apply K; eapply scalar_survives; eauto; discriminate).
    - apply K. inversion H as [| | | | | | | | |al' n t parts vs Hn F]; subst. inversion W as [| | | | | |vs' F'| | |]; subst.
      assert (It : In t item_types) by (eapply nth_error_In, Hn). apply P_Dsl.C29_lists_survive_exactly. split.
      + assert (NP : t <> TPath /\ t <> TList) by (split; intros ->; cbn in It; intuition discriminate). clear - F F' FA NP.
        induction F as [|part v parts vs E F IH]; [constructor|]. inversion F'; subst. constructor; [|auto]. eapply scalar_survives; eauto; apply NP.
      + intros a b Ha Hb. destruct (Forall2_in_r _ _ _ F a Ha) as (pa & _ & Ea). destruct (Forall2_in_r _ _ _ F b Hb) as (pb & _ & Eb).
        rewrite (kind_of_item t None pa a It Ea), (kind_of_item t None pb b It Eb). reflexivity.
    - inversion H; subst. eexists. split; [reflexivity|]. right. eexists. eexists. split; reflexivity.
  Qed.

  (** Several fields *)
  Lemma chat_values l acts fvs : chat c pe g target l acts fvs -> forall i v, In (i, v) fvs -> exists f part, In (i, f) l /\ ent (fs_type f) (fs_allowed f) part v.
  Proof.
    intros H. induction H as [|i f l part v acts fvs E C IH|i f l acts fvs R N C IH]; intros j w I; [destruct I| |].
    - destruct I as [[= <- <-]|I]; [exists f, part; split; [left; reflexivity|exact E]|]. destruct (IH j w I) as (f' & p & A & B). exists f', p. split; [right; exact A|exact B].
    - destruct (IH j w I) as (f' & p & A & B). exists f', p. split; [right; exact A|exact B].
  Qed.
  Lemma chat_all l acts fvs : chat c pe g target l acts fvs -> forall i f, In (i, f) l -> fs_required f = true -> exists v, In (i, v) fvs.
  Proof.
    intros H. induction H as [|i f l part v acts fvs E C IH|i f l acts fvs R N C IH]; intros j f' I Q; [destruct I| |].
    - destruct I as [[= <- <-]|I]; [exists v; left; reflexivity|]. destruct (IH j f' I Q) as (w & A). exists w. right. exact A.
    - destruct I as [[= <- <-]|I]; [congruence|]. exact (IH j f' I Q).
  Qed.
End Entered.

(** ** The entity *)
Lemma in_fields_typed e i v : first_value e i v -> In (i, v) (e_fields e).
Proof. intros (a & b & E & _). rewrite E. apply in_or_app. right. left. reflexivity. Qed.
Lemma dialogue_fields c pe g schemas file acts e : dialogue c pe g schemas file acts e -> exists s, In s schemas /\ e_type e = s_type s /\
  (exists name, e_id e = compute_unique_entity_id g (s_type s) name) /\
  (forall i v, In (i, v) (e_fields e) -> exists f part, In (i, f) (s_fields s) /\ enters c pe g (dsl_path c (s_type s) file) (fs_type f) (fs_allowed f) part v) /\
  (forall i f, In (i, f) (s_fields s) -> fs_required f = true -> exists v, In (i, v) (e_fields e)).
Proof.
  intros (l & n & s & name & lr & ar & fr & answer & lo & ao & fo & O & Hn & Ar & Cr & M & _ & Ei & Et & Ef). cbv zeta in *.
  exists s. split; [exact (offered_in _ _ _ _ O Hn)|]. split; [exact Et|]. split; [eauto|]. rewrite Ef. split.
  - intros i v H. apply in_app_or in H as [H|H].
    + destruct (chat_values _ _ _ _ _ _ _ Cr i v H) as (f & part & I & E). exists f, part. split; [apply Ar, I|exact E].
    + destruct M as [(_ & Ao & Co)|(_ & _ & ->)]; [|destruct H]. destruct (chat_values _ _ _ _ _ _ _ Co i v H) as (f & part & I & E). exists f, part. split; [apply Ao, I|exact E].
  - intros i f I R. destruct (chat_all _ _ _ _ _ _ _ Cr i f) as (v & H); [apply Ar; auto|exact R|]. exists v. apply in_or_app. left. exact H.
Qed.
Lemma read_as_type v v' t : read_as v v' -> (has_type v' t <-> has_type v t).
Proof. intros [->|(p & p' & -> & ->)]; [reflexivity|]. split; intros H; inversion H; constructor. Qed.
Lemma dialogue_conforms c pe g schemas file acts e fs : dialogue c pe g schemas file acts e -> (forall s, In s schemas -> well_formed s /\ Forall storable_field (s_fields s)) ->
  Forall2 (fun fv fv' => fst fv' = fst fv /\ read_as (snd fv) (snd fv')) (e_fields e) fs ->
  forall id, exists s, In s schemas /\ s_type s = e_type e /\ conforms s {| e_id := id; e_type := e_type e; e_fields := fs |}.
Proof.
  intros D WF F id. destruct (dialogue_fields _ _ _ _ _ _ _ D) as (s & Is & Et & _ & V & R). destruct (WF s Is) as [W St]. exists s. split; [exact Is|]. split; [auto|].
  split; [exact Et|]. cbn [e_fields]. intros i f I.
  assert (K : forall v', In (i, v') fs -> exists v part, read_as v v' /\ enters c pe g (dsl_path c (s_type s) file) (fs_type f) (fs_allowed f) part v).
  { intros v' H. destruct (Forall2_in_r _ _ _ F _ H) as ([i0 v] & I0 & E & RA). cbn [fst snd] in *. subst i0. destruct (V i v I0) as (f' & part & I' & En).
    assert (f' = f) by (pose proof (assoc_of_in _ _ _ W I'); pose proof (assoc_of_in _ _ _ W I); congruence). subst f'. eauto. }
  split; [|split].
  - intros Q. destruct (R i f I Q) as (v & Hv). destruct (Forall2_in_l _ _ _ F _ Hv) as ([i0 v'] & I0 & E & _). cbn [fst] in E. subst i0. eauto.
  - intros v' FV. apply in_fields_typed in FV. destruct (K v' FV) as (v & part & RA & En). apply (read_as_type _ _ _ RA). eapply enters_type, En.
  - intros x FV. apply in_fields_typed in FV. destruct (K _ FV) as (v & part & RA & En). destruct RA as [<-|(p & p' & _ & Q)]; [|discriminate].
    destruct (enters_allowed _ _ _ _ _ _ _ _ En) as (vs & Al & Ix). rewrite Forall_forall in St. specialize (St (i, f) I vs Al). destruct St as [_ St]. rewrite Forall_forall in St.
    exists vs, x. auto.
Qed.
Lemma workspace_schemas c d fb : shuffles (c_fields c) -> (forall l, Permutation (c_schemas c l) l) -> workspace_build c d = Ok fb ->
  NoDup (map s_type (b_schemas (snd fb))) /\ forall s, In s (b_schemas (snd fb)) -> well_formed s /\ Forall storable_field (s_fields s).
Proof.
  intros SH PS H. unfold workspace_build in H. apply obind_ok in H as (fs & _ & H). apply obind_ok in H as (b & B & [= <-]). cbn [snd].
  apply (build_ok _ _ _ _ _ SH) in B as (ss & (F & _ & N & _) & E). rewrite E. split.
  - eapply Permutation_NoDup; [|exact N]. apply Permutation_map, Permutation_sym, PS.
  - intros s I. apply (Permutation_in s (PS ss)) in I. destruct (Forall2_in_r _ _ _ F s I) as (b' & _ & R). apply read_schema_storable in R. tauto.
Qed.
Lemma interactive_made c x pe d file acts d' e : shuffles (c_fields c) -> (forall l, Permutation (c_schemas c l) l) -> add_interactive c x pe d file acts = (d', Succeeded e) ->
  exists g fb core used rest, load_current_graph (cl_json x) c d = Some g /\ workspace_build c d = Ok fb /\ acts = used ++ rest /\ among core used /\ dialogue c pe g (b_schemas (snd fb)) file core e /\
    write_dsl c d (dsl_path c (e_type e) file) (generate_dsl (c_env c) default_options [e]) = (d', true).
Proof.
  intros SH PS H. unfold add_interactive in H. destruct (load_current_graph _ c d) as [g|] eqn:G; [|discriminate]. exists g.
  destruct (workspace_build c d) as [[fs b]|er|] eqn:WB; try discriminate. exists (fs, b). destruct (entity_prompt c pe g (b_schemas b) file acts) as [[p e'] r|r|] eqn:E; try discriminate.
  destruct (write_dsl _ _ _ _) as [d1 []] eqn:W; [|discriminate]. injection H as <- <-. destruct (workspace_schemas c d _ SH PS WB) as [N WF].
  apply entity_got in E as (-> & core & (used & -> & A) & D); [|exact SH|exact N|intros s I; apply WF, I]. exists core, used, r. auto 6.
Qed.

(** ** Growing by an entity *)
Lemma compose_again t i : ~ In "."%char t -> compose_entity_id t (snd (decompose_entity_id (compose_entity_id t i))) = compose_entity_id t i.
Proof.
  intros T. unfold compose_entity_id, new_id. destruct (to_snake_dot (lower t) i) as (p & q & A & B & C). rewrite C.
  assert (P : ~ In "."%char p).
  { apply dots_free. apply dots_free in T. apply (f_equal dots) in A. rewrite dots_snake, !dots_app, dots_lower, T in A. cbn [app] in A.
    destruct (dots p); [reflexivity|]. apply (f_equal (@length ascii)) in A. rewrite app_length in A. cbn in A. lia. }
  unfold decompose_entity_id. change (p ++ L "." ++ q) with (p ++ "."%char :: q). rewrite split_once_app by exact P. cbn [snd].
  destruct (to_snake_dot (lower t) q) as (p' & q' & A' & B' & C'). rewrite C'. rewrite A in A'. apply app_inv_tail in A'. subst p'.
  rewrite <- B, to_snake_idem, B in B'. apply app_inv_head in B'. subst q'. reflexivity.
Qed.
Lemma source_not_graph w r d text : source_of w d r text -> w ++ r <> w ++ [current_name] /\ w ++ r <> w ++ [backup_name].
Proof.
  intros (_ & r' & n & -> & a & _ & ->).
  split; intros E; apply app_inv_head in E; (destruct r' as [|y r']; [|destruct r'; discriminate]); injection E as E;
    apply (f_equal (@rev ascii)) in E; rewrite rev_app_distr in E; discriminate.
Qed.

(** ** The whole command *)
Lemma prompt_target c pe g schemas file acts p e r : entity_prompt c pe g schemas file acts = Got (p, e) r -> p = dsl_path c (e_type e) file.
Proof.
  unfold entity_prompt. intros H. apply pbind_got in H as (s & r1 & _ & H). apply pbind_got in H as (name & r2 & _ & H). apply pbind_got in H as (req & r3 & _ & H).
  apply pbind_got in H as (more & r4 & _ & H). apply pbind_got in H as (opt & r5 & _ & H). injection H as <- <- _. reflexivity.
Qed.
Lemma workspace_type c d fb s : shuffles (c_fields c) -> (forall l, Permutation (c_schemas c l) l) -> workspace_build c d = Ok fb -> In s (b_schemas (snd fb)) -> lower (s_type s) = s_type s.
Proof.
  intros SH PS H I. unfold workspace_build in H. apply obind_ok in H as (fs & _ & H). apply obind_ok in H as (b & B & [= <-]). cbn [snd] in I.
  apply (build_ok _ _ _ _ _ SH) in B as (ss & (F & _) & E). rewrite E in I. apply (Permutation_in s (PS ss)) in I.
  destruct (Forall2_in_r _ _ _ F s I) as (b' & _ & R). apply to_schema_ok in R as (name & _ & _ & _ & _ & T & _). rewrite T. apply fixpoint_lower, to_snake_idem.
Qed.
Lemma small_unused c d st t chosen : rebuild c d = Ok st -> length (b_entities (st_build st)) < 1000 -> unused (st_graph st) t (compute_unique_entity_id (st_graph st) t chosen).
Proof.
  intros B N. destruct (rebuild_files c d st B) as (fs & _ & _ & G). apply load_ok in G as (_ & D & G). rewrite G. apply P_Cli.C43_unused_below_1000_entities.
  rewrite load_spec by exact D. exact N.
Qed.
Lemma run_made c x pe cached d w file acts d' e : shuffles (c_fields c) -> (forall l, Permutation (c_schemas c l) l) -> workable c w d ->
  run_interactive c x pe cached d file acts = (d', Succeeded e) ->
  exists d1 g fb core used rest, prepare c x d cached = (d1, Succeeded tt) /\ workable c w d1 /\ (forall p, p <> w ++ [current_name] -> p <> w ++ [backup_name] -> node_at d1 p = node_at d p) /\ (tidy d -> tidy d1) /\
    load_current_graph (cl_json x) c d1 = Some g /\ workspace_build c d = Ok fb /\ acts = used ++ rest /\ among core used /\ dialogue c pe g (b_schemas (snd fb)) file core e /\
    write_dsl c d1 (dsl_path c (e_type e) file) (generate_dsl (c_env c) default_options [e]) = (d', true).
Proof.
  intros SH PS W H. unfold run_interactive in H. destruct (prepare c x d cached) as [d1 u] eqn:P. destruct (prepare_spec c x d w cached d1 u W P) as (W1 & R & TD).
  destruct u as [[]| |]; try discriminate. destruct (interactive_made c x pe d1 file acts d' e SH PS H) as (g & fb & core & used & rest & G & WB & AE & A & D & WD).
  exists d1, g, fb, core, used, rest. split; [reflexivity|]. split; [exact W1|]. split; [apply rest_kept, R|]. split; [exact TD|]. split; [exact G|].
  split; [rewrite (workspace_rest c w d d1 W W1 (eq_sym R)); exact WB|]. auto.
Qed.
Lemma dialogue_among_refs c pe g schemas file acts e i r : dialogue c pe g schemas file acts e -> In (i, VRef r) (e_fields e) -> exists s, names_known g s r.
Proof.
  intros D I. destruct (dialogue_fields _ _ _ _ _ _ _ D) as (s & _ & _ & _ & V & _). destruct (V i _ I) as (f & part & _ & E). inversion E; subst. eauto.
Qed.
Lemma dialogue_read c pe g schemas file acts e path : faithful c pe -> dialogue c pe g schemas file acts e -> Forall (fun fv => writable c (snd fv)) (e_fields e) ->
  exists fs, Forall2 (fun fv fv' => fst fv' = fst fv /\ read_back (c_env c) default_options path (snd fv) = Ok (snd fv')) (e_fields e) fs /\
             Forall2 (fun fv fv' => fst fv' = fst fv /\ read_as (snd fv) (snd fv')) (e_fields e) fs.
Proof.
  intros FA D W. destruct (dialogue_fields _ _ _ _ _ _ _ D) as (s & _ & _ & _ & V & _). revert V W. induction (e_fields e) as [|[i v] l IH]; intros V W; [exists []; split; constructor|].
  inversion W as [|? ? W1 W2]; subst. destruct (V i v (or_introl eq_refl)) as (f & part & _ & E).
  destruct (entered_read c pe g _ default_options path _ _ _ _ FA E W1) as (v' & R & A).
  destruct IH as (fs & F1 & F2); [intros j u J; exact (V j u (or_intror J))|exact W2|]. exists ((i, v') :: fs). split; constructor; auto.
Qed.
Lemma prompt_path_field c ds name s : Forall plain_component ds -> plain_component name -> is_absolute s = false ->
  prompt_path c (c_ws c ++ ds ++ [name]) s = path_field c (c_ws c ++ ds ++ [name]) s.
Proof.
  intros F N A. destruct (parent_parts (c_ws c ++ ds) name (proj1 (plain_stays name N))) as (q & P & Q).
  destruct (diff_split (parts (path_of s)) ds) as (p & a & b & E1 & E2 & E3).
  { eapply Forall_impl; [|exact F]. intros x H. apply plain_stays. exact H. }
  unfold prompt_path, path_field. rewrite app_assoc, P, Q.
  assert (J : join_path (c_ws c) s = c_ws c ++ path_of s).
  { apply (named_relative c s). unfold is_absolute in A. destruct s as [|ch s]; [reflexivity|]. exact A. }
  rewrite J, !parts_app, diff_prefix, (parts_plain ds F), E3. reflexivity.
Qed.
Lemma among_interrupts core used : among core used -> In Interrupts used -> In Interrupts core.
Proof. intros H. induction H as [|a core acts H IH|a core acts N M H IH]; intros I; [destruct I| |]; destruct I as [->|I]; [left; reflexivity|right; auto|congruence|auto]. Qed.
Lemma cut_before {A} (x : A) used rest pre post : ~ In x used -> pre ++ x :: post = used ++ rest -> exists rest', pre = used ++ rest'.
Proof.
  intros N E. revert pre E. induction used as [|u used IH]; intros pre E; [exists pre; reflexivity|].
  destruct pre as [|p pre]; cbn [app] in E; injection E as Eu E; [subst; destruct N; left; reflexivity|]. destruct (IH (fun I => N (or_intror I)) pre E) as (r & ->).
  exists r. cbn [app]. congruence.
Qed.
Lemma enters_uninterrupted c pe g target t al acts v : enters c pe g target t al acts v -> ~ In Interrupts acts.
Proof.
  revert t al acts v. fix IH 5. intros t al acts v H.
  destruct H as [al s b H|al s H|al s z H|al s f H|al s a n k H K|al s r H|al day s1 secs s2 h H K R|al s|vs n x H|al n t parts vs H F]; cbn [In]; try (intuition discriminate).
  intros [X|X]; [discriminate|]. apply in_app_iff in X as [X|[X|[]]]; [|discriminate].
  induction F as [|p v parts vs E F IHF]; [exact X|]. cbn [concat] in X. apply in_app_iff in X as [X|X]; [exact (IH _ _ _ _ E X)|exact (IHF X)].
Qed.
Lemma chat_uninterrupted c pe g target l acts fvs : chat c pe g target l acts fvs -> ~ In Interrupts acts.
Proof.
  intros H. induction H as [|i f l part v acts fvs E C IH|i f l acts fvs R N C IH]; [intros []| |].
  - rewrite in_app_iff. intros [X|X]; [exact (enters_uninterrupted _ _ _ _ _ _ _ _ E X)|exact (IH X)].
  - intros [X|X]; [discriminate|exact (IH X)].
Qed.
Lemma dialogue_uninterrupted c pe g schemas file acts e : dialogue c pe g schemas file acts e -> ~ In Interrupts acts.
Proof.
  intros (l & n & s & name & lr & ar & fr & answer & lo & ao & fo & _ & _ & _ & Cr & M & -> & _). cbv zeta in *. intros [X|[X|X]]; try discriminate.
  apply in_app_iff in X as [X|[X|X]]; [exact (chat_uninterrupted _ _ _ _ _ _ _ Cr X)|discriminate|].
  destruct M as [(_ & _ & C)|(_ & -> & _)]; [exact (chat_uninterrupted _ _ _ _ _ _ _ C X)|exact X].
Qed.
